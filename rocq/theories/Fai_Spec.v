(** C89: a sequence of unsuccessful passes. *)
From Coq Require Import List QArith.
From Verif Require Import Book_Model Main_Model.
Local Open Scope Q_scope.

(** reached from [s] by passes without improvement of the set, in which a decrease was
    predicted and the trial point did not become the incumbent; [k] of the trial points
    were not included in the set, [j] were included while the radius was above 1e-5, and
    [i] while it was not *)
Inductive failing {P : Type} (E : env P) (s : st P) : nat -> nat -> nat -> st P -> Prop :=
| fa_start : failing E s 0 0 0 s
| fa_out k j i t a t' : failing E s k j i t -> pass E t a = Continue t' ->
    niter (sN t') = (niter (sN t) + 1)%nat -> 0 < pred (sG t') -> ib (sI t') <> mlast (sA t') ->
    ~ In (mlast (sA t')) (s_ind (iS (sI t'))) -> failing E s (S k) j i t'
| fa_large k j i t a t' : failing E s k j i t -> pass E t a = Continue t' ->
    niter (sN t') = (niter (sN t) + 1)%nat -> 0 < pred (sG t') -> ib (sI t') <> mlast (sA t') ->
    In (mlast (sA t')) (s_ind (iS (sI t'))) -> 1 # 100000 < delta (sG t) -> failing E s k (S j) i t'
| fa_small k j i t a t' : failing E s k j i t -> pass E t a = Continue t' ->
    niter (sN t') = (niter (sN t) + 1)%nat -> 0 < pred (sG t') -> ib (sI t') <> mlast (sA t') ->
    In (mlast (sA t')) (s_ind (iS (sI t'))) -> delta (sG t) <= 1 # 100000 -> failing E s k j (S i) t'.
