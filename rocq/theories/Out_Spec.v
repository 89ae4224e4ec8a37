(** What the output of a call is supposed to contain. *)
From Coq Require Import List Arith ZArith QArith Bool.
Import ListNotations.
From Verif Require Import Main_Model Opt_Model Pre_Model Out_Model.
Local Open Scope Q_scope.

(** 1, 2, ..., N, followed by N again for the limits and for a small radius *)
Definition counted (fl N : nat) (l : list nat) : Prop :=
  (In fl [5; 6; 15]%nat -> l = seq 1 N ++ [N]) /\ (~ In fl [5; 6; 15]%nat -> l = seq 1 N).

(** never decreasing *)
Fixpoint rising (l : list nat) : Prop :=
  match l with
  | a :: (b :: _) as t => (a <= b)%nat /\ rising t
  | _ => True
  end.

(** started, lines, closed *)
Definition complete (ls : list line) : list item := Head :: map Line ls ++ [Tail].
Definition unfinished (ls : list line) : list item := Head :: map Line ls.

(** verbosity 1, 2 or 3 (or a number in between) *)
Definition medium (o : opts) : Prop :=
  exists v q, verbose o = Some v /\ val v = Fin q /\ 1 <= q < 4.
Definition high (o : opts) : Prop :=
  exists v, verbose o = Some v /\ (val v = PInf \/ exists q, val v = Fin q /\ 4 <= q).

(** neither a lower nor an upper bound within [t], None: infinite *)
Definition unbounded (t : xQ) (l u : bnd) : Prop :=
  match t with
  | PInf => l = None /\ u = None
  | Fin t => (forall q, l = Some q -> q <= - t) /\ (forall q, u = Some q -> t <= q)
  | _ => True
  end.

Definition is_finite (x : option num) : Prop := exists v q, x = Some v /\ val v = Fin q.
