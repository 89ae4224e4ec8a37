(** What the constraint values of problem 1000 should mean. *)
From Coq Require Import List Arith ZArith QArith.
Import ListNotations.
From Verif Require Import Cut_Model.
Local Open Scope Q_scope.

(** a constraint of the collection holds; a bound of magnitude 1e7 or more is no bound *)
Definition holds (r : row) : Prop :=
  if Qeq_bool (lo r) (up r) then val r == lo r
  else (- (10000000 # 1) < lo r -> lo r <= val r) /\ (up r < 10000000 # 1 -> val r <= up r).

(** a constraint that holds in the usual sense *)
Definition within (r : row) : Prop := lo r <= val r <= up r.

(** number of equalities; of inequalities without any bound *)
Fixpoint equalities (rows : list row) : nat :=
  match rows with [] => O | r :: t => ((if Qeq_bool (lo r) (up r) then 1 else 0) + equalities t)%nat end.
Fixpoint unbounded (rows : list row) : nat :=
  match rows with
  | [] => O
  | r :: t => ((if Qeq_bool (lo r) (up r) then 0
                else if Qle_bool (lo r) (- (10000000 # 1)) then if Qle_bool (10000000 # 1) (up r) then 1 else 0 else 0) + unbounded t)%nat
  end.

(** the first [me] values vanish, the others are not negative *)
Definition accepted (me : nat) (v : list Q) : Prop :=
  (forall q, In q (firstn me v) -> q == 0) /\ (forall q, In q (skipn me v) -> 0 <= q).

(** distances of a value to its bounds, lower bound first *)
Definition distances (r : row) : list Q :=
  (if Qle_bool (lo r) (- (10000000 # 1)) then [] else [val r - lo r]) ++
  (if Qle_bool (10000000 # 1) (up r) then [] else [up r - val r]).
