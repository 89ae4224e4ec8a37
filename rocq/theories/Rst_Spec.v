(** Sorting without repetitions, and weights.  Independent of the model. *)
From Coq Require Import List Arith ZArith QArith Permutation Sorting.
Import ListNotations.
Local Open Scope Q_scope.

(** [p] arranges [x] in increasing order *)
Definition sorts (p : list nat) (x : list Q) : Prop :=
  Permutation p (seq 0 (length x)) /\
  forall i j, (i < j < length p)%nat -> nth (nth i p 0%nat) x 0 <= nth (nth j p 0%nat) x 0.
(** strictly increasing *)
Definition increasing (l : list Q) : Prop := forall i j, (i < j < length l)%nat -> nth i l 0 < nth j l 0.
(** [v] is one of the values *)
Definition occurs (v : Q) (l : list Q) : Prop := exists y, In y l /\ y == v.
(** how often [v] is among the values *)
Fixpoint times (v : Q) (l : list Q) : nat :=
  match l with [] => 0%nat | y :: t => if Qeq_bool y v then S (times v t) else times v t end.
(** the weight given to [v]: the sum over its occurrences *)
Fixpoint weight (v : Q) (x w : list Q) : Q :=
  match x, w with
  | y :: t, a :: u => if Qeq_bool y v then a + weight v t u else weight v t u
  | _, _ => 0
  end.
Fixpoint total (l : list Q) : Q := match l with [] => 0 | a :: t => a + total t end.

(** [r] holds the entries at the positions not listed, in their order *)
Definition others (a : list Z) (ind : list nat) (r : list Z) : Prop :=
  exists q, r = map (fun i => nth i a 0%Z) q /\ StronglySorted lt q /\
    forall i, In i q <-> (i < length a)%nat /\ ~ In i ind.
