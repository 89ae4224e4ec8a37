(** What is expected of the test problems. *)
From Coq Require Import Reals List Arith.
From Verif Require Import RVec RBool Tst_Model.
Import ListNotations.
Open Scope R_scope.

(** order of a number and a possibly infinite bound; of two bounds *)
Definition at_least (r : R) (l : xR) : Prop := match l with Fin a => a <= r | NInf => True | PInf => False end.
Definition at_most (r : R) (u : xR) : Prop := match u with Fin a => r <= a | PInf => True | NInf => False end.
Definition bounds_ordered (l u : xR) : Prop :=
  match l, u with Fin a, Fin b => a <= b | NInf, NInf => False | NInf, _ => True | _, PInf => True | _, _ => False end.

(** the point is within the bounds *)
Definition in_box (lx ux : list xR) (x : list R) : Prop := Forall2 at_least x lx /\ Forall2 at_most x ux.

(** a bound of magnitude smaller than 1e20 *)
Definition real_bound (e : xR) : Prop := match e with Fin a => - 10 ^ 20 < a < 10 ^ 20 | _ => False end.

(** [k] counts the entries of two lists one of which is a bound *)
Inductive bounded_count : list xR -> list xR -> nat -> Prop :=
| bc_nil : bounded_count [] [] 0
| bc_yes l u ls us k : real_bound l \/ real_bound u -> bounded_count ls us k -> bounded_count (l :: ls) (u :: us) (S k)
| bc_no l u ls us k : ~ real_bound l -> ~ real_bound u -> bounded_count ls us k -> bounded_count (l :: ls) (u :: us) k.

(** the point of a list *)
Definition pt (l : list R) : vec := fun i => nth i l 0.

(** the point is admissible: in the bounds, the first [me] constraints vanish, the others are
    not negative *)
Definition admissible (p : nat) (x : list R) : Prop :=
  exists d c, problem_data p = Some d /\ length x = d_n d /\ in_box (d_lx d) (d_ux d) x /\ c_problem p (pt x) = Some c /\
  (forall q, In q (firstn (d_me d) c) -> q = 0) /\ (forall q, In q (skipn (d_me d) c) -> 0 <= q).

(** the solutions: from the tests (problems 1-4) and from the collection of Hock and Schittkowski *)
Inductive solution : nat -> list R -> R -> Prop :=
| sol1 : solution 1 [1.95; 0.2625] (-3.9096875)
| sol2 : solution 2 [1 / 3; 2 / 3] (2 / 3)
| sol3 : solution 3 [-0.5; 0; 0.5] 0.5
| sol4 : solution 4 [-0.5; 0; 0.5; 1] 1.5
| sol10 : solution 10 [14.095; 5 - sqrt 17.280975] (4.095 ^ 3 - (15 + sqrt 17.280975) ^ 3)
| sol11 : solution 11 [2; 0] (-99.96)
| sol12 : solution 12 [4 / 3; 7 / 9; 4 / 9] (1 / 9)
| sol13 : solution 13 [3 / 11; 23 / 11; 0; 6 / 11] (- (103 / 22))
| sol14 : solution 14 [0; 3; 0; 4] (-15)
| sol15 : solution 15 [1; 1] 0
| sol16 : solution 16 [1; 1] 0.

(** [s] is admissible with value [v] and no other admissible point has a value as small *)
Definition optimal (p : nat) (s : list R) (v : R) : Prop :=
  admissible p s /\ f_problem p (pt s) = Some v /\
  forall x, admissible p x -> exists y, f_problem p (pt x) = Some y /\ v <= y /\ (y = v -> x = s).
