(** Model of bcdfo_projgrad.py.  Exact reals, bounds possibly infinite, no NaN. *)
From Coq Require Import Reals Arith.
From Verif Require Import RVec RBool.
Open Scope R_scope.

(** [min_(abs(e - x), r)] for a possibly infinite bound [e] (bcdfo_projgrad.py 32, 34). *)
Definition min_dist (e : xR) (x r : R) : R :=
  match e with
  | Fin a => Rmin (Rabs (a - x)) r
  | _ => r
  end.

(** bcdfo_projgrad.py 30-34: one component. *)
Definition projgrad1 (x g : R) (bl bu : xR) : R :=
  if Rltb g 0 then - min_dist bu x (- g) else min_dist bl x g.

(** bcdfo_projgrad.py 35-36: the running maximum over the first [k] components. *)
Fixpoint projgrad_norm (k : nat) (gn : vec) : R :=
  match k with
  | O => 0
  | S k' => Rmax (projgrad_norm k' gn) (Rabs (gn k'))
  end.

(** bcdfo_projgrad.py 25-37: [n] is the dimension asked for, [nb] the length of
    the bound vector. *)
Definition projgrad (n nb : nat) (x g : vec) (bl bu : nat -> xR) : R * vec :=
  let n' := Nat.min n nb in
  let gn := fun i => projgrad1 (x i) (g i) (bl i) (bu i) in
  (projgrad_norm n' gn, gn).
