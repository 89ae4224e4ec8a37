(** Projection on bounds and the first-order condition. *)
From Coq Require Import Reals.
From Verif Require Import RVec RBool.
Open Scope R_scope.

(** Projection of a number on the interval [l,u]. *)
Definition proj (l u : xR) (t : R) : R :=
  let t1 := match u with Fin b => Rmin t b | _ => t end in
  match l with Fin a => Rmax t1 a | _ => t1 end.

Definition in_bounds (n : nat) (bl bu : nat -> xR) (x : vec) : Prop :=
  forall i, (i < n)%nat -> xle_r (bl i) (x i) /\ rle_x (x i) (bu i).

(** First-order condition for minimisation over the bounds: no component can
    be moved inside its bounds against its derivative. *)
Definition first_order (n : nat) (bl bu : nat -> xR) (x g : vec) : Prop :=
  forall i, (i < n)%nat ->
    forall t, xle_r (bl i) t -> rle_x t (bu i) -> 0 <= g i * (t - x i).
