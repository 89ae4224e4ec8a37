(** Model of what happens to the array the caller passes as start point.

    The driver uses the array itself if it has one column, its transpose (a view of the
    same entries) if it has one row, and a new array if the start point is a list, a
    tuple or a number.  The loop over the components in sqpdfo_prelim_ then assigns to
    the entries of that array.  Every refusal before that loop leaves it alone and is
    not represented; scaling is not (scaleX = 0, /repo/sqpdfo/sqpdfo.py:246). *)
From Coq Require Import List ZArith QArith Bool.
Import ListNotations.
From Verif Require Import QB Book_Model Main_Model Pre_Model.
Local Open Scope Q_scope.

(** how the caller holds the start point: an n x 1 array, a 1 x n array with n > 1, or
    a list, tuple or number (/repo/sqpdfo/sqpdfo.py:110-111, 186-187) *)
Inductive holder := Column | Row | Copied.

Definition aliased (h : holder) : bool := match h with Column => true | Row => true | Copied => false end.

(** a component has crossed bounds, /repo/sqpdfo/sqpdfo_prelim.py:180 *)
Definition over (l u : bnd) : bool := match l, u with Some a, Some b => qltb b a | _, _ => false end.

(** the entries of the array when the loop is left, and whether all components were
    visited.  The loop assigns component by component, so that a return with flag 2 at
    component j leaves the assignments to the components before j.  [int]: the array
    holds integers.
    (/repo/sqpdfo/sqpdfo_prelim.py:176-211) *)
Fixpoint written (int : bool) (lb ub : list bnd) (x : list Q) (d : Q) {struct x} : list Q * bool :=
  match x, lb, ub with
  | xj :: xr, l :: lr, u :: ur =>
      if over l u then (x, false) else
      match l, u with
      | Some a, Some b =>
          let w := b - a in
          if qltb w (d + d) then
            if qeqb w 0 then
              let '(r, ok) := written int lr ur xr d in (xj :: r, ok)
            else
              let '(r, ok) := written int lr ur xr ((1 # 2) * w) in (move int l u xj ((1 # 2) * w) :: r, ok)
          else
            let '(r, ok) := written int lr ur xr d in (move int l u xj d :: r, ok)
      | _, _ =>
          let '(r, ok) := written int lr ur xr d in (move int l u xj d :: r, ok)
      end
  | _, _, _ => (x, true)
  end.

(** what the caller finds in the start point after the call *)
Definition left_behind (h : holder) (int : bool) (lb ub : list bnd) (x : list Q) (d : Q) : list Q :=
  if aliased h then fst (written int lb ub x d) else x.
