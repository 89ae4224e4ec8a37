(** Model of the shapes in the first optimality test of the initial phase
    (/repo/sqpdfo/sqpdfo_prelim.py:563-588, /repo/sqpdfo/sqpdfo_optimality.py:27-43):
    the number of bounds and constraints decides whether multipliers are computed, and
    the test adds the multipliers of the variables near a bound to the gradient.  Shapes
    of arrays are lists of numbers; indexing, addition and assignment follow the
    broadcasting rules documented for numpy.  Values, and the computation of the
    multipliers, are not represented here (see Mult_Model.v). *)
From Coq Require Import List Arith ZArith QArith Bool.
Import ListNotations.
From Verif Require Import QB Book_Model Main_Model Opt_Model Drv_Model Pre_Model Pre_Spec Sol_Model Out_Model.

Definition shape := list nat.

(** broadcasting, on reversed shapes: equal lengths, or one of them is 1 *)
Fixpoint meet (a b : shape) : option shape :=
  match a, b with
  | [], _ => Some b
  | _, [] => Some a
  | x :: a', y :: b' =>
      match meet a' b' with
      | None => None
      | Some c => if (x =? y)%nat then Some (x :: c)
                  else if (x =? 1)%nat then Some (y :: c)
                  else if (y =? 1)%nat then Some (x :: c)
                  else None
      end
  end.

(** shape of a + b, None: ValueError *)
Definition sum_shape (a b : shape) : option shape :=
  match meet (rev a) (rev b) with Some c => Some (rev c) | None => None end.

(** a value of shape [v] can be stored in a place of shape [t], on reversed shapes *)
Fixpoint stores (v t : shape) : bool :=
  match v, t with
  | [], _ => true
  | x :: v', [] => ((x =? 1)%nat && stores v' [])%bool
  | x :: v', y :: t' => (((x =? y)%nat || (x =? 1)%nat) && stores v' t')%bool
  end.
Definition fits (v t : shape) : bool := stores (rev v) (rev t).

(** the result of find_: the list [] or a column of indices
    (/repo/sqpdfo/runtime.py:48-55) *)
Definition index_shape (I : list nat) : shape :=
  match I with [] => [0%nat] | _ => [length I; 1%nat] end.

(** shape of a[I], None: IndexError *)
Definition taken (a : shape) (I : list nat) : option shape :=
  match a with
  | [] => None
  | m :: rest => if forallb (fun j => (j <? m)%nat) I then Some (index_shape I ++ rest) else None
  end.

(** info.glag[I] = info.glag[I] + lm[I] ends without an exception
    (/repo/sqpdfo/sqpdfo_optimality.py:42-43) *)
Definition bound_part (glag lm : shape) (I : list nat) : bool :=
  match taken glag I, taken lm I with
  | Some g, Some l => match sum_shape g l with Some s => fits s g | None => false end
  | _, _ => false
  end.

(** a variable near one of its bounds; None: the bound is infinite
    (/repo/sqpdfo/sqpdfo_optimality.py:29-30) *)
Definition c1em5 : Q := 1 # 100000.
Definition near (b : bnd) (x : Q) : bool :=
  match b with Some q => qltb (qabs (q - x)) c1em5 | None => false end.
Definition active (n : nat) (lb ub : list bnd) (x : list Q) : list nat :=
  filter (fun j => (near (nth j lb None) (nth j x 0%Q) || near (nth j ub None) (nth j x 0%Q))%bool) (seq 0 n).

(** shape of the first multipliers: an empty array if nothing is counted, otherwise a
    column for the variables and the constraints, the entries of slacks being cut out
    (/repo/sqpdfo/sqpdfo_prelim.py:108, 565-567,
    /repo/sqpdfo/sqpdfo_compute_multiplier.py:100-101, 164-172) *)
Definition first_lm (counted n me : nat) : shape :=
  if (0 <? counted + me)%nat then [(n + me)%nat; 1%nat] else [0%nat].

(** options.inf after the validation *)
Definition inf_of (o : opts) : xQ := match inff_ o with Some v => val v | None => PInf end.

(** the bound part of the first optimality test raises an exception
    (/repo/sqpdfo/sqpdfo_prelim.py:161-163, 565-588) *)
Definition first_test_raises (o : opts) (n : nat) (lb ub : list bnd) (x : list Q) (me : nat) : bool :=
  negb (bound_part [n; 1%nat] (first_lm (count_bounds (inf_of o) n lb ub) n me) (active n lb ub x)).

(** the unmodelled rest of the initial phase raises at least where this test does *)
Definition covers (w : world) (i : input) : Prop :=
  forall fuel k o cl X fX ceX d, slacks_of i = Some k -> validate (i_opts i) = VDone o ->
    prelim (w_user w) (w_nrm w) (w_geom w) (w_fit w) fuel (i_int i) (full_lb i k) (full_ub i k) (i_x0 i)
      = Some (PReady cl X fX ceX d) ->
    first_test_raises o (length (i_x0 i)) (full_lb i k) (full_ub i k) (nth 0 X []) (width ceX) = true ->
    w_late w = true.
