(** Model of the helpers of /repo/sqpdfo/runtime.py that measure arrays: [norm_],
    [isvector_or_scalar_], [isempty_], [length_], [size_], [zeros_]/[ones_], and of the
    parts of numpy.linalg.norm they reach.  Entries are exact reals (no NaN, no
    infinities); the singular values are an argument. *)
From Coq Require Import Reals Arith List Bool.
From Verif Require Import RVec.
Import ListNotations.
Open Scope R_scope.

(** a numpy array: its shape and its entries in row-major order (only the first
    [size] of them matter) *)
Record narr := mknarr { nshape : list nat; ndat : vec }.
Definition nsize (a : narr) : nat := fold_right Nat.mul 1%nat (nshape a).

(** runtime.py 106-115, for arrays *)
Definition nempty (a : narr) : bool := (nsize a =? 0)%nat.

(** runtime.py 19-31: [a.size and a.ndim-a.shape.count(1) <= 1] *)
Definition count1 (s : list nat) : nat := List.length (filter (Nat.eqb 1) s).
Definition isvector (a : narr) : bool :=
  negb (nsize a =? 0)%nat && (List.length (nshape a) - count1 (nshape a) <=? 1)%nat.

Inductive norder := OTwo | OInf | OFro.

(** the largest of [f 0], ..., [f (n-1)] (numbers that are not negative) *)
Fixpoint rmax (n : nat) (f : nat -> R) : R :=
  match n with O => 0 | S k => Rmax (rmax k f) (f k) end.

Section Norm.
(** the largest singular value of a matrix with the given numbers of rows and columns *)
Variable svmax : nat -> nat -> mat -> R.

(** numpy.linalg.norm(A, order, None): vectors, matrices; an exception for other
    dimensions and for the Frobenius norm of a vector *)
Definition np_norm (a : narr) (o : norder) : option R :=
  match nshape a, o with
  | [n], OTwo => Some (norm n (ndat a))
  | [n], OInf => Some (rmax n (fun i => Rabs (ndat a i)))
  | [r; c], OTwo => Some (svmax r c (fun i j => ndat a (i * c + j)%nat))
  | [r; c], OInf => Some (rmax r (fun i => rsum c (fun j => Rabs (ndat a (i * c + j)%nat))))
  | [r; c], OFro => Some (norm (r * c) (ndat a))
  | _, _ => None
  end.

(** runtime.py 313-338 with [axis = None] (no call in the library gives an axis) *)
Definition norm_ (a : narr) (o : norder) : option R :=
  if nempty a then Some 0
  else
    let b := if isvector a then
               match o with
               | OTwo => mknarr [1%nat; nsize a] (ndat a)
               | OInf => mknarr [nsize a; 1%nat] (ndat a)
               | OFro => a
               end
             else a in
    np_norm b o.
End Norm.

(** runtime.py 118-122: [max(np.asarray(a).shape)]; an exception for an empty tuple *)
Definition length_ (a : narr) : option nat :=
  match nshape a with [] => None | s => Some (fold_right Nat.max 0%nat s) end.

(** runtime.py 197-212 with [b >= 1]; 1 where there is no such dimension *)
Definition size_ (a : narr) (b : nat) : nat := nth (b - 1) (nshape a) 1%nat.

(** runtime.py 224-249, zeros_ and ones_ with one argument.  A Python integer has no
    attribute [size]; an array or numpy integer with one entry k is doubled; any other
    array is taken as the shape.  Whether numpy accepts arrays of one entry as dimensions
    depends on its version and is an argument; [None] is an exception. *)
Inductive zarg := ZInt (k : nat) | ZNum (k : nat) | ZArr (l : list nat).
Definition zeros1 (one_entry_ok : bool) (a : zarg) : option (list nat) :=
  match a with
  | ZInt _ => None
  | ZNum k => Some [k; k]
  | ZArr [k] => if one_entry_ok then Some [k; k] else None
  | ZArr l => Some l
  end.
(** [zeros_(size_(a))]: size_ returns the shape as an array (runtime.py 210) *)
Definition zeros_like (one_entry_ok : bool) (a : narr) : option (list nat) := zeros1 one_entry_ok (ZArr (nshape a)).
