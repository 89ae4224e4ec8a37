(** Model of [rsort] and [removeByInd] in /repo/sqpdfo/minq_util.py.  Finite numbers only.
    Both use [xrange], which Python 3 does not have; which Python runs them is an argument. *)
From Coq Require Import List Arith ZArith QArith Bool.
Import ListNotations.
Local Open Scope Q_scope.

(** minq_util.py 172-174: [x[ind]], [w[ind]] for the answer [ind] of argsort *)
Definition take (l : list Q) (ind : list nat) : list Q := map (fun i => nth i l 0) ind.

(** minq_util.py 179-181: the positions whose right neighbour differs; the last one is
    compared with infinity *)
Definition last_of_run (x : list Q) (i : nat) : bool :=
  match nth_error x (S i) with Some y => negb (Qeq_bool y (nth i x 0)) | None => true end.
Definition ends (x : list Q) : list nat := filter (last_of_run x) (seq 0 (length x)).

(** [sum(w[a:b])] *)
Definition sum_slice (w : list Q) (a b : nat) : Q := fold_right Qplus 0 (firstn (b - a) (skipn a w)).

(** minq_util.py 188-189: the loop over [xrange( nn-1 )] *)
Fixpoint later_weights (w : list Q) (a : nat) (t : list nat) : list Q :=
  match t with [] => [] | b :: u => sum_slice w a b :: later_weights w b u end.

(** minq_util.py 192: numpy.cumsum *)
Fixpoint cumsum (s : Q) (l : list Q) : list Q :=
  match l with [] => [] | a :: t => (s + a) :: cumsum (s + a) t end.

(** minq_util.py 169-198: values, weights, distribution, number of values given.  [None]
    is an exception: an empty array in line 187, [xrange] in line 188.
    There is one weight per value; a sum of weights that is zero gives NaN in line 195, here 0. *)
Definition rsort (py3 : bool) (sorting : list nat) (x w : list Q) : option (list Q * list Q * list Q * nat) :=
  let x1 := take x sorting in
  let w1 := take w sorting in
  let ind := ends x1 in
  match ind with
  | [] => None
  | i0 :: t =>
    let ww0 := sum_slice w1 0 (i0 + 1) in
    if py3 then None
    else
      let ww := ww0 :: later_weights w1 i0 t in
      let c := cumsum 0 ww in
      let total := nth (length ind - 1) c 0 in
      Some (take x1 ind, ww, map (fun p => (fst p - (1 # 2) * snd p) / total) (combine c ww), length x1)
  end.

(** minq_util.py 133-141: the entries at the positions not listed, in order; the array of
    results has [len(a) - len(ind)] places, an exception beyond them; places not filled are 0.
    A negative length raises in numpy.zeros. *)
Definition remove_by_ind (py3 : bool) (a : list Z) (ind : list nat) : option (list Z) :=
  if (length a <? length ind)%nat then None
  else if py3 then None
  else
    let n := (length a - length ind)%nat in
    let kept := map snd (filter (fun p => negb (existsb (Nat.eqb (fst p)) ind)) (combine (seq 0 (length a)) a)) in
    if (length kept <=? n)%nat then Some (kept ++ repeat 0%Z (n - length kept)) else None.
