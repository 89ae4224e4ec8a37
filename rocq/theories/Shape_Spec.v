(** Which shapes of the start point and of the bounds are accepted. *)
From Coq Require Import List Arith ZArith QArith Bool.
Import ListNotations.
From Verif Require Import Pre_Model Shape_Model.
Local Open Scope nat_scope.

(** a start point with [n] components: list, number (n = 1), one-dimensional array, row
    or column *)
Inductive start_point : given -> nat -> Prop :=
| sp_list n : start_point (PList n) n
| sp_num : start_point PNumber 1
| sp_flat n : start_point (PArray (Arr1 n)) n
| sp_row n : start_point (PArray (Arr2 1 n)) n
| sp_col n : start_point (PArray (Arr2 n 1)) n.

(** a bound given as a list or as a column with [m] entries *)
Inductive column : given -> nat -> Prop :=
| co_list m : column (PList m) m
| co_arr m : column (PArray (Arr2 m 1)) m.

(** the start point is a list or a row, so that default bounds are a column *)
Inductive lying : given -> Prop :=
| ly_list n : lying (PList n)
| ly_row n : lying (PArray (Arr2 1 n)).

(** an array without entries *)
Inductive void : arr -> Prop :=
| vo_flat : void (Arr1 0)
| vo_rows q : void (Arr2 0 q)
| vo_cols r : void (Arr2 r 0).

(** a bound argument that serves for [n] variables when [k] slacks are appended *)
Definition serves (x0 : given) (n k : nat) (b : option given) : Prop :=
  match b with
  | None => lying x0
  | Some g => (exists m, column g m /\ (n <= m + k \/ (m = 0 /\ k = 0))) \/
              (k = 0 /\ exists a, g = PArray a /\ void a)
  end.
