(** C58: property theorems about the shapes of the start point and of the bounds.

    [shapes_of x0 lb ub k] is what happens to the arguments [x0], [lb], [ub] when [k]
    slacks are appended: [Usable n _ _] means that the main loop is reached with [n]
    variables. *)
From Coq Require Import List Arith ZArith QArith Bool.
Import ListNotations.
From Verif Require Import Pre_Model Shape_Model Shape_Spec Shape_Proofs.
Local Open Scope nat_scope.

(** exactly which arguments are usable (both bounds two-dimensional): the start point is
    a list, a one-dimensional array, a row or a column; each bound is a list or a column
    that has, with the slacks appended, at least n entries (or it has no entries and
    there are no slacks), or it is omitted and the start point is a list or a row *)
Theorem C58_usable : forall x0 lb ub k n,
  (exists L U, shapes_of x0 lb ub k = Usable n L U) <->
  start_point x0 n /\ 0 < n /\ serves x0 n k lb /\ serves x0 n k ub.
Proof. exact usable_exactly. Qed.
Print Assumptions C58_usable.

Example C58_usable_ex :
  shapes_of (PList 3) None None 0 = Usable 3 (Arr2 3 1) (Arr2 3 1) /\
  shapes_of (PArray (Arr1 3)) (Some (PList 3)) (Some (PList 3)) 2 = Usable 3 (Arr2 5 1) (Arr2 5 1) /\
  shapes_of (PArray (Arr2 3 1)) (Some (PArray (Arr2 3 1))) (Some (PArray (Arr2 0 0))) 0 = Usable 3 (Arr2 3 1) (Arr2 3 1).
Proof. repeat split. Qed.

(** not every start point with n components is usable without bounds: a one-dimensional
    array or a number ends in an exception after the initial evaluations, or before them
    if there are slacks *)
Theorem C58_flat_start_refuted : forall n, 0 < n ->
  shapes_of (PArray (Arr1 n)) None None 0 = LateError /\
  (forall k, 0 < k -> shapes_of (PArray (Arr1 n)) None None k = EarlyError) /\
  shapes_of PNumber None None 0 = LateError.
Proof. exact (fun n N => conj (flat_start n N) (conj (flat_slacks n) number_start)). Qed.
Print Assumptions C58_flat_start_refuted.

(** a column with two or more components ends in an exception before any evaluation *)
Theorem C58_column_start_refuted : forall n k, 2 <= n -> shapes_of (PArray (Arr2 n 1)) None None k = EarlyError.
Proof. exact column_start. Qed.
Print Assumptions C58_column_start_refuted.

(** one-dimensional bound arrays of the right length end in an exception after the
    initial evaluations, whatever the start point, and before them if there are slacks *)
Theorem C58_flat_bounds_refuted : forall x0 n, start_point x0 n -> 0 < n ->
  shapes_of x0 (Some (PArray (Arr1 n))) (Some (PArray (Arr1 n))) 0 = LateError /\
  forall k b, 0 < k -> shapes_of x0 (Some (PArray (Arr1 n))) b k = EarlyError /\
                      shapes_of x0 b (Some (PArray (Arr1 n))) k = EarlyError.
Proof. exact flat_bounds_both. Qed.
Print Assumptions C58_flat_bounds_refuted.

(** bounds with n entries: variables and slacks get the bounds meant for them *)
Theorem C58_slack_bounds : forall b n k fill, length b = n ->
  variable_bounds b n k fill = b /\ slack_bounds b n k fill = repeat fill k.
Proof. exact bounds_exact. Qed.
Print Assumptions C58_slack_bounds.

Example C58_slack_bounds_ex :
  slack_bounds [Some 1%Q; None] 2 3 (Some 0%Q) = [Some 0%Q; Some 0%Q; Some 0%Q].
Proof. reflexivity. Qed.

(** bounds with n + k entries, as documented: the slacks get the entries of the user *)
Theorem C58_long_bounds : forall b s n k fill, length b = n -> length s = k ->
  variable_bounds (b ++ s) n k fill = b /\ slack_bounds (b ++ s) n k fill = s.
Proof. exact bounds_long. Qed.
Print Assumptions C58_long_bounds.

Example C58_long_bounds_ex :
  slack_bounds [Some 1%Q; Some (-5)%Q] 1 1 (Some 0%Q) = [Some (-5)%Q].
Proof. reflexivity. Qed.

(** bounds that are too short pass the checks if there are enough slacks: the last
    variables get the bounds of slacks, and for n >= 2 the difference lb[0:n+k] - x that
    the restoration step forms later (/repo/sqpdfo/sqpdfo_solve_TR_bc.py:209-210) has
    incompatible shapes *)
Theorem C58_short_bounds_refuted : forall b n k fill, length b < n -> n <= length b + k ->
  variable_bounds b n k fill = b ++ repeat fill (n - length b) /\
  length (slack_bounds b n k fill) < k /\
  (2 <= n -> bcast (length (firstn (n + k) (with_slacks b k fill)), 1) (n + k, 1) = None).
Proof. exact bounds_short. Qed.
Print Assumptions C58_short_bounds_refuted.

Example C58_short_bounds_ex :
  shapes_of (PList 3) (Some (PList 2)) (Some (PList 2)) 1 = Usable 3 (Arr2 3 1) (Arr2 3 1) /\
  variable_bounds [Some (-1)%Q; Some (-1)%Q] 3 1 (Some 0%Q) = [Some (-1)%Q; Some (-1)%Q; Some 0%Q].
Proof. split; reflexivity. Qed.
