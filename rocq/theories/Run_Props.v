(** C46: helper functions (runtime.py). *)
From Coq Require Import List Arith ZArith QArith Qabs Bool Sorting.Sorted.
Import ListNotations.
From Verif Require Import QB Main_Model Run_Model Run_Spec Run_Proofs.
Local Open Scope Q_scope.

(** max_(a,d): entry by entry the larger of the two, NaN only if both are NaN. *)
Theorem C46_max2 : forall a d, length a = length d -> exists r, max2 a d = Some r /\ length r = length a /\
  forall i, (i < length a)%nat -> greatest [nth i a NaN; nth i d NaN] (nth i r NaN).
Proof. exact t_max2. Qed.
Print Assumptions C46_max2.

Example C46_max2_ex : max2 [Fin 1; NaN; PInf; NaN] [Fin 2; Fin 3; NaN; NaN] = Some [Fin 2; Fin 3; PInf; NaN].
Proof. reflexivity. Qed.

(** min_(a,d): entry by entry the smaller of the two, NaN only if both are NaN. *)
Theorem C46_min2 : forall a d, length a = length d -> exists r, min2 a d = Some r /\ length r = length a /\
  forall i, (i < length a)%nat -> least [nth i a NaN; nth i d NaN] (nth i r NaN).
Proof. exact t_min2. Qed.
Print Assumptions C46_min2.

Example C46_min2_ex : min2 [Fin 1; NaN; PInf; NaN] [Fin 2; Fin 3; NaN; NaN] = Some [Fin 1; Fin 3; PInf; NaN].
Proof. reflexivity. Qed.

(** The same with a number as second argument. *)
Theorem C46_max2_number : forall a y, exists r, max2 a [y] = Some r /\ length r = length a /\
  forall i, (i < length a)%nat -> greatest [nth i a NaN; y] (nth i r NaN).
Proof. exact t_max2_scalar. Qed.
Print Assumptions C46_max2_number.

Example C46_max2_number_ex : max2 [Fin 1; NaN; NInf] [Fin 0] = Some [Fin 1; Fin 0; Fin 0].
Proof. reflexivity. Qed.

Theorem C46_min2_number : forall a y, exists r, min2 a [y] = Some r /\ length r = length a /\
  forall i, (i < length a)%nat -> least [nth i a NaN; y] (nth i r NaN).
Proof. exact t_min2_scalar. Qed.
Print Assumptions C46_min2_number.

Example C46_min2_number_ex : min2 [Fin 1; NaN; NInf] [Fin 0] = Some [Fin 0; Fin 0; NInf].
Proof. reflexivity. Qed.

(** The same with a number as first argument. *)
Theorem C46_max2_first_number : forall x d, exists r, max2 [x] d = Some r /\ length r = length d /\
  forall i, (i < length d)%nat -> greatest [x; nth i d NaN] (nth i r NaN).
Proof. exact t_max2_first. Qed.
Print Assumptions C46_max2_first_number.

Example C46_max2_first_number_ex : max2 [Fin 0] [Fin 1; NaN; NInf] = Some [Fin 1; Fin 0; Fin 0].
Proof. reflexivity. Qed.

Theorem C46_min2_first_number : forall x d, exists r, min2 [x] d = Some r /\ length r = length d /\
  forall i, (i < length d)%nat -> least [x; nth i d NaN] (nth i r NaN).
Proof. exact t_min2_first. Qed.
Print Assumptions C46_min2_first_number.

Example C46_min2_first_number_ex : min2 [Fin 0] [Fin 1; NaN; NInf] = Some [Fin 0; Fin 0; NInf].
Proof. reflexivity. Qed.

(** Different lengths, neither of them 1, raise. *)
Theorem C46_lengths_raise : forall a d, a <> [] -> length a <> length d -> length a <> 1%nat -> length d <> 1%nat ->
  max2 a d = None /\ min2 a d = None.
Proof. exact t_lengths_raise. Qed.
Print Assumptions C46_lengths_raise.

Example C46_lengths_raise_ex : max2 [Fin 1; Fin 2] [Fin 1; Fin 2; Fin 3] = None /\ min2 [Fin 1; Fin 2] [] = None.
Proof. split; reflexivity. Qed.

(** One empty array: empty value and empty position. *)
Theorem C46_position_empty : max1 [] = [] /\ min1 [] = [] /\ max1_pos [] = Some ([], []) /\ min1_pos [] = Some ([], []).
Proof. exact t_position_empty. Qed.
Print Assumptions C46_position_empty.

Example C46_position_empty_ex : max1_pos [Fin 1] = Some ([Fin 1], [0%nat]).
Proof. reflexivity. Qed.

(** An empty first argument gives an empty array, whatever the second is. *)
Theorem C46_max2_empty : forall d, max2 [] d = Some [].
Proof. exact t_max2_empty. Qed.
Print Assumptions C46_max2_empty.

Example C46_max2_empty_ex : max2 [] [Fin 0] = Some [] /\ max2 [Fin 0] [] = Some [].
Proof. split; reflexivity. Qed.

(** max_(a), min_(a): the largest and the smallest entry, NaN ignored. *)
Theorem C46_max1 : forall a, a <> [] -> exists v, max1 a = [v] /\ greatest a v.
Proof. exact t_max1. Qed.
Print Assumptions C46_max1.

Example C46_max1_ex : max1 [NaN; Fin 3; Fin 7; NInf] = [Fin 7].
Proof. reflexivity. Qed.

Theorem C46_min1 : forall a, a <> [] -> exists v, min1 a = [v] /\ least a v.
Proof. exact t_min1. Qed.
Print Assumptions C46_min1.

Example C46_min1_ex : min1 [NaN; Fin 3; Fin 7; NInf] = [NInf].
Proof. reflexivity. Qed.

(** With nargout=2 the position returned is the first one of that entry. *)
Theorem C46_max1_position : forall a, (exists x, In x a /\ x <> NaN) ->
  exists v k, max1_pos a = Some ([v], [k]) /\ greatest a v /\
    (k < length a)%nat /\ xeq (nth k a NaN) v /\ forall i, (i < k)%nat -> ~ xeq (nth i a NaN) v.
Proof. exact t_max1_pos. Qed.
Print Assumptions C46_max1_position.

Example C46_max1_position_ex : max1_pos [NaN; Fin 7; Fin 3; Fin 7] = Some ([Fin 7], [1%nat]).
Proof. reflexivity. Qed.

Theorem C46_min1_position : forall a, (exists x, In x a /\ x <> NaN) ->
  exists v k, min1_pos a = Some ([v], [k]) /\ least a v /\
    (k < length a)%nat /\ xeq (nth k a NaN) v /\ forall i, (i < k)%nat -> ~ xeq (nth i a NaN) v.
Proof. exact t_min1_pos. Qed.
Print Assumptions C46_min1_position.

Example C46_min1_position_ex : min1_pos [NaN; Fin 7; Fin 3; Fin 3] = Some ([Fin 3], [2%nat]).
Proof. reflexivity. Qed.

(** It raises if all entries are NaN. *)
Theorem C46_position_raises : forall a, a <> [] -> (forall x, In x a -> x = NaN) -> max1_pos a = None /\ min1_pos a = None.
Proof. exact t_pos_nan. Qed.
Print Assumptions C46_position_raises.

Example C46_position_raises_ex : max1_pos [NaN; NaN] = None /\ max1 [NaN; NaN] = [NaN].
Proof. split; reflexivity. Qed.

(** find_(a): the positions of the true entries in increasing order. *)
Theorem C46_find : forall a, exists l, find1 a None = Some l /\ StronglySorted lt l /\
  forall i, In i l <-> nth i a false = true.
Proof. exact t_find. Qed.
Print Assumptions C46_find.

Example C46_find_ex : find1 [false; true; true; false; true] None = Some [1; 2; 4]%nat.
Proof. reflexivity. Qed.

(** find_(a,n): the first n of them; it raises if there are some but fewer than n. *)
Theorem C46_find_first : forall a n l, find1 a None = Some l ->
  (l = [] -> find1 a (Some n) = Some []) /\
  (l <> [] -> (n <= length l)%nat -> find1 a (Some n) = Some (firstn n l)) /\
  (l <> [] -> (length l < n)%nat -> find1 a (Some n) = None).
Proof. exact t_find_first. Qed.
Print Assumptions C46_find_first.

Example C46_find_first_ex : find1 [false; true; true] (Some 1%nat) = Some [1%nat] /\ find1 [false; true; true] (Some 3%nat) = None.
Proof. split; reflexivity. Qed.

(** setdiff_(a,b): the values of a that are not in b, increasing, without repetition. *)
Theorem C46_setdiff : forall a b, StronglySorted lt (setdiff a b) /\ forall x, In x (setdiff a b) <-> In x a /\ ~ In x b.
Proof. exact t_setdiff. Qed.
Print Assumptions C46_setdiff.

Example C46_setdiff_ex : setdiff [5; 1; 3; 1]%nat [3; 9]%nat = [1; 5]%nat.
Proof. reflexivity. Qed.

(** concatenate_(list,0): the non-empty blocks below each other, in order. *)
Theorem C46_vertical : forall l C, concatenate false 0 l = Some C ->
  exists l', l' = filter (fun A => negb ((m_r A =? 0) || (m_c A =? 0))%nat) l /\
    (forall A, In A l' -> m_c A = m_c C) /\ m_rows C = concat (map m_rows l') /\ m_r C = list_sum (map m_r l').
Proof. exact t_vertical. Qed.
Print Assumptions C46_vertical.

Example C46_vertical_ex :
  concatenate false 0 [mkmx 1 2 [[Fin 1; Fin 2]]; mkmx 0 5 []; mkmx 1 2 [[Fin 3; Fin 4]]; mkmx 1 0 [[]]]
  = Some (mkmx 2 2 [[Fin 1; Fin 2]; [Fin 3; Fin 4]]).
Proof. reflexivity. Qed.

(** concatenate_(list,1): the non-empty blocks beside each other, in order. *)
Theorem C46_horizontal : forall l C, Forall shaped l -> concatenate false 1 l = Some C ->
  exists l', l' = filter (fun A => negb ((m_r A =? 0) || (m_c A =? 0))%nat) l /\
    (forall A, In A l' -> m_r A = m_r C) /\ m_c C = list_sum (map m_c l') /\
    length (m_rows C) = m_r C /\
    forall i, nth i (m_rows C) [] = concat (map (fun A => nth i (m_rows A) []) l').
Proof. exact t_horizontal. Qed.
Print Assumptions C46_horizontal.

Example C46_horizontal_ex :
  concatenate false 1 [mkmx 2 1 [[Fin 1]; [Fin 2]]; mkmx 0 5 []; mkmx 2 1 [[Fin 3]; [Fin 4]]]
  = Some (mkmx 2 2 [[Fin 1; Fin 3]; [Fin 2; Fin 4]]).
Proof. reflexivity. Qed.

(** For a list it succeeds exactly if all non-empty blocks have the same number of columns
    (rows); only empty blocks give an empty array. *)
Theorem C46_concatenate_succeeds : forall axis l,
  (exists C, concatenate false axis l = Some C) <->
  exists w, forall A, In A l -> m_r A <> 0%nat -> m_c A <> 0%nat -> (if (axis =? 0)%nat then m_c A else m_r A) = w.
Proof. exact t_concat_total. Qed.
Print Assumptions C46_concatenate_succeeds.

Example C46_concatenate_succeeds_ex :
  concatenate false 0 [mkmx 0 3 []; mkmx 0 0 []] = Some (mkmx 0 0 []) /\
  concatenate false 0 [mkmx 1 1 [[Fin 1]]; mkmx 1 2 [[Fin 1; Fin 2]]] = None.
Proof. split; reflexivity. Qed.

(** A tuple with an empty block raises. *)
Theorem C46_tuple_raises : forall axis l, (exists A, In A l /\ (m_r A = 0%nat \/ m_c A = 0%nat)) -> concatenate true axis l = None.
Proof. exact t_tuple. Qed.
Print Assumptions C46_tuple_raises.

Example C46_tuple_raises_ex : concatenate true 0 [mkmx 1 1 [[Fin 1]]; mkmx 0 1 []] = None /\
  concatenate true 0 [mkmx 1 1 [[Fin 1]]] = Some (mkmx 1 1 [[Fin 1]]).
Proof. split; reflexivity. Qed.

(** compare_array accepts exactly if every pair agrees. *)
Theorem C46_compare : forall x y atol rtol, 0 < rtol -> length x = length y ->
  (compare_array x y atol rtol = true <-> forall i, (i < length x)%nat -> agree atol rtol (nth i x NaN) (nth i y NaN)).
Proof. exact t_compare. Qed.
Print Assumptions C46_compare.

Example C46_compare_ex : compare_array [PInf; Fin 1; Fin 0] [PInf; Fin (1001 # 1000); Fin 0] (1 # 100) (1 # 100) = true /\
  compare_array [PInf] [NInf] 1 1 = false /\ compare_array [NaN] [NaN] 1 1 = false.
Proof. vm_compute. auto. Qed.

(** An array agrees with itself exactly if it has no NaN and no entry equal to minus the
    smallest normal number above the absolute tolerance. *)
Theorem C46_compare_itself : forall x atol rtol, 0 < atol -> 0 < rtol ->
  (compare_array x x atol rtol = true <-> forall v, In v x -> v <> NaN /\
     (forall p, v = Fin p -> Qabs p <= atol \/ ~ p == - (1 # (2 ^ 1022)))).
Proof. exact t_compare_self. Qed.
Print Assumptions C46_compare_itself.

Example C46_compare_itself_ex : compare_array [PInf; Fin 5] [PInf; Fin 5] (1 # 100) (1 # 100) = true.
Proof. vm_compute. reflexivity. Qed.

(** The order of the two arrays matters: 2.9 agrees with 2 within 1 and 2/5, but 2 does
    not agree with 2.9. *)
Theorem C46_symmetric_refuted : ~ forall x y atol rtol, 0 < atol -> 0 < rtol -> length x = length y ->
  compare_array x y atol rtol = true -> compare_array y x atol rtol = true.
Proof. exact r_symmetric. Qed.
Print Assumptions C46_symmetric_refuted.
