(** Properties of the initial phase: C23, C24, C25, C26. *)
From Coq Require Import List Arith ZArith QArith Bool Lia.
Import ListNotations.
From Verif Require Import QB Book_Model Main_Model Main_Spec Pre_Model Pre_Spec Pre_Proofs Pre_Wit.
Local Open Scope Q_scope.

(** C23: whatever the user functions answer, every call made by the initial phase with a
    floating-point start point is within all bounds *)
Theorem C23_calls_in_bounds : forall user nrm geom fit fuel lb ub x0 r y i,
  (length x0 <= length lb)%nat -> (length x0 <= length ub)%nat ->
  prelim user nrm geom fit fuel false lb ub x0 = Some r ->
  In y (calls_of r) -> (i < length x0)%nat -> respects lb ub y i.
Proof. exact all_calls_respect. Qed.
Print Assumptions C23_calls_in_bounds.

Example C23_calls_in_bounds_ex :
  exists cl X fX ceX d, prelim usum n1 yes yes 5 false [Some (1 # 2); None] [Some 1; Some 3] [1; 5] =
    Some (PReady cl X fX ceX d) /\ length cl = 3%nat.
Proof. do 5 eexists. split; [vm_compute; reflexivity|reflexivity]. Qed.

(** C23: the start point is moved so that it and its lowered copies are within the
    bounds of the variables that are not fixed; the radius stays positive and does
    not grow *)
Theorem C23_start : forall lb ub x x' d d' fx,
  (length x <= length lb)%nat -> (length x <= length ub)%nat -> 0 < d ->
  adjust false lb ub x 0 d = Some (x', d', fx) ->
  0 < d' /\ d' <= d /\
  forall y i, In y (simplex x' d') -> (i < length x)%nat -> ~ pinned lb ub i -> respects lb ub y i.
Proof. exact start_respects. Qed.
Print Assumptions C23_start.

Example C23_start_ex :
  exists x' d' fx, adjust false [Some 0; Some 2] [Some 1; Some 2] [7; 2] 0 1 = Some (x', d', fx) /\ fx = [1%nat].
Proof. do 3 eexists. split; [vm_compute; reflexivity|reflexivity]. Qed.

(** C23: a lower bound above its upper bound gives exit code 2 without any call *)
Theorem C23_crossed : forall user nrm geom fit fuel int lb ub x,
  (length x <= length lb)%nat -> (length x <= length ub)%nat -> (0 < length x)%nat ->
  (exists i, (i < length x)%nat /\ crossed lb ub i) ->
  prelim user nrm geom fit fuel int lb ub x = Some (PFlag 2 []).
Proof. exact crossed_flag. Qed.
Print Assumptions C23_crossed.

Example C23_crossed_ex : exists i, (i < length [0])%nat /\ crossed [Some 1] [Some 0] i.
Proof. exists 0%nat. split; [simpl; lia|]. exists 1, 0. repeat split. Qed.

(** C23: all variables fixed gives exit code 2 without any call *)
Theorem C23_all_fixed : forall user nrm geom fit fuel lb ub x0,
  (length x0 <= length lb)%nat -> (length x0 <= length ub)%nat -> (0 < length x0)%nat ->
  (forall i, (i < length x0)%nat -> pinned lb ub i) ->
  prelim user nrm geom fit fuel false lb ub x0 = Some (PFlag 2 []).
Proof. exact all_pinned_flag. Qed.
Print Assumptions C23_all_fixed.

Example C23_all_fixed_ex : forall i, (i < length [0])%nat -> pinned [Some 1] [Some 1] i.
Proof. intros [|i] B; [|simpl in B; lia]. exists 1, 1. repeat split. Qed.

(** C24: with an integer start array the first point evaluated can violate its bounds *)
Theorem C24_start_outside_refuted :
  exists cl X fX ceX d x, prelim usum n1 yes yes 5 true [Some (1 # 2)] [Some 1] [1] = Some (PReady cl X fX ceX d) /\
    nth_error cl 0 = Some x /\ ~ respects [Some (1 # 2)] [Some 1] x 0.
Proof. exact int_start_outside. Qed.
Print Assumptions C24_start_outside_refuted.

(** C24: ... and so can a point of the simplex, also without an upper bound *)
Theorem C24_simplex_outside_refuted :
  exists cl X fX ceX d y, prelim usum n1 yes yes 5 true [Some (- (1 # 2))] [None] [0] = Some (PReady cl X fX ceX d) /\
    In y cl /\ ~ respects [Some (- (1 # 2))] [None] y 0.
Proof. exact int_simplex_outside. Qed.
Print Assumptions C24_simplex_outside_refuted.

(** C24: with integer bounds that coincide or are at least 2 apart the type of the start
    array makes no difference *)
Theorem C24_integer_bounds : forall user nrm geom fit fuel zl zu x0,
  (forall i a b, nth_error zl i = Some (Some a) -> nth_error zu i = Some (Some b) -> a = b \/ (a + 2 <= b)%Z) ->
  prelim user nrm geom fit fuel true (map zb zl) (map zb zu) x0 =
  prelim user nrm geom fit fuel false (map zb zl) (map zb zu) x0.
Proof. exact prelim_int. Qed.
Print Assumptions C24_integer_bounds.

Example C24_integer_bounds_ex : forall i a b,
  nth_error [Some 0%Z; None] i = Some (Some a) -> nth_error [Some 2%Z; Some 5%Z] i = Some (Some b) ->
  a = b \/ (a + 2 <= b)%Z.
Proof. intros [|[|[|i]]] a b H K; cbn in H, K; try discriminate. injection H as <-. injection K as <-. lia. Qed.

(** C25: which calls are made, and how the phase ends *)
Theorem C25_calls : forall user nrm geom fit fuel x d cl r,
  rounds user nrm geom fit fuel x d cl = Some r ->
  match r with
  | PReady cl' X fX ceX d' => exists new, cl' = cl ++ new /\
      probing user (too_small nrm x) x (length cl) d new d' Complete
  | PFlag fl cl' => fl = 3%nat /\ exists new d', cl' = cl ++ new /\
      probing user (too_small nrm x) x (length cl) d new d' Failed
  | PGiveUp cl' => exists new d', cl' = cl ++ new /\
      probing user (too_small nrm x) x (length cl) d new d' TooLow
  | PCrash => True
  end.
Proof. exact rounds_probing. Qed.
Print Assumptions C25_calls.

Example C25_calls_ex :
  (exists X fX ceX d, rounds udip n1 yes yes 5 [0] 1 [] = Some (PReady [[0]; [0]; [0 - (1 # 100) * 1]] X fX ceX d)) /\
  (exists cl, rounds unan n1 yes yes 5 [0; 0] 1 [] = Some (PFlag 3 cl) /\ length cl = 3%nat) /\
  (exists cl, rounds ulow n1 yes yes 20 [1] 1 [] = Some (PGiveUp cl) /\ length cl = 8%nat).
Proof.
  split; [do 4 eexists; vm_compute; reflexivity|].
  split; (eexists; split; [vm_compute; reflexivity|reflexivity]).
Qed.

(** C25: with a zero start point the phase never gives up *)
Theorem C25_zero_start : forall user nrm geom fit fuel x d cl cl', nrm x == 0 -> 0 < d ->
  rounds user nrm geom fit fuel x d cl <> Some (PGiveUp cl').
Proof. exact never_gives_up. Qed.
Print Assumptions C25_zero_start.

Example C25_zero_start_ex : n1 [0; 0] == 0.
Proof. reflexivity. Qed.

(** C25: ... and in exact arithmetic it goes on for ever if all values are below -1e25 *)
Theorem C25_endless : forall user nrm geom fit fuel x d cl, nrm x == 0 -> 0 < d ->
  (forall pts, geom pts = true) ->
  (forall k y, exists v, o_f (user k y) = Some (Fin v) /\ v < - c1e25 /\ o_c (user k y) = Some []) ->
  rounds user nrm geom fit fuel x d cl = None.
Proof. exact endless. Qed.
Print Assumptions C25_endless.

Example C25_endless_ex : forall k y,
  exists v, o_f (ulow k y) = Some (Fin v) /\ v < - c1e25 /\ o_c (ulow k y) = Some [].
Proof. intros k y. eexists. split; [reflexivity|]. split; reflexivity. Qed.

(** C25: with a non-zero start point it ends *)
Theorem C25_nonzero_start : forall user nrm geom fit x d cl, 0 < d -> 0 < nrm x ->
  exists fuel r, rounds user nrm geom fit fuel x d cl = Some r.
Proof. exact rounds_end. Qed.
Print Assumptions C25_nonzero_start.

Example C25_nonzero_start_ex : 0 < n1 [1].
Proof. reflexivity. Qed.

(** C25: giving up sets no exit code; the caller then raises an exception *)
Theorem C25_give_up_refuted :
  exists cl r, prelim ulow n1 yes yes 20 false [None] [None] [1] = Some r /\ r = PGiveUp cl /\
    caller r = Exception_ /\ forall fl, caller r <> ToUser fl.
Proof. exact give_up_raises. Qed.
Print Assumptions C25_give_up_refuted.

(** C25: what is handed to the main loop satisfies the assumptions made there *)
Theorem C25_handover : forall user nrm geom fit (E : env (list Q)) fuel lb ub x0 cl X fX ceX d slk s0,
  (forall k y, e_user E k y = user k y) ->
  (length x0 <= length lb)%nat -> (length x0 <= length ub)%nat ->
  prelim user nrm geom fit fuel false lb ub x0 = Some (PReady cl X fX ceX d) ->
  e_me E = width ceX -> (ceX = [] -> slk = []) ->
  start E cl X fX ceX slk d = Some s0 ->
  begins E (length cl) d s0.
Proof. exact prelim_begins. Qed.
Print Assumptions C25_handover.

Example C25_handover_ex :
  exists cl X fX ceX d, prelim ucon n1 yes yes 5 false [None] [None] [3] = Some (PReady cl X fX ceX d) /\
    width ceX = 1%nat.
Proof. do 5 eexists. split; [vm_compute; reflexivity|reflexivity]. Qed.

(** C26: some but not all variables fixed: the routine raises an exception at its first
    evaluation, before any call of the user functions *)
Theorem C26_fixed_raises : forall user nrm geom fit fuel lb ub x0 i k,
  (length x0 <= length lb)%nat -> (length x0 <= length ub)%nat ->
  (forall j, (j < length x0)%nat -> ~ crossed lb ub j) ->
  (i < length x0)%nat -> pinned lb ub i -> (k < length x0)%nat -> ~ pinned lb ub k ->
  prelim user nrm geom fit fuel false lb ub x0 = Some PCrash.
Proof. exact some_pinned_crash. Qed.
Print Assumptions C26_fixed_raises.

Example C26_fixed_raises_ex :
  pinned [Some 1; None] [Some 1; None] 0 /\ ~ pinned [Some 1; None] [Some 1; None] 1 /\
  caller PCrash = Exception_.
Proof.
  split; [exists 1, 1; repeat split|]. split; [|reflexivity].
  intros (a & b & H & _). discriminate.
Qed.

(** C26: the shapes alone: the arrays can be combined only for one fixed and one free variable *)
Theorem C26_shapes : forall nfix nfree s, (1 <= nfix)%nat -> (1 <= nfree)%nat ->
  yfull_shape nfix nfree = Some s <-> nfix = 1%nat /\ nfree = 1%nat /\ s = (2%nat, 1%nat).
Proof. exact shapes. Qed.
Print Assumptions C26_shapes.

Example C26_shapes_ex : yfull_shape 1 1 = Some (2%nat, 1%nat) /\ yfull_shape 1 2 = None.
Proof. split; reflexivity. Qed.
