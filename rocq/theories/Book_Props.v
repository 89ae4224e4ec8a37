(** C11-C15, C17: property theorems about the bookkeeping of the interpolation
    set and of the recorded constraint values. *)
From Coq Require Import List Arith ZArith QArith Qabs Bool Permutation Lia.
Import ListNotations.
From Verif Require Import QB Book_Model Book_Spec Book_Proofs Book_More Book_Wit.
Local Open Scope Q_scope.

(** ** C11: exchanging two points *)

Theorem C11_swap : forall (P : Type) (zero : P) (S : iset P) p i j x,
  wf_set S p -> (i < p)%nat -> (j < p)%nat ->
  exists S' x', swap_in_Y zero i j S x = Some (S', x') /\ set_permuted i j S S' /\
    wf_set S' p /\
    (i = j -> S' = S /\ x' = x) /\ (i <> j -> nth_error (s_Y S') 0 = Some x').
Proof. exact (@swap_correct). Qed.
Print Assumptions C11_swap.

Theorem C11_twice : forall (P : Type) (zero : P) (S : iset P) p i j x,
  wf_set S p -> (i < p)%nat -> (j < p)%nat ->
  exists S' x' x'', swap_in_Y zero i j S x = Some (S', x') /\
    swap_in_Y zero i j S' x' = Some (S, x'').
Proof. exact (@swap_twice). Qed.
Print Assumptions C11_twice.

Theorem C11_symmetric : forall (P : Type) (zero : P) (S : iset P) i j x,
  swap_in_Y zero i j S x = swap_in_Y zero j i S x.
Proof. exact (@swap_sym). Qed.
Print Assumptions C11_symmetric.

Theorem C11_out_of_range : forall (P : Type) (zero : P) (S : iset P) p i j x,
  wf_set S p -> i <> j -> (p <= i)%nat \/ (p <= j)%nat -> swap_in_Y zero i j S x = None.
Proof. exact (@swap_out_of_range). Qed.
Print Assumptions C11_out_of_range.

Example C11_ex : wf_set w_set 4 /\
  swap_in_Y [0] 0 2 w_set [1] =
    Some (mkset [[3]; [2]; [1]; [4]] [7; 5; 6; 8]%nat [30; 20; 10; 40] []
            [[13]; [12]; [11]; [14]], [3]).
Proof. repeat split; auto. Qed.

(** ** C12: moving to the best point *)

Theorem C12_moves : forall (P : Type) (zero : P) inside cnorm sigma t (S : iset P) p x fx ib,
  whole_part sigma t -> wf_set S p -> (1 <= p)%nat ->
  exists r, find_smallf zero inside cnorm sigma S x fx ib = Some r /\
    nth_error (s_f (r_set r)) 0 = Some (r_f r) /\
    (s_ce S <> [] -> exists c, r_ce r = Some c /\ nth_error (s_ce (r_set r)) 0 = Some c) /\
    ((r_set r = S /\ r_x r = x /\ r_fx r = fx /\ r_ibest r = ib) \/
     (exists k y, nth_error (s_Y S) k = Some y /\ k <> 1%nat /\ k <> 0%nat /\ inside y = true /\
        set_permuted 0 k S (r_set r) /\ wf_set (r_set r) p /\ r_x r = y /\
        nth_error (s_f S) k = Some (r_fx r) /\ nth_error (s_ind S) k = Some (r_ibest r) /\
        (forall m0 mk, merit_at cnorm (inject_Z t) S 0 m0 ->
           merit_at cnorm (inject_Z t) S k mk -> mk < m0) /\
        (forall k' z m' mk, nth_error (s_Y S) k' = Some z -> inside z = true ->
           merit_at cnorm (inject_Z t) S k' m' ->
           merit_at cnorm (inject_Z t) S k mk -> mk <= m'))).
Proof. exact (@smallf_moves'). Qed.
Print Assumptions C12_moves.

(** When nothing moves, the base point is a best point among those that pass the
    bound test, or the point at position 1 is one. *)
Theorem C12_stays : forall (P : Type) (zero : P) inside cnorm sigma t (S : iset P) p x fx ib r,
  whole_part sigma t -> wf_set S p -> (1 <= p)%nat -> NoDup (s_Y S) ->
  find_smallf zero inside cnorm sigma S x fx ib = Some r -> r_set r = S ->
  (forall k z m0 mk, nth_error (s_Y S) k = Some z -> inside z = true ->
     merit_at cnorm (inject_Z t) S 0 m0 ->
     merit_at cnorm (inject_Z t) S k mk -> m0 <= mk) \/
  (exists y, nth_error (s_Y S) 1 = Some y /\ inside y = true /\
     forall k z m1 mk, nth_error (s_Y S) k = Some z -> inside z = true ->
       merit_at cnorm (inject_Z t) S 1 m1 ->
       merit_at cnorm (inject_Z t) S k mk -> m1 <= mk).
Proof. exact (@smallf_stays'). Qed.
Print Assumptions C12_stays.

(** every number has a whole part *)
Example C12_whole_ex : whole_part (5 # 2) 2 /\ whole_part (- (5 # 2)) (-2).
Proof. split; split; intros H; (split; vm_compute; congruence) || (vm_compute in H; congruence). Qed.

(** a run that moves: the third point is the best *)
Example C12_ex : exists r,
  find_smallf [0] (inside_bcast [-10] [10]) (fun _ => 0) 1
    (mkset [[1]; [2]; [3]] [0; 1; 2]%nat [5; 4; 2] [] []) [1] 5 0 = Some r /\
  r_x r = [3] /\ r_fx r = 2 /\ r_ibest r = 2%nat.
Proof. eexists. split; [vm_compute; reflexivity|repeat split]. Qed.

(** The point at position 1 is never chosen even if it is the only best one. *)
Theorem C12_position_one_refuted :
  let S := mkset [[1]; [2]; [3]] [0; 1; 2]%nat [5; 1; 4] [] [] in
  exists r, find_smallf [0] (inside_bcast [-10] [10]) (fun _ => 0) 1 S [1] 5 0 = Some r /\
    r_set r = S /\ r_fx r = 5 /\
    in_bounds [-10] [10] [2] /\ nth_error (s_f S) 1 = Some 1 /\ 1 < r_fx r.
Proof. exact position_one. Qed.
Print Assumptions C12_position_one_refuted.

(** The bound test accepts only points within the bounds ... *)
Theorem C12_bound_test_sound : forall xl xu y, length xl = length y -> length xu = length y ->
  inside_bcast xl xu y = true -> in_bounds xl xu y.
Proof. exact inside_bcast_sound. Qed.
Print Assumptions C12_bound_test_sound.

Example C12_ex_bounds : inside_bcast [0; 0] [2; 2] [1; 2] = true.
Proof. reflexivity. Qed.

(** ... but rejects points that are within the bounds. *)
Theorem C12_bound_test_complete_refuted :
  in_bounds [0; 5] [1; 6] [0; 5] /\ inside_bcast [0; 5] [1; 6] [0; 5] = false.
Proof. exact bounds_refuted. Qed.
Print Assumptions C12_bound_test_complete_refuted.

(** With the penalty parameter itself instead of its truncation the move can be to
    a point of larger merit: sigma = 1/2 is truncated to 0. *)
Theorem C12_true_merit_refuted :
  let S := mkset [[0]; [9]; [1]] [0; 1; 2]%nat [1; 5; 0] [] [[0]; [0]; [10]] in
  let cn := fun c => Qabs (nth 0 c 0) in
  exists r, find_smallf [0] (inside_bcast [-10] [10]) cn (1 # 2) S [0] 1 0 = Some r /\
    r_ibest r = 2%nat /\
    exists m0 m2, merit_at cn (1 # 2) S 0 m0 /\ merit_at cn (1 # 2) S 2 m2 /\ m0 < m2.
Proof. exact truncated_penalty. Qed.
Print Assumptions C12_true_merit_refuted.

(** ** C13: including a point *)

Theorem C13_chosen : forall (P : Type) (zero : P) dist x Y cset thr c xb succ L Y' j xb',
  0 <= thr ->
  include_in_Y zero dist x Y cset thr c xb succ L = (Y', Some j, xb') ->
  candidate cset thr L (length Y) j /\ only_changed j Y Y' /\ nth_error Y' j = Some x /\
  base_point zero Y' xb' /\
  exists v, has_crit dist x Y c succ L j v /\ 0 < v /\
    forall k w, candidate cset thr L (length Y) k -> has_crit dist x Y c succ L k w -> w <= v.
Proof. exact (@include_chosen'). Qed.
Print Assumptions C13_chosen.

Theorem C13_nothing : forall (P : Type) (zero : P) dist x Y cset thr c xb succ L Y' xb',
  0 <= thr ->
  include_in_Y zero dist x Y cset thr c xb succ L = (Y', None, xb') ->
  Y' = Y /\ xb' = xb /\
  forall k w, candidate cset thr L (length Y) k -> has_crit dist x Y c succ L k w -> w <= 0.
Proof. exact (@include_nothing). Qed.
Print Assumptions C13_nothing.

Example C13_ex_chosen :
  include_in_Y 0 (fun a b => Qabs (a - b)) 4 [0; 1; 2; 9] [1; 2; 3]%nat (1 # 10) Weighted 0 false
    (fun j => nth j [0; 3; -2; 0] 0) = ([0; 1; 4; 9], Some 2%nat, 0).
Proof. vm_compute. reflexivity. Qed.
Example C13_ex_nothing :
  include_in_Y 0 (fun a b => Qabs (a - b)) 4 [0; 1; 2] [1; 2]%nat 5 Standard 0 true
    (fun j => nth j [0; 3; -2] 0) = ([0; 1; 2], None, 0).
Proof. vm_compute. reflexivity. Qed.

(** ** C14: repairing the set *)

Theorem C14_frame : forall (P : Type) (zero : P) dist rowdist newpt argsort farfact epsL Delta closethr Y0 xb,
  sorts_desc argsort -> 0 < closethr -> 0 <= farfact * (1 + epsL) * Delta -> Y0 <> [] ->
  exists Y repl imp r xb',
    repair_Y zero dist rowdist newpt argsort farfact epsL Delta closethr Y0 xb
      = Some ((Y, repl, imp, r), xb') /\
    length Y = length Y0 /\ nth_error Y 0 = nth_error Y0 0 /\
    NoDup repl /\ (forall j, In j repl -> (0 < j < length Y0)%nat) /\
    (forall j, ~ In j repl -> nth_error Y j = nth_error Y0 j) /\
    (repl = [] -> xb' = xb) /\ (repl <> [] -> base_point zero Y xb').
Proof. exact (@repair_frame'). Qed.
Print Assumptions C14_frame.

Theorem C14_new_points : forall (P : Type) (zero : P) dist rowdist newpt argsort farfact epsL Delta closethr Y0 xb,
  sorts_desc argsort -> 0 < closethr -> 0 <= farfact * (1 + epsL) * Delta -> Y0 <> [] ->
  forall Y repl imp r xb',
  repair_Y zero dist rowdist newpt argsort farfact epsL Delta closethr Y0 xb
      = Some ((Y, repl, imp, r), xb') ->
  forall j, In j repl -> exists y, nth_error Y j = Some y /\ origin zero newpt Y0 j y.
Proof. exact (@repair_new). Qed.
Print Assumptions C14_new_points.

(** points that stay are not far *)
Theorem C14_kept_points : forall (P : Type) (zero : P) dist rowdist newpt argsort farfact epsL Delta closethr Y0 xb,
  sorts_desc argsort -> 0 < closethr -> 0 <= farfact * (1 + epsL) * Delta -> Y0 <> [] ->
  forall Y repl imp r xb',
  repair_Y zero dist rowdist newpt argsort farfact epsL Delta closethr Y0 xb
      = Some ((Y, repl, imp, r), xb') ->
  forall j y y0, ~ In j repl -> j <> 0%nat ->
  nth_error Y j = Some y -> nth_error Y 0 = Some y0 ->
  dist y y0 <= farfact * (1 + epsL) * Delta.
Proof. exact (@repair_near). Qed.
Print Assumptions C14_kept_points.

(** an improvement below the threshold is reported only when a complete round
    found no replacement worth it *)
Theorem C14_settled : forall (P : Type) (zero : P) dist rowdist newpt argsort farfact epsL Delta closethr Y0 xb,
  sorts_desc argsort -> 0 < closethr -> 0 <= farfact * (1 + epsL) * Delta -> Y0 <> [] ->
  forall Y repl imp r xb',
  repair_Y zero dist rowdist newpt argsort farfact epsL Delta closethr Y0 xb
      = Some ((Y, repl, imp, r), xb') ->
  imp < closethr -> settled newpt closethr Y.
Proof. exact (@repair_settled). Qed.
Print Assumptions C14_settled.

Theorem C14_radius : forall (P : Type) (zero : P) dist rowdist newpt argsort farfact epsL Delta closethr Y0 xb,
  sorts_desc argsort -> 0 < closethr -> 0 <= farfact * (1 + epsL) * Delta -> Y0 <> [] ->
  forall Y repl imp r xb',
  repair_Y zero dist rowdist newpt argsort farfact epsL Delta closethr Y0 xb
      = Some ((Y, repl, imp, r), xb') ->
  (forall k Y j, newpt k Y j <> NoPt) -> is_radius dist Y r.
Proof. exact (@repair_radius). Qed.
Print Assumptions C14_radius.

Theorem C14_bounded : forall (P : Type) (zero : P) dist rowdist newpt argsort farfact epsL Delta closethr Y0 xb,
  sorts_desc argsort -> 0 < closethr -> 0 <= farfact * (1 + epsL) * Delta -> Y0 <> [] ->
  forall Y repl imp r xb',
  repair_Y zero dist rowdist newpt argsort farfact epsL Delta closethr Y0 xb
      = Some ((Y, repl, imp, r), xb') ->
  forall y0, (forall k Y j, newpt k Y j <> NoPt) -> nth_error Y0 0 = Some y0 ->
  (forall k Yk j y v, nth_error Yk 0 = Some y0 -> newpt k Yk j = NewPt y v ->
     dist y y0 <= (1 + epsL) * Delta) ->
  1 <= farfact ->
  forall j y, nth_error Y j = Some y -> j <> 0%nat -> dist y y0 <= farfact * (1 + epsL) * Delta.
Proof. exact (@repair_bound). Qed.
Print Assumptions C14_bounded.

(** a repair with one far point and one improvement *)
Example C14_ex : sorts_desc w_sort /\
  repair_Y 0 (fun a b => Qabs (a - b)) (fun a => Qabs a) w_new w_sort 10 0 1 (6 # 5) [0; 1; 50] 0
    = Some (([0; 1 # 2; 1], [2; 1]%nat, 1, 1), 0).
Proof. split; [exact w_sort_ok|vm_compute; reflexivity]. Qed.

(** When the point generator has no proposal for a far point, the zero vector is
    stored and the recorded distance is not the distance of that vector.  Points
    t stand for the vectors (t,t,t,t): distance 2|t-t'|, and the norm of the 4x4
    matrix whose columns are all (-t,-t,-t,-t) is 4|t|. *)
Theorem C14_radius_refuted :
  exists Y repl imp r xb',
    repair_Y 0 (fun a b => 2 * Qabs (a - b)) (fun a => 4 * Qabs a) (fun _ _ _ => NoPt)
      w_sort 10 0 1 (6 # 5) [1; 90] 1 = Some ((Y, repl, imp, r), xb') /\
    ~ is_radius (fun a b => 2 * Qabs (a - b)) Y r.
Proof. exact radius_refuted. Qed.
Print Assumptions C14_radius_refuted.

(** ** C15: size of the set *)

Theorem C15_size : forall (P : Type) q w (ynew Y : list P),
  fst (augment_Y q w ynew Y) = length (snd (augment_Y q w ynew Y)) /\
  (exists tl, snd (augment_Y q w ynew Y) = Y ++ tl /\ (tl = [] \/ tl = ynew)) /\
  (w <> 3%nat -> (length ynew <= 1)%nat -> (length Y <= q)%nat ->
     (length (snd (augment_Y q w ynew Y)) <= q)%nat) /\
  ((length Y < q)%nat \/ w = 3%nat -> snd (augment_Y q w ynew Y) = Y ++ ynew) /\
  ((q <= length Y)%nat -> w <> 3%nat -> snd (augment_Y q w ynew Y) = Y).
Proof. exact (@augment_spec). Qed.
Print Assumptions C15_size.

Theorem C15_sequence : forall (P : Type) q w (news Y : list P), w <> 3%nat -> (length Y <= q)%nat ->
  (length (fold_left (fun Y y => snd (augment_Y q w [y] Y)) news Y) <= q)%nat.
Proof. exact (@augment_sequence). Qed.
Print Assumptions C15_sequence.

Example C15_ex : augment_Y 6 0 [7] [1; 2; 3] = (4%nat, [1; 2; 3; 7]) /\
  augment_Y 3 0 [7] [1; 2; 3] = (3%nat, [1; 2; 3]).
Proof. split; reflexivity. Qed.

(** Several points at once can exceed the bound, and so can regression mode. *)
Theorem C15_block_refuted :
  (length (snd (augment_Y 6 0 [1; 2; 3] [1; 2; 3; 4; 5])) = 8)%nat /\
  (length (snd (augment_Y 6 3 [1] [1; 2; 3; 4; 5; 6])) = 7)%nat.
Proof. exact augment_block. Qed.
Print Assumptions C15_block_refuted.

(** ** C17: huge constraint values *)

Theorem C17_clamp : forall v,
  - inject_Z (10 ^ 25) <= clamp25 v <= inject_Z (10 ^ 25) /\
  (- inject_Z (10 ^ 25) <= v <= inject_Z (10 ^ 25) -> clamp25 v = v).
Proof. exact clamp_spec. Qed.
Print Assumptions C17_clamp.

Theorem C17_moderate_values_kept : forall c c', overwrite_ce c = Some c' ->
  same_shape c c' /\ forall i j v v', entry c i j v -> entry c' i j v' -> ~ huge v -> v' = v.
Proof. exact overwrite_finite. Qed.
Print Assumptions C17_moderate_values_kept.

(** Values of at least 1e25 become ten times the largest moderate value.  Values of at most
    -1e25 become ten times the smallest of the moderate values and of those replacements. *)
Theorem C17_rule : forall c c', overwrite_ce c = Some c' ->
  (forall v, In v (concat c) -> ~ huge v -> - inject_Z (10 ^ 24) < v < inject_Z (10 ^ 24)) ->
  forall i j v v', entry c i j v -> entry c' i j v' ->
  (inject_Z (10 ^ 25) <= v -> exists hi, largest_moderate c hi /\ v' = 10 * hi) /\
  (v <= - inject_Z (10 ^ 25) -> exists lo, smallest_moderate c lo /\
    ((forall w, In w (concat c) -> ~ inject_Z (10 ^ 25) <= w) -> v' == 10 * lo) /\
    (forall w hi, In w (concat c) -> inject_Z (10 ^ 25) <= w -> largest_moderate c hi ->
      (lo <= 10 * hi -> v' == 10 * lo) /\ (10 * hi <= lo -> v' == 100 * hi))).
Proof. exact overwrite_rule. Qed.
Print Assumptions C17_rule.

Theorem C17_bounded : forall c c', overwrite_ce c = Some c' ->
  (forall v, In v (concat c) -> ~ huge v -> - inject_Z (10 ^ 23) < v < inject_Z (10 ^ 23)) ->
  forall v, In v (concat c') -> ~ huge v.
Proof. exact overwrite_bounded. Qed.
Print Assumptions C17_bounded.

Theorem C17_error : forall c, overwrite_ce c = None <->
  (exists v, In v (concat c)) /\ forall v, In v (concat c) -> huge v.
Proof. exact overwrite_none. Qed.
Print Assumptions C17_error.

Example C17_ex : overwrite_ce [[1; 2]; [inject_Z (10 ^ 25); - inject_Z (10 ^ 25)]] =
  Some [[1; 2]; [10 * 2; 10 * 1]].
Proof. vm_compute. reflexivity. Qed.
Example C17_ex_error : overwrite_ce [[inject_Z (10 ^ 25)]] = None.
Proof. vm_compute. reflexivity. Qed.

(** The replacement can be 0 (infinite violation recorded as feasible), of the
    wrong sign, or still huge. *)
Theorem C17_zero_refuted :
  overwrite_ce [[0]; [inject_Z (10 ^ 25)]] = Some [[0]; [10 * 0]].
Proof. exact overwrite_zero. Qed.
Print Assumptions C17_zero_refuted.

(** A replacement is replaced again: -1 is the smallest moderate value, -100 is recorded. *)
Theorem C17_ten_times_refuted :
  overwrite_ce [[-1]; [inject_Z (10 ^ 25); - inject_Z (10 ^ 25)]] = Some [[-1]; [10 * -1; 10 * (10 * -1)]].
Proof. exact overwrite_hundred. Qed.
Print Assumptions C17_ten_times_refuted.

Theorem C17_sign_refuted :
  overwrite_ce [[-1]; [inject_Z (10 ^ 25)]] = Some [[-1]; [10 * -1]].
Proof. exact overwrite_sign. Qed.
Print Assumptions C17_sign_refuted.

Theorem C17_still_huge_refuted :
  exists c' v, overwrite_ce [[5 * inject_Z (10 ^ 24)]; [inject_Z (10 ^ 25)]] = Some c' /\
    In v (concat c') /\ huge v.
Proof. exact overwrite_still. Qed.
Print Assumptions C17_still_huge_refuted.
