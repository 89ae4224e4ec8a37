(** What happens to the array passed as start point (C68). *)
From Coq Require Import List Arith ZArith QArith Bool Lia Lqa.
Import ListNotations.
From Verif Require Import QB Book_Model Main_Model Pre_Model Pre_Spec Sta_Model Sta_Proofs.
Local Open Scope Q_scope.

(** A call that gets past the bounds leaves in an array (column or row) exactly the start
    point it works with; a list, tuple or number is left alone. *)
Theorem C68_left : forall h int lb ub x d x' d' fx,
  (length x <= length lb)%nat -> (length x <= length ub)%nat -> adjust int lb ub x 0 d = Some (x', d', fx) ->
  left_behind h int lb ub x d = match h with Copied => x | _ => x' end.
Proof. exact left_some. Qed.
Print Assumptions C68_left.

Example C68_left_ex : adjust false [Some 0; None] [Some 5; None] [0; 9] 0 1 = Some ([0 + 1; 9], 1, []) /\
  left_behind Row false [Some 0; None] [Some 5; None] [0; 9] 1 = [0 + 1; 9] /\
  left_behind Copied false [Some 0; None] [Some 5; None] [0; 9] 1 = [0; 9].
Proof. vm_compute. repeat split; reflexivity. Qed.

(** A call refused because of crossed bounds has already moved the components before the
    first crossed pair, as a call with these components alone would; the others are as
    they were. *)
Theorem C68_refused : forall h int lb ub x d, adjust int lb ub x 0 d = None ->
  exists k x1 d1 f1, (k < length x)%nat /\ crossed lb ub k /\ (forall i, (i < k)%nat -> ~ crossed lb ub i) /\
    adjust int lb ub (firstn k x) 0 d = Some (x1, d1, f1) /\
    left_behind h int lb ub x d = match h with Copied => x | _ => x1 ++ skipn k x end.
Proof. exact left_none. Qed.
Print Assumptions C68_refused.

Example C68_refused_ex : adjust false [Some 0; Some 1] [Some 5; Some 0] [0; 9] 0 1 = None.
Proof. reflexivity. Qed.

(** So a refused call need not leave the array as it was. *)
Theorem C68_refused_untouched_refuted : ~ (forall int lb ub x d, 0 < d ->
  adjust int lb ub x 0 d = None -> left_behind Column int lb ub x d = x).
Proof. exact refused_touched. Qed.
Print Assumptions C68_refused_untouched_refuted.

(** Whatever becomes of the call, a component farther than the initial radius from both
    of its bounds and a component whose bounds coincide stay as they are. *)
Theorem C68_kept : forall h int lb ub x d i v, 0 < d -> nth_error x i = Some v ->
  ((forall a, nth_error lb i = Some (Some a) -> a + d < v) /\ (forall b, nth_error ub i = Some (Some b) -> v < b - d)
   \/ pinned lb ub i) ->
  nth_error (left_behind h int lb ub x d) i = Some v.
Proof. exact left_kept. Qed.
Print Assumptions C68_kept.

Example C68_kept_ex : 0 < 1 /\ nth_error [2; 9; 0] 0 = Some 2 /\ nth_error [2; 9; 0] 1 = Some 9 /\
  left_behind Column false [Some 0; Some 1; Some 0] [Some 5; Some 1; None] [2; 9; 0] 1 = [2; 9; 0 + 1] /\
  pinned [Some 0; Some 1; Some 0] [Some 5; Some 1; None] 1.
Proof.
  split; [reflexivity|]. split; [reflexivity|]. split; [reflexivity|]. split; [reflexivity|].
  exists 1, 1. repeat split; reflexivity.
Qed.

(** Repeating the call with the array left behind by a call that got past the bounds
    starts from the same point with the same radius and the same fixed variables, and
    leaves the same values. *)
Theorem C68_again : forall int lb ub x d x' d' fx,
  (length x <= length lb)%nat -> (length x <= length ub)%nat -> adjust int lb ub x 0 d = Some (x', d', fx) ->
  exists x'', adjust int lb ub (left_behind Column int lb ub x d) 0 d = Some (x'', d', fx) /\ Forall2 Qeq x'' x'.
Proof. exact left_again. Qed.
Print Assumptions C68_again.

Example C68_again_ex : exists x' d' fx,
  adjust true [Some (- (7 # 2)); Some 0] [Some (- (3 # 2)); Some 1] [4; 4]%Q 0 1 = Some (x', d', fx) /\ x' <> [4; 4].
Proof. eexists. eexists. eexists. split; [reflexivity|]. vm_compute. discriminate. Qed.
