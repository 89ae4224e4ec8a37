(** Properties C18 and C19: validation of the options. *)
From Coq Require Import List ZArith QArith Bool String.
Import ListNotations.
From Verif Require Import Main_Model Opt_Model Opt_Spec Opt_Proofs Opt_Fail Opt_Wit.
Local Open Scope Q_scope.

(** C18: a successful validation keeps what is valid, fills in what is missing and
    replaces exactly what is documented *)
Theorem C18_accepted : forall o o', validate o = VDone o' -> accepted o o'.
Proof. exact validate_accepted. Qed.
Print Assumptions C18_accepted.

(** C18: validated options are in their ranges (NaN slips through) *)
Theorem C18_range : forall o o', accepted o o' -> in_range o'.
Proof. exact accepted_range. Qed.
Print Assumptions C18_range.

(** C18: options without exotic types either pass, or no admissible reading of them
    exists and exit code 1 is set *)
Theorem C18_pass_or_flag1 : forall o, plain o ->
  (exists o', validate o = VDone o' /\ accepted o o') \/
  ((forall o', ~ accepted o o') /\ exists o', validate o = VFail o').
Proof. exact validate_plain. Qed.
Print Assumptions C18_pass_or_flag1.

(** C18: all outcomes.  The fields are dealt with in a fixed order.  When the routine
    stops, the earlier fields have been dealt with and the later ones are untouched;
    exit code 1 means that the field it stopped at has no admissible reading, and an
    exception comes only from the listed causes *)
Theorem C18_outcome : forall o,
  match validate o with
  | VDone o' => reached 13 o o'
  | VFail o' => exists k, (k < 13)%nat /\ reached k o o' /\ (forall q, ~ rule k o q) /\ ~ raises_at k o o'
  | VRaise => exists k o', (k < 13)%nat /\ reached k o o' /\ raises_at k o o'
  end.
Proof. exact validate_outcome. Qed.
Print Assumptions C18_outcome.

Example C18_ex_pass : plain some_opts /\ validate some_opts = VDone (
  mkopts (Some (NInt 1)) (Some (NInt 1)) (Some (VInt 121)) (Some (NFlt (Fin (1 # 100000000))))
    (Some (NFlt PInf)) (Some (NInt 500)) (Some (NInt 1000)) (Some (NFlt (Fin (1 # 100000))))
    (Some (NFlt (Fin (1 # 10)))) (Some (NFlt NaN)) (Some (VInt 130)) (Some (VInt 0)) (Some (VInt 142))).
Proof.
  split; [|vm_compute; reflexivity].
  split; [|split]; simpl.
  - intros x H. injection H as <-. eauto.
  - intros x H. injection H as <-. intros [H|H]; discriminate.
  - intros z. repeat split; discriminate.
Qed.

Example C18_ex_flag1 : exists o o', plain o /\ validate o = VFail o'.
Proof.
  exists (mkopts None None None (Some (NInt 0)) None None None None None None None None None).
  eexists. split; [|vm_compute; reflexivity].
  split; [|split]; simpl; try discriminate. intros z. repeat split; discriminate.
Qed.

(** C18: the message itself can fail, an infinite verbosity raises an exception *)
Example C18_ex_raise : validate
  (mkopts None (Some (NFlt PInf)) None None None None None None None None None None None) = VRaise.
Proof. vm_compute. reflexivity. Qed.

(** C19: validating the numeric part of validated options changes nothing *)
Theorem C19_numeric_idempotent : forall o o', validate o = VDone o' -> exists o'',
  validate (numeric_part o') = VDone o'' /\ numeric_part o'' = numeric_part o'.
Proof. exact numeric_twice. Qed.
Print Assumptions C19_numeric_idempotent.

(** C19: validating validated options raises an exception *)
Theorem C19_second_validation_refuted : forall o o', validate o = VDone o' -> validate o' = VRaise.
Proof. exact second_raises. Qed.
Print Assumptions C19_second_validation_refuted.

(** C19: an options object that is an instance is left as it was, as is every other
    object that existed before *)
Theorem C19_instance_untouched : forall h r,
  fst (hcell h r) = Instance -> (r < hnext h)%nat ->
  snd (run_options h r) = validate (snd (hcell h r)) /\
  forall i, (i < hnext h)%nat -> hcell (fst (run_options h r)) i = hcell h i.
Proof. exact instance_untouched. Qed.
Print Assumptions C19_instance_untouched.

(** C19: an options object that is a class is overwritten, so that the next call
    with it raises an exception *)
Theorem C19_class_overwritten_refuted : forall h r o',
  fst (hcell h r) = ClassObj -> validate (snd (hcell h r)) = VDone o' ->
  hcell (fst (run_options h r)) r = (ClassObj, o') /\
  snd (run_options (fst (run_options h r)) r) = VRaise.
Proof. exact class_overwritten. Qed.
Print Assumptions C19_class_overwritten_refuted.

(** C19: a failing validation leaves the assignments it has made in the class *)
Theorem C19_class_failed : forall h r o',
  fst (hcell h r) = ClassObj -> validate (snd (hcell h r)) = VFail o' ->
  hcell (fst (run_options h r)) r = (ClassObj, o').
Proof. exact class_failed. Qed.
Print Assumptions C19_class_failed.

Example C19_ex_failed :
  let h := mkheap 1 (fun _ => (ClassObj,
    mkopts None None None None None (Some (NInt 0)) None None None None None None None)) in
  hcell (fst (run_options h 0)) 0 = (ClassObj,
    mkopts (Some (NInt 1)) (Some (NInt 1)) (Some (VInt 120)) (Some (NFlt (Fin (1 # 100000000))))
      (Some (NFlt PInf)) (Some (NInt 0)) None None None None None None None).
Proof. vm_compute. reflexivity. Qed.

Example C19_ex_class : exists o',
  validate (snd (hcell (one_obj ClassObj) 0)) = VDone o' /\
  hcell (fst (run_options (one_obj ClassObj) 0)) 0 <> hcell (one_obj ClassObj) 0.
Proof. eexists. split; [vm_compute; reflexivity|]. vm_compute. discriminate. Qed.

Example C19_ex_instance :
  hcell (fst (run_options (one_obj Instance) 0)) 0 = (Instance, no_opts) /\
  exists o', snd (run_options (one_obj Instance) 0) = VDone o'.
Proof. split; [vm_compute; reflexivity|]. eexists. vm_compute. reflexivity. Qed.
