(** Proofs about the evaluation of the user functions. *)
From Coq Require Import List ZArith QArith Bool.
Import ListNotations.
From Verif Require Import QB Book_Model Main_Model Usr_Model Usr_Spec.
Local Open Scope Q_scope.

Lemma evaluate_calls : forall U y, v_calls (evaluate U y) =
  ToF y :: match u_c U with None => [] | Some _ => [ToC (f_left U y)] end.
Proof.
  intros U y. unfold evaluate, func, call_f, call_c, f_left, fresh. cbn [m_list m_col].
  destruct (u_f U y) as [r l]. cbn [snd].
  destruct (u_c U) as [g|]; destruct r; cbn [m_list m_col];
    try (destruct (g l) as [k l2]; destruct k); reflexivity.
Qed.

Lemma evaluate_point : forall U y, v_point (evaluate U y) = y /\ v_after (evaluate U y) = y.
Proof.
  intros U y. unfold evaluate, func, call_f, call_c, fresh. cbn [m_list m_col].
  destruct (u_f U y) as [r l].
  destruct (u_c U) as [g|]; destruct r; cbn [m_list m_col];
    try (destruct (g l) as [k l2]; destruct k); split; reflexivity.
Qed.

(** the verdict in terms of the two answers *)
Definition verdict_of (r : fret) (k : cret) : verdict :=
  check (mkF (orb (match r with FRaise => true | _ => false end)
                  (match k with CRaise => true | CRagged => true | _ => false end))
             (match r with FRaise => FVal PInf | _ => r end)
             (match k with CRaise => CVal [] | _ => k end) [] (mkM [] [])).

Lemma evaluate_verdict : forall U y, v_verdict (evaluate U y) = verdict_of (f_at U y) (c_at U y).
Proof.
  intros U y. unfold evaluate, func, call_f, call_c, f_at, c_at, f_left, fresh, verdict_of.
  cbn [m_list m_col v_verdict]. destruct (u_f U y) as [r l]. cbn [fst snd].
  destruct (u_c U) as [g|]; destruct r; cbn [m_list m_col];
    try (destruct (g l) as [k l2]; destruct k); reflexivity.
Qed.

Lemma qmin_cut : forall q f, f = qmin c1e25 q <-> ((q < c1e25 -> f = q) /\ (c1e25 <= q -> f = c1e25)).
Proof.
  intros q f. unfold qmin. destruct (qleb c1e25 q) eqn:H.
  - apply qleb_iff in H. split.
    + intros ->. split; [intro L; exfalso; apply (Qlt_not_le _ _ L H)|reflexivity].
    + intros [_ K]. apply K, H.
  - apply qleb_false in H. split.
    + intros ->. split; [reflexivity|intro L; exfalso; apply (Qlt_not_le _ _ H L)].
    + intros [K _]. apply K, H.
Qed.

Lemma cut_clampx : forall v w, is_nan v = false -> (cut v w <-> w = clampx v).
Proof.
  intros v w N. destruct v as [q| | |]; cbn [is_nan] in N; try discriminate; unfold cut, clampx; try tauto.
  unfold clamp25. destruct (qltb c1e25 q) eqn:A.
  - apply qltb_iff in A. split; [intros (_ & K & _); exact (K A)|].
    intros ->. split; [|split]; [intros [_ K]; exfalso; apply (Qlt_not_le _ _ A K)|reflexivity|].
    intro K. exfalso. apply (Qlt_not_le _ _ A). apply Qlt_le_weak, (Qlt_trans _ _ _ K). reflexivity.
  - apply qltb_false in A. destruct (qltb q (- c1e25)) eqn:B.
    + apply qltb_iff in B. split; [intros (_ & _ & K); exact (K B)|].
      intros ->. split; [|split]; [intros [K _]; exfalso; apply (Qlt_not_le _ _ B K)| |reflexivity].
      intro K. exfalso. apply (Qlt_not_le _ _ K A).
    + apply qltb_false in B. split; [intros (K & _); apply K; split; assumption|].
      intros ->. split; [|split]; [reflexivity| |].
      * intro K. exfalso. apply (Qlt_not_le _ _ K A).
      * intro K. exfalso. apply (Qlt_not_le _ _ K B).
Qed.

Lemma cuts_clampx : forall vs ws, existsb is_nan vs = false -> (Forall2 cut vs ws <-> ws = map clampx vs).
Proof.
  induction vs as [|v vs IH]; intros ws N; cbn [map].
  - split; [intro H; inversion H; reflexivity|intros ->; constructor].
  - cbn [existsb] in N. apply orb_false_iff in N as [N1 N2]. split.
    + intro H. inversion H as [|? w ? ws' A B]; subst. apply (cut_clampx v w N1) in A. apply (IH ws' N2) in B.
      subst. reflexivity.
    + intros ->. constructor; [apply (cut_clampx v _ N1); reflexivity|apply (IH _ N2); reflexivity].
Qed.

Lemma cuts_no_nan : forall vs ws, Forall2 cut vs ws -> existsb is_nan vs = false.
Proof.
  intros vs ws H. induction H as [|v w vs ws A B IH]; [reflexivity|]. cbn [existsb]. rewrite IH.
  destruct v; cbn [is_nan orb]; try reflexivity. destruct A.
Qed.

Lemma nan_in : forall vs, existsb is_nan vs = true <-> In NaN vs.
Proof.
  intro vs. rewrite existsb_exists. split.
  - intros (v & H & K). destruct v; cbn in K; try discriminate. exact H.
  - intro H. exists NaN. split; [exact H|reflexivity].
Qed.

Lemma recorded_iff : forall U y f ce, v_verdict (evaluate U y) = Recorded f ce <->
  exists q vs, finite_part (f_at U y) q /\ c_at U y = CVal vs /\ Forall2 cut vs ce /\
    (q < c1e25 -> f = q) /\ (c1e25 <= q -> f = c1e25).
Proof.
  intros U y f ce. rewrite evaluate_verdict. generalize (f_at U y) (c_at U y). intros r k. split.
  - intro H. unfold verdict_of, check in H. cbn [r_f r_c r_msg] in H.
    destruct r as [v|a b|vs| |]; cbn [cond is_nan is_inf] in H; try discriminate.
    + destruct v as [q| | |]; cbn [is_nan is_inf] in H; try discriminate.
      destruct k as [vs| | |]; cbn [orb existsb] in H; try discriminate.
      destruct (existsb is_nan vs) eqn:N; try discriminate. cbn [real] in H. injection H as Hf Hc.
      exists q, vs. split; [left; reflexivity|]. split; [reflexivity|].
      split; [apply (cuts_clampx vs ce N); symmetry; exact Hc|]. apply qmin_cut. symmetry. exact Hf.
    + destruct a as [q| | |]; destruct b as [p| | |]; cbn [is_nan is_inf orb] in H; try discriminate.
      destruct k as [vs| | |]; cbn [orb existsb] in H; try discriminate.
      destruct (existsb is_nan vs) eqn:N; try discriminate. cbn [real] in H. injection H as Hf Hc.
      exists q, vs. split; [right; exists p; reflexivity|]. split; [reflexivity|].
      split; [apply (cuts_clampx vs ce N); symmetry; exact Hc|]. apply qmin_cut. symmetry. exact Hf.
  - intros (q & vs & F & -> & C & Hf). apply qmin_cut in Hf. pose proof (cuts_no_nan vs ce C) as N.
    apply (cuts_clampx vs ce N) in C. subst f ce. destruct F as [->|[p ->]];
      unfold verdict_of, check; cbn [r_f r_c r_msg cond is_nan is_inf orb real]; rewrite N; reflexivity.
Qed.

(** a part of the answer is NaN or infinite *)
Lemma failed_iff : forall U y, v_verdict (evaluate U y) = Failed <->
  (f_at U y = FRaise \/ (exists v, f_at U y = FVal v /\ forall q, v <> Fin q) \/
   (exists a b, f_at U y = FComplex a b /\ ((forall q, a <> Fin q) \/ (forall q, b <> Fin q)))) \/
  ((exists q, finite_part (f_at U y) q) /\ (c_at U y = CRaise \/ exists vs, c_at U y = CVal vs /\ In NaN vs)).
Proof.
  intros U y. rewrite evaluate_verdict. generalize (f_at U y) (c_at U y). intros r k. split.
  - intro H. unfold verdict_of, check in H. cbn [r_f r_c r_msg] in H.
    destruct r as [v|a b|vs| |]; cbn [cond] in H; try discriminate.
    + destruct v as [q| | |].
      * right. split; [exists q; left; reflexivity|]. cbn [is_nan is_inf] in H.
        destruct k as [vs| | |]; cbn [orb] in H; try discriminate.
        -- right. exists vs. split; [reflexivity|]. apply nan_in. destruct (existsb is_nan vs); [reflexivity|discriminate].
        -- left. reflexivity.
      * left. right. left. exists PInf. split; [reflexivity|discriminate].
      * left. right. left. exists NInf. split; [reflexivity|discriminate].
      * left. right. left. exists NaN. split; [reflexivity|discriminate].
    + destruct a as [q| | |]; [destruct b as [p| | |]|..];
        try (left; right; right; eexists; eexists; split; [reflexivity|right; discriminate]);
        try (left; right; right; eexists; eexists; split; [reflexivity|left; discriminate]).
      right. split; [exists q; right; exists p; reflexivity|]. cbn [is_nan is_inf orb] in H.
      destruct k as [vs| | |]; try discriminate.
      * right. exists vs. split; [reflexivity|]. apply nan_in. destruct (existsb is_nan vs); [reflexivity|discriminate].
      * left. reflexivity.
    + left. left. reflexivity.
  - intros [[->|[(v & -> & N)|(a & b & -> & N)]]|((q & F) & K)].
    + reflexivity.
    + unfold verdict_of, check. cbn [r_f cond]. destruct v as [q| | |]; try reflexivity. destruct (N q). reflexivity.
    + unfold verdict_of, check. cbn [r_f cond].
      destruct a as [q| | |]; destruct b as [p| | |]; try reflexivity.
      destruct N as [N|N]; [destruct (N q)|destruct (N p)]; reflexivity.
    + assert (E : match k with CRaise => True | CVal vs => existsb is_nan vs = true | _ => False end).
      { destruct K as [->|(vs & -> & I)]; [exact Logic.I|apply nan_in, I]. }
      clear K. destruct F as [->|[p ->]]; unfold verdict_of, check; cbn [r_f r_c r_msg cond is_nan is_inf orb];
        destruct k as [vs| | |]; try contradiction; try rewrite E; reflexivity.
Qed.

Lemma escapes_iff : forall U y, v_verdict (evaluate U y) = Escapes <->
  no_number (f_at U y) \/ ((exists q, finite_part (f_at U y) q) /\ (c_at U y = COther \/ c_at U y = CRagged)).
Proof.
  intros U y. rewrite evaluate_verdict. generalize (f_at U y) (c_at U y). intros r k. split.
  - intro H. unfold verdict_of, check in H. cbn [r_f r_c r_msg] in H.
    destruct r as [v|a b|vs| |]; cbn [cond] in H; try discriminate.
    + destruct v as [q| | |]; cbn [is_nan is_inf] in H; try discriminate.
      right. split; [exists q; left; reflexivity|].
      destruct k as [vs| | |]; cbn [orb existsb] in H; try discriminate; try tauto.
      destruct (existsb is_nan vs); discriminate.
    + destruct a as [q| | |]; destruct b as [p| | |]; cbn [is_nan is_inf orb] in H; try discriminate.
      right. split; [exists q; right; exists p; reflexivity|].
      destruct k as [vs| | |]; cbn [orb existsb] in H; try discriminate; try tauto.
      destruct (existsb is_nan vs); discriminate.
    + left. right. exists vs. reflexivity.
    + left. left. reflexivity.
  - intros [[->|[vs ->]]|((q & [->|[p ->]]) & [->| ->])]; reflexivity.
Qed.

Lemma same_point : forall U y k, hands_off U -> In k (v_calls (evaluate U y)) -> k = ToF y \/ k = ToC y.
Proof.
  intros U y k H I. rewrite evaluate_calls in I. rewrite (H y) in I. destruct (u_c U); cbn [In] in I.
  - destruct I as [<-|[<-|[]]]; [left|right]; reflexivity.
  - destruct I as [<-|[]]; left; reflexivity.
Qed.

Lemma imaginary : forall U V y q p, f_at U y = FComplex (Fin q) (Fin p) -> f_at V y = FVal (Fin q) ->
  f_left U y = f_left V y -> u_c U = u_c V -> v_verdict (evaluate U y) = v_verdict (evaluate V y).
Proof.
  intros U V y q p A B C D. rewrite !evaluate_verdict. unfold c_at. rewrite A, B, C, D.
  unfold verdict_of, check. cbn [r_f r_c r_msg cond is_nan is_inf orb real]. reflexivity.
Qed.

Lemma as_in_loop : forall U y o, seen (f_at U y) (c_at U y) o ->
  v_verdict (evaluate U y) = match eval_user o with EvOk f ce => Recorded (qmin c1e25 f) ce | EvFail _ => Failed end.
Proof.
  intros U y o [F C]. rewrite evaluate_verdict. destruct o as [fo co]. unfold eval_user. cbn [o_f o_c] in *.
  destruct (f_at U y) as [v|a b|vs| |]; try contradiction; rewrite F.
  - destruct v as [q| | |]; try reflexivity.
    destruct (c_at U y) as [vs| | |]; try contradiction; rewrite C.
    + unfold verdict_of, check. cbn [r_f r_c r_msg cond is_nan is_inf orb real].
      destruct (existsb is_nan vs); reflexivity.
    + reflexivity.
  - reflexivity.
Qed.

Lemma message_iff : forall U y, r_msg (func U y) = true <->
  f_at U y = FRaise \/ c_at U y = CRaise \/ c_at U y = CRagged.
Proof.
  intros U y. unfold func, call_f, call_c, f_at, c_at, f_left, fresh. cbn [m_list m_col].
  destruct (u_f U y) as [r l]. cbn [fst snd].
  destruct (u_c U) as [g|]; destruct r; cbn [m_list m_col];
    try (destruct (g l) as [k l2]; destruct k); cbn; intuition congruence.
Qed.
