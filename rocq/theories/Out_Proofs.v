From Coq Require Import List Arith ZArith QArith Bool Lia.
Import ListNotations.
From Verif Require Import QB Book_Model Book_Spec Main_Model Main_Spec Main_Proofs Opt_Model Drv_Model Drv_Spec Pre_Model Pre_Spec
  Sol_Model Sol_Spec Sol_Proofs Sol_More Out_Model Out_Spec.
Local Open Scope Q_scope.

Section P.
Context {P : Type}.
Variable E : env P.

Definition moves (n v : nat) (fls : list nat) (o : outc P) : Prop :=
  match o with
  | Crash => True
  | Continue s' => niter (sN s') = n /\ (v <= nsim (sA s'))%nat
  | Return fl s' _ => niter (sN s') = n /\ (v <= nsim (sA s'))%nat /\ In fl fls
  end.

Lemma ev_done A y A' f c : eval_at E A y = EDone A' f c -> nsim A' = S (nsim A).
Proof. unfold eval_at. destruct (eval_user _); [|discriminate]. destruct (Nat.eqb _ _); [|discriminate]. intros [= <- _ _]. reflexivity. Qed.
Lemma ev_fail A y A' v : eval_at E A y = EFail A' v -> nsim A' = S (nsim A).
Proof. unfold eval_at. destruct (eval_user _); [destruct (Nat.eqb _ _); discriminate|]. intros [= <- _]. reflexivity. Qed.

Lemma repl_nsim : forall js Y A ind fY ceY A' ind' fY' ceY', eval_replaced E js Y A ind fY ceY = Some (A', ind', fY', ceY') ->
  (nsim A <= nsim A')%nat.
Proof.
  induction js as [|j t IH]; cbn [eval_replaced]; intros Y A ind fY ceY A' ind' fY' ceY' H; [injection H as <- _ _ _; lia|].
  destruct (nth_error Y j); [|discriminate]. destruct (eval_at E A p) eqn:V; [|discriminate|discriminate].
  apply ev_done in V. apply IH in H. lia.
Qed.

Lemma finish_moves a A (I : incu P) N G v fls : (v <= nsim A)%nat -> moves (niter N) v fls (finish_rej a A I N G).
Proof. intros L. unfold finish_rej. destruct (a_exc4 a); cbn; auto. Qed.

Lemma reduce_moves a A (I : incu P) N G fxp v fls : (v <= nsim A)%nat -> In 15%nat fls ->
  moves (niter N) v fls (reduce E a A I N G fxp).
Proof.
  intros L F. unfold reduce. cbv zeta. destruct (_ || _)%bool; [cbn; auto|]. apply finish_moves. exact L.
Qed.

Lemma replaced_it a A I N G succ Y' pos x' fxp I' N' G' :
  replaced_by_trial E a A I N G succ Y' pos x' fxp = Some (I', N', G') -> niter N' = niter N.
Proof.
  unfold replaced_by_trial. destruct (store _ _ _ _ _ _ _); [|discriminate]. destruct succ.
  - destruct (swap_in_Y _ _ _ _ _) as [[S2 x2]|]; [|discriminate]. intros [= <- <- <-]. reflexivity.
  - intros [= <- <- <-]. reflexivity.
Qed.

Lemma reject_moves a A I N G succ fxp v fls : (v <= nsim A)%nat -> In 15%nat fls ->
  moves (niter N) v fls (reject E a A I N G succ fxp).
Proof.
  intros L F. unfold reject. cbv zeta. destruct (_ && _)%bool.
  - destruct (augment_Y _ _ _ _) as [p' Y']. destruct (store _ _ _ _ _ _ _); [|exact Logic.I].
    apply finish_moves. exact L.
  - destruct (_ || _)%bool; [|apply reduce_moves; assumption].
    destruct (include_in_Y _ _ _ _ _ _ _ _ _ _) as [[Y1 pos1] x1]. destruct pos1 as [pos|].
    + destruct (replaced_by_trial _ _ _ _ _ _ _ _ _ _ _) as [[[I' N'] G']|] eqn:R1; [|exact Logic.I].
      rewrite <- (replaced_it _ _ _ _ _ _ _ _ _ _ _ _ _ R1). apply finish_moves. exact L.
    + destruct (include_in_Y _ _ _ _ _ _ _ _ _ _) as [[Y2 pos2] x2]. destruct pos2 as [pos|]; [|apply reduce_moves; assumption].
      destruct (replaced_by_trial _ _ _ _ _ _ _ _ _ _ _) as [[[I' N'] G']|] eqn:R1; [|exact Logic.I].
      rewrite <- (replaced_it _ _ _ _ _ _ _ _ _ _ _ _ _ R1). apply finish_moves. exact L.
Qed.

Lemma accept_moves a A I N G rho fxp v fls : (v <= nsim A)%nat -> In 15%nat fls ->
  moves (niter N) v fls (accept E a A I N G rho fxp).
Proof.
  intros L F. unfold accept. cbv zeta.
  match goal with |- moves _ _ _ (match ?t with _ => _ end) => destruct t as [[Y' pos] x'] end.
  destruct pos as [ps|]; [|apply reject_moves; assumption].
  destruct (store _ _ _ _ _ _ _); [|exact Logic.I]. destruct (swap_in_Y _ _ _ _ _) as [[S2 x2]|]; [|exact Logic.I].
  destruct (a_exc4 a); cbn; auto.
Qed.

Lemma step_moves s a : moves (S (niter (sN s))) (nsim (sA s)) [3; 8; 15; 30]%nat (step E s a).
Proof.
  unfold step. cbv zeta. destruct (a_exc3 a); [exact Logic.I|]. destruct (_ && _)%bool; [cbn; auto 8|].
  destruct (eval_at E (sA s) (a_xnew a)) as [A f cc|A x|] eqn:V; [|apply ev_fail in V; cbn; repeat split; auto; lia|exact Logic.I].
  apply ev_done in V.
  match goal with |- moves _ _ _ match ?t with _ => _ end => destruct t as [[cX cp]|]; [|exact Logic.I] end.
  destruct (_ <? _)%nat; [exact Logic.I|]. destruct (a_minf a); [cbn; repeat split; auto; lia|].
  destruct (qeqb _ _); [cbn; split; auto; lia|]. destruct (qleb eta1 _).
  - destruct (qleb _ _); [cbn; repeat split; auto; lia|].
    match goal with |- moves _ _ _ (accept _ _ ?A3 _ ?N3 _ _ _) => apply (accept_moves a A3 _ N3) end; cbn; auto; lia.
  - match goal with |- moves _ _ _ (reject _ _ ?A3 _ ?N3 _ _ _) => apply (reject_moves a A3 _ N3) end; cbn; auto; lia.
Qed.

Lemma improve_moves s a : match improve E s a with
  | Crash => True
  | Continue s' => niter (sN s') = niter (sN s) /\ (nsim (sA s) <= nsim (sA s'))%nat
  | Return fl s' _ => (nsim (sA s) <= nsim (sA s'))%nat /\
      (fl = 15%nat /\ niter (sN s') = niter (sN s) \/ fl = 0%nat /\ niter (sN s') = S (niter (sN s)))
  end.
Proof.
  unfold improve. cbv zeta. destruct (_ || _)%bool; [cbn; auto|].
  destruct (repair_Y _ _ _ _ _ _ _ _ _ _ _) as [[[[[Y' repl] imp] rad] x']|]; [|exact Logic.I].
  match goal with |- match (match ?t with _ => _ end) with _ => _ end => destruct t as [po yr] end.
  destruct (eval_replaced _ _ _ _ _ _ _) as [[[[A' ind'] fY'] ceY']|] eqn:V; [|exact Logic.I].
  apply repl_nsim in V. destruct (find_smallf _ _ _ _ _ _ _) as [r|]; [|exact Logic.I].
  destruct (a_exc2 a); [exact Logic.I|]. destruct (_ && _)%bool; cbn; auto.
Qed.

(** the lines of a pass, by the way it ends *)
Definition numbered (n : nat) (l : list nat) (o : outc P) : Prop :=
  match o with
  | Crash => exists m, l = seq (S n) m
  | Continue s' => (n <= niter (sN s'))%nat /\ l = seq (S n) (niter (sN s') - n)
  | Return fl s' _ => (n <= niter (sN s'))%nat /\
      (In fl [5; 6; 15]%nat -> l = seq (S n) (niter (sN s') - n) ++ [niter (sN s')]) /\
      (~ In fl [5; 6; 15]%nat -> l = seq (S n) (niter (sN s') - n))
  end.

Lemma step_numbered s a : numbered (niter (sN s)) (map l_it (lines_step E s a)) (step E s a).
Proof.
  pose proof (step_moves s a) as M. unfold lines_step. destruct (step E s a) as [s'|fl s' f|]; cbn [moves] in M.
  all: swap 1 2.
  - destruct M as (M & _ & F). cbn [numbered]. rewrite M.
    replace (S (niter (sN s)) - niter (sN s))%nat with 1%nat by lia. cbn [seq].
    split; [lia|]. cbn in F. destruct F as [<-|[<-|[<-|[<-|[]]]]]; cbn; unfold line_of; rewrite ?M; cbn; split; intros H; try reflexivity; exfalso;
      first [apply H; cbn; auto | cbn in H; intuition discriminate].
  - destruct M as (M & _). cbn [numbered]. rewrite M. split; [lia|].
    replace (S (niter (sN s)) - niter (sN s))%nat with 1%nat by lia. reflexivity.
  - exists 1%nat. reflexivity.
Qed.

Lemma pass_numbered s a : numbered (niter (sN s)) (map l_it (lines_pass E s a)) (pass E s a).
Proof.
  unfold lines_pass, pass. cbv zeta.
  assert (K : forall fl f, In fl [5; 6]%nat -> numbered (niter (sN s)) (map l_it [line_of s]) (Return fl s f)).
  { intros fl f H. cbn [numbered]. rewrite Nat.sub_diag. split; [lia|]. split; [reflexivity|].
    intros H'. exfalso. apply H'. cbn in *. tauto. }
  destruct (e_miter E <=? niter (sN s))%nat; [apply K; cbn; auto|].
  destruct (e_msimul E <=? nsim (sA s))%nat; [apply K; cbn; auto|].
  destruct (a_exc1 a); [exists 0%nat; reflexivity|].
  set (gl := a_glagn1 a). set (fe := linf _). set (tols := (_ && _)%bool). destruct (_ || _)%bool.
  - set (er := _ / _). set (s1 := mkst _ _ _ _). destruct (tols && qleb er epsilon)%bool.
    + cbn [numbered]. subst s1. cbn [niter sN]. replace (S (niter (sN s)) - niter (sN s))%nat with 1%nat by lia.
      split; [lia|]. split; [|reflexivity]. intros H. cbn in H. exfalso. intuition discriminate.
    + assert (N1 : niter (sN s1) = S (niter (sN s))) by reflexivity.
      pose proof (improve_moves s1 a) as M. unfold lines_improve. clearbody s1.
      destruct (improve E s1 a) as [s2|fl s' f|].
      all: swap 1 2.
      * destruct M as (_ & [[-> M]|[-> M]]); rewrite N1 in M; cbn [numbered]; rewrite M; split; try lia.
        -- replace (S (niter (sN s)) - niter (sN s))%nat with 1%nat by lia. split.
           ++ intros _. cbn. rewrite N1, M. reflexivity.
           ++ intros H. exfalso. apply H. cbn. auto.
        -- replace (S (S (niter (sN s))) - niter (sN s))%nat with 2%nat by lia. split.
           ++ intros H. cbn in H. exfalso. intuition discriminate.
           ++ intros _. cbn. rewrite N1, M. reflexivity.
      * destruct M as (M & _). rewrite N1 in M. pose proof (step_numbered s2 a) as T. rewrite M in T.
        cbn [app map line_of l_it]. rewrite N1. destruct (step E s2 a) as [s'|fl s' f|]; cbn [numbered] in *.
        all: swap 1 2.
        -- destruct T as (L & T1 & T2). split; [lia|].
           replace (niter (sN s') - niter (sN s))%nat with (S (niter (sN s') - S (niter (sN s)))) by lia.
           cbn [seq app]. split; intros H; f_equal; auto.
        -- destruct T as (L & T1). split; [lia|].
           replace (niter (sN s') - niter (sN s))%nat with (S (niter (sN s') - S (niter (sN s)))) by lia.
           cbn [seq]. f_equal. exact T1.
        -- destruct T as (m & T). exists (S m). cbn [seq]. f_equal. exact T.
      * exists 1%nat. cbn. rewrite N1. reflexivity.
  - match goal with |- numbered _ (map _ (lines_step _ ?t _)) _ => exact (step_numbered t a) end.
Qed.

Lemma run_numbered : forall fuel ans k s, match run E fuel ans k s with
  | Some (Return fl s' f) => numbered (niter (sN s)) (map l_it (lines_run E fuel ans k s)) (Return fl s' f)
  | _ => exists m, map l_it (lines_run E fuel ans k s) = seq (S (niter (sN s))) m
  end.
Proof.
  induction fuel as [|n IH]; intros ans k s; [exists 0%nat; reflexivity|]. cbn [run lines_run].
  pose proof (pass_numbered s (ans k)) as M. destruct (pass E s (ans k)) as [s'|fl s' f|].
  all: swap 1 2.
  - rewrite app_nil_r. exact M.
  - destruct M as (L & M). specialize (IH ans (S k) s'). rewrite map_app, M.
    assert (EQ : S (niter (sN s')) = (S (niter (sN s)) + (niter (sN s') - niter (sN s)))%nat) by lia.
    destruct (run E n ans (S k) s') as [[s2|fl s2 f|]|].
    all: swap 1 2.
    + destruct IH as (L2 & T1 & T2). cbn [numbered]. split; [lia|].
      replace (niter (sN s2) - niter (sN s))%nat with ((niter (sN s') - niter (sN s)) + (niter (sN s2) - niter (sN s')))%nat by lia.
      rewrite seq_app, <- EQ. split; intros H; rewrite ?T1, ?T2 by exact H; rewrite ?app_assoc; reflexivity.
    + destruct IH as (m & T). rewrite T. eexists. rewrite EQ, <- seq_app. reflexivity.
    + destruct IH as (m & T). rewrite T. eexists. rewrite EQ, <- seq_app. reflexivity.
    + destruct IH as (m & T). rewrite T. eexists. rewrite EQ, <- seq_app. reflexivity.
  - rewrite app_nil_r. exact M.
Qed.

(** evaluation counts *)
Definition within (lo : nat) (l : list nat) (hi : nat) : Prop := rising (lo :: l ++ [hi]).

Lemma within_app lo l m l' hi : within lo l m -> within m l' hi -> within lo (l ++ l') hi.
Proof.
  unfold within. revert lo. induction l as [|x t IH]; intros lo H1 H2.
  - cbn [app] in *. destruct l' as [|y u]; cbn [app rising] in *; intuition lia.
  - cbn [app rising] in *. destruct H1 as (A & B). split; [exact A|]. apply (IH x); assumption.
Qed.

Definition ended (v : nat) (o : outc P) (l : list nat) : Prop :=
  match o with
  | Crash => exists hi, within v l hi
  | Continue s' | Return _ s' _ => within v l (nsim (sA s'))
  end.

Lemma step_within s a : ended (nsim (sA s)) (step E s a) (map l_ev (lines_step E s a)).
Proof.
  pose proof (step_moves s a) as M. unfold lines_step. destruct (step E s a) as [s'|fl s' f|]; cbn [moves ended] in *.
  all: swap 1 2.
  - destruct M as (_ & L & F). cbn in F. destruct F as [<-|[<-|[<-|[<-|[]]]]]; unfold within; cbn; lia.
  - unfold within. cbn. lia.
  - exists (nsim (sA s)). unfold within. cbn. lia.
Qed.

Lemma pass_within s a : ended (nsim (sA s)) (pass E s a) (map l_ev (lines_pass E s a)).
Proof.
  unfold lines_pass, pass. cbv zeta.
  destruct (e_miter E <=? niter (sN s))%nat; [unfold ended, within; cbn; lia|].
  destruct (e_msimul E <=? nsim (sA s))%nat; [unfold ended, within; cbn; lia|].
  destruct (a_exc1 a); [exists (nsim (sA s)); unfold within; cbn; lia|].
  set (gl := a_glagn1 a). set (fe := linf _). set (tols := (_ && _)%bool). destruct (_ || _)%bool.
  - set (er := _ / _). set (s1 := mkst _ _ _ _). destruct (tols && qleb er epsilon)%bool.
    + unfold ended, within. cbn. lia.
    + assert (N1 : nsim (sA s1) = nsim (sA s)) by reflexivity.
      pose proof (improve_moves s1 a) as M. unfold lines_improve. clearbody s1.
      destruct (improve E s1 a) as [s2|fl s' f|].
      all: swap 1 2.
      * destruct M as (M & _). unfold ended, within. cbn. rewrite N1 in *. lia.
      * destruct M as (_ & M). pose proof (step_within s2 a) as T. cbn [app map line_of l_ev]. rewrite N1 in *.
        assert (W : within (nsim (sA s)) [nsim (sA s)] (nsim (sA s2))) by (unfold within; cbn; lia).
        destruct (step E s2 a) as [s'|fl s' f|]; cbn [ended] in *.
        all: swap 1 2.
        -- exact (within_app _ [_] _ _ _ W T).
        -- exact (within_app _ [_] _ _ _ W T).
        -- destruct T as (hi & T). exists hi. exact (within_app _ [_] _ _ _ W T).
      * exists (nsim (sA s)). unfold within. cbn. rewrite N1. lia.
  - match goal with |- ended _ _ (map _ (lines_step _ ?t _)) => exact (step_within t a) end.
Qed.

Lemma run_within : forall fuel ans k s, match run E fuel ans k s with
  | Some (Return fl s' f) => within (nsim (sA s)) (map l_ev (lines_run E fuel ans k s)) (nsim (sA s'))
  | _ => exists hi, within (nsim (sA s)) (map l_ev (lines_run E fuel ans k s)) hi
  end.
Proof.
  induction fuel as [|n IH]; intros ans k s; [exists (nsim (sA s)); unfold within; cbn; lia|]. cbn [run lines_run].
  pose proof (pass_within s (ans k)) as M. destruct (pass E s (ans k)) as [s'|fl s' f|]; cbn [ended] in M.
  all: swap 1 2.
  - rewrite app_nil_r. exact M.
  - specialize (IH ans (S k) s'). rewrite map_app. destruct (run E n ans (S k) s') as [[s2|fl s2 f|]|].
  all: swap 1 2.
    + exact (within_app _ _ _ _ _ M IH).
    + destruct IH as (hi & T). exists hi. exact (within_app _ _ _ _ _ M T).
    + destruct IH as (hi & T). exists hi. exact (within_app _ _ _ _ _ M T).
    + destruct IH as (hi & T). exists hi. exact (within_app _ _ _ _ _ M T).
  - rewrite app_nil_r. exact M.
Qed.

End P.
