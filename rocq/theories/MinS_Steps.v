(** How the number of subspace steps is tied to the ending of the search. *)
From Coq Require Import Reals List Arith ZArith Bool Lia Lra.
From Verif Require Import RVec RBool MinQ_Model MinQ_Spec LDL_Model MinS_Model.
Import ListNotations.

Lemma loop_trace n G xu xo unfix : forall fuel s count k trace s' tr,
  coord_loop fuel n G xu xo unfix s count k trace = CSDone s' tr -> exists new, tr = new ++ trace.
Proof.
  induction fuel as [|fuel IH]; intros s count k trace s' tr H; cbn [coord_loop] in H; [discriminate|].
  destruct (scan _ _ _ _ _ _) as [c1 k1|c1 k1|]; [| |discriminate].
  - destruct (n <? c1)%nat; [injection H as <- <-; exists []; reflexivity|].
    destruct (coord_step G xu xo s k1) as [[s1 r1]|]; [|discriminate].
    destruct (IH _ _ _ _ _ _ H) as (new & ->). exists (new ++ [k1]). rewrite <- app_assoc. reflexivity.
  - injection H as <- <-. exists []. reflexivity.
Qed.

(** with unfix a coordinate is always tried *)
Lemma unfix_tries fuel n G xu xo s s' : (1 <= n)%nat -> coordinateSearch fuel n G xu xo true s <> CSDone s' [].
Proof.
  intros Hn H. unfold coordinateSearch in H. destruct fuel as [|fuel]; cbn [coord_loop] in H; [discriminate|].
  replace (n + 1 - 0)%nat with (S n) in H by lia. cbn [scan] in H.
  unfold next_k in H. cbn [Z.of_nat] in H.
  destruct (Z.eqb_spec (-1) (Z.of_nat n - 1)) as [X|_]; [lia|]. 
  replace (-1 + 1)%Z with 0%Z in H by lia.
  destruct (Z.leb_spec (Z.of_nat n) 0) as [X|_]; [lia|]. rewrite orb_true_r in H.
  destruct (n <? 1)%nat eqn:E; [apply Nat.ltb_lt in E; lia|].
  destruct (coord_step G xu xo s (Z.to_nat 0)) as [[s1 r1]|]; [|discriminate].
  destruct (loop_trace _ _ _ _ _ _ _ _ _ _ _ _ H) as (new & K). destruct new; discriminate.
Qed.

Section Steps.
Variables (neps : R) (slv : solver) (n : nat) (G : mat) (c : vec) (gamma : R) (xu xo : nat -> xR).
Hypothesis Hn : (1 <= n)%nat.

(** fixed variables stay fixed in a coordinate search only after a subspace step *)
Definition counted (s : mqstate) : Prop := m_unfix s = false -> (1 <= m_nsub s)%nat.

Lemma sub_counted s s' : counted s -> subspaceSearch neps slv n G xu xo s = SubDone s' -> counted s' /\ (m_nsub s <= m_nsub s')%nat.
Proof.
  intros C H. unfold subspaceSearch in H. destruct (_ || _); [injection H as <-; auto|].
  destruct (_ =? _)%nat; [injection H as <-; split; [discriminate|cbn; lia]|].
  unfold subspace in H. destruct (downdate _ _ _ _ _ _ _) as [[[L1 d1] K1]|]; [|discriminate].
  destruct (update _ _ _ _ _ _ _ _) as [[[L2 d2] K2]|]; [|discriminate].
  destruct (newton _ _ _ _ _ _) as [[p|]|]; try discriminate. cbv zeta in H.
  destruct (qm_x _); [|discriminate]. injection H as <-. unfold counted. cbn [m_nsub]. split; lia.
Qed.

Lemma loop_steps : forall fuel cfuel s why x f info k, counted s ->
  mq_loop neps slv n G c gamma xu xo fuel cfuel s = MqReturn why x f info k ->
  (m_nsub s <= k)%nat /\ (why = Limit -> k = (3 * n)%nat) /\ (why = NothingTried -> (1 <= k)%nat).
Proof.
  induction fuel as [|fuel IH]; intros cfuel s why x f info k C H; cbn [mq_loop] in H; [discriminate|].
  destruct (stop_reason n G c gamma s) as [w|] eqn:S.
  - injection H as <- <- <- <- <-. split; [lia|]. unfold stop_reason in S. cbv zeta in S.
    destruct (_ && (m_nsub s =? 3 * n)%nat) eqn:L.
    + injection S as <-. split; [|discriminate]. intros _. apply andb_prop in L. destruct L as (_ & L). apply Nat.eqb_eq in L. exact L.
    + destruct (negb _); [injection S as <-; split; discriminate|].
      destruct (3 <? _)%nat; [injection S as <-; split; discriminate|].
      destruct (_ && _ && _); [injection S as <-; split; discriminate|discriminate].
  - destruct (coordinateSearch cfuel n G xu xo (m_unfix s) _) as [cs [|t tr]|? ? cs ?|? ?|? ?] eqn:CS; try discriminate.
    + injection H as <- <- <- <- <-. split; [lia|]. split; [discriminate|]. intros _. apply C.
      destruct (m_unfix s); [|reflexivity]. exfalso. exact (unfix_tries _ _ _ _ _ _ _ Hn CS).
    + destruct (subspaceSearch neps slv n G xu xo _) as [| |s'] eqn:SS; try discriminate.
      assert (C1 : counted (after_coord n G c gamma s cs (best_value n G c gamma s))) by exact C.
      destruct (sub_counted _ _ C1 SS) as (C2 & LE). cbn [after_coord m_nsub] in LE.
      destruct (IH _ _ _ _ _ _ _ C2 H) as (A & B). split; [lia|exact B].
    + injection H as <- <- <- <- <-. split; [lia|]. split; discriminate.
Qed.
End Steps.

Lemma t_steps : forall neps slv fuel cfuel n G c gamma xu xo x0 why x f info k, (1 <= n)%nat ->
  fst (minq_search neps slv fuel cfuel n G c gamma xu xo x0) = MqReturn why x f info k ->
  (why = Limit -> k = (3 * n)%nat) /\ (why = NothingTried -> (1 <= k)%nat).
Proof.
  intros neps slv fuel cfuel n G c gamma xu xo x0 why x f info k Hn H. cbn [minq_search fst] in H.
  apply (loop_steps _ _ _ _ _ _ _ _ Hn) in H; [apply H|]. intros K. discriminate.
Qed.
