(** Rational numbers with boolean comparisons, list updates and the small
    amount of list theory shared by the bookkeeping and main-loop models.
    Nothing here describes the program. *)
From Coq Require Import List Arith ZArith QArith Bool Lia Permutation.
Import ListNotations.

Definition qleb (a b : Q) : bool := Qle_bool a b.
Definition qltb (a b : Q) : bool := negb (Qle_bool b a).
Definition qeqb (a b : Q) : bool := Qeq_bool a b.
Definition qmin (a b : Q) : Q := if qleb a b then a else b.
Definition qmax (a b : Q) : Q := if qleb a b then b else a.
Definition qabs (a : Q) : Q := if qleb 0 a then a else - a.

Lemma qleb_iff a b : qleb a b = true <-> (a <= b)%Q.
Proof. unfold qleb. apply Qle_bool_iff. Qed.

Lemma qleb_false a b : qleb a b = false <-> (b < a)%Q.
Proof.
  unfold qleb. split; intros H.
  - destruct (Qlt_le_dec b a) as [L|L]; [exact L|].
    apply Qle_bool_iff in L. congruence.
  - destruct (Qle_bool a b) eqn:E; [|reflexivity].
    apply Qle_bool_iff in E. exfalso. apply (Qlt_not_le _ _ H E).
Qed.

Lemma qltb_iff a b : qltb a b = true <-> (a < b)%Q.
Proof.
  unfold qltb. rewrite negb_true_iff. fold (qleb b a). apply qleb_false.
Qed.

Lemma qltb_false a b : qltb a b = false <-> (b <= a)%Q.
Proof.
  unfold qltb. rewrite negb_false_iff. fold (qleb b a). apply qleb_iff.
Qed.

Lemma qeqb_iff a b : qeqb a b = true <-> (a == b)%Q.
Proof. unfold qeqb. apply Qeq_bool_iff. Qed.

Lemma qeqb_false a b : qeqb a b = false <-> ~ (a == b)%Q.
Proof.
  unfold qeqb. split; intros H.
  - intros E. apply Qeq_bool_iff in E. congruence.
  - destruct (Qeq_bool a b) eqn:E; [|reflexivity].
    apply Qeq_bool_iff in E. contradiction.
Qed.

Ltac qb :=
  repeat match goal with
  | H : qleb _ _ = true |- _ => apply (proj1 (qleb_iff _ _)) in H
  | H : qleb _ _ = false |- _ => apply (proj1 (qleb_false _ _)) in H
  | H : qltb _ _ = true |- _ => apply (proj1 (qltb_iff _ _)) in H
  | H : qltb _ _ = false |- _ => apply (proj1 (qltb_false _ _)) in H
  | H : qeqb _ _ = true |- _ => apply (proj1 (qeqb_iff _ _)) in H
  | H : qeqb _ _ = false |- _ => apply (proj1 (qeqb_false _ _)) in H
  | |- qleb _ _ = true => apply (proj2 (qleb_iff _ _))
  | |- qleb _ _ = false => apply (proj2 (qleb_false _ _))
  | |- qltb _ _ = true => apply (proj2 (qltb_iff _ _))
  | |- qltb _ _ = false => apply (proj2 (qltb_false _ _))
  end.

Lemma qmin_le_l a b : (qmin a b <= a)%Q.
Proof. unfold qmin. destruct (qleb a b) eqn:E; qb; [apply Qle_refl|apply Qlt_le_weak; exact E]. Qed.
Lemma qmin_le_r a b : (qmin a b <= b)%Q.
Proof. unfold qmin. destruct (qleb a b) eqn:E; qb; [exact E|apply Qle_refl]. Qed.
Lemma qmax_ge_l a b : (a <= qmax a b)%Q.
Proof. unfold qmax. destruct (qleb a b) eqn:E; qb; [exact E|apply Qle_refl]. Qed.
Lemma qmax_ge_r a b : (b <= qmax a b)%Q.
Proof. unfold qmax. destruct (qleb a b) eqn:E; qb; [apply Qle_refl|apply Qlt_le_weak; exact E]. Qed.
Lemma qmin_cases a b : qmin a b = a \/ qmin a b = b.
Proof. unfold qmin. destruct (qleb a b); auto. Qed.
Lemma qmax_cases a b : qmax a b = a \/ qmax a b = b.
Proof. unfold qmax. destruct (qleb a b); auto. Qed.

(** ** Lists with one entry changed *)

Section Upd.
Context {A : Type}.

Fixpoint upd (l : list A) (i : nat) (v : A) : list A :=
  match l, i with
  | [], _ => []
  | _ :: t, O => v :: t
  | h :: t, S k => h :: upd t k v
  end.

(** [a[m] = v] inside [try], with [except IndexError: append]. *)
Definition set_or_append (l : list A) (m : nat) (v : A) : list A :=
  if (m <? length l)%nat then upd l m v else l ++ [v].

Lemma upd_length l : forall i v, length (upd l i v) = length l.
Proof. induction l; intros [|i] v; cbn; congruence. Qed.

Lemma nth_error_upd_eq l : forall i v, (i < length l)%nat ->
  nth_error (upd l i v) i = Some v.
Proof.
  induction l as [|h t IH]; intros [|i] v H; cbn in *; try lia; auto.
  apply IH. lia.
Qed.

Lemma nth_error_upd_neq l : forall i j v, i <> j ->
  nth_error (upd l i v) j = nth_error l j.
Proof.
  induction l as [|h t IH]; intros [|i] [|j] v H; cbn; auto; try congruence.
Qed.

Lemma nth_error_soa_eq l m v : m = length l ->
  nth_error (set_or_append l m v) m = Some v.
Proof.
  intros ->. unfold set_or_append. rewrite Nat.ltb_irrefl.
  rewrite nth_error_app2 by lia. rewrite Nat.sub_diag. reflexivity.
Qed.

Lemma soa_length l m v : m = length l -> length (set_or_append l m v) = S m.
Proof.
  intros ->. unfold set_or_append. rewrite Nat.ltb_irrefl, app_length. cbn. lia.
Qed.

Lemma nth_error_soa_old l m v i : m = length l -> (i < m)%nat ->
  nth_error (set_or_append l m v) i = nth_error l i.
Proof.
  intros -> H. unfold set_or_append. rewrite Nat.ltb_irrefl.
  apply nth_error_app1. exact H.
Qed.

Lemma upd_out l : forall i v, (length l <= i)%nat -> upd l i v = l.
Proof.
  induction l as [|h t IH]; intros [|i] v H; cbn in *; auto; try lia.
  f_equal. apply IH. lia.
Qed.

Lemma in_upd l : forall i v x, In x (upd l i v) -> x = v \/ In x l.
Proof.
  induction l as [|h t IH]; intros [|i] v x H; cbn in *; auto.
  - destruct H; auto.
  - destruct H as [H|H]; auto. destruct (IH _ _ _ H); auto.
Qed.

Lemma list_ext (l1 l2 : list A) :
  (forall i, nth_error l1 i = nth_error l2 i) -> l1 = l2.
Proof.
  revert l2. induction l1 as [|h t IH]; intros [|h2 t2] H; auto.
  - specialize (H 0%nat). discriminate.
  - specialize (H 0%nat). discriminate.
  - f_equal. + specialize (H 0%nat). cbn in H. congruence.
    + apply IH. intros i. apply (H (S i)).
Qed.
End Upd.

Lemma upd_map {A B} (f : A -> B) l : forall i v, map f (upd l i v) = upd (map f l) i (f v).
Proof. induction l; intros [|i] v; cbn; congruence. Qed.

(** first smallest entry of a list: value and position (np.nanmin / np.nanargmin) *)
Fixpoint argmin_from (best : Q) (ib i : nat) (l : list Q) : Q * nat :=
  match l with
  | [] => (best, ib)
  | v :: t => if qltb v best then argmin_from v i (S i) t
              else argmin_from best ib (S i) t
  end.

Definition argmin (l : list Q) : option (Q * nat) :=
  match l with [] => None | v :: t => Some (argmin_from v 0 1 t) end.

(** largest entry (np.nanmax) *)
Definition qmaxl (l : list Q) : option Q :=
  match l with [] => None | v :: t => Some (fold_left qmax t v) end.

Definition qminl (l : list Q) : option Q :=
  match l with [] => None | v :: t => Some (fold_left qmin t v) end.

Lemma argmin_from_spec l : forall best ib i v k,
  argmin_from best ib i l = (v, k) ->
  (v <= best)%Q /\ (forall x, In x l -> (v <= x)%Q) /\
  ((v = best /\ k = ib) \/
   (exists j, k = (i + j)%nat /\ nth_error l j = Some v /\ (v < best)%Q /\
      forall j' w, (j' < j)%nat -> nth_error l j' = Some w -> (v < w)%Q)).
Proof.
  induction l as [|h t IH]; cbn; intros best ib i v k H.
  - injection H as <- <-. split; [apply Qle_refl|]. split; [tauto|]. left; auto.
  - destruct (qltb h best) eqn:E; qb; apply IH in H; destruct H as (H1 & H2 & H3).
    + split; [apply Qle_trans with h; [exact H1|apply Qlt_le_weak; exact E]|].
      split; [intros x [<-|Hx]; auto|].
      right. destruct H3 as [(-> & ->)|(j & -> & N & L & F)].
      * exists 0%nat. split; [lia|]. split; [reflexivity|]. split; [exact E|].
        intros; lia.
      * exists (S j). split; [lia|]. split; [exact N|].
        split; [apply Qlt_trans with h; assumption|].
        intros [|j'] w Hj Hw; cbn in Hw; [congruence|apply (F j'); auto; lia].
    + split; [exact H1|]. split.
      * intros x [<-|Hx]; auto. apply Qle_trans with best; assumption.
      * destruct H3 as [(-> & ->)|(j & -> & N & L & F)]; [left; auto|].
        right. exists (S j). split; [lia|]. split; [exact N|]. split; [exact L|].
        intros [|j'] w Hj Hw; cbn in Hw.
        -- injection Hw as <-. apply Qlt_le_trans with best; assumption.
        -- apply (F j'); auto; lia.
Qed.

Lemma argmin_spec l v k : argmin l = Some (v, k) ->
  nth_error l k = Some v /\ (forall x, In x l -> (v <= x)%Q) /\
  (forall j w, (j < k)%nat -> nth_error l j = Some w -> (v < w)%Q).
Proof.
  destruct l as [|h t]; cbn; [discriminate|]. intros H. injection H as H.
  apply argmin_from_spec in H. destruct H as (H1 & H2 & H3).
  split; [|split].
  - destruct H3 as [(-> & ->)|(j & -> & N & _)]; auto.
  - intros x [<-|Hx]; auto.
  - destruct H3 as [(-> & ->)|(j & -> & N & L & F)]; [intros; lia|].
    intros [|j'] w Hj Hw; cbn in Hw; [congruence|apply (F j'); auto; lia].
Qed.

Lemma argmin_some l : l <> [] -> exists v k, argmin l = Some (v, k).
Proof.
  destruct l as [|h t]; [congruence|]. intros _. cbn.
  destruct (argmin_from h 0 1 t) as [v k]. eauto.
Qed.

Lemma fold_qmax_ge t : forall v, (v <= fold_left qmax t v)%Q /\
  forall x, In x t -> (x <= fold_left qmax t v)%Q.
Proof.
  induction t as [|h t IH]; cbn; intros v; [split; [apply Qle_refl|tauto]|].
  destruct (IH (qmax v h)) as (A & B). split.
  - eapply Qle_trans; [apply qmax_ge_l|exact A].
  - intros x [<-|Hx]; auto. eapply Qle_trans; [apply qmax_ge_r|exact A].
Qed.

Lemma fold_qmax_in t : forall v, In (fold_left qmax t v) (v :: t).
Proof.
  induction t as [|h t IH]; cbn; intros v; auto.
  destruct (IH (qmax v h)) as [E|E]; auto.
  destruct (qmax_cases v h) as [R|R]; rewrite <- E, R; auto.
Qed.

Lemma qmaxl_spec l v : qmaxl l = Some v -> In v l /\ forall x, In x l -> (x <= v)%Q.
Proof.
  destruct l as [|h t]; cbn; [discriminate|]. intros H. injection H as <-.
  split; [apply fold_qmax_in|].
  destruct (fold_qmax_ge t h) as (A & B). intros x [<-|Hx]; auto.
Qed.

Lemma fold_qmin_le t : forall v, (fold_left qmin t v <= v)%Q /\
  forall x, In x t -> (fold_left qmin t v <= x)%Q.
Proof.
  induction t as [|h t IH]; cbn; intros v; [split; [apply Qle_refl|tauto]|].
  destruct (IH (qmin v h)) as (A & B). split.
  - eapply Qle_trans; [exact A|apply qmin_le_l].
  - intros x [<-|Hx]; auto. eapply Qle_trans; [exact A|apply qmin_le_r].
Qed.

Lemma fold_qmin_in t : forall v, In (fold_left qmin t v) (v :: t).
Proof.
  induction t as [|h t IH]; cbn; intros v; auto.
  destruct (IH (qmin v h)) as [E|E]; auto.
  destruct (qmin_cases v h) as [R|R]; rewrite <- E, R; auto.
Qed.

Lemma qminl_spec l v : qminl l = Some v -> In v l /\ forall x, In x l -> (v <= x)%Q.
Proof.
  destruct l as [|h t]; cbn; [discriminate|]. intros H. injection H as <-.
  split; [apply fold_qmin_in|].
  destruct (fold_qmin_le t h) as (A & B). intros x [<-|Hx]; auto.
Qed.
