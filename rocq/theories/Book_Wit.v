(** Concrete data for the examples and refutations of the bookkeeping routines. *)
From Coq Require Import List Arith ZArith QArith Qabs Bool Permutation Lia Lqa.
Import ListNotations.
From Verif Require Import QB Book_Model Book_Spec Book_Proofs.
Local Open Scope Q_scope.

Definition w_set : iset (list Q) :=
  mkset [[1]; [2]; [3]; [4]] [6; 5; 7; 8]%nat [10; 20; 30; 40] [] [[11]; [12]; [13]; [14]].

(** insertion sort of the positions by decreasing value *)
Fixpoint w_ins (d : list Q) (i : nat) (l : list nat) : list nat :=
  match l with
  | [] => [i]
  | j :: t => if qleb (nth j d 0) (nth i d 0) then i :: l else j :: w_ins d i t
  end.

Definition w_sort (d : list Q) : list nat :=
  fold_right (w_ins d) [] (seq 0 (length d)).

Lemma w_ins_perm d i l : Permutation (w_ins d i l) (i :: l).
Proof.
  induction l as [|j t IH]; cbn; auto.
  destruct (qleb _ _); auto.
  rewrite IH. apply perm_swap.
Qed.

Inductive desc (d : list Q) : list nat -> Prop :=
| desc_nil : desc d []
| desc_cons i l : (forall j, In j l -> nth j d 0 <= nth i d 0) -> desc d l -> desc d (i :: l).

Lemma w_ins_desc d i l : desc d l -> desc d (w_ins d i l).
Proof.
  induction l as [|j t IH]; cbn; intros H.
  - constructor; auto. intros k [].
  - inversion H as [|? ? H1 H2]; subst. destruct (qleb _ _) eqn:E; qb.
    + constructor; auto. intros k [<-|Hk]; auto. eapply Qle_trans; [apply H1|]; auto.
    + constructor; auto. intros k Hk.
      apply (Permutation_in _ (w_ins_perm d i t)) in Hk.
      destruct Hk as [<-|Hk]; auto. apply Qlt_le_weak; auto.
Qed.

Lemma w_fold d l : Permutation (fold_right (w_ins d) [] l) l /\ desc d (fold_right (w_ins d) [] l).
Proof.
  induction l as [|i t (A & B)]; cbn; [split; constructor|]. split.
  - rewrite w_ins_perm. constructor. exact A.
  - apply w_ins_desc. exact B.
Qed.

Lemma desc_nth d l : desc d l -> forall a b, (a < b)%nat -> (b < length l)%nat ->
  nth (nth b l 0%nat) d 0 <= nth (nth a l 0%nat) d 0.
Proof.
  induction 1 as [|i l H1 H2 IH]; cbn; intros a b Hab Hb; [lia|].
  destruct b; [lia|]. destruct a.
  - apply H1. apply nth_In. lia.
  - apply IH; lia.
Qed.

Lemma w_sort_ok : sorts_desc w_sort.
Proof.
  intros d. unfold w_sort. destruct (w_fold d (seq 0 (length d))) as (A & B). split; auto.
  intros a b Hab Hb. apply desc_nth; auto.
  rewrite (Permutation_length A), seq_length. exact Hb.
Qed.

(** proposes 1 with improvement 1 for the last position, 1/2 with improvement 2 for
    position 1 in the first round, and nothing better afterwards *)
Definition w_new (k : nat) (Y : list Q) (j : nat) : nyj Q :=
  match k, j with
  | O, _ => NewPt 1 1
  | 1%nat, 1%nat => NewPt (1 # 2) 2
  | _, _ => NewPt 0 1
  end.

Lemma position_one :
  let S := mkset [[1]; [2]; [3]] [0; 1; 2]%nat [5; 1; 4] [] [] in
  exists r, find_smallf [0] (inside_bcast [-10] [10]) (fun _ => 0) 1 S [1] 5 0 = Some r /\
    r_set r = S /\ r_fx r = 5 /\
    in_bounds [-10] [10] [2] /\ nth_error (s_f S) 1 = Some 1 /\ 1 < r_fx r.
Proof.
  eexists. split; [vm_compute; reflexivity|]. repeat split; auto;
    destruct k as [|[|k]]; cbn in H; try discriminate; injection H as <-; cbn; lra.
Qed.

Lemma bounds_refuted : in_bounds [0; 5] [1; 6] [0; 5] /\ inside_bcast [0; 5] [1; 6] [0; 5] = false.
Proof.
  split; [|reflexivity]. repeat split; auto;
    destruct k as [|[|[|k]]]; cbn in H; try discriminate; injection H as <-; cbn; lra.
Qed.

Lemma truncated_penalty :
  let S := mkset [[0]; [9]; [1]] [0; 1; 2]%nat [1; 5; 0] [] [[0]; [0]; [10]] in
  let cn := fun c => Qabs (nth 0 c 0) in
  exists r, find_smallf [0] (inside_bcast [-10] [10]) cn (1 # 2) S [0] 1 0 = Some r /\
    r_ibest r = 2%nat /\
    exists m0 m2, merit_at cn (1 # 2) S 0 m0 /\ merit_at cn (1 # 2) S 2 m2 /\ m0 < m2.
Proof.
  intros S cn.
  assert (N : ~ all_zero (s_ce S)).
  { intros Z. specialize (Z [10] ltac:(cbn; auto) 10 ltac:(cbn; auto)). lra. }
  eexists. split; [vm_compute; reflexivity|]. split; [reflexivity|].
  exists 1, 5. split; [|split; [|reflexivity]].
  - exists 1. split; [reflexivity|]. right. split; auto. reflexivity.
  - exists 0. split; [reflexivity|]. right. split; auto. reflexivity.
Qed.

Lemma radius_refuted :
  exists Y repl imp r xb',
    repair_Y 0 (fun a b => 2 * Qabs (a - b)) (fun a => 4 * Qabs a) (fun _ _ _ => NoPt)
      w_sort 10 0 1 (6 # 5) [1; 90] 1 = Some ((Y, repl, imp, r), xb') /\
    ~ is_radius (fun a b => 2 * Qabs (a - b)) Y r.
Proof.
  do 5 eexists. split; [vm_compute; reflexivity|].
  intros (_ & _ & [H|(y & [<-|[]] & H)]); vm_compute in H; discriminate.
Qed.

Lemma augment_block :
  (length (snd (augment_Y 6 0 [1; 2; 3] [1; 2; 3; 4; 5])) = 8)%nat /\
  (length (snd (augment_Y 6 3 [1] [1; 2; 3; 4; 5; 6])) = 7)%nat.
Proof. split; reflexivity. Qed.

Lemma overwrite_zero : overwrite_ce [[0]; [inject_Z (10 ^ 25)]] = Some [[0]; [10 * 0]].
Proof. vm_compute. reflexivity. Qed.
Lemma overwrite_sign : overwrite_ce [[-1]; [inject_Z (10 ^ 25)]] = Some [[-1]; [10 * -1]].
Proof. vm_compute. reflexivity. Qed.
Lemma overwrite_still :
  exists c' v, overwrite_ce [[5 * inject_Z (10 ^ 24)]; [inject_Z (10 ^ 25)]] = Some c' /\
    In v (concat c') /\ huge v.
Proof.
  eexists. exists (10 * (5 * inject_Z (10 ^ 24))).
  split; [vm_compute; reflexivity|]. split.
  - vm_compute. auto.
  - left. vm_compute. discriminate.
Qed.
