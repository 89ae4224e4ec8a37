(** Boolean comparisons on the reals and real numbers extended by infinities. *)
From Coq Require Import Reals Lra Bool.
Open Scope R_scope.

Definition Rltb (x y : R) : bool := if Rlt_dec x y then true else false.
Definition Rleb (x y : R) : bool := if Rle_dec x y then true else false.
Definition Reqb (x y : R) : bool := if Req_EM_T x y then true else false.

Lemma Rltb_spec x y : reflect (x < y) (Rltb x y).
Proof. unfold Rltb. destruct (Rlt_dec x y); constructor; assumption. Qed.
Lemma Rleb_spec x y : reflect (x <= y) (Rleb x y).
Proof. unfold Rleb. destruct (Rle_dec x y); constructor; assumption. Qed.
Lemma Reqb_spec x y : reflect (x = y) (Reqb x y).
Proof. unfold Reqb. destruct (Req_EM_T x y); constructor; assumption. Qed.

Lemma Rltb_true x y : Rltb x y = true <-> x < y.
Proof. destruct (Rltb_spec x y); split; intros; try assumption; try reflexivity; try discriminate; contradiction. Qed.
Lemma Rltb_false x y : Rltb x y = false <-> y <= x.
Proof. destruct (Rltb_spec x y); split; intros; try reflexivity; try discriminate; lra. Qed.
Lemma Rleb_true x y : Rleb x y = true <-> x <= y.
Proof. destruct (Rleb_spec x y); split; intros; try assumption; try reflexivity; try discriminate; contradiction. Qed.
Lemma Rleb_false x y : Rleb x y = false <-> y < x.
Proof. destruct (Rleb_spec x y); split; intros; try reflexivity; try discriminate; lra. Qed.
Lemma Reqb_true x y : Reqb x y = true <-> x = y.
Proof. destruct (Reqb_spec x y); split; intros; try assumption; try reflexivity; try discriminate; contradiction. Qed.
Lemma Reqb_false x y : Reqb x y = false <-> x <> y.
Proof. destruct (Reqb_spec x y); split; intros; try assumption; try reflexivity; try discriminate; contradiction. Qed.

(** turn boolean comparisons in the context into inequalities *)
Ltac rb := repeat match goal with
  | H : Rltb _ _ = true |- _ => apply Rltb_true in H
  | H : Rltb _ _ = false |- _ => apply Rltb_false in H
  | H : Rleb _ _ = true |- _ => apply Rleb_true in H
  | H : Rleb _ _ = false |- _ => apply Rleb_false in H
  | H : Reqb _ _ = true |- _ => apply Reqb_true in H
  | H : Reqb _ _ = false |- _ => apply Reqb_false in H
  end.
(** split every real comparison in the goal *)
Ltac rcases := repeat match goal with
  | |- context [Rltb ?x ?y] => destruct (Rltb_spec x y)
  | |- context [Rleb ?x ?y] => destruct (Rleb_spec x y)
  | |- context [Reqb ?x ?y] => destruct (Reqb_spec x y)
  end.

(** A finite number or an infinity (Python floats without NaN). *)
Inductive xR := Fin (r : R) | PInf | NInf.

(** [e - r] for a finite [r]. *)
Definition xsub (e : xR) (r : R) : xR :=
  match e with Fin a => Fin (a - r) | PInf => PInf | NInf => NInf end.
(** [r <= e] and [e <= r] for a finite [r]. *)
Definition rlex (r : R) (e : xR) : bool := match e with Fin a => Rleb r a | PInf => true | NInf => false end.
Definition xler (e : xR) (r : R) : bool := match e with Fin a => Rleb a r | PInf => false | NInf => true end.
(** [e != 0]. *)
Definition xnz (e : xR) : bool := match e with Fin a => negb (Reqb a 0) | _ => true end.
(** the finite value; infinities never reach this use *)
Definition xval (e : xR) : R := match e with Fin a => a | _ => 0 end.
Definition is_ninf (e : xR) : bool := match e with NInf => true | _ => false end.
Definition is_pinf (e : xR) : bool := match e with PInf => true | _ => false end.

Definition rle_x (r : R) (e : xR) : Prop := match e with Fin a => r <= a | PInf => True | NInf => False end.
Definition xle_r (e : xR) (r : R) : Prop := match e with Fin a => a <= r | PInf => False | NInf => True end.

Lemma rlex_true r e : rlex r e = true <-> rle_x r e.
Proof. destruct e; simpl; [apply Rleb_true| |]; split; intros; try tauto; try reflexivity; discriminate. Qed.
Lemma xler_true r e : xler e r = true <-> xle_r e r.
Proof. destruct e; simpl; [apply Rleb_true| |]; split; intros; try tauto; try reflexivity; discriminate. Qed.
