(** Witnesses for the evaluation of the user functions. *)
From Coq Require Import List ZArith QArith Bool.
Import ListNotations.
From Verif Require Import QB Book_Model Main_Model Usr_Model Usr_Spec Usr_Proofs.
Local Open Scope Q_scope.

(** an objective that reverses the list it is handed, and the first component as
    constraint *)
Definition usr_rev : user :=
  mkU (fun x => (FVal (Fin 1), rev x)) (Some (fun x => (CVal [Fin (hd 0 x)], x))).

(** the sum of the components, the components as constraints *)
Definition usr_plain : user :=
  mkU (fun x => (FVal (Fin (fold_right Qplus 0 x)), x)) (Some (fun x => (CVal (map Fin x), x))).

(** an objective that raises, answers with None, or answers with a complex number *)
Definition usr_raise : user := mkU (fun x => (FRaise, x)) (u_c usr_plain).
Definition usr_none : user := mkU (fun x => (FOther, x)) None.
Definition usr_complex : user := mkU (fun x => (FComplex (Fin 1) (Fin 7), x)) None.

(** an infinite and a huge constraint value *)
Definition usr_big : user := mkU (fun x => (FVal (Fin (2 * c1e25)), x)) (Some (fun x => (CVal [NInf; Fin (3 * c1e25); Fin 1], x))).

Lemma other_point : ~ (forall U y f ce, v_verdict (evaluate U y) = Recorded f ce ->
  forall z, In (ToC z) (v_calls (evaluate U y)) -> z = y).
Proof.
  intro H. specialize (H usr_rev [1; 2] 1 [2] eq_refl [2; 1]).
  assert (C : [2; 1] = [1; 2]) by (apply H; cbn; tauto). discriminate.
Qed.
