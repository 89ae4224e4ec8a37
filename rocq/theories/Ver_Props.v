(** The accuracy test after an improvement of the interpolation set, and what the
    verbosity level changes in it (C60). *)
From Coq Require Import Reals Lra Psatz Lia List Arith Bool ZArith QArith Qreals.
From Verif Require Import RVec RBool Tri Poly_Model Poly_Spec Int_Model Int_Spec Int_Wit MS_Model MS_Spec MS_Wit
  QB Book_Model Main_Model Main_Spec Main_Wit New_Model New_Spec New_Wit Ver_Spec Ver_Proofs Ver_Wit.
Import ListNotations.
Local Open Scope Q_scope.

(** The poisedness is not recomputed and the improvement evaluated no point: then the
    estimated error is zero, and the loop goes on only if the gradient of the Lagrangian or
    the violation exceeds a hundred times its tolerance, however large the set is. *)
Theorem C60_quiet : forall P (E : env P) s a s', 0 <= e_tolb E -> a_repoised a = None ->
  pass E s a = Continue s' -> improved s s' -> calls (sA s') = calls (sA s) ++ [a_xnew a] ->
  errg (sN s') == 0 /\ (100 * e_tolg E < a_glagn2 a \/ 100 * e_tolf E < feasn (sN s')).
Proof. exact t_quiet. Qed.
Print Assumptions C60_quiet.

Example C60_quiet_ex : 0 <= e_tolb verE /\ a_repoised ver_b = None /\ exists s', pass verE ver_s ver_b = Continue s' /\
  improved ver_s s' /\ calls (sA s') = calls (sA ver_s) ++ [a_xnew ver_b].
Proof. split; [vm_compute; discriminate|]. split; [reflexivity|]. exact ver_on. Qed.

(** In the same situation a return with exit code 0 carries poisedness 0. *)
Theorem C60_quiet_return : forall P (E : env P) s a s' f, a_repoised a = None ->
  pass E s a = Return 0 s' f -> improved s s' -> calls (sA s') = calls (sA s) ->
  poised (sN s') = 0 /\ errg (sN s') == 0.
Proof. exact t_quiet_back. Qed.
Print Assumptions C60_quiet_return.

Example C60_quiet_return_ex : a_repoised ver_a = None /\ exists s' f, pass verE ver_s ver_a = Return 0 s' f /\
  improved ver_s s' /\ calls (sA s') = [0; 1] /\ s_Y (iS (sI s')) = [0; 1] /\ yrad (sN s') == 1.
Proof. split; [reflexivity|]. exact ver_quiet. Qed.

(** The poisedness is recomputed: exit code 0 after the improvement needs a product of
    poisedness and radius of at most 1/1000, and with such a product the loop goes on only
    if the gradient or the violation exceeds a hundred times its tolerance. *)
Theorem C60_loud : forall P (E : env P) s a s' po yr, a_repoised a = Some (po, yr) -> improved s s' ->
  (forall f, pass E s a = Return 0 s' f -> po * yr <= 1 # 1000 /\ poised (sN s') = po /\ yrad (sN s') = yr) /\
  (pass E s a = Continue s' -> poised (sN s') = po /\ yrad (sN s') = yr /\
     (0 <= e_tolb E -> po * yr <= 1 # 1000 -> 100 * e_tolg E < a_glagn2 a \/ 100 * e_tolf E < feasn (sN s'))).
Proof. exact t_loud. Qed.
Print Assumptions C60_loud.

Example C60_loud_ex :
  (exists s' f, pass verE ver_s (recomputed (1, 1 # 1000) ver_a) = Return 0 s' f /\ improved ver_s s') /\
  (exists s', pass verE ver_s (recomputed (1, 1) ver_a) = Continue s' /\ improved ver_s s' /\
     calls (sA s') = [0; 1; -1] /\ poised (sN s') = 1 /\ yrad (sN s') = 1).
Proof. exact (conj ver_small ver_loud). Qed.

(** The recomputed poisedness is at least 1, up to the errors of the trust-region solver:
    a value of 0 never comes from the poisedness routine with an accurate solver. *)
Theorem C60_at_least_one : forall slv pinv solver qr ill cure lSolver mode shift n p1 Y b tau e lam r,
  regular_case slv pinv qr ill cure mode shift n p1 Y b -> (2 <= p1)%nat -> (p1 <= full n)%nat ->
  honest n tau solver -> optimal n e solver ->
  poisedness slv pinv solver false lSolver mode shift n p1 b Y = Some (lam, r) -> (1 <= lam + e + tau)%R.
Proof. exact t_at_least. Qed.
Print Assumptions C60_at_least_one.

Example C60_at_least_one_ex : exists lam r, regular_case slv0 pinv0 qr01 ill0 cure0 0 false 1 2 Y01 b01 /\ (2 <= full 1)%nat /\
  honest 1 0 lin_solver /\ optimal 1 0 lin_solver /\
  poisedness slv0 pinv0 lin_solver false 1 0 false 1 2 b01 Y01 = Some (lam, r).
Proof. exact ver_at_least. Qed.

(** It is false that recomputing the poisedness of an unchanged set (which the library does
    at verbosity level 4 or higher, for printing) leaves the outcome of the pass unchanged. *)
Theorem C60_verbosity_refuted : ~ forall slv pinv qr ill cure chol slvv eig mode shift (E : env Q) k0 d0 s a s' f pr,
  tri_exact slv -> pinv_exact pinv -> chol_exact 1 chol -> slv_exact 1 slvv ->
  sane E -> begins E k0 d0 s -> 1 # 1000 < a_glagn1 a ->
  proposed slv pinv qr ill cure (ms_solver chol slvv eig 1 (/ 1000)) 1 mode shift (qmax (delta (sG s)) (1 # 100000)) (a_newpt a) ->
  pass E s a = Return 0 s' f -> improved s s' -> s_Y (iS (sI s')) = s_Y (iS (sI s)) ->
  measured slv pinv qr ill cure (ms_solver chol slvv eig 1 (/ 1000)) 1 mode shift (s_Y (iS (sI s'))) pr ->
  exists s2 f2, pass E s (recomputed pr a) = Return 0 s2 f2.
Proof. exact r_verbosity. Qed.
Print Assumptions C60_verbosity_refuted.

(** the runs behind it: f(x) = x/200 with tolerance 1/100, points 0 and 1 *)
Example C60_verbosity_ex : begins verE 2 1 ver_s /\
  (exists s' f, pass verE ver_s ver_a = Return 0 s' f /\ improved ver_s s' /\
     calls (sA s') = [0; 1] /\ s_Y (iS (sI s')) = [0; 1] /\ yrad (sN s') == 1) /\
  (exists s', pass verE ver_s (recomputed (1, 1) ver_a) = Continue s' /\ improved ver_s s' /\
     calls (sA s') = [0; 1; -1] /\ poised (sN s') = 1 /\ yrad (sN s') = 1).
Proof. exact (conj ver_begins (conj ver_quiet ver_loud)). Qed.
