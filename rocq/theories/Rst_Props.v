(** C85: rsort and removeByInd of minq_util.py. *)
From Coq Require Import List Arith ZArith QArith Permutation Sorting Lia.
Import ListNotations.
From Verif Require Import Rst_Model Rst_Spec Rst_Proofs.
Local Open Scope Q_scope.

(** C85: with Python 3 neither ever returns *)
Theorem C85_python3 : forall p x w a ind, rsort true p x w = None /\ remove_by_ind true a ind = None.
Proof. exact both_python3. Qed.
Print Assumptions C85_python3.

(** C85: with xrange, rsort returns for every non-empty array *)
Theorem C85_returns : forall p x w, sorts p x -> x <> [] -> exists r, rsort false p x w = Some r.
Proof. exact rsort_returns. Qed.
Print Assumptions C85_returns.

Example C85_returns_ex : sorts [0; 1]%nat [1; 2] /\ rsort true [0; 1]%nat [1; 2] [1; 1] = None.
Proof. split; [exact sorted_12|reflexivity]. Qed.

(** C85: the values come increasing, without repetition, and none is lost *)
Theorem C85_values : forall py3 p x w rx rw cdf dof, sorts p x -> rsort py3 p x w = Some (rx, rw, cdf, dof) ->
  increasing rx /\ (forall v, occurs v rx <-> occurs v x) /\ length rw = length rx /\ length cdf = length rx /\ dof = length x.
Proof. exact rsort_values. Qed.
Print Assumptions C85_values.

Example C85_values_ex : exists cdf, rsort false [2; 0; 1]%nat [2; 2; 1] [1; 1; 1] = Some ([1; 2], [1; 2], cdf, 3%nat).
Proof. eexists. vm_compute. reflexivity. Qed.

(** C85: without given weights the weights are the numbers of occurrences *)
Theorem C85_unit : forall py3 p x rx rw cdf dof, sorts p x ->
  rsort py3 p x (repeat 1 (length x)) = Some (rx, rw, cdf, dof) ->
  forall i, (i < length rx)%nat -> nth i rw 0 == inject_Z (Z.of_nat (times (nth i rx 0) x)).
Proof. exact rsort_unit. Qed.
Print Assumptions C85_unit.

Example C85_unit_ex : times 2 [2; 2; 1] = 2%nat /\ times 1 [2; 2; 1] = 1%nat.
Proof. split; reflexivity. Qed.

(** C85: the distribution is that of the weights returned *)
Theorem C85_cdf : forall py3 p x w rx rw cdf dof, rsort py3 p x w = Some (rx, rw, cdf, dof) -> ~ total rw == 0 ->
  forall i, (i < length rw)%nat -> nth i cdf 0 == (total (firstn (S i) rw) - (1 # 2) * nth i rw 0) / total rw.
Proof. exact rsort_cdf. Qed.
Print Assumptions C85_cdf.

Example C85_cdf_ex : exists rx rw c d, rsort false [0; 1]%nat [1; 2] [1; 1] = Some (rx, rw, c, d) /\
  nth 0 c 0 == 1 # 4 /\ nth 1 c 0 == 3 # 4.
Proof. do 4 eexists. split; [vm_compute; reflexivity|]. split; vm_compute; reflexivity. Qed.

(** C85: given weights are not added up per value *)
Theorem C85_weights_refuted : ~ (forall p x w rx rw cdf dof, sorts p x -> length w = length x ->
  rsort false p x w = Some (rx, rw, cdf, dof) ->
  forall i, (i < length rx)%nat -> nth i rw 0 == weight (nth i rx 0) x w).
Proof. exact rsort_weights_refuted. Qed.
Print Assumptions C85_weights_refuted.

(** C85: not even their sum is kept *)
Theorem C85_total_refuted : ~ (forall p x w rx rw cdf dof, sorts p x -> length w = length x ->
  rsort false p x w = Some (rx, rw, cdf, dof) -> total rw == total w).
Proof. exact rsort_total_refuted. Qed.
Print Assumptions C85_total_refuted.

(** C85: removeByInd with xrange *)
Theorem C85_remove : forall a ind r, remove_by_ind false a ind = Some r <->
  NoDup ind /\ (forall i, In i ind -> (i < length a)%nat) /\ others a ind r.
Proof. exact remove_spec. Qed.
Print Assumptions C85_remove.

Example C85_remove_ex : remove_by_ind false [5; 6; 7]%Z [1]%nat = Some [5; 7]%Z /\
  remove_by_ind false [5; 6; 7]%Z [1; 1]%nat = None.
Proof. split; reflexivity. Qed.
