(** C84: norms and sizes of arrays (runtime.py). *)
From Coq Require Import Reals Lra Lia Arith List.
From Verif Require Import RVec Nrm_Model Nrm_Spec Nrm_Proofs.
Import ListNotations.
Open Scope R_scope.

(** C84: vectors of any orientation: Euclidean length and largest magnitude *)
Theorem C84_vector : forall svmax a, rows_right svmax -> entries (nshape a) <> 0%nat -> vector_shape (nshape a) ->
  norm_ svmax a OTwo = Some (norm (entries (nshape a)) (ndat a)) /\
  exists m, norm_ svmax a OInf = Some m /\ largest (entries (nshape a)) (fun i => Rabs (ndat a i)) m.
Proof. exact norm_vector. Qed.
Print Assumptions C84_vector.

Example C84_vector_ex : rows_right (fun _ c A => norm c (A 0%nat)) /\
  vector_shape [1; 3]%nat /\ vector_shape [3; 1]%nat /\ vector_shape [3]%nat /\ vector_shape [] /\ ~ vector_shape [2; 3]%nat.
Proof.
  split; [exact row_norm_right|].
  split; [exists 1%nat, 0%nat, 3%nat; left; reflexivity|].
  split; [exists 0%nat, 1%nat, 3%nat; left; reflexivity|].
  split; [exists 0%nat, 0%nat, 3%nat; left; reflexivity|].
  split; [exists 0%nat, 0%nat, 3%nat; right; reflexivity|].
  intros V. apply vector_count in V. cbn in V. lia.
Qed.

(** C84: matrices: largest singular value, largest row sum, Frobenius norm *)
Theorem C84_matrix : forall svmax a r c, nshape a = [r; c] -> (2 <= r)%nat -> (2 <= c)%nat ->
  let A := fun i j => ndat a (i * c + j)%nat in
  norm_ svmax a OTwo = Some (svmax r c A) /\
  (exists s, norm_ svmax a OInf = Some s /\ largest r (fun i => rsum c (fun j => Rabs (A i j))) s) /\
  norm_ svmax a OFro = Some (sqrt (rsum r (fun i => rsum c (fun j => A i j * A i j)))).
Proof. exact norm_matrix. Qed.
Print Assumptions C84_matrix.

Example C84_matrix_ex : nshape (mknarr [2; 2]%nat (fun _ => 1)) = [2; 2]%nat.
Proof. reflexivity. Qed.

(** C84: empty arrays have norm zero *)
Theorem C84_empty : forall svmax a o, entries (nshape a) = 0%nat -> norm_ svmax a o = Some 0.
Proof. exact norm_empty. Qed.
Print Assumptions C84_empty.

Example C84_empty_ex : entries (nshape (mknarr [0; 5]%nat vzero)) = 0%nat.
Proof. reflexivity. Qed.

(** C84: exactly these arrays raise an exception *)
Theorem C84_raises : forall svmax a o, norm_ svmax a o = None <->
  entries (nshape a) <> 0%nat /\ List.length (nshape a) <> 2%nat /\ (o = OFro \/ ~ vector_shape (nshape a)).
Proof. exact norm_raises. Qed.
Print Assumptions C84_raises.

Example C84_raises_ex : forall svmax, norm_ svmax (mknarr [3]%nat vzero) OFro = None /\
  norm_ svmax (mknarr [2; 2; 2]%nat vzero) OTwo = None.
Proof. intros. split; reflexivity. Qed.

(** C84: length_ is the largest dimension, an exception without dimensions *)
Theorem C84_length : forall a, (length_ a = None <-> nshape a = []) /\
  forall l, length_ a = Some l -> In l (nshape a) /\ forall k, In k (nshape a) -> (k <= l)%nat.
Proof. exact length_spec. Qed.
Print Assumptions C84_length.

Example C84_length_ex : length_ (mknarr [3; 1]%nat vzero) = Some 3%nat.
Proof. reflexivity. Qed.

(** C84: it is the length of Matlab exactly for arrays with entries and arrays of zero dimensions only *)
Theorem C84_matlab : forall a l, length_ a = Some l ->
  (matlab_length (nshape a) l <-> entries (nshape a) <> 0%nat \/ forall k, In k (nshape a) -> k = 0%nat).
Proof. exact length_matlab. Qed.
Print Assumptions C84_matlab.

Example C84_matlab_ex : length_ (mknarr [0]%nat vzero) = Some 0%nat /\ matlab_length [0]%nat 0%nat.
Proof. split; [reflexivity|left; split; reflexivity]. Qed.

(** C84: not for every array *)
Theorem C84_matlab_refuted : ~ (forall a l, length_ a = Some l -> matlab_length (nshape a) l).
Proof. exact matlab_refuted. Qed.
Print Assumptions C84_matlab_refuted.

(** C84: up to two dimensions, rows times columns is the number of entries *)
Theorem C84_size : forall a, (List.length (nshape a) <= 2)%nat -> (size_ a 1 * size_ a 2 = entries (nshape a))%nat.
Proof. exact size_product. Qed.
Print Assumptions C84_size.

Example C84_size_ex : size_ (mknarr [4]%nat vzero) 1 = 4%nat /\ size_ (mknarr [4]%nat vzero) 2 = 1%nat.
Proof. split; reflexivity. Qed.

(** C84: zeros_(size_(a)) has the shape of a, except for arrays with one dimension *)
Theorem C84_zeros : forall ok a, (List.length (nshape a) <> 1%nat -> zeros_like ok a = Some (nshape a)) /\
  (forall n, nshape a = [n] -> zeros_like ok a = None \/ zeros_like ok a = Some [n; n]).
Proof. exact zeros_like_spec. Qed.
Print Assumptions C84_zeros.

Example C84_zeros_ex : zeros_like false (mknarr [3; 1]%nat vzero) = Some [3; 1]%nat /\
  zeros_like true (mknarr [3]%nat vzero) = Some [3; 3]%nat.
Proof. split; reflexivity. Qed.

(** C84: a Python integer alone is refused *)
Theorem C84_zeros_int : forall ok k, zeros1 ok (ZInt k) = None /\ zeros1 ok (ZNum k) = Some [k; k].
Proof. exact zeros_int. Qed.
Print Assumptions C84_zeros_int.

Example C84_zeros_int_ex : zeros1 true (ZNum 2) = Some [2; 2]%nat.
Proof. reflexivity. Qed.
