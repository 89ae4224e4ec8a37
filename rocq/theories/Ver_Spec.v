(** Vocabulary for the accuracy test after an improvement of the interpolation set:
    what the poisedness recomputation at a high verbosity level changes. *)
From Coq Require Import Reals List QArith Qreals.
From Verif Require Import RVec Poly_Model Int_Model Book_Model Main_Model New_Model New_Spec.
Import ListNotations.

(** The pass went through an improvement of the set: it counted two iterations if the
    loop goes on, and two as well if it returned right after the improvement (the first
    accuracy test returns after one). *)
Definition improved {P} (s s' : st P) : Prop := niter (sN s') = (niter (sN s) + 2)%nat.

(** The same answers of the parts that are not modelled, except that the poisedness is
    recomputed after the improvement, with the result [pr]. *)
Definition recomputed {P} (pr : Q * Q) (a : answers P) : answers P :=
  mkans (a_exc1 a) (a_exc2 a) (a_exc3 a) (a_exc4 a) (a_glagn1 a) (a_poised a) (a_yrad a) (a_normgx a) (a_newpt a)
    (Some pr) (a_glagn2 a) (a_xnew a) (a_rpred a) (a_active a) (a_slplus a) (a_norms a) (a_qcost a) (a_gTs a)
    (a_minf a) (a_L1 a) (a_L2 a) (a_L3 a).

(** [pr] is the poisedness and the radius of the set [Y] (one variable) as the library's
    poisedness routine measures them *)
Definition measured slv pinv qr ill cure (solver : solver_t) (lSolver mode : nat) (shift : bool) (Y : list Q) (pr : Q * Q) : Prop :=
  exists b, build qr ill cure mode shift 1 (length Y) (line_set Y) = Some b /\
    poisedness slv pinv solver false lSolver mode shift 1 (length Y) b (line_set Y) = Some (Q2R (fst pr), Q2R (snd pr)).
