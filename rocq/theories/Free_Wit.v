(** Concrete calls for the Examples. *)
From Coq Require Import List Arith ZArith QArith Bool Lia.
Import ListNotations.
From Verif Require Import QB Book_Model Book_Spec Book_Wit Main_Model Opt_Model Drv_Model Pre_Model Pre_Spec Pre_Wit Sol_Model Sol_Spec Sol_Wit Out_Model Out_Spec
  Free_Model Free_Spec Free_Proofs.
Local Open Scope Q_scope.

(** the call of Sol_Wit.v with infinite bounds, and with default bounds and a lower infinity *)
Definition open_call : input :=
  mkin (mkargs unit (FnFun 0) FnNone true None None None None tt) (lim (NInt 3) (NInt 50)) false (Some [None]) (Some [None]) [3] 0.
Definition low_call : input :=
  mkin (mkargs unit (FnFun 0) FnNone true None None None None tt)
    (mkopts None None None None (Some (NFlt (Fin c1e20))) (Some (NInt 3)) (Some (NInt 50)) None None None None None None)
    false None None [3] 0.

(** an objective without failures *)
Definition uline (k : nat) (y : list Q) : outcome := mkout (Some (Fin (nth 0 y 0))) (Some []).

(** worlds that differ only in the exception of the rest of the initial phase *)
Definition wfree (late : bool) : world :=
  mkworld uline n1 yes yes (fun _ c => c) late [0] (fun a b => qabs (nth 0 a 0 - nth 0 b 0)) n1 w_sort n1 (fun _ => true)
    (fun s _ => s) (fun _ => sans [5]).

Lemma open_free : no_ineq open_call /\ free open_call /\ unconstrained (w_user (wfree true)) /\ covers (wfree true) open_call.
Proof.
  split; [reflexivity|]. split.
  - intros j J. cbn in J. assert (j = 0%nat) as -> by lia. cbn. auto.
  - split; [intros k y c [= <-]; reflexivity|]. intros fuel k o cl X fX ceX d _ _ _ _. reflexivity.
Qed.

Lemma low_free : no_ineq low_call /\ free low_call /\ covers (wfree true) low_call.
Proof.
  split; [reflexivity|]. split.
  - apply default_bounds; [reflexivity|reflexivity|cbn; lia|]. left. exists c1e20. split; [reflexivity|apply Qle_refl].
  - intros fuel k o cl X fX ceX d _ _ _ _. reflexivity.
Qed.

Lemma open_raises : solve 5 open_call (wfree true) = Some Raises /\
  exists cl X fX ceX d, prelim uline n1 yes yes 5 false [None] [None] [3] = Some (PReady cl X fX ceX d) /\ length cl = 2%nat.
Proof.
  split; [vm_compute; reflexivity|]. do 5 eexists. split; [vm_compute; reflexivity|reflexivity].
Qed.

(** the default call is not concerned: its world may be free of late exceptions *)
Lemma default_covered : covers (wfree false) (icall (lim (NInt 3) (NInt 50)) [3]).
Proof.
  intros fuel k o cl X fX ceX d SL V PR FT. exfalso. apply first_test in FT. destruct FT as (C & _).
  assert (N : no_ineq (icall (lim (NInt 3) (NInt 50)) [3])) by reflexivity.
  apply (free_count _ k o N V) in C. apply default_bounds in C; [|reflexivity|reflexivity|cbn; lia].
  destruct C as [(r & C & _)|[C|C]]; discriminate.
Qed.
Lemma default_gives : exists fl x cl, solve 5 (icall (lim (NInt 3) (NInt 50)) [3]) (wfree false) = Some (Gives fl (Some x) cl).
Proof. do 3 eexists. vm_compute. reflexivity. Qed.
