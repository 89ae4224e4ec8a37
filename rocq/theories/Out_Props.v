(** C69: property theorems about the output of a call.

    [file fuel i w] is the contents of convhist.m after the call with the arguments [i]
    (None: the file is as before), [solve fuel i w] the end of the same call. *)
From Coq Require Import List Arith ZArith QArith Bool Lia.
Import ListNotations.
From Verif Require Import QB Book_Spec Book_Wit Main_Model Opt_Model Drv_Model Drv_Spec Pre_Model Pre_Spec Pre_Wit
  Sol_Model Sol_Spec Sol_Wit Out_Model Out_Spec Out_More Out_Wit.
Local Open Scope Q_scope.

(** when the file is left alone *)
Theorem C69_untouched : forall w fuel i,
  file fuel i w = None <-> to_refuse (i_args i) \/ to_quit (i_args i) \/ ~ arrays_ok i.
Proof. exact untouched. Qed.
Print Assumptions C69_untouched.

Example C69_untouched_ex : to_refuse (mkargs unit FnNone FnNone true None None None None tt).
Proof. left. reflexivity. Qed.

(** otherwise its old contents are gone, for every verbosity *)
Theorem C69_started : forall w fuel i h, file fuel i w = Some h -> exists l, h = Head :: l /\ ~ In Head l.
Proof. exact started. Qed.
Print Assumptions C69_started.

Theorem C69_silent_refuted : exists o, validate (i_opts (vcall 0)) = VDone o /\ verbose o = Some (NInt 0) /\
  file 5 (vcall 0) (sworld usum (sans [5])) = Some (complete []).
Proof. exact silent_overwrites. Qed.
Print Assumptions C69_silent_refuted.

(** it is closed exactly when the call returns *)
Theorem C69_closed : forall w fuel i h, file fuel i w = Some h ->
  exists ls, ((exists fl x cl, solve fuel i w = Some (Gives fl x cl)) /\ h = complete ls) \/
             ((forall fl x cl, solve fuel i w <> Some (Gives fl x cl)) /\ h = unfinished ls).
Proof. exact closed. Qed.
Print Assumptions C69_closed.

Example C69_closed_ex : solve 5 (vcall 1) (sworld unear (sans [5])) = Some Raises /\
  exists ls, file 5 (vcall 1) (sworld unear (sans [5])) = Some (unfinished ls) /\ length ls = 2%nat.
Proof. split; [vm_compute; reflexivity|]. exists [mkline 1 2 3; mkline 2 3 5]. split; vm_compute; reflexivity. Qed.

(** lines only for the verbosities 1, 2, 3, and only from the main loop *)
Theorem C69_no_lines : forall w fuel i h o, file fuel i w = Some h -> validate (i_opts i) = VDone o -> ~ medium o ->
  h = complete [] \/ h = unfinished [].
Proof. exact silent. Qed.
Print Assumptions C69_no_lines.

Theorem C69_bare : forall w, sorts_desc (w_argsort w) -> forall fuel i h fl cl,
  solve fuel i w = Some (Gives fl None cl) -> file fuel i w = Some h -> h = complete [].
Proof. exact bare. Qed.
Print Assumptions C69_bare.

Example C69_bare_ex : exists fl cl, solve 5 (icall (lim (NInt 3) (NInt 50)) [5]) (sworld ufar (sans [5])) = Some (Gives fl None cl) /\
  file 5 (icall (lim (NInt 3) (NInt 50)) [5]) (sworld ufar (sans [5])) = Some (complete []).
Proof. do 2 eexists. split; vm_compute; reflexivity. Qed.

(** one line per iteration, in order, and one more for the exit codes 5, 6, 15; the
    evaluation counts never decrease *)
Theorem C69_lines : forall w, sorts_desc (w_argsort w) -> forall fuel i fl y cl o,
  solve fuel i w = Some (Gives fl (Some y) cl) -> validate (i_opts i) = VDone o -> medium o ->
  exists ls N, file fuel i w = Some (complete ls) /\ counted fl N (map l_it ls) /\
    rising (S (length (i_x0 i)) :: map l_ev ls ++ [length cl]) /\
    (forall q m, has_value (miter o) q -> 0 <= q -> counts_below q m -> (N <= m + 1)%nat).
Proof. exact counted_lines. Qed.
Print Assumptions C69_lines.

Example C69_lines_ex : exists o, validate (i_opts (vcall 1)) = VDone o /\ medium o /\
  solve 5 (vcall 1) (sworld usum (sans [5])) = Some (Gives 5 (Some [3]) [[3]; [3 - 1]; [5]; [1]; [5]]).
Proof.
  eexists. split; [vm_compute; reflexivity|]. split; [|vm_compute; reflexivity].
  exists (NInt 1), 1. split; [reflexivity|]. split; [reflexivity|]. split; [discriminate|reflexivity].
Qed.

Theorem C69_torn : forall w fuel i ls, file fuel i w = Some (unfinished ls) -> exists m, map l_it ls = seq 1 m.
Proof. exact torn. Qed.
Print Assumptions C69_torn.

(** objective value and evaluation count in the first line of a pass; the last line of a
    pass that returns with one of the codes 0, 5, 6, 15 *)
Theorem C69_first_value : forall (P : Type) (E : env P) s a l t,
  lines_pass E s a = l :: t -> l_f l = inff (sN s) /\ l_ev l = nsim (sA s).
Proof. exact (@first_value). Qed.
Print Assumptions C69_first_value.

Theorem C69_last_value : forall (P : Type) (E : env P) s a fl s' f,
  pass E s a = Return fl s' f -> In fl [0; 5; 6; 15]%nat ->
  exists t, lines_pass E s a = t ++ [mkline (niter (sN s')) (nsim (sA s')) (inff (sN s'))].
Proof. exact (@last_value). Qed.
Print Assumptions C69_last_value.

(** the values need not decrease *)
Theorem C69_decreasing_refuted : exists ls, file 5 (vcall 1) (sworld usum (sans [5])) = Some (complete ls) /\
  map l_it ls = [1; 2; 3; 3]%nat /\ map l_ev ls = [2; 3; 4; 5]%nat /\ map l_f ls = [3; 5; 3; 5].
Proof. exact values_move. Qed.
Print Assumptions C69_decreasing_refuted.

(** when the first printing raises an exception; [t]: options.inf, [me]: number of
    constraints *)
Theorem C69_printing : forall o e n lb ub t me,
  printing_raises o e (count_bounds t n lb ub + me) = true <->
  high o /\ ((me = 0%nat /\ (forall j, (j < n)%nat -> unbounded t (nth j lb None) (nth j ub None)) /\
              (x_tol e = false \/ x_df1 e = false)) \/
             ~ is_finite (miter o) \/ ~ is_finite (msimul o)).
Proof. exact printing. Qed.
Print Assumptions C69_printing.

(** accepted options for which it does *)
Theorem C69_printing_refuted : exists o, validate (vlim (NInt 4) (NInt 3) (NInt 50)) = VDone o /\
  printing_raises o (mkextra false false) (count_bounds PInf 1 [None] [None] + 0) = true /\
  printing_raises o (mkextra false false) (count_bounds PInf 1 [Some (- c1e20)] [Some c1e20] + 0) = false.
Proof. exact default_raises. Qed.
Print Assumptions C69_printing_refuted.

Theorem C69_limit_refuted : exists o, validate (vlim (NInt 4) (NInt 3) (NFlt PInf)) = VDone o /\
  printing_raises o (mkextra true true) 1 = true.
Proof. exact limit_raises. Qed.
Print Assumptions C69_limit_refuted.
