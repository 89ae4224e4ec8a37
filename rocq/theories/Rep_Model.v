(** Model of the final report of a call: sqpdfo_finish_ and the tables printed by sqpdfo_
    at verbosity 3 and above.  Lines are entries that keep the numbers unrounded; the
    lines of dashes and the titles are left out.  The multipliers and bounds in the tables
    are left out as well. *)
From Coq Require Import List Arith ZArith QArith Bool String.
Import ListNotations.
From Verif Require Import QB Book_Model Main_Model Opt_Model Drv_Model Pre_Model Sol_Model Out_Model Free_Model.
Local Open Scope Q_scope.

(** ** Where the text goes *)

(** fprintf_ with an integer or floating-point first argument: the screen, the error
    output, a warning on the screen in place of the text, or an exception (a float and a
    string cannot be added) (/repo/sqpdfo/runtime.py:358-372) *)
Inductive place := Screen | ErrorOutput | WarningOnly.
Definition fprintf (fid : num) : option place :=
  match fid with
  | NInt 1 => Some Screen
  | NInt 2 => Some ErrorOutput
  | NInt _ => Some WarningOnly
  | NFlt _ => None
  end.

(** verbosity: options.verbose >= v, options.verbose > v *)
Definition at_least (o : opts) (v : Q) : bool :=
  match verbose o with Some u => xle (Fin v) (val u) | None => false end.
Definition above (o : opts) (v : Q) : bool :=
  match verbose o with Some u => xlt (Fin v) (val u) | None => false end.

(** the first line for options.fout is printed in the initial phase, if the verbosity is
    positive (/repo/sqpdfo/sqpdfo_prelim.py:518-531) *)
Definition heading_raises (o : opts) : bool :=
  (above o 0 && match fout o with Some f => match fprintf f with None => true | _ => false end | None => false end)%bool.

(** ** The report *)

Inductive entry :=
| ECode (fl : nat) (text : string)   (* "Exit code" *)
| EValue (f : Q)                     (* "Final function value" *)
| ELag (g : xQ)                      (* "gradient of the Lagrangian" *)
| EFeas (c : xQ)                     (* "feasibility" *)
| EGrad (g : xQ)                     (* "Gradient of the objective function" *)
| EIters (k : nat)                   (* "nbr of iterations" *)
| EEvals (k : nat)                   (* "nbr of function evaluations" *)
| EVar (j : nat) (x : Q)             (* a row of the table of variables *)
| EVars (x : list Q)                 (* the variables, printed as an array *)
| EDots                              (* "....." *)
| ECon (j : nat) (c : Q).            (* a row of the table of constraints *)

(** the constants of /repo/sqpdfo/sqpdfo_values.py:7-22 *)
Definition text_of (fl : nat) : string :=
  match fl with
  | 0 => "converged"
  | 1 => "wrong argument"
  | 2 => "unaccepted problem structure"
  | 3 => "error during function evaluation"
  | 4 => "function can not be evaluated"
  | 5 => "maximum number of iterations"
  | 6 => "maximum number of function evaluations"
  | 7 => "too small variation in x (dxmin active)"
  | 8 => "the merit function cannot be decreased"
  | 11 => "ill conditioning"
  | 20 => "null step d is solution of 2 QPs"
  | 21 => "infeasible QP"
  | 22 => "unbounded QP"
  | 30 => "unexpected (possible premature) termination"
  | 15 => "trust region radius too small"
  | _ => ""
  end%nat%string.

(** info.glagn and info.feasn are NaN until the first pass of the main loop has computed
    them; every pass that computes them and does not return increases info.niter before
    the next one begins (/repo/sqpdfo/sqpdfo_prelim.py:116-118,
    /repo/sqpdfo/sqpdfo_main.py:267-268, 316, 336, 672) *)
Definition norm_shown (s : st (list Q)) (q : Q) : xQ := match niter (sN s) with O => NaN | S _ => Fin q end.

(** sqpdfo_finish_; info_best.f is fx, info.nsimul[3] is always 0
    (/repo/sqpdfo/sqpdfo_finish.py:12-57, /repo/sqpdfo/sqpdfo.py:342-345) *)
Definition finish (o : opts) (nb me fl : nat) (s : st (list Q)) : list entry :=
  if at_least o 1 then
    [ECode fl (text_of fl); EValue (ifx (sI s))] ++
    (if (0 <? nb + me)%nat then [ELag (norm_shown s (glagn (sN s))); EFeas (norm_shown s (feasn (sN s)))]
     else [EGrad (norm_shown s (glagn (sN s)))]) ++
    [EIters (niter (sN s)); EEvals (nsim (sA s))]
  else [].

(** the tables: at most 40 rows each (/repo/sqpdfo/sqpdfo.py:351-376) *)
Definition dots (m : nat) : list entry := if (40 <? m)%nat then [EDots] else [].
Definition tables (o : opts) (n nb me : nat) (x c : list Q) : list entry :=
  if above o 2 then
    (if (0 <? nb)%nat then map (fun j => EVar j (nth j x 0)) (seq 0 (Nat.min n 40))
     else [EVars (firstn (Nat.min n 40) x)]) ++ dots n ++
    (if (0 <? me)%nat then map (fun j => ECon j (nth j c 0)) (seq 0 (Nat.min me 40)) ++ dots me else [])
  else [].

(** everything printed after the main loop; x=X[:,i_xbest], ceX[:,i_xbest]
    (/repo/sqpdfo/sqpdfo.py:342-376) *)
Definition report_of (o : opts) (n nb me fl : nat) (s : st (list Q)) : list entry :=
  finish o nb me fl s ++
  tables o n nb me (nth (ib (sI s)) (Xs (sA s)) []) (nth (ib (sI s)) (ceXs (sA s)) []).

(** ** The report of a call, None: the end of the main loop is not reached *)

(** as in [Sol_Model.continue_] *)
Definition report_main (fuel : nat) (w : world) (o : opts) (n k nb : nat)
  (cl X : list (list Q)) (fX : list Q) (ceX : list (list Q)) (d : Q) : option (list entry) :=
  let c0 := match ceX with c :: _ => c | [] => [] end in
  if (List.length c0 <? k)%nat then None else
  if w_late w then None else
  let slk := match k with O => [] | S _ => w_slk w k c0 end in
  match settings w o n (List.length c0) with
  | None => None
  | Some E =>
      match start E cl X fX ceX slk d with
      | None => None
      | Some s0 =>
          match run E fuel (w_ans w) 0 s0 with
          | Some (Return fl s _) => Some (report_of o n nb (List.length c0) fl s)
          | _ => None
          end
      end
  end.

(** as in [Sol_Model.solve]; nb is counted in /repo/sqpdfo/sqpdfo_prelim.py:161-163 *)
Definition report (fuel : nat) (i : input) (w : world) : option (list entry) :=
  match check_args (i_args i) with
  | Enter _ _ =>
      match slacks_of i, validate (i_opts i) with
      | Some k, VDone o =>
          let n := List.length (i_x0 i) in
          let lb := full_lb i k in let ub := full_ub i k in
          if ((List.length lb <? n) || (List.length ub <? n))%nat%bool then None else
          match prelim (w_user w) (w_nrm w) (w_geom w) (w_fit w) fuel (i_int i) lb ub (i_x0 i) with
          | Some (PReady cl X fX ceX d) =>
              report_main fuel w o n k (count_bounds (inf_of o) n lb ub) cl X fX ceX d
          | _ => None
          end
      | _, _ => None
      end
  | _ => None
  end.

(** the unmodelled rest of the initial phase raises at least where the heading cannot be
    printed *)
Definition needs_output (w : world) (i : input) : Prop :=
  forall o, validate (i_opts i) = VDone o -> heading_raises o = true -> w_late w = true.
