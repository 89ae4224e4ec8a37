(** Model of a complete call of sqpdfo_: argument checks (Drv_Model.v), slack count,
    validation of the options (Opt_Model.v), initial phase (Pre_Model.v), initial
    slacks, main loop (Main_Model.v) and returned point.  The start point and the bounds
    are assumed to have matching shapes (see Shape_Model.v).  Screen output
    is not represented; for the history file see Out_Model.v. *)
From Coq Require Import List Arith ZArith QArith Qround Bool.
Import ListNotations.
From Verif Require Import QB Book_Model Main_Model Opt_Model Drv_Model Pre_Model.
Local Open Scope Q_scope.

(** arguments of the call; [i_int]: the start point is an integer array; [i_left]: the
    slack count that an earlier call left in the module variables (0 in a new process) *)
Record input := mkin {
  i_args : args unit; i_opts : opts; i_int : bool;
  i_lb : option (list bnd); i_ub : option (list bnd); i_x0 : list Q; i_left : nat }.

(** the user functions and everything that is not modelled: norms, the linear algebra
    of the initial phase (it can raise an exception), the first slacks, what follows
    them in the initial phase (multipliers, output: it can raise an exception), and the
    answers used by the main loop *)
Record world := mkworld {
  w_user : nat -> list Q -> outcome;
  w_nrm : list Q -> Q; w_geom : list (list Q) -> bool; w_fit : list (list Q) -> bool;
  w_slk : nat -> list Q -> list Q; w_late : bool;
  w_zero : list Q; w_dist : list Q -> list Q -> Q; w_rowdist : list Q -> Q;
  w_argsort : list Q -> list nat; w_cnorm : list Q -> Q; w_inside : list Q -> bool;
  w_adj : list Q -> list Q -> list Q;
  w_ans : nat -> answers (list Q) }.

(** end of the call: an exception, sys.exit, or the triple x, lm, info; of that, the
    exit code, the point (None: it is not a result of the main loop), and the calls of
    the user functions made *)
Inductive result :=
| Raises
| Quits
| Gives (fl : nat) (x : option (list Q)) (cl : list (list Q))
| Beyond.  (* a limit or a tolerance is infinite or NaN: not modelled further *)

(** slack count (/repo/sqpdfo/sqpdfo.py:132-148); None: exception *)
Definition slacks_of (i : input) : option nat :=
  match num_of (a_mi (i_args i)) with
  | O => Some (i_left i)
  | S _ => slack_count (num_of (a_me (i_args i))) (num_of (a_mi (i_args i)))
             (a_li (i_args i)) (a_ui (i_args i))
  end.

(** number of slacks appended to the bounds: only if this call has inequalities *)
Definition appended (i : input) (k : nat) : nat :=
  match num_of (a_mi (i_args i)) with O => 0%nat | S _ => k end.

(** bounds handed to the initial phase: defaults of /repo/sqpdfo/sqpdfo.py:112-119,
    bounds of the slacks (lines 147-148), and the replacement of empty arrays
    (/repo/sqpdfo/sqpdfo_prelim.py:157-160, options.inf taken as infinite) *)
Definition c1e20 : Q := inject_Z (10 ^ 20).
Definition full_lb (i : input) (k : nat) : list bnd :=
  let n := length (i_x0 i) in
  let l := (match i_lb i with Some l => l | None => repeat (Some (- c1e20)) n end)
             ++ repeat (Some 0) (appended i k) in
  match l with [] => repeat None n | _ => l end.
Definition full_ub (i : input) (k : nat) : list bnd :=
  let n := length (i_x0 i) in
  let l := (match i_ub i with Some l => l | None => repeat (Some c1e20) n end)
             ++ repeat (Some c1e20) (appended i k) in
  match l with [] => repeat None n | _ => l end.

(** a limit as used in [info.niter >= options.miter]
    (/repo/sqpdfo/sqpdfo_main.py:215-227): the smallest count that reaches it *)
Definition limit (n : option num) : option nat :=
  match n with
  | Some (NInt z) => Some (Z.to_nat z)
  | Some (NFlt (Fin q)) => Some (Z.to_nat (Qceiling q))
  | _ => None
  end.
Definition finite (n : option num) : option Q :=
  match n with
  | Some (NInt z) => Some (inject_Z z)
  | Some (NFlt (Fin q)) => Some q
  | _ => None
  end.

(** sizes of the interpolation sets (/repo/sqpdfo/sqpdfo.py:189-192), and the size for
    options.final_degree (/repo/sqpdfo/sqpdfo_main.py:199-204) *)
Definition p_quad (n : nat) : nat := ((n + 1) * (n + 2) / 2)%nat.
Definition p_final (d : option enumv) (n : nat) : nat :=
  match d with
  | Some (VInt 140%Z) => n + 1
  | Some (VInt 141%Z) => 2 * n + 1
  | _ => p_quad n
  end%nat.
Definition model_of (d : option enumv) : nat :=
  match d with Some (VInt z) => Z.to_nat z | _ => 0%nat end.

(** the settings of the main loop, from validated options *)
Definition settings (w : world) (o : opts) (n me : nat) : option (env (list Q)) :=
  match limit (miter o), limit (msimul o), finite (tol_grad o), finite (tol_feas o), finite (tol_bnds o) with
  | Some mt, Some ms, Some tg, Some tf, Some tb =>
      Some (mkenv (w_user w) me mt ms tg tf tb (model_of (wmodel o)) (p_final (degree o) n) (p_quad n)
              (w_zero w) (w_dist w) (w_rowdist w) (w_nrm w) (w_argsort w) (w_cnorm w) (w_inside w) (w_adj w))
  | _, _, _, _, _ => None
  end.

(** from the data of the initial phase to the end
    (/repo/sqpdfo/sqpdfo_prelim.py:487-499, /repo/sqpdfo/sqpdfo.py:284-345) *)
Definition continue_ (fuel : nat) (w : world) (o : opts) (n k : nat)
  (cl X : list (list Q)) (fX : list Q) (ceX : list (list Q)) (d : Q) : option result :=
  let c0 := match ceX with c :: _ => c | [] => [] end in
  if (length c0 <? k)%nat then Some Raises else      (* ce[-nbr_slacks+i] *)
  if w_late w then Some Raises else
  let slk := match k with O => [] | S _ => w_slk w k c0 end in
  match settings w o n (length c0) with
  | None => Some Beyond
  | Some E =>
      match start E cl X fX ceX slk d with
      | None => Some Raises
      | Some s0 =>
          match run E fuel (w_ans w) 0 s0 with
          | None => None
          | Some (Return fl s _) => Some (Gives fl (nth_error (Xs (sA s)) (ib (sI s))) (calls (sA s)))
          | Some _ => Some Raises
          end
      end
  end.

(** the whole call; [fuel] bounds the rounds of the initial phase and the passes of the
    main loop, None: not finished (/repo/sqpdfo/sqpdfo.py:86-346) *)
Definition solve (fuel : nat) (i : input) (w : world) : option result :=
  match check_args (i_args i) with
  | Wrong => Some (Gives 1 None [])
  | Quit => Some Quits
  | Enter _ _ =>
      match slacks_of i with
      | None => Some Raises
      | Some k =>
          match validate (i_opts i) with
          | VRaise => Some Raises
          | VFail _ => Some (Gives 1 None [])
          | VDone o =>
              let n := length (i_x0 i) in
              let lb := full_lb i k in let ub := full_ub i k in
              if ((length lb <? n) || (length ub <? n))%nat%bool then
                (* the loop over the components ends with an IndexError, unless it
                   finds crossed bounds before *)
                match adjust (i_int i) lb ub (i_x0 i) 0 delta0 with
                | None => Some (Gives 2 None [])
                | Some _ => Some Raises
                end
              else
              match prelim (w_user w) (w_nrm w) (w_geom w) (w_fit w) fuel (i_int i) lb ub (i_x0 i) with
              | None => None
              | Some (PFlag fl cl) => Some (Gives fl None cl)
              | Some (PReady cl X fX ceX d) => continue_ fuel w o n k cl X fX ceX d
              | Some _ => Some Raises
              end
          end
      end
  end.
