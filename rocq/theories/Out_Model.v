(** Model of what a call writes to the file convhist.m in the current directory, and of
    the first printing of the initial phase.  The
    file can be opened, and options.fout is an integer; numbers written are not
    rounded. *)
From Coq Require Import List Arith ZArith QArith Bool.
Import ListNotations.
From Verif Require Import QB Book_Model Main_Model Opt_Model Drv_Model Pre_Model Sol_Model.
Local Open Scope Q_scope.

(** ** The lines of the main loop *)

(** one line: iteration number, number of evaluations, info.f (the merit value and the
    optimality measures that follow are left out; info.nsimul[3] is always 0).
    (/repo/sqpdfo/sqpdfo_iter_printout.py:12-31) *)
Record line := mkline { l_it : nat; l_ev : nat; l_f : Q }.

Definition line_of {P} (s : st P) : line := mkline (niter (sN s)) (nsim (sA s)) (inff (sN s)).

Section Lines.
Context {P : Type}.
Variable E : env P.

(** improvement of the set: a line before a return
    (/repo/sqpdfo/sqpdfo_main.py:452-466, 614-637) *)
Definition lines_improve (s : st P) (a : answers P) : list line :=
  match improve E s a with Return _ s' _ => [line_of s'] | _ => [] end.

(** step: a line after the counter was increased, and one before the return for a small
    radius (/repo/sqpdfo/sqpdfo_main.py:672-679, 1450-1465) *)
Definition lines_step (s : st P) (a : answers P) : list line :=
  mkline (S (niter (sN s))) (nsim (sA s)) (inff (sN s)) ::
  match step E s a with Return 15 s' _ => [line_of s'] | _ => [] end.

(** a pass (/repo/sqpdfo/sqpdfo_main.py:215-235, 310-342) *)
Definition lines_pass (s : st P) (a : answers P) : list line :=
  let N := sN s in let G := sG s in
  if (e_miter E <=? niter N)%nat then [line_of s] else
  if (e_msimul E <=? nsim (sA s))%nat then [line_of s] else
  if a_exc1 a then [] else
  let gl := a_glagn1 a in
  let fe := linf (resid (sl G) (ince N)) in
  let tols := (qleb gl (e_tolg E) && qleb fe (e_tolf E) && qleb 0 (e_tolb E))%bool in
  if (tols || qltb (delta G) tiny || qeqb (pred G) (-1))%bool then
    let er := a_poised a * a_yrad a / factor_CV in
    let s1 := mkst (sA s) (sI s)
                (mkInfo (S (niter N)) (inff N) (ince N) gl fe 0 er (a_poised a) (a_yrad a)) G in
    line_of s1 ::
    (if (tols && qleb er epsilon)%bool then [] else
     lines_improve s1 a ++
     match improve E s1 a with Continue s2 => lines_step s2 a | _ => [] end)
  else
    lines_step (mkst (sA s) (sI s)
                  (mkInfo (niter N) (inff N) (ince N) gl fe 0 (errg N) (poised N) (yrad N)) G) a.

Fixpoint lines_run (fuel : nat) (ans : nat -> answers P) (k : nat) (s : st P) : list line :=
  match fuel with
  | O => []
  | S n => lines_pass s (ans k) ++
           match pass E s (ans k) with Continue s' => lines_run n ans (S k) s' | _ => [] end
  end.

End Lines.

(** ** The file *)

(** opening words, a line, closing bracket *)
Inductive item := Head | Line (l : line) | Tail.

(** lines are written for verbosity 1, 2, 3 (/repo/sqpdfo/sqpdfo_iter_printout.py:11) *)
Definition shown (o : opts) : bool :=
  match verbose o with
  | Some v => (xlt (val v) (Fin 4) && xle (Fin 1) (val v))%bool
  | None => false
  end.

(** the part written by the main loop and after it
    (/repo/sqpdfo/sqpdfo.py:301-327) *)
Definition file_main (fuel : nat) (w : world) (o : opts) (n k : nat)
  (cl X : list (list Q)) (fX : list Q) (ceX : list (list Q)) (d : Q) : list item :=
  let c0 := match ceX with c :: _ => c | [] => [] end in
  if (length c0 <? k)%nat then [] else
  if w_late w then [] else
  let slk := match k with O => [] | S _ => w_slk w k c0 end in
  match settings w o n (length c0) with
  | None => []
  | Some E =>
      match start E cl X fX ceX slk d with
      | None => []
      | Some s0 =>
          (if shown o then map Line (lines_run E fuel (w_ans w) 0 s0) else []) ++
          match run E fuel (w_ans w) 0 s0 with Some (Return _ _ _) => [Tail] | _ => [] end
      end
  end.

(** the contents of the file after the call, None: the file is not touched.  The
    variable verbose of sqpdfo.py is the constant 1 (line 212), so the file is emptied
    and started for every options.verbose.
    (/repo/sqpdfo/sqpdfo.py:86-148, 268-289, 323-327) *)
Definition file (fuel : nat) (i : input) (w : world) : option (list item) :=
  match check_args (i_args i) with
  | Wrong | Quit => None
  | Enter _ _ =>
      match slacks_of i with
      | None => None
      | Some k =>
          Some (Head ::
            match validate (i_opts i) with
            | VRaise => []
            | VFail _ => [Tail]
            | VDone o =>
                let n := length (i_x0 i) in
                let lb := full_lb i k in let ub := full_ub i k in
                if ((length lb <? n) || (length ub <? n))%nat%bool then
                  match adjust (i_int i) lb ub (i_x0 i) 0 delta0 with
                  | None => [Tail]
                  | Some _ => []
                  end
                else
                match prelim (w_user w) (w_nrm w) (w_geom w) (w_fit w) fuel (i_int i) lb ub (i_x0 i) with
                | Some (PFlag _ _) => [Tail]
                | Some (PReady cl X fX ceX d) => file_main fuel w o n k cl X fX ceX d
                | _ => []
                end
            end)
      end
  end.

(** ** First printing of the initial phase *)

(** an attribute of the options object that the validation does not look at *)
Record extra := mkextra { x_tol : bool; x_df1 : bool }.

(** number of variables with a bound; None: the bound is infinite
    (/repo/sqpdfo/sqpdfo_prelim.py:157-163) *)
Definition has_lower (inf : xQ) (b : bnd) : bool :=
  match b, inf with
  | Some q, Fin t => qltb (- t) q
  | Some _, PInf => true
  | _, _ => false
  end.
Definition has_upper (inf : xQ) (b : bnd) : bool :=
  match b, inf with
  | Some q, Fin t => qltb q t
  | Some _, PInf => true
  | _, _ => false
  end.
Definition count_bounds (inf : xQ) (n : nat) (lb ub : list bnd) : nat :=
  length (filter (fun j => (has_lower inf (nth j lb None) || has_upper inf (nth j ub None))%bool) (seq 0 n)).

(** '%4i' of an infinity or a NaN raises *)
Definition fmt4_ok (x : option num) : bool :=
  match x with Some v => match val v with Fin _ => true | _ => false end | None => false end.

(** the printing raises an exception: options.tol and options.df1 are never set by the
    validation; [bounds] is the number of bounds plus the number of constraints
    (/repo/sqpdfo/sqpdfo_prelim.py:530-561) *)
Definition printing_raises (o : opts) (e : extra) (bounds : nat) : bool :=
  match verbose o with
  | Some v =>
      if xle (Fin 4) (val v) then
        if (bounds =? 0)%nat && negb (x_tol e) then true
        else if negb (fmt4_ok (miter o)) then true
        else if negb (fmt4_ok (msimul o)) then true
        else if (bounds =? 0)%nat && negb (x_df1 e) then true
        else false
      else false
  | None => false
  end%bool.
