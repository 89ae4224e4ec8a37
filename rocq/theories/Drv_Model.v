(** Model of the entry of sqpdfo_: argument checks, slack variables, and the module
    variables that survive from one call to the next. *)
From Coq Require Import List Arith ZArith QArith Reals Bool.
Import ListNotations.
From Verif Require Import QB RBool Main_Model Opt_Model.

(** a function argument: missing, a plain Python function (with its identity), the
    empty string, or anything else (a callable object, a builtin, ...) *)
Inductive fnarg := FnNone | FnFun (id : nat) | FnEmpty | FnOther.

(** arguments that matter here; [a_me], [a_mi] are None when not given; negative
    counts are not represented.  Options, bounds and the values of the start point
    are in [a_data]. *)
Record args (D : Type) := mkargs {
  a_f : fnarg; a_c : fnarg; a_x0 : bool (* a start point is given *);
  a_me : option nat; a_mi : option nat;
  a_li : option (list xQ); a_ui : option (list xQ); a_data : D }.
Arguments a_f {D} _. Arguments a_c {D} _. Arguments a_x0 {D} _. Arguments a_me {D} _.
Arguments a_mi {D} _. Arguments a_li {D} _. Arguments a_ui {D} _. Arguments a_data {D} _.

(** end of the argument checks *)
Inductive chk :=
| Wrong                     (* return x = [], lm = [], info.flag = 1 *)
| Quit                      (* sys.exit *)
| Enter (f : nat) (c : option nat). (* go on; the functions that will be evaluated *)

Definition num_of (o : option nat) : nat := match o with Some n => n | None => 0 end.

(** /repo/sqpdfo/sqpdfo.py:86-111, /repo/sqpdfo/sqpdfo_global_variables.py:81-97 *)
Definition check_args {D} (a : args D) : chk :=
  match a_f a with
  | FnNone => Wrong
  | FnFun f =>
      match a_c a with
      | FnNone => if Nat.ltb 0 (num_of (a_me a) + num_of (a_mi a)) then Wrong
                  else if a_x0 a then Enter f None else Wrong
      | FnFun c => if a_x0 a then Enter f (Some c) else Wrong
      | FnEmpty => if a_x0 a then Enter f None else Wrong
      | FnOther => Quit
      end
  | _ => Quit
  end.

(** ** Slack variables *)

(** default bounds of the constraints, and the limits in the test
    (/repo/sqpdfo/sqpdfo.py:134-137, 142) *)
Definition e7 : xQ := Fin 10000000.
Definition me7 : xQ := Fin (-10000000).
Definition dflt_li (n : nat) : list xQ := repeat (Fin (-1000000000)) n.
Definition dflt_ui (n : nat) : list xQ := repeat (Fin 1000000000) n.

(** the loop of /repo/sqpdfo/sqpdfo.py:140-143; the range is fixed before [mi]
    grows; an index beyond the end raises an exception (None) *)
Fixpoint count_loop (li ui : list xQ) (k i mi : nat) : option nat :=
  match k with
  | O => Some mi
  | S k' =>
      match nth_error li i, nth_error ui i with
      | Some l, Some u =>
          count_loop li ui k' (S i)
            (if xlt l u then (if andb (xlt me7 l) (xlt u e7) then S mi else mi) else mi)
      | _, _ => None
      end
  end.

Definition slack_count (me mi : nat) (li ui : option (list xQ)) : option nat :=
  count_loop (match li with Some l => l | None => dflt_li (mi + me) end)
             (match ui with Some u => u | None => dflt_ui (mi + me) end)
             (mi + me) 0 mi.

(** ** Module variables

    The variables of /repo/sqpdfo/sqpdfo_global_variables.py that the algorithm
    reads and writes: filename_f, filename_cons, nbr_slacks, slacks.  The variables
    prob, threshold, check_condition, fileoutput are never written by a run;
    simul_not_initialized and _iter are written but _iter is reset at the start of
    every truncated conjugate gradient run (/repo/sqpdfo/sqpdfo_truncated_cg.py:73)
    and not read elsewhere. *)
Record globs := mkglobs {
  g_f : option nat; g_c : option nat; g_nbr : nat; g_sl : list R }.

Definition fresh : globs := mkglobs None None 0 [].

Inductive outcome_of (Res : Type) := OWrong | OQuit | ORaise | ORes (r : Res).
Arguments OWrong {Res}. Arguments OQuit {Res}. Arguments ORaise {Res}. Arguments ORes {Res} _.

Section Calls.
Context {D Res : Type}.

(** everything after the entry (preprocessing, main loop, final output) as a
    function of the data, of the two user functions read from the module variables,
    and of the slack count and slacks.  All reads of the slacks are guarded by
    [nbr_slacks > 0] (for instance /repo/sqpdfo/sqpdfo_main.py:158, 651, 717, 850,
    /repo/sqpdfo/sqpdfo_optimality.py:46, 57), as are all writes
    (/repo/sqpdfo/sqpdfo_prelim.py:489-499, /repo/sqpdfo/sqpdfo_main.py:982-991,
    1242-1250, 1365-1373), so it sees no slacks at all when the count is 0. *)
Variable rest : D -> option nat -> option nat -> option (nat * list R) -> Res * list R.

Definition run_rest (d : D) (g : globs) : Res * globs :=
  match g_nbr g with
  | O => (fst (rest d (g_f g) (g_c g) None), g)
  | S _ => let (r, sl) := rest d (g_f g) (g_c g) (Some (g_nbr g, g_sl g)) in
           (r, mkglobs (g_f g) (g_c g) (g_nbr g) sl)
  end.

(** assignment of the function handles, in the order of the source
    (/repo/sqpdfo/sqpdfo.py:92-103) *)
Definition set_handles (a : args D) (g : globs) : globs :=
  match a_f a with
  | FnFun f =>
      match a_c a with
      | FnFun c => mkglobs (Some f) (Some c) (g_nbr g) (g_sl g)
      | FnOther => mkglobs (Some f) (g_c g) (g_nbr g) (g_sl g)
      | _ => mkglobs (Some f) None (g_nbr g) (g_sl g)
      end
  | _ => g
  end.

(** one call of sqpdfo_ (/repo/sqpdfo/sqpdfo.py:14-377): [if mi:] guards the only
    assignment of the slack count *)
Definition call (a : args D) (g : globs) : outcome_of Res * globs :=
  let g1 := set_handles a g in
  match check_args a with
  | Wrong => (OWrong, g1)
  | Quit => (OQuit, g1)
  | Enter _ _ =>
      match num_of (a_mi a) with
      | O => let (r, g2) := run_rest (a_data a) g1 in (ORes r, g2)
      | S _ =>
          match slack_count (num_of (a_me a)) (num_of (a_mi a)) (a_li a) (a_ui a) with
          | None => (ORaise, g1)
          | Some k =>
              let (r, g2) := run_rest (a_data a) (mkglobs (g_f g1) (g_c g1) k (repeat 0%R k)) in
              (ORes r, g2)
          end
      end
  end.

Fixpoint after (hist : list (args D)) (g : globs) : globs :=
  match hist with [] => g | a :: r => after r (snd (call a g)) end.

Definition result_after (hist : list (args D)) (a : args D) : outcome_of Res :=
  fst (call a (after hist fresh)).
End Calls.

(** ** Initial slacks

    /repo/sqpdfo/sqpdfo_prelim.py:489-497: from the last [nbr] constraint values and
    the last [nbr] upper bounds.  [None]: an index beyond the start of an array. *)
Fixpoint init_loop (ce ub : list R) (k i nbr : nat) : option (list R) :=
  match k with
  | O => Some []
  | S k' =>
      if Nat.ltb (length ce) (nbr - i) then None else
      let c := nth (length ce - (nbr - i)) ce 0%R in
      if Rltb 0 c then
        if Nat.ltb (length ub) (nbr - i) then None else
        let u := nth (length ub - (nbr - i)) ub 0%R in
        option_map (cons (Rmin (sqrt c) (sqrt u))) (init_loop ce ub k' (S i) nbr)
      else option_map (cons 0%R) (init_loop ce ub k' (S i) nbr)
  end.
Definition init_slacks (nbr : nat) (ce ub : list R) : option (list R) := init_loop ce ub nbr 0 nbr.

(** the vector whose norm is reported as infeasibility:
    /repo/sqpdfo/sqpdfo_optimality.py:57-60 *)
Definition feas_vector (nbr : nat) (sl ce : list R) : list R :=
  match nbr with
  | O => ce
  | S _ => map (fun p => (fst p - snd p)%R)
             (combine ce (repeat 0%R (length ce - nbr) ++ map (fun s => (s * s)%R) sl))
  end.

(** the infeasibility vector at the start of the main loop; [None] if the
    initialisation of the slacks raises an exception *)
Definition initial_feas (nbr : nat) (ce ub : list R) : option (list R) :=
  match nbr with
  | O => Some ce
  | S _ => option_map (fun sl => feas_vector nbr sl ce) (init_slacks nbr ce ub)
  end.
