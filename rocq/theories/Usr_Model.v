(** Model of one evaluation of the two user functions: what they are handed, how often
    they are called, and how every kind of answer is treated.  The other models only
    know answers made of floating-point numbers and exceptions ([Main_Model.outcome]);
    here the answers are those a Python function can give.

    The constraint function may also be missing.  Not represented: an objective that
    answers with an array without entries, complex constraint values, fixed variables
    (see C26), scaling (scaleX = 0, /repo/sqpdfo/sqpdfo.py:246). *)
From Coq Require Import List ZArith QArith Bool.
Import ListNotations.
From Verif Require Import QB Book_Model Main_Model.
Local Open Scope Q_scope.

(** what the objective does: it answers with a number (a Python or numpy number, or a list or array
    with one entry), with a complex number, with a list or array of at least two
    numbers, with anything that numpy does not hold as a number (None, a string, a
    Fraction, an integer of more than 64 bits), or it raises any exception
    (/repo/sqpdfo/sqpdfo_func.py:31-35) *)
Inductive fret := FVal (v : xQ) | FComplex (re im : xQ) | FMany (vs : list xQ) | FOther | FRaise.

(** what the constraint function does: numbers (the entries of the answer in row order,
    whatever its shape, since it is reshaped to one column), an answer from which numpy
    makes an array that does not hold numbers, an answer from which numpy makes no
    array, or an exception (/repo/sqpdfo/sqpdfo_func.py:36-41) *)
Inductive cret := CVal (vs : list xQ) | COther | CRagged | CRaise.

(** the user functions.  Both are handed a list, which they may change: the second
    component is what they leave in it.
    (/repo/sqpdfo/sqpdfo_func.py:22-23) *)
Record user := mkU { u_f : list Q -> fret * list Q; u_c : option (list Q -> cret * list Q) }.

(** a call and its argument, as the user functions see it *)
Inductive call := ToF (x : list Q) | ToC (x : list Q).

(** the objects that hold the point during the evaluation: the column handed down by
    the caller and the list made of it *)
Record mem := mkM { m_col : list Q; m_list : list Q }.

(** answer of sqpdfo_func_: whether msg is a (non-empty) string, f and c, the calls
    made, and the memory afterwards *)
Record fres := mkF { r_msg : bool; r_f : fret; r_c : cret; r_calls : list call; r_mem : mem }.

(** the list is made of a copy of the column, /repo/sqpdfo/sqpdfo_func.py:29-30 *)
Definition fresh (x : list Q) : mem := mkM x x.

(** the call of the objective: every exception is replaced by the value inf and sets
    msgf (/repo/sqpdfo/sqpdfo_func.py:31-35) *)
Definition call_f (U : user) (M : mem) : fret * bool * mem :=
  let '(r, l) := u_f U (m_list M) in
  match r with
  | FRaise => (FVal PInf, true, mkM (m_col M) l)
  | _ => (r, false, mkM (m_col M) l)
  end.

(** the call of the constraint function; without one c stays the empty array.  An
    exception of the function leaves c empty; if array(c) raises, c stays as answered.
    Both set msgc (/repo/sqpdfo/sqpdfo_func.py:36-41) *)
Definition call_c (U : user) (M : mem) : cret * bool * list call * mem :=
  match u_c U with
  | None => (CVal [], false, [], M)
  | Some g =>
      let '(r, l) := g (m_list M) in
      let M' := mkM (m_col M) l in
      match r with
      | CRaise => (CVal [], true, [ToC (m_list M)], M')
      | CRagged => (CRagged, true, [ToC (m_list M)], M')
      | _ => (r, false, [ToC (m_list M)], M')
      end
  end.

(** /repo/sqpdfo/sqpdfo_func.py:8-47, reached through
    /repo/sqpdfo/sqpdfo_evalfgh.py:63-65 with key = 2 *)
Definition func (U : user) (x : list Q) : fres :=
  let M0 := fresh x in
  let '(f, msgf, M1) := call_f U M0 in
  let '(c, msgc, cc, M2) := call_c U M1 in
  mkF (orb msgf msgc) f c (ToF (m_list M0) :: cc) M2.

(** isnan(fvalue) and isinf(fvalue) as conditions: None is an exception (TypeError for
    what is no number, ValueError for the truth value of several entries).  A complex
    number is NaN or infinite if one of its parts is.
    (/repo/sqpdfo/sqpdfo_augmX_evalf.py:110, 119) *)
Definition is_inf (v : xQ) : bool := match v with PInf => true | NInf => true | _ => false end.

Definition cond (t : xQ -> bool) (r : fret) : option bool :=
  match r with
  | FVal v => Some (t v)
  | FComplex a b => Some (orb (t a) (t b))
  | FMany _ => None
  | FOther => None
  | FRaise => None
  end.

(** real_(fvalue) of an answer that passed the tests *)
Definition real (r : fret) : Q :=
  match r with
  | FVal (Fin q) => q
  | FComplex (Fin q) _ => q
  | _ => 0
  end.

(** one evaluation as the caller of sqpdfo_augmX_evalf_ sees it: the values appended to
    fX and ceX, or the return with flag fail_on_simul, or an exception that leaves the
    solver.  The comparison with msg == 1 (line 103) is False for every message that
    sqpdfo_func_ makes.
    (/repo/sqpdfo/sqpdfo_augmX_evalf.py:95-187) *)
Inductive verdict := Recorded (f : Q) (ce : list Q) | Failed | Escapes.

Definition check (r : fres) : verdict :=
  match cond is_nan (r_f r) with
  | None => Escapes
  | Some true => Failed
  | Some false =>
      match cond is_inf (r_f r) with
      | None => Escapes
      | Some true => Failed
      | Some false =>
          match r_c r with
          | CVal vs =>
              if existsb is_nan vs then Failed
              else if r_msg r then Failed
              else Recorded (qmin c1e25 (real (r_f r))) (map clampx vs)
          | _ => Escapes
          end
      end
  end.

(** the whole evaluation at the column [y]: what is recorded of the point (lines 91-94 of
    /repo/sqpdfo/sqpdfo_augmX_evalf.py, before the functions are called), the verdict, the calls, and the column
    afterwards (the caller goes on with it) *)
Record evaluation := mkE { v_point : list Q; v_verdict : verdict; v_calls : list call; v_after : list Q }.

Definition evaluate (U : user) (y : list Q) : evaluation :=
  let r := func U y in mkE y (check r) (r_calls r) (m_col (r_mem r)).
