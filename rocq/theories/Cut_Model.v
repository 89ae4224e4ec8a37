(** Model of the constraint values of test problem 1000 (a problem of the CUTEst collection):
    the re-ordering of the constraints and the splitting of two-sided inequalities.
    Exact rationals.  The three arrays c, cl, cu of the collection have m entries each and
    are kept as one list of rows. *)
From Coq Require Import List Arith ZArith QArith Bool.
Import ListNotations.
From Verif Require Import QB Main_Model Drv_Model Usr_Model.
Local Open Scope Q_scope.

(** one constraint: lower bound, upper bound, value
    (/repo/tests/benchmarks.py:212, 217-218) *)
Record row := mkrow { lo : Q; up : Q; val : Q }.

(** the numbers 1e20 and 1e7 of /repo/tests/benchmarks.py:232-252 *)
Definition e20 : Q := 100000000000000000000 # 1.
Definition q7 : Q := 10000000 # 1.

(** the values appended to ci_new for one inequality (/repo/tests/benchmarks.py:232-252) *)
Definition ineq_values (r : row) : list Q :=
  if qeqb (lo r) (- e20) && qeqb (up r) 0 then [- val r]
  else if qeqb (lo r) (- e20) && qltb (up r) q7 then [- val r + up r]
  else if qeqb (lo r) 0 && qeqb (up r) e20 then [val r]
  else if qltb (- q7) (lo r) && qeqb (up r) e20 then [val r - lo r]
  else (if qltb (- q7) (lo r) then [val r - lo r] else []) ++
       (if qltb (up r) q7 then [- val r + up r] else []).

(** the loop of /repo/tests/benchmarks.py:226-252 with its two lists *)
Fixpoint split_rows (rows : list row) (ce ci : list Q) : list Q * list Q :=
  match rows with
  | [] => (ce, ci)
  | r :: rest =>
      if qeqb (lo r) (up r) then split_rows rest (ce ++ [val r - lo r]) ci
      else split_rows rest ce (ci ++ ineq_values r)
  end.

(** sum(li), sum(ui) of /repo/tests/benchmarks.py:258 *)
Fixpoint qsum (l : list Q) : Q := match l with [] => 0 | a :: t => a + qsum t end.

(** /repo/tests/benchmarks.py:214-259 for m > 0 and an array x; [me] is the number of constraints the
    collection declares to be equalities.  The answer: the values, and whether a warning is
    printed. *)
Definition c_values (me : nat) (rows : list row) : list Q * bool :=
  if (0 <? length rows - me)%nat then
    let (ce, ci) := split_rows rows [] [] in (ce ++ ci, false)
  else (map val rows, qltb 0 (qsum (map lo rows)) || qltb 0 (qsum (map up rows))).

(** the argument of a test problem: sqpdfo_func_ hands over a list *)
Inductive arg := AList (x : list Q) | AArray (x : list Q).

(** /repo/tests/benchmarks.py:71-74: a list has no attribute reshape; [obj] is the collection *)
Definition f_1000 (obj : list Q -> xQ) (a : arg) : fret :=
  match a with AList _ => FRaise | AArray x => FVal (obj x) end.

(** /repo/tests/benchmarks.py:209-259; [con] is the collection *)
Definition c_1000 (me : nat) (con : list Q -> list row) (a : arg) : cret :=
  match a with
  | AList _ => CRaise
  | AArray x => CVal (map Fin (fst (c_values me (con x))))
  end.

(** problem 1000 as the user of the solver, /repo/tests/benchmarks.py:424-438 *)
Definition user_1000 (me : nat) (obj : list Q -> xQ) (con : list Q -> list row) : user :=
  mkU (fun x => (f_1000 obj (AList x), x)) (Some (fun x => (c_1000 me con (AList x), x))).
