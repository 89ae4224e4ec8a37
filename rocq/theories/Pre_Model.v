(** Model of the preprocessing, sqpdfo_prelim_: bounds, start point, initial radius,
    initial simplex and the evaluations at its points, up to the point where the main
    loop starts.  Numbers are exact rationals.  The factorisation and the poisedness of
    the simplex and the computation of the first models are not represented; they can
    raise an exception ([geom], [fit]).  Options are treated in Opt_Model.v, the initial
    slacks in Drv_Model.v. *)
From Coq Require Import List Arith ZArith QArith Qround Bool.
Import ListNotations.
From Verif Require Import QB Book_Model Main_Model.
Local Open Scope Q_scope.

(** a bound; None is infinite (minus infinity for lower, plus infinity for upper) *)
Definition bnd := option Q.

(** conversion of a float to an integer when it is assigned to an entry of an integer
    array: towards zero (numpy) *)
Definition trunc (q : Q) : Q := inject_Z (if qleb 0 q then Qfloor q else Qceiling q).
Definition assigned (int : bool) (q : Q) : Q := if int then trunc q else q.

(** moving one component, /repo/sqpdfo/sqpdfo_prelim.py:205-211 *)
Definition move (int : bool) (l u : bnd) (x d : Q) : Q :=
  match l with
  | Some lv => if qleb (- d) (lv - x) then assigned int (lv + d)
               else match u with
                    | Some uv => if qleb (uv - x) d then assigned int (uv - d) else x
                    | None => x
                    end
  | None => match u with
            | Some uv => if qleb (uv - x) d then assigned int (uv - d) else x
            | None => x
            end
  end.

(** the loop over the components, /repo/sqpdfo/sqpdfo_prelim.py:176-211: new start
    point, new radius and indices of the fixed variables; None is the return with
    flag 2 because a lower bound exceeds its upper bound.  [int]: the start point is
    an integer array. *)
Fixpoint adjust (int : bool) (lb ub : list bnd) (x : list Q) (j : nat) (d : Q)
  {struct x} : option (list Q * Q * list nat) :=
  match x, lb, ub with
  | xj :: xr, l :: lr, u :: ur =>
      let bad := match l, u with Some lv, Some uv => qltb uv lv | _, _ => false end in
      if bad then None else
      let width := match l, u with Some lv, Some uv => Some (uv - lv) | _, _ => None end in
      match width with
      | Some w =>
          if qltb w (d + d) then
            if qeqb w 0 then
              match adjust int lr ur xr (S j) d with
              | Some (x', d', fx) => Some (xj :: x', d', j :: fx)
              | None => None
              end
            else
              match adjust int lr ur xr (S j) ((1 # 2) * w) with
              | Some (x', d', fx) => Some (move int l u xj ((1 # 2) * w) :: x', d', fx)
              | None => None
              end
          else
            match adjust int lr ur xr (S j) d with
            | Some (x', d', fx) => Some (move int l u xj d :: x', d', fx)
            | None => None
            end
      | None =>
          match adjust int lr ur xr (S j) d with
          | Some (x', d', fx) => Some (move int l u xj d :: x', d', fx)
          | None => None
          end
      end
  | _, _, _ => Some ([], d, [])
  end.

(** initial interpolation points: x0 and x0 - d e_j
    (/repo/sqpdfo/sqpdfo_prelim.py:308-315; the further points for a diagonal initial
    model do not occur since the initial degree is n+1 < 2n+1) *)
Definition step_down (x : list Q) (d : Q) (j : nat) : list Q := upd x j (nth j x 0 - d).
Definition simplex (x : list Q) (d : Q) : list (list Q) :=
  x :: map (step_down x d) (seq 0 (length x)).

(** ** Shapes in the evaluation with fixed variables

    numpy broadcasting of two matrices *)
Definition bcast1 (a b : nat) : option nat :=
  if (a =? b)%nat then Some a else if (a =? 1)%nat then Some b else if (b =? 1)%nat then Some a else None.
Definition bcast (s t : nat * nat) : option (nat * nat) :=
  match bcast1 (fst s) (fst t), bcast1 (snd s) (snd t) with
  | Some a, Some b => Some (a, b) | _, _ => None end.

(** I[:,indfix] * xfix[indfix] + I[:,indfree] * y
    (/repo/sqpdfo/sqpdfo_augmX_evalf.py:83) *)
Definition yfull_shape (nfix nfree : nat) : option (nat * nat) :=
  match bcast ((nfix + nfree)%nat, nfix) (nfix, 1%nat), bcast ((nfix + nfree)%nat, nfree) (nfree, 1%nat) with
  | Some s, Some t => bcast s t
  | _, _ => None
  end.

(** an array: one-dimensional or two-dimensional; X[:,m] = ... needs two dimensions and
    a column m (/repo/sqpdfo/sqpdfo_augmX_evalf.py:84, not protected by a try) *)
Inductive arr := Arr1 (len : nat) | Arr2 (rows cols : nat).
Definition col_assign (X : arr) (m : nat) : bool :=
  match X with Arr1 _ => false | Arr2 _ c => (m <? c)%nat end.

(** does the evaluation number [m] with fixed variables get to the user function? *)
Definition fixed_eval (nfix nfree : nat) (X : arr) (m : nat) : bool :=
  match yfull_shape nfix nfree with None => false | Some _ => col_assign X m end.

(** ** Evaluations at the simplex *)

(** constraint values are appended column by column; empty columns are dropped,
    columns of different lengths raise an exception
    (/repo/sqpdfo/sqpdfo_augmX_evalf.py:175-179) *)
Definition add_col (ceX : list (list Q)) (c : list Q) : option (list (list Q)) :=
  match c, ceX with
  | [], _ => Some ceX
  | _, [] => Some [c]
  | _, c0 :: _ => if (length c =? length c0)%nat then Some (ceX ++ [c]) else None
  end.

Section Pre.
Variable user : nat -> list Q -> outcome.      (* k-th evaluation *)
Variable nrm : list Q -> Q.                    (* Euclidean norm *)
Variable geom : list (list Q) -> bool.         (* factorisation and poisedness succeed *)
Variable fit : list (list Q) -> bool.          (* first models and gradients succeed *)

Inductive pass_res :=
| IDone (cl X : list (list Q)) (fX : list Q) (ceX : list (list Q))
| IBreak (cl : list (list Q)) (ceX : list (list Q))  (* a value below -1e25 *)
| IFail (cl : list (list Q))                         (* an evaluation failed, flag 3 *)
| ICrash.

(** the for loop of /repo/sqpdfo/sqpdfo_prelim.py:355-378; fX is capped at 1e25, so the
    test abs(fX[i]) > 1e25 only sees values below -1e25 *)
Fixpoint eval_pts (todo : list (list Q)) (cl X : list (list Q)) (fX : list Q)
  (ceX : list (list Q)) : pass_res :=
  match todo with
  | [] => IDone cl X fX ceX
  | y :: r =>
      match eval_user (user (length cl) y) with
      | EvFail _ => IFail (cl ++ [y])
      | EvOk f c =>
          match add_col ceX c with
          | None => ICrash
          | Some ceX' =>
              let f' := qmin c1e25 f in
              if qltb c1e25 (qabs f') then IBreak (cl ++ [y]) ceX'
              else eval_pts r (cl ++ [y]) (X ++ [y]) (fX ++ [f']) ceX'
          end
      end
  end.

Inductive pre_res :=
| PReady (cl X : list (list Q)) (fX : list Q) (ceX : list (list Q)) (d : Q)
| PFlag (fl : nat) (cl : list (list Q))  (* return with a flag, calls made so far *)
| PGiveUp (cl : list (list Q))           (* return without a flag, normgx = None *)
| PCrash.

(** gamma1 and stallfact, /repo/sqpdfo/sqpdfo_prelim.py:72-74 *)
Definition shrink : Q := 1 # 100.
Definition stall : Q := 2220446049250313 # (10 ^ 30).

(** the while loop of /repo/sqpdfo/sqpdfo_prelim.py:268-417 and the assembly of the
    right-hand sides (line 436), with at most [fuel] rounds; None: not finished *)
Fixpoint rounds (fuel : nat) (x : list Q) (d : Q) (cl : list (list Q)) : option pre_res :=
  match fuel with
  | O => None
  | S fuel' =>
      if negb (geom (simplex x d)) then Some PCrash else
      match eval_pts (simplex x d) cl [] [] [] with
      | ICrash => Some PCrash
      | IFail cl' => Some (PFlag 3 cl')
      | IBreak cl' ceX =>
          match overwrite_ce ceX with
          | None => Some PCrash
          | Some _ =>
              let d' := shrink * d in
              if qltb d' (stall * nrm x) then Some (PGiveUp cl') else rounds fuel' x d' cl'
          end
      | IDone cl' X fX ceX =>
          match overwrite_ce ceX with
          | None => Some PCrash
          | Some ceX' =>
              match ceX' with
              | [] => Some (if fit X then PReady cl' X fX [] d else PCrash)
              | _ => if (length ceX' =? length X)%nat
                     then Some (if fit X then PReady cl' X fX ceX' d else PCrash)
                     else Some PCrash
              end
          end
      end
  end.

(** the initial radius, /repo/sqpdfo/sqpdfo.py:206 *)
Definition delta0 : Q := 1.

(** the whole routine after the options (/repo/sqpdfo/sqpdfo_prelim.py:137-440) *)
Definition prelim (fuel : nat) (int : bool) (lb ub : list bnd) (x0 : list Q) : option pre_res :=
  match x0 with
  | [] => Some (PFlag 1 [])
  | _ =>
      match adjust int lb ub x0 0 delta0 with
      | None => Some (PFlag 2 [])
      | Some (x, d, fx) =>
          match fx with
          | [] => rounds fuel x d []
          | _ => if (length fx =? length x0)%nat then Some (PFlag 2 [])
                 else if fixed_eval (length fx) (length x0 - length fx) (Arr1 0) 0
                      then rounds fuel x d []  (* cannot happen, see C26 *)
                      else Some PCrash
          end
      end
  end.

(** what the caller does with the answer: a flag is returned to the user, without a
    flag max_(mu0 * normgx, epsilon) is computed, a TypeError if normgx is None
    (/repo/sqpdfo/sqpdfo.py:275-290) *)
Inductive entry := ToMain | ToUser (fl : nat) | Exception_.
Definition caller (r : pre_res) : entry :=
  match r with
  | PReady _ _ _ _ _ => ToMain
  | PFlag fl _ => ToUser fl
  | PGiveUp _ => Exception_
  | PCrash => Exception_
  end.
End Pre.
