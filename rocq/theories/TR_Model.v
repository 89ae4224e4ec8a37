(** Model of the trust-region step sqpdfo_solve_TR_bc.py.

    Simplifications: exact reals, possibly infinite bounds; printing is left out; no fixed
    variables ([indfree] is everything) and no general inequalities ([mi] = 0: sqpdfo.py turns
    them into equalities with slacks before).  The calls of the other solvers are arguments:
    [restore] is bcdfo_solve_TR_MS_bc_ (dimension, gradient, matrix, bounds, radius; it
    answers the step and what the message says), [cvx] is sqpdfo_check_convex_, [null] is
    null_ (number of columns and matrix), [cg] is sqpdfo_truncated_cg_ (dimension, matrix,
    right-hand side, radius; it answers the step and whether the flag is 1 or 2), [mult] is
    sqpdfo_compute_multiplier_ (number of the pass and point).  None is an exception. *)
From Coq Require Import Reals List Arith Bool.
From Verif Require Import RVec RBool.
Import ListNotations.
Open Scope R_scope.

(** message of the restoration solver as tested in :242-247 *)
Inductive rmsg := MsgError | MsgBoundary | MsgOther.

(** how the constrained case ends: :429, :475, :503, :508, :514 *)
Inductive tr_tag := TrLimit | TrRelease | TrSigns | TrZero | TrFeasible.

(** the returned tuple (:586; [info] is passed through), the number of passes, and the
    displacements in x and the slacks: one for each shortened step (:564) and last the full
    step r + t of the final pass; [tr_fix] is x_fix before a release in the final pass *)
Record tr_out := mktr { tr_x : vec; tr_delta : R; tr_rpred : R; tr_actr : bool; tr_actt : bool; tr_lm : vec; tr_sl : vec;
  tr_end : tr_tag; tr_passes : nat; tr_moves : list vec; tr_fix : list nat }.

(** an exception, an infinite ratio in :550 (x would become infinite), no pass left, result *)
Inductive tr_res := TrRaise | TrInfinite | TrFuel | TrOut (o : tr_out).

(** comparisons with possibly infinite bounds: :380, 396, and abs(x - e) < r *)
Definition under (thr x : R) (l : xR) : bool := match l with Fin a => Rltb (x - a) (- thr) | PInf => true | NInf => false end.
Definition over (thr x : R) (u : xR) : bool := match u with Fin b => Rltb thr (x - b) | PInf => false | NInf => true end.
Definition close (r x : R) (e : xR) : bool := match e with Fin a => Rltb (Rabs (x - a)) r | _ => false end.

(** minimum of two numbers or infinities; a number or infinity divided by a positive number *)
Definition xmin (a b : xR) : xR := match a, b with
  | NInf, _ => NInf | _, NInf => NInf | PInf, _ => b | _, PInf => a
  | Fin p, Fin q => Fin (Rmin p q) end.
Definition xdiv (e : xR) (r : R) : xR := match e with Fin a => Fin (a / r) | x => x end.
Definition xopp (e : xR) : xR := match e with Fin a => Fin (- a) | PInf => NInf | NInf => PInf end.

(** Euclidean norm of a list, products of a list of rows with vectors *)
Definition normL (l : list R) : R := sqrt (fold_right (fun a s => a * a + s) 0 l).
Definition rows_t (l : list R) (rows : list vec) : vec := fun j => fold_right (fun p s => fst p * snd p j + s) 0 (combine l rows).
Definition rows_gram (rows : list vec) : mat := fun i j => fold_right (fun (a : vec) s => a i * a j + s) 0 rows.
Definition rows_v (n : nat) (rows : list vec) (x : vec) : list R := map (fun a => dot n a x) rows.
Definition plusL (l m : list R) : list R := map (fun p => fst p + snd p) (combine l m).

(** smallest entry and its first position (min_(.,nargout=2), :448) *)
Fixpoint argmin (l : list R) : R * nat := match l with
  | [] => (0, O) | [a] => (a, O)
  | a :: t => let (m, k) := argmin t in if Rleb a m then (a, O) else (m, S k) end.

(** np.sort and comparison of index lists, :465-466 *)
Fixpoint insert (i : nat) (l : list nat) : list nat := match l with
  | [] => [i] | j :: t => if (i <=? j)%nat then i :: l else j :: insert i t end.
Definition sort (l : list nat) : list nat := fold_right insert [] l.
Definition same_set (a b : list nat) : bool :=
  (length a =? length b)%nat && forallb (fun p => (fst p =? snd p)%nat) (combine (sort a) (sort b)).
Definition remove_nth {A} (k : nat) (l : list A) : list A := firstn k l ++ skipn (S k) l.

Section TR.
Variable restore : nat -> vec -> mat -> (nat -> xR) -> (nat -> xR) -> R -> option (vec * rmsg).
Variable cvx : mat -> mat.
Variable null : list vec -> option (nat * mat).
Variable cg : nat -> mat -> vec -> R -> option (vec * bool).
Variable mult : nat -> vec -> option vec.
Variables (n nsl : nat) (lb ub : nat -> xR) (thr : R).
Variables (M0 : mat) (ce : list R) (ae : list vec) (sl : vec).

Definition me : nat := length ce.
Definition dim : nat := (n + nsl)%nat.
(** concatenate((x,sl)) *)
Definition join (x s : vec) : vec := fun i => if (i <? n)%nat then x i else s (i - n)%nat.
Definition slpart (z : vec) : vec := fun i => z (n + i)%nat.

(** constraints and Jacobian with slacks, :96-104: sl**2 is taken off the last [nsl]
    constraints, whose slack columns are -2*diag(sl) *)
Definition con0 : list R := map (fun p => if (fst p <? me - nsl)%nat then snd p else snd p - sl (fst p - (me - nsl))%nat ^ 2) (combine (seq 0 me) ce).
Definition gcon0 : list vec := map (fun p : nat * vec => fun j =>
  if (j <? n)%nat then snd p j else if (fst p =? j - n + (me - nsl))%nat then -2 * sl (j - n)%nat else 0) (combine (seq 0 me) ae).

(** M and g padded with zeros for the slacks, :150-154 *)
Definition Mx : mat := fun i j => if ((i <? n) && (j <? n))%nat then M0 i j else 0.
Definition gx0 (g : vec) : vec := fun i => if (i <? n)%nat then g i else 0.

(** initially active bounds, :108-143: one row for each *)
Definition gradlag (x g lm : vec) : vec := fun i =>
  gx0 g i + (if ((i <? n)%nat && (close (/ 10 ^ 5) (x i) (lb i) || close (/ 10 ^ 5) (x i) (ub i))) then lm i else 0)
  + rows_t (map (fun k => lm (n + k)%nat) (seq 0 me)) gcon0 i.
Definition active0 (x g lm : vec) : list nat := flat_map (fun i =>
  let y := x i - gradlag x g lm i in
  (if (rlex y (lb i) && close (/ 10 ^ 5) (x i) (lb i)) then [i] else []) ++
  (if (xler (ub i) y && close (/ 10 ^ 5) (x i) (ub i)) then [i] else [])) (seq 0 n).

(** violated bound (the first one, where the loop breaks) and active bounds before it, :376-409 *)
Fixpoint scan (k i : nat) (x : vec) : option nat * list nat := match k with
  | O => (None, [])
  | S k' =>
      if under thr (x i) (lb i) then (Some i, [])
      else if close (/ 10 ^ 7) (x i) (lb i) then let (v, a) := scan k' (S i) x in (v, i :: a)
      else if over thr (x i) (ub i) then (Some i, [])
      else if close (/ 10 ^ 7) (x i) (ub i) then let (v, a) := scan k' (S i) x in (v, i :: a)
      else scan k' (S i) x
  end.

(** ratio of the step that stays inside the bounds, :534-550; [y] is the restored point, [t]
    the tangential step *)
Definition small (d : R) : bool := Rltb d (/ 10 ^ 15) && Rltb (- / 10 ^ 15) d.
Definition divisor (d : R) : R := if small d then / 10 ^ 15 else d.
Definition ratios (y t : vec) : list xR := flat_map (fun i =>
  (if Rltb 0 (divisor (t i)) then [xdiv (xsub (ub i) (y i)) (divisor (t i))] else []) ++
  (if Rltb 0 (divisor (- t i)) then [xdiv (xsub (xopp (lb i)) (- y i)) (divisor (- t i))] else [])) (seq 0 dim).
Definition minratio (y t : vec) : xR := fold_right xmin PInf (ratios y t).

(** slacks back into their bounds, :367-370 *)
Definition clip (s t : vec) : vec := fun i =>
  let a := if negb (rlex (s i) (ub (n + i)%nat)) then s i - t i else s i in
  if negb (xler (lb (n + i)%nat) a) then a - t i else a.

(** the variables changed by the loop *)
Record st := mkst { s_x : vec; s_con : list R; s_gcon : list vec; s_fix : list nat; s_g : vec; s_del : R; s_slnew : vec;
  s_lm : vec; s_rpred : R; s_moves : list vec }.

(** restoration step of a pass, :177-291: step, rpred, active_r *)
Definition restoration (k : nat) (s : st) : option (vec * R * bool) :=
  let g1 := rows_t (s_con s) (s_gcon s) in
  if ((k =? 1)%nat && Rltb (/ 10 ^ 14) (norm dim g1)) then
    let z := join (s_x s) sl in
    match restore dim g1 (cvx (rows_gram (s_gcon s))) (fun i => xsub (lb i) (z i)) (fun i => xsub (ub i) (z i)) (s_del s) with
    | None => None
    | Some (r, msg) =>
        let rp := s_rpred s + (normL (s_con s) - normL (plusL (s_con s) (rows_v dim (s_gcon s) r))) in
        let act := match msg with MsgError => false | MsgBoundary => true | MsgOther => Rltb (s_del s - norm n r) (/ 10 ^ 8) end in
        Some (r, rp, act)
    end
  else Some (vzero, s_rpred s, false).

(** tangential step, :304-343 *)
Definition tangent (s : st) (r : vec) : option (vec * bool) :=
  if (length (s_con s) <? dim)%nat then
    match null (s_gcon s) with
    | None => None
    | Some (k, Z) =>
        let Zt := fun j i => Z i j in
        let Mt := fun i j => dot dim (fun a => Z a i) (mv dim Mx (fun b => Z b j)) in
        let gt := mv dim Zt (vadd (s_g s) (mv dim Mx r)) in
        match cg k Mt (vneg gt) (s_del s) with
        | None => None
        | Some (u, act) => Some (mv k Z u, act)
        end
    end
  else Some (vzero, false).

(** shortened step after a violated bound, :525-584 *)
Definition shorten (k : nat) (s : st) (r t slnew : vec) : option st :=
  let y := join (vadd (s_x s) r) (vadd sl (slpart r)) in
  let go rho :=
    let ts := vscal rho t in
    let step := vadd r ts in
    let Ms := mv dim Mx step in
    Some (mkst (vadd (vadd (s_x s) r) ts) (s_con s)
      (map (fun p => if (fst p <? me)%nat then vadd (snd p) Ms else snd p) (combine (seq 0 (length (s_gcon s))) (s_gcon s)))
      (s_fix s) (vadd (s_g s) Ms) (s_del s - / 2 * norm n step)
      (if (k =? 1)%nat then vadd (vadd sl (slpart r)) (slpart ts) else vadd slnew (slpart ts))
      (s_lm s) (s_rpred s) (s_moves s ++ [step])) in
  match minratio y t with
  | PInf => None
  | NInf => go 0
  | Fin a => go (if Rltb a 0 then 0 else a)
  end.

(** the choice after a pass, :424-519: stop at once (limit), finish, or go on *)
Inductive choice := ChRaise | ChLimit | ChDone (how : tr_tag) (lm : vec) (fix_ : list nat) (con : list R) (gcon : list vec)
  | ChGo (lm : vec) (fix_ : list nat) (con : list R) (gcon : list vec).

Definition choose (k : nat) (s : st) (xnew step : vec) (viol : bool) (xa : list nat) : choice :=
  if Rleb (norm n step) (/ 10 ^ 16) then
    if ((10 * n <=? k)%nat || Rltb (s_del s) (/ 10 ^ 8)) then ChLimit
    else match s_fix s with
    | [] => ChDone TrZero (s_lm s) (s_fix s) (s_con s) (s_gcon s)
    | _ =>
        match mult k xnew with
        | None => ChRaise
        | Some lm =>
            let (m, j) := argmin (map lm (s_fix s)) in
            if Rltb m 0 then
              let back f := (firstn me (s_con s) ++ map (fun _ => 0) f, firstn me (s_gcon s) ++ map unitv f) in
              if same_set xa (s_fix s) then
                let f := remove_nth j (s_fix s) in ChDone TrRelease lm f (fst (back f)) (snd (back f))
              else ChGo lm xa (fst (back xa)) (snd (back xa))
            else ChDone TrSigns lm (s_fix s) (s_con s) (s_gcon s)
        end
    end
  else if viol then ChGo (s_lm s) (s_fix s) (s_con s) (s_gcon s)
  else ChDone TrFeasible (s_lm s) (s_fix s) (s_con s) (s_gcon s).

(** the loop over the active set, :160-586; [k] is iter_active *)
Fixpoint tr_loop (fuel k : nat) (s : st) : tr_res := match fuel with
  | O => TrFuel
  | S fuel' =>
      match restoration k s with
      | None => TrRaise
      | Some (r, rp, actr) =>
      match tangent s r with
      | None => TrRaise
      | Some (t, actt) =>
          let xnew := vadd (vadd (s_x s) r) t in
          let sl1 := if (k =? 1)%nat then vadd (vadd sl (slpart r)) (slpart t) else vadd (s_slnew s) (slpart t) in
          let slnew := clip sl1 (slpart t) in
          let (v, xa) := scan n 0 xnew in
          let s1 := match v with
            | Some i => mkst (s_x s) (s_con s ++ [0]) (s_gcon s ++ [unitv i]) (s_fix s ++ [i]) (s_g s) (s_del s) slnew (s_lm s) rp (s_moves s)
            | None => mkst (s_x s) (s_con s) (s_gcon s) (s_fix s) (s_g s) (s_del s) slnew (s_lm s) rp (s_moves s)
            end in
          let viol := match v with Some _ => true | None => false end in
          let out how s' slv := TrOut (mktr xnew (s_del s') rp actr actt (s_lm s') slv how k (s_moves s ++ [vadd r t]) (s_fix s1)) in
          match choose k s1 xnew (vadd r t) viol xa with
          | ChRaise => TrRaise
          | ChLimit => out TrLimit s1 slnew
          | ChDone how lm f c gc =>
              let s2 := mkst (s_x s1) c gc f (s_g s1) (s_del s1) (s_slnew s1) lm rp (s_moves s1) in
              if viol then match shorten k s2 r t slnew with None => TrInfinite | Some s3 => out how s3 (s_slnew s3) end
              else out how s2 slnew
          | ChGo lm f c gc =>
              let s2 := mkst (s_x s1) c gc f (s_g s1) (s_del s1) (s_slnew s1) lm rp (s_moves s1) in
              if viol then match shorten k s2 r t slnew with None => TrInfinite | Some s3 => tr_loop fuel' (S k) s3 end
              else tr_loop fuel' (S k) s2
          end
      end
      end
  end.

(** the constrained case, :90-586; the number of passes needs a limit in the model only *)
Definition solve_con (fuel : nat) (x : vec) (delta : R) (g lm : vec) : tr_res :=
  let a := active0 x g lm in
  tr_loop fuel 1 (mkst x (con0 ++ map (fun _ => 0) a) (gcon0 ++ map unitv a) [] (gx0 g) delta vzero lm 0 []).

(** the case without constraints, :67-87 *)
Definition solve_unc (x : vec) (delta : R) (g : vec) : option (vec * R * bool) :=
  match restore n g M0 (fun i => xsub (lb i) (x i)) (fun i => xsub (ub i) (x i)) delta with
  | None => None
  | Some (s, _) => Some (vadd x s, delta, negb (Rltb (norm n s) delta))
  end.
End TR.
