(** Model of the main optimisation loop, sqpdfo_main_.

    What is represented: all counters, the archive of evaluated points with their
    values, the interpolation set with its indices and values, the incumbent, the
    penalty parameter, the trust-region radius, the memorised merit values, the
    slacks, and the fields of [info] that are handed back; every branch of the
    loop that can be reached with the settings made in
    /repo/sqpdfo/sqpdfo.py:155-248 (the unreachable ones are named where they are
    left out).

    What is not represented: the model coefficients, gradients, Hessian, and
    multipliers.  Every number or point that the loop obtains from them is a field
    of [answers], one record per pass, and all theorems quantify over all records.
    Each of these computations may also raise an exception ([a_exc1]..[a_exc4]).

    Numbers are exact rationals.  The only overflow represented is the infinite
    merit value of line 856 ([a_minf]); user functions may return NaN and
    infinities. *)
From Coq Require Import List Arith ZArith QArith Bool Lia.
Import ListNotations.
From Verif Require Import QB Book_Model.
Local Open Scope Q_scope.

(** ** User functions *)

(** a floating-point number as returned by a user function *)
Inductive xQ := Fin (q : Q) | PInf | NInf | NaN.

(** what one evaluation of the two user functions does; [None] is an exception
    (/repo/sqpdfo/sqpdfo_func.py:31-43) *)
Record outcome := mkout { o_f : option xQ; o_c : option (list xQ) }.

Definition is_nan (v : xQ) : bool := match v with NaN => true | _ => false end.

(** clamping of a constraint value at +-1e25 (/repo/sqpdfo/sqpdfo_augmX_evalf.py:138-139) *)
Definition clampx (v : xQ) : Q :=
  match v with Fin q => clamp25 q | PInf => c1e25 | NInf => - c1e25 | NaN => 0 end.

(** result of the checks after an evaluation: values to be recorded, or a failure
    together with the value left in info.f.  An exception in the objective counts
    as value inf (/repo/sqpdfo/sqpdfo_func.py:34), an exception in the constraints
    sets msg (line 43).
    (/repo/sqpdfo/sqpdfo_augmX_evalf.py:98-146) *)
Inductive evres := EvOk (f : Q) (c : list Q) | EvFail (v : xQ).

Definition eval_user (o : outcome) : evres :=
  match (match o_f o with Some v => v | None => PInf end) with
  | Fin q =>
      match o_c o with
      | None => EvFail (Fin q)
      | Some c => if existsb is_nan c then EvFail (Fin q) else EvOk q (map clampx c)
      end
  | v => EvFail v
  end.

(** ** State *)

Section Main.
Context {P : Type}.

(** settings of the run and routines that are the same in all passes *)
Record env := mkenv {
  e_user : nat -> P -> outcome;     (* the k-th evaluation, at a point *)
  e_me : nat;                       (* number of constraints *)
  e_miter : nat; e_msimul : nat;    (* options.miter, options.msimul *)
  e_tolg : Q; e_tolf : Q; e_tolb : Q; (* options.tol_grad, tol_feas, tol_bnds *)
  e_whichmodel : nat; e_pfinal : nat; e_pquad : nat;
  e_zero : P;                       (* the zero vector *)
  e_dist : P -> P -> Q;             (* Euclidean distance *)
  e_rowdist : P -> Q;               (* see bcdfo_repair_Y *)
  e_norm : P -> Q;                  (* Euclidean norm *)
  e_argsort : list Q -> list nat;   (* descending sort *)
  e_cnorm : list Q -> Q;            (* Euclidean norm of a non-empty list *)
  e_inside : P -> bool;             (* bound test of sqpdfo_find_smallf *)
  e_adj : list Q -> list Q -> list Q (* new slacks from slplus and info.ce, lines 986-988 *)
}.

(** archive of evaluated points: number of evaluations (info.nsimul[1]), the points
    at which the user functions were called, index m of the last point, and the
    arrays X, fX, ceX (columns) *)
Record arch := mkA {
  nsim : nat; calls : list P; mlast : nat; Xs : list P; fXs : list Q; ceXs : list (list Q) }.

(** interpolation set and incumbent: x, fx, i_xbest *)
Record incu := mkI { iS : iset P; ix : P; ifx : Q; ib : nat }.

(** fields of info *)
Record inf := mkInfo {
  niter : nat; inff : Q; ince : list Q;
  glagn : Q; feasn : Q; compl : Q; errg : Q; poised : Q; yrad : Q }.

(** variables of the globalisation: delta, sigma, eps_current, pred,
    radius_has_been_rejected, f0, norm of ce0, merit0, merit, poised_model, the
    slacks and ceplus *)
Record glo := mkG {
  delta : Q; sigma : Q; epsc : Q; pred : Q; rej : bool;
  f0 : Q; ce0n : Q; merit0 : Q; merit : Q; pm : bool;
  sl : list Q; ceplus : list Q }.

Record st := mkst { sA : arch; sI : incu; sN : inf; sG : glo }.

(** numbers and points obtained in one pass from the parts that are not modelled *)
Record answers := mkans {
  a_exc1 : bool; a_exc2 : bool; a_exc3 : bool; a_exc4 : bool;
  a_glagn1 : Q;                     (* norm of the Lagrangian gradient, line 267 *)
  a_poised : Q; a_yrad : Q;         (* bcdfo_poisedness_Y, line 297 *)
  a_normgx : Q;                     (* projected gradient norm, line 369 *)
  a_newpt : nat -> list P -> nat -> nyj P; (* answers of bcdfo_find_new_yj *)
  a_repoised : option (Q * Q);      (* recomputation for verbose >= 4, line 480 *)
  a_glagn2 : Q;                     (* line 593 *)
  a_xnew : P;                       (* trial point, line 696 *)
  a_rpred : Q; a_active : bool; a_slplus : list Q;
  a_norms : Q;                      (* line 717 *)
  a_qcost : Q;                      (* line 729 *)
  a_gTs : Q;                        (* line 761 *)
  a_minf : bool;                    (* the merit value overflows, line 856 *)
  a_L1 : nat -> Q; a_L2 : nat -> Q; a_L3 : nat -> Q  (* Lagrange values at the trial
                                       point in the calls of bcdfo_include_in_Y *)
}.

(** end of a pass: next pass, return with info.flag and the value left in info.f,
    or an exception *)
Inductive outc := Continue (s : st) | Return (flag : nat) (s : st) (f : xQ) | Crash.

Variable E : env.

(** constants (/repo/sqpdfo/sqpdfo.py:196-244) *)
Definition eta1 : Q := 1 # 10000.
Definition eta2 : Q := 9 # 10.
Definition gamma1 : Q := 1 # 100.
Definition gamma2 : Q := 1 # 2.
Definition gamma3 : Q := 2.
Definition tau2 : Q := gamma3.
Definition tau3 : Q := 5.
Definition factor_CV : Q := 100.
Definition factor_FPR : Q := 10.
Definition epsilon : Q := 1 # 100000.
Definition tiny : Q := 1 # 10000000000.       (* epsilon * 1e-5 = 1e-10 *)
Definition Lambda_XN : Q := tiny.
Definition Lambda_FP : Q := tiny.
Definition Lambda_CP : Q := 6 # 5.
Definition Lambda_CPs : Q := 1 # 1000000000000000. (* 1e-15, main line 1310 *)
Definition mu : Q := 1 # 10.
Definition eps_TR : Q := 1 # 10000.
Definition eps_L : Q := 1 # 1000.
Definition stallfact : Q := 10 # 4503599627370496. (* 10 * 2^-52 *)
Definition Deltamax : Q := 100000.
Definition rho_factor : Q := 3 # 10.

(** constraint values minus the squared slacks in the last entries
    (/repo/sqpdfo/sqpdfo_main.py:652-655, /repo/sqpdfo/sqpdfo_optimality.py:57-60) *)
Fixpoint subsq (c s : list Q) : list Q :=
  match c, s with
  | ci :: c', si :: s' => (ci - si * si) :: subsq c' s'
  | _, _ => c
  end.
Definition resid (s c : list Q) : list Q :=
  let k := (length c - length s)%nat in firstn k c ++ subsq (skipn k c) s.

(** norm_ of an array: 0 for an empty one (/repo/sqpdfo/runtime.py:317) *)
Definition cn (l : list Q) : Q := match l with [] => 0 | _ => e_cnorm E l end.

(** norm_(.,inf) *)
Definition linf (l : list Q) : Q := fold_right (fun v m => qmax (qabs v) m) 0 l.

(** ** Evaluation *)

(** sqpdfo_augmX_evalf_ for the next index: the counter and X are extended before
    the user functions are looked at, fX and ceX only after a success; the number
    of constraint values must not change (the exception of a wrong number is raised
    by concatenate_ or, for an empty answer, at the next access).  No fixed
    variables (see C26), no scaling.
    (/repo/sqpdfo/sqpdfo_augmX_evalf.py:90-187) *)
Inductive evalr := EDone (A : arch) (f : Q) (c : list Q) | EFail (A : arch) (v : xQ) | EShape.

Definition eval_at (A : arch) (y : P) : evalr :=
  let m := S (mlast A) in
  let o := e_user E (length (calls A)) y in
  let n' := S (nsim A) in
  let cl := calls A ++ [y] in
  let X' := set_or_append (Xs A) m y in
  match eval_user o with
  | EvFail v => EFail (mkA n' cl m X' (fXs A) (ceXs A)) v
  | EvOk f c =>
      if (length c =? e_me E)%nat then
        EDone (mkA n' cl m X' (set_or_append (fXs A) m (qmin c1e25 f))
                 (match e_me E with O => ceXs A | _ => set_or_append (ceXs A) m c end)) f c
      else EShape
  end.

(** ** Improvement of the interpolation set *)

(** evaluation at the replaced points; a failure leaves fX without an entry m and
    the next statement raises IndexError.
    (/repo/sqpdfo/sqpdfo_main.py:491-521) *)
Fixpoint eval_replaced (js : list nat) (Y : list P) (A : arch) (ind : list nat)
  (fY : list Q) (ceY : list (list Q)) : option (arch * list nat * list Q * list (list Q)) :=
  match js with
  | [] => Some (A, ind, fY, ceY)
  | j :: t =>
      match nth_error Y j with
      | None => None
      | Some y =>
          match eval_at A y with
          | EDone A' f c =>
              eval_replaced t Y A' (upd ind j (mlast A')) (upd fY j (qmin c1e25 f))
                (match e_me E with O => ceY | _ => upd ceY j c end)
          | _ => None
          end
      end
  end.

(** lines 352-365 *)
Definition new_epsc (G : glo) (N : inf) : Q :=
  if qeqb (pred G) (-1) then
    (if qltb (e_tolf E) (feasn N) then mu * delta G else qmin (mu * epsc G) epsilon)
  else epsilon.

(** lines 439-447, with lSolver = 1 *)
Definition new_radius (G : glo) (N : inf) (ec : Q) : Q :=
  if qeqb (pred G) (-1) then qmin (delta G) ec
  else if qleb (glagn N) (factor_CV * epsilon) then qmin (delta G) epsilon
  else qmax (delta G) ec.

(** lines 369-379 *)
Definition eff_FPR (G : glo) (a : answers) : Q :=
  if (qleb (a_normgx a) epsilon || qeqb (pred G) (-1))%bool then 1 else factor_FPR.

(** the improvement step, lines 343-639; rep_degree is plin and the set never has
    fewer points, so augment <= 0 and the branch 384-430 is not entered, and the
    condition cur_degree >= rep_degree of line 618 holds.  The test msg == 'Error'
    (523) is never true. *)
Definition improve (s : st) (a : answers) : outc :=
  let A := sA s in let I := sI s in let N := sN s in let G := sG s in
  let ec := new_epsc G N in
  let radius := new_radius G N ec in
  let G1 := mkG (delta G) (sigma G) ec (pred G) (rej G) (f0 G) (ce0n G) (merit0 G) (merit G)
                (pm G) (sl G) (ceplus G) in
  if (qltb radius (stallfact * e_norm E (ix I)) || qltb radius tiny)%bool then
    Return 15 (mkst A I N G1) (Fin (inff N))
  else
  match repair_Y (e_zero E) (e_dist E) (e_rowdist E) (a_newpt a) (e_argsort E)
          (eff_FPR G a) eps_L radius Lambda_CP (s_Y (iS I)) (ix I) with
  | None => Crash
  | Some (Y', repl, imp, rad, x') =>
      let '(po, yr) := match a_repoised a with Some pr => pr | None => (imp, rad) end in
      match eval_replaced repl Y' A (s_ind (iS I)) (s_f (iS I)) (s_ce (iS I)) with
      | None => Crash
      | Some (A', ind', fY', ceY') =>
          let pm' := match repl with [] => true | _ => false end in
          match find_smallf (e_zero E) (e_inside E) (fun c => cn (resid (sl G) c)) (sigma G)
                  (mkset Y' ind' fY' [] ceY') x' (ifx I) (ib I) with
          | None => Crash
          | Some r =>
              if a_exc2 a then Crash else
              let I' := mkI (r_set r) (r_x r) (r_fx r) (r_ibest r) in
              let ce' := match r_ce r with Some c => c | None => ince N end in
              let er := po * yr / factor_CV in
              let fe := linf (resid (sl G) ce') in
              let N' := mkInfo (niter N) (r_f r) ce' (a_glagn2 a) fe 0 er po yr in
              if (qleb (a_glagn2 a / factor_CV) (e_tolg E) && qleb (fe / factor_CV) (e_tolf E)
                  && qleb (0 / factor_CV) (e_tolb E) && qleb er epsilon)%bool
              then Return 0 (mkst A' I' (mkInfo (S (niter N)) (r_f r) ce' (a_glagn2 a) fe 0 er po yr)
                     (mkG (delta G) (sigma G) ec (pred G) (rej G) (f0 G) (ce0n G) (merit0 G)
                          (merit G) pm' (sl G) (ceplus G))) (Fin (r_f r))
              else Continue (mkst A' I' N'
                     (mkG radius (sigma G) ec (pred G) (rej G) (f0 G) (ce0n G) (merit0 G)
                          (merit G) pm' (sl G) (ceplus G)))
          end
      end
  end.

(** ** One step *)

(** memorised values, lines 648-658 *)
Definition memo (N : inf) (G : glo) : glo :=
  if rej G then G else
  let c0 := cn (resid (sl G) (ince N)) in
  mkG (delta G) (sigma G) (epsc G) (pred G) (rej G) (inff N) c0 (inff N + sigma G * c0)
      (merit G) (pm G) (sl G) (ceplus G).

(** new penalty parameter, lines 731-737 *)
Definition new_sigma (G : glo) (a : answers) : Q :=
  let sb := if qeqb (a_rpred a) 0 then 0 else a_qcost a / ((1 - rho_factor) * a_rpred a) in
  if qltb (sigma G) sb then qmax sb ((3 # 2) * sigma G) else sigma G.

Definition with_sigma (G : glo) (sg : Q) (changed : bool) : glo :=
  mkG (delta G) sg (epsc G) (pred G) (rej G) (f0 G) (ce0n G)
      (if changed then f0 G + sg * ce0n G else merit0 G)
      (merit G) (pm G) (sl G) (ceplus G).

(** predicted reduction, lines 871-889: every nonpositive value becomes -1 *)
Definition new_pred (qcost sg rpred : Q) : Q :=
  if qltb rpred 0 then -1 else
  let p := - qcost + sg * rpred in
  if qleb p 0 then -1 else p.

(** the set can still be augmented (lines 935, 1094) *)
Definition can_augment (p : nat) : bool :=
  ((p <? e_pfinal E)%nat ||
   ((e_whichmodel E =? 3)%nat && (p <? e_pfinal E + e_pfinal E)%nat))%bool.

(** storing index, function value and constraint values of the trial point at
    position pos: overwritten if the position exists, appended otherwise.  A
    constraint block is written only for me > 0; if ceplus has not the right length it
    is the empty initial value, and an exception follows: the assignment raises, and
    an append drops the empty array (concatenate_), after which the exchange with
    column 0 or the stacking of fY and ceY for the next model raises.
    (lines 967-980, 1109-1125, 1217-1223, 1340-1346) *)
Definition store (S : iset P) (Y' : list P) (pos m : nat) (f : Q) (c : list Q)
  : option (iset P) :=
  match e_me E with
  | O => Some (mkset Y' (set_or_append (s_ind S) pos m) (set_or_append (s_f S) pos f)
                 (s_ci S) (s_ce S))
  | me => if (length c =? me)%nat
          then Some (mkset Y' (set_or_append (s_ind S) pos m) (set_or_append (s_f S) pos f)
                       (s_ci S) (set_or_append (s_ce S) pos c))
          else None
  end.

(** new slacks after a successful inclusion, lines 982-991 *)
Definition new_sl (G : glo) (slp c : list Q) : list Q :=
  match e_me E, sl G with O, _ => sl G | _, [] => sl G | _, _ => e_adj E slp c end.

(** radius after a successful step, lines 1033-1043 *)
Definition succ_delta (d rho norms : Q) (active : bool) : Q :=
  if qleb eta2 rho then
    (if (active && qltb d 5)%bool then d * tau3
     else qmin (qmax (tau2 * norms) d) Deltamax)
  else
    (if active then d * tau2 else qmin (qmax (tau2 * norms) d) Deltamax).

(** radius after a failed inclusion, lines 1436-1441; division by zero as in numpy
    (signed zeros aside): inf, -inf or NaN, the last ignored by min_ *)
Definition red_delta (d norms pr gTs df : Q) : Q :=
  let curv := - pr - gTs in
  let num := (eta2 - 1) * gTs in
  let den := df - gTs - eta2 * curv in
  let g := if qeqb den 0 then (if qltb num 0 then gamma1 else gamma2)
           else qmax gamma1 (qmin (num / den) gamma2) in
  g * qmin d norms.

(** distances used to tell far from close points, lines 1173-1186 *)
Definition far_dists (succ : bool) (Y : list P) (x xp : P) : list Q :=
  if succ then map (fun y => e_dist E y xp) Y
  else match Y with [] => [] | _ :: t => 0 :: map (fun y => e_dist E y x) t end.

Definition positions (p : Q -> bool) (d : list Q) : list nat :=
  filter (fun j => p (nth j d 0)) (seq 0 (length d)).

(** the trial point was put at position pos in a far/close replacement: store it,
    and after a successful step move it to the front.
    (lines 1206-1274, 1322-1396) *)
Definition replaced_by_trial (a : answers) (A : arch) (I : incu) (N : inf) (G : glo)
  (succ : bool) (Y' : list P) (pos : nat) (x' : P) (fxp : Q) : option (incu * inf * glo) :=
  match store (iS I) Y' pos (mlast A) fxp (ceplus G) with
  | None => None
  | Some S1 =>
      if succ then
        match swap_in_Y (e_zero E) 0 pos S1 x' with
        | None => None
        | Some (S2, x2) =>
            let ce' := match e_me E, s_ce S2 with O, _ => ince N | _, c :: _ => c | _, [] => ince N end in
            Some (mkI S2 x2 fxp (mlast A),
                  mkInfo (niter N) fxp ce' (glagn N) (feasn N) (compl N) (errg N) (poised N) (yrad N),
                  mkG (qmin (qmax (gamma3 * a_norms a) (delta G)) Deltamax) (sigma G) (epsc G)
                      (pred G) (rej G) (f0 G) (ce0n G) (merit0 G) (merit G) false
                      (new_sl G (a_slplus a) ce') (ceplus G))
        end
      else
        Some (mkI S1 x' (ifx I) (ib I), N,
              mkG (if qltb epsilon (delta G) then gamma2 * delta G else delta G) (sigma G)
                  (epsc G) (pred G) (rej G) (f0 G) (ce0n G) (merit0 G) (merit G) (pm G)
                  (sl G) (ceplus G))
  end.

(** end of an unsuccessful pass, line 1470 *)
Definition finish_rej (a : answers) (A : arch) (I : incu) (N : inf) (G : glo) : outc :=
  if a_exc4 a then Crash else
  Continue (mkst A I (mkInfo (niter N) (f0 G) (ince N) (glagn N) (feasn N) (compl N) (errg N)
                        (poised N) (yrad N)) G).

(** decrease of the radius, lines 1425-1465 *)
Definition reduce (a : answers) (A : arch) (I : incu) (N : inf) (G : glo) (fxp : Q) : outc :=
  let d := red_delta (delta G) (a_norms a) (pred G) (a_gTs a) (fxp - ifx I) in
  let G' := mkG d (sigma G) (epsc G) (pred G) (rej G) (f0 G) (ce0n G) (merit0 G) (merit G)
                (pm G) (sl G) (ceplus G) in
  if (qltb d (stallfact * e_norm E (ix I)) || qltb d tiny)%bool
  then Return 15 (mkst A I N G') (Fin (inff N))
  else finish_rej a A I N G'.

(** unsuccessful pass, lines 1080-1490; [succ] says rho >= eta1 (then the point could
    not be included before).  The line 1151 sets pos = m, so nothing of 1165-1465
    happens after an augmentation. *)
Definition reject (a : answers) (A : arch) (I : incu) (N : inf) (G0 : glo) (succ : bool) (fxp : Q)
  : outc :=
  let G := mkG (delta G0) (sigma G0) (epsc G0) (pred G0) true (f0 G0) (ce0n G0) (merit0 G0)
               (merit G0) (pm G0) (sl G0) (ceplus G0) in
  let xp := a_xnew a in
  let Y := s_Y (iS I) in
  if (can_augment (length Y) && negb succ)%bool then
    let '(p', Y') := augment_Y (e_pquad E) (e_whichmodel E) [xp] Y in
    match store (iS I) Y' (p' - 1) (mlast A) fxp (ceplus G) with
    | None => Crash
    | Some S1 =>
        finish_rej a A (mkI S1 (ix I) (ifx I) (ib I)) N
          (mkG (if qltb epsilon (delta G) then gamma2 * delta G else delta G) (sigma G) (epsc G)
               (pred G) (rej G) (f0 G) (ce0n G) (merit0 G) (merit G) false (sl G) (ceplus G))
    end
  else
  if (negb (pm G) || qleb (delta G) (epsc G))%bool then
    let d := far_dists succ Y (ix I) xp in
    let fpl := 1 * (1 + eps_TR) * delta G in
    let '(Y1, pos1, x1) :=
      include_in_Y (e_zero E) (e_dist E) xp Y (positions (qltb fpl) d) Lambda_FP
        (if succ then Weighted else Distance) (ix I) succ (a_L2 a) in
    match pos1 with
    | Some pos =>
        match replaced_by_trial a A I N G succ Y1 pos x1 fxp with
        | None => Crash
        | Some (I', N', G') => finish_rej a A I' N' G'
        end
    | None =>
        let d' := if succ then d else upd d 0 (2 * fpl) in
        let '(Y2, pos2, x2) :=
          include_in_Y (e_zero E) (e_dist E) xp Y (positions (fun v => qleb v fpl) d')
            (if succ then Lambda_CPs else Lambda_CP) Standard (ix I) succ (a_L3 a) in
        match pos2 with
        | Some pos =>
            match replaced_by_trial a A I N G succ Y2 pos x2 fxp with
            | None => Crash
            | Some (I', N', G') => finish_rej a A I' N' G'
            end
        | None => reduce a A I N G fxp
        end
    end
  else reduce a A I N G fxp.

(** successful pass: augment or include, lines 933-1067; [fraw] is the value left in
    info.f by the evaluation *)
Definition accept (a : answers) (A : arch) (I : incu) (N : inf) (G : glo) (rho fxp : Q) : outc :=
  let xp := a_xnew a in
  let Y := s_Y (iS I) in
  let '(Y', pos, x') :=
    if can_augment (length Y) then
      let '(p', Y1) := augment_Y (e_pquad E) (e_whichmodel E) [xp] Y in (Y1, Some (p' - 1)%nat, ix I)
    else
      include_in_Y (e_zero E) (e_dist E) xp Y (seq 0 (length Y)) Lambda_XN Distance (ix I)
        true (a_L1 a) in
  match pos with
  | None => reject a A I N G true fxp
  | Some ps =>
      match store (iS I) Y' ps (mlast A) fxp (ceplus G) with
      | None => Crash
      | Some S1 =>
          match swap_in_Y (e_zero E) 0 ps S1 x' with
          | None => Crash
          | Some (S2, x2) =>
              if a_exc4 a then Crash else
              Continue (mkst A (mkI S2 x2 fxp (mlast A))
                (mkInfo (niter N) (inff N) (match e_me E with O => ince N | _ => ceplus G end)
                   (glagn N) (feasn N) (compl N) (errg N) (poised N) (yrad N))
                (mkG (succ_delta (delta G) rho (a_norms a) (a_active a)) (sigma G) (epsc G) (pred G)
                     false (f0 G) (ce0n G) (merit0 G) (merit G) false
                     (new_sl G (a_slplus a) (ceplus G)) (ceplus G)))
          end
      end
  end.

(** step computation, evaluation and validation, lines 644-1490.  The return of line
    704 cannot happen: info.flag is 0 there (see C05).  The block 798-842 cannot be
    reached: a nonzero retval comes with a nonzero info.flag. *)
Definition step (s : st) (a : answers) : outc :=
  let I := sI s in
  let G1 := memo (sN s) (sG s) in
  let N := mkInfo (S (niter (sN s))) (inff (sN s)) (ince (sN s)) (glagn (sN s)) (feasn (sN s))
                  (compl (sN s)) (errg (sN s)) (poised (sN s)) (yrad (sN s)) in
  if a_exc3 a then Crash else
  let sg := new_sigma G1 a in
  let changed := negb (qeqb sg (sigma G1)) in
  if (changed && qltb (inject_Z (10 ^ 299)) sg)%bool then
    Return 30 (mkst (sA s) I N (with_sigma G1 sg false)) (Fin (inff N))
  else
  let G2 := with_sigma G1 sg changed in
  match eval_at (sA s) (a_xnew a) with
  | EShape => Crash
  | EFail A v => Return 3 (mkst A I N G2) v
  | EDone A f c =>
      let fxp := qmin c1e25 f in
      let N3 := mkInfo (niter N) f (ince N) (glagn N) (feasn N) (compl N) (errg N) (poised N) (yrad N) in
      match (if any_ce (ceXs A) then
               match overwrite_ce (ceXs A) with
               | None => None
               | Some cX => match nth_error cX (mlast A) with
                            | Some cp => Some (cX, cp) | None => None end
               end
             else Some (ceXs A, ceplus G2)) with
      | None => Crash
      | Some (cX, cp) =>
          let A3 := mkA (nsim A) (calls A) (mlast A) (Xs A) (fXs A) cX in
          if (length cp <? length (sl G2))%nat then Crash else
          let mer := fxp + sg * cn (resid (a_slplus a) cp) in
          if a_minf a then
            Return 30 (mkst A3 I N3 (mkG (delta G2) sg (epsc G2) (pred G2) (rej G2) (f0 G2) (ce0n G2)
                         (merit0 G2) mer (pm G2) (sl G2) cp)) (Fin f)
          else
          let ared := merit0 G2 - mer in
          let pr := new_pred (a_qcost a) sg (a_rpred a) in
          let G3 := mkG (delta G2) sg (epsc G2) pr (rej G2) (f0 G2) (ce0n G2) (merit0 G2) mer
                        (pm G2) (sl G2) cp in
          if qeqb pr (-1) then Continue (mkst A3 I N3 G3)
          else
          let rho := ared / pr in
          if qleb eta1 rho then
            if qleb (merit0 G2) mer then Return 8 (mkst A3 I N3 G3) (Fin f)
            else accept a A3 I N3 G3 rho fxp
          else reject a A3 I N3 G3 false fxp
      end
  end.

(** one pass of the loop, lines 212-1490 *)
Definition pass (s : st) (a : answers) : outc :=
  let N := sN s in let G := sG s in
  if (e_miter E <=? niter N)%nat then Return 5 s (Fin (inff N)) else
  if (e_msimul E <=? nsim (sA s))%nat then Return 6 s (Fin (inff N)) else
  if a_exc1 a then Crash else
  let gl := a_glagn1 a in
  let fe := linf (resid (sl G) (ince N)) in
  let tols := (qleb gl (e_tolg E) && qleb fe (e_tolf E) && qleb 0 (e_tolb E))%bool in
  if (tols || qltb (delta G) tiny || qeqb (pred G) (-1))%bool then
    let er := a_poised a * a_yrad a / factor_CV in
    let N1 := mkInfo (S (niter N)) (inff N) (ince N) gl fe 0 er (a_poised a) (a_yrad a) in
    let s1 := mkst (sA s) (sI s) N1 G in
    if (tols && qleb er epsilon)%bool then Return 0 s1 (Fin (inff N))
    else match improve s1 a with
         | Continue s2 => step s2 a
         | o => o
         end
  else
    step (mkst (sA s) (sI s)
            (mkInfo (niter N) (inff N) (ince N) gl fe 0 (errg N) (poised N) (yrad N)) G) a.

(** the loop: one record of answers per pass; [None] when [fuel] passes did not end it *)
Fixpoint run (fuel : nat) (ans : nat -> answers) (k : nat) (s : st) : option outc :=
  match fuel with
  | O => None
  | S n => match pass s (ans k) with
           | Continue s' => run n ans (S k) s'
           | o => Some o
           end
  end.

(** states at the loop head *)
Inductive reach (s0 : st) : st -> Prop :=
| reach_start : reach s0 s0
| reach_pass s a s' : reach s0 s -> pass s a = Continue s' -> reach s0 s'.

(** state at the first loop head, from the data handed over by the initial phase:
    points already evaluated (all of them in the interpolation set, in order), number
    of evaluations made and points of the calls, initial slacks and radius.
    eps_current is epsilon because mu0 = 0 (/repo/sqpdfo/sqpdfo.py:233, 296).
    (/repo/sqpdfo/sqpdfo_main.py:141-210, /repo/sqpdfo/sqpdfo_prelim.py:419-487) *)
Definition start (cl : list P) (X : list P) (fX : list Q) (ceX : list (list Q))
  (slk : list Q) (d0 : Q) : option st :=
  match X, fX with
  | x0 :: _, fx0 :: _ =>
      let c0 := match ceX with c :: _ => c | [] => [] end in
      Some (mkst (mkA (length cl) cl (length X - 1) X fX ceX)
              (mkI (mkset X (seq 0 (length X)) fX [] ceX) x0 fx0 0)
              (mkInfo 0 fx0 c0 0 0 0 0 0 0)
              (mkG d0 1 epsilon 0 false 0 0 0 (fx0 + 1 * cn (resid slk c0)) true slk []))
  | _, _ => None
  end.

End Main.

Arguments env : clear implicits.
Arguments arch : clear implicits.
Arguments incu : clear implicits.
Arguments st : clear implicits.
Arguments answers : clear implicits.
Arguments outc : clear implicits.
