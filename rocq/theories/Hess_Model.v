(** Model of sqpdfo_bfgs_update.py, sqpdfo_check_convex.py,
    sqpdfo_check_cond.py and sqpdfo_computeHessian.py.  Exact reals; printing
    is left out. *)
From Coq Require Import Reals Arith ZArith Bool.
From Verif Require Import RVec RBool.
Open Scope R_scope.

(** Column times row. *)
Definition outer (u v : vec) : mat := fun i j => u i * v j.

(** Outcome: new matrix, [pc], and the flag (0 or 30, sqpdfo_values.py). *)
Record bfgs_res := { bf_H : mat; bf_pc : R; bf_flag : Z }.

(** sqpdfo_bfgs_update.py 26-78; [eta = 0.2] (line 27).  The messages printed
    for [options.verbose >= 3] are left out. *)
Definition bfgs_update (n : nat) (H : mat) (y s : vec) (first : bool) : bfgs_res :=
  let fail pc := {| bf_H := H; bf_pc := pc; bf_flag := 30 |} in
  if Reqb (norm n s) 0 then fail 1
  else
    let ys := dot n y s in
    let Hs := mv n H s in
    let sHs := dot n s Hs in
    if Rleb sHs 0 then fail 1
    else
      let finish (y : vec) (ys pc : R) :=
        let para := dot n y y / ys in
        let H1 := if first then (fun i j => para * idm i j) else H in
        let Hs1 := if first then vscal para s else Hs in
        let sHs1 := if first then dot n s (vscal para s) else sHs in
        {| bf_H := fun i j => H1 i j - outer Hs1 Hs1 i j / sHs1 + outer y y i j / ys;
           bf_pc := pc; bf_flag := 0 |} in
      if Rltb ys (2 / 10 * sHs) then
        let pc := (1 - 2 / 10) * sHs / (sHs - ys) in
        let y' := vadd (vscal pc y) (vscal (1 - pc) Hs) in
        let ys' := dot n y' s in
        if Rleb ys' 0 then fail pc else finish y' ys' pc
      else if Rleb ys 0 then fail 1
      else finish y ys 1.

(** sqpdfo_check_convex.py 20-44.  [evneg] tells whether [eigvalsh] (line 28)
    returned a negative number (line 31), [d] and [v] are the answers of [eigh]
    (line 38).  Lines 22-25 only print; [real] (line 44) does nothing to a real
    matrix. *)
Definition check_convex (n : nat) (A : mat) (evneg : bool) (d : vec) (v : mat) : mat :=
  if evneg then
    let d' : vec := fun i => if Rltb (d i) (1 / 10 ^ 10) then 1 / 10 ^ 9 else d i in
    fun i j => rsum n (fun k => v i k * (d' k * v j k))
  else A.

(** runtime.py 267-280, [cond_]: [None] is the infinite condition number
    returned when the last (smallest) singular value is zero.  [sv] is the
    answer of [svd], largest first. *)
Definition cond_ (n : nat) (sv : vec) : option R :=
  if Reqb (sv (n - 1)%nat) 0 then None else Some (sv 0%nat / sv (n - 1)%nat).

(** [norm_(A - A.T, inf) > eps]: some row of absolute values sums to more than
    [eps = 1e-14] (numpy's infinity norm of a matrix is the largest row sum). *)
Fixpoint some_row (k n : nat) (A : mat) : bool :=
  match k with
  | O => false
  | S k' => Rltb (1 / 10 ^ 14) (rsum n (fun j => Rabs (A k' j - A j k'))) || some_row k' n A
  end.

(** sqpdfo_check_cond.py 19-48, for a matrix without NaN or infinite entries
    (so lines 23-28 do nothing).  [U], [sv], [V] are the answers of [svd] after
    the transposition of line 37, so that [A = U diag(sv) V']. *)
Definition check_cond (n : nat) (A : mat) (threshold : R) (U : mat) (sv : vec) (V : mat) : mat * bool :=
  let bad := match cond_ n sv with None => true | Some c => Rltb threshold c end in
  if bad then
    let sv' : vec := fun k => if Rltb (sv k) (1 / 10 ^ 7) then 1 / 10 ^ 7 else sv k in
    let A1 : mat := fun i j => rsum n (fun k => V j k * (sv' k * U i k)) in
    let A2 : mat := if some_row n n A1 then (fun i j => 5 / 10 * (A1 i j + A1 j i)) else A1 in
    (A2, true)
  else (A, false).

(** The values of [options.hess_approx] (sqpdfo_values.py): [values.bfgs],
    [values.model], anything else. *)
Inductive hess_mode := HBfgs | HModel | HOther.

(** What the procedure reads and writes in [info]: gradient of the objective,
    Jacobian of the equality constraints, flag. *)
Record hinfo := { hi_g : vec; hi_ae : mat; hi_flag : Z }.

Inductive hess_res :=
| HRes (M : mat) (pc : R) (info : hinfo)
| HAttributeError      (* [options.bfgs_restart] does not exist *)
| HNameError.          (* [mod_] (line 59) is defined nowhere in the package *)

(** Lines 42-44 and 52-54: minus the gradient of the Lagrangian at the
    previous point plus the one at the new point; [lm] is the slice
    [lm[n+mi : n+mi+me]]. *)
Definition lag_diff (me : nat) (g : vec) (ae : mat) (gx : vec) (gce : mat) (lm : vec) : vec :=
  fun i =>
    let y := if (0 <? me)%nat then - g i - rsum me (fun k => ae k i * lm k) else - g i in
    let y := y + gx i in
    if (0 <? me)%nat then y + rsum me (fun k => gce k i * lm k) else y.

(** Lines 88-101: the values of the Lagrangian at the points of the set; [lm]
    is here the slice [lm[n : n+me]], [slk] the squared slacks padded with
    zeros in front ([zeros] when there are none). *)
Definition lag_values (me : nat) (fY : vec) (ceY : mat) (lm slk : vec) : vec :=
  fun i => fY i + rsum me (fun k => lm k * (ceY k i - slk k)).

(** sqpdfo_computeHessian.py 22-123.  [restart = None] is an options object
    without [bfgs_restart] (sqpdfo_options.py sets no default).  [hessP] maps
    values at the points of the set to the Hessian of their interpolation model
    (lines 105-112) and [fH] is the Hessian of the objective model (line 115);
    [con] says that [ceY] is not empty.  [info.ai] is left out: there are no
    inequality rows ([mi = 0], sqpdfo.py turns them into equalities). *)
Definition compute_hessian (n me : nat) (null_step : bool) (mode : hess_mode) (restart : option nat)
  (niter : nat) (M : mat) (s gx : vec) (gce : mat) (lm_b lm_m : vec)
  (con : bool) (fY : vec) (ceY : mat) (slk : vec) (hessP : vec -> mat) (fH : mat) (info : hinfo) : hess_res :=
  if null_step then HRes M 1 info
  else match mode with
  | HBfgs =>
      let y := lag_diff me (hi_g info) (hi_ae info) gx gce lm_b in
      match restart with
      | None => HAttributeError
      | Some r =>
          if (0 <? r)%nat then HNameError
          else
            let first := (niter =? 1)%nat in
            let upd M := bfgs_update n M y s first in
            let out r := HRes (bf_H r) (bf_pc r) {| hi_g := gx; hi_ae := gce; hi_flag := bf_flag r |} in
            if (bf_flag (upd M) =? 30)%Z then out (upd idm) else out (upd M)
      end
  | HModel =>
      HRes (if con then hessP (lag_values me fY ceY lm_m slk) else fH) 1
           {| hi_g := gx; hi_ae := gce; hi_flag := hi_flag info |}
  | HOther => HRes M 1 {| hi_g := hi_g info; hi_ae := hi_ae info; hi_flag := 1 |}
  end.
