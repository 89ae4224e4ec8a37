(** Model of blls.py, the bound-constrained linear least-squares solver, with
    [verbose = 0].  Exact reals, bounds possibly infinite ([lb = +inf] and
    [ub = -inf] excluded), no NaN.

    A is given by its entries, [m] rows and [n] columns.  The pseudo-inverse
    products (lines 82 and 230) are an argument [pin]: [pin free rhs] is the
    answer of [pinv_(A[:,free]).dot(rhs)], the entry for variable [i] being at
    index [i]; [None] is an exception of LAPACK, which the caller sees. *)
From Coq Require Import Reals Arith List Bool ZArith.
From Verif Require Import RVec RBool.
Import ListNotations.
Open Scope R_scope.

(** blls.py 82, 88, 155, 263, 383: [min_(max_(t,lb),ub)]. *)
Definition clip (l u : xR) (t : R) : R :=
  let t1 := match l with Fin a => Rmax t a | _ => t end in
  match u with Fin b => Rmin t1 b | _ => t1 end.

(** [abs(t - e) <= 1e-12] (blls.py 171-172, [epsfeas] line 54). *)
Definition at_bound (e : xR) (t : R) : bool :=
  match e with Fin a => Rleb (Rabs (t - a)) (1 / 10 ^ 12) | _ => false end.

Definition mem (l : list nat) (i : nat) : bool := existsb (Nat.eqb i) l.

(** [np.delete(inds, append(atlb,atub))] (blls.py 176-177, 295-298, 348-350). *)
Definition others (n : nat) (atlb atub : list nat) : list nat :=
  filter (fun i => negb (mem atlb i) && negb (mem atub i)) (seq 0 n).

(** [sum over l of A[i,j]*v[j]]: a product with selected columns, one term
    per occurrence (blls.py 225, 227). *)
Definition csum (A : mat) (l : list nat) (v : vec) (i : nat) : R :=
  fold_right (fun j acc => A i j * v j + acc) 0 l.

(** [A.T.dot(r)]. *)
Definition tmv (m : nat) (A : mat) (r : vec) : vec := fun j => rsum m (fun i => A i j * r i).

Section BLLS.
Variables (m n : nat) (A : mat) (b : vec) (lb ub : nat -> xR).
Variable pin : list nat -> vec -> option vec.

(** [A.dot(s) - b] (blls.py 85, 184, 233, 286). *)
Definition resid (s : vec) : vec := vsub (mv n A s) b.
Definition clipv (v : vec) : vec := fun i => clip (lb i) (ub i) (v i).
(** blls.py 88-89, 383: the optimality measure at a point with residual [r]. *)
Definition optm (s r : vec) : R := norm n (vsub (clipv (vsub s (tmv m A r))) s).

(** blls.py 154-164, the projected search, [tries] trials left.  [maxback] is
    15, and lines 166-168 give up when the counter is 15, even if the 15th
    trial was good: so only 14 trials count. *)
Fixpoint cauchy (tries : nat) (s g : vec) (alpha : R) : option vec :=
  match tries with
  | O => None
  | S k =>
    let stry := clipv (vsub s (vscal alpha g)) in
    let dtry := vsub stry s in
    let ltry := dot n g dtry in
    let qtry := ltry + 1 / 2 * (norm m (mv n A dtry) * norm m (mv n A dtry)) in
    if Rleb qtry (1 / 100 * ltry) then Some stry
    else cauchy k s g (1 / 2 * alpha)
  end.

(** State of the nested loop (blls.py 215-380).  Two fields only serve to state
    properties: [n_path] collects the point and its residual norm after each
    change of [s]; [n_dirs] collects the pairs (free variables, [dtry]) of the
    maximum-step computations (lines 326-334). *)
Record nst := NSt {
  n_s : vec; n_res : vec; n_resn : R;
  n_free : list nat; n_atlb : list nat; n_atub : list nat;
  n_nuns : nat;                 (* the counter of line 72 *)
  n_lt : list nat; n_ut : list nat; (* natlbt, natubt: they keep their values *)
  n_path : list (vec * R);
  n_dirs : list (list nat * vec)
}.

(** What the backtracking loop (252-313) ends with: a point accepted
    (lines 288-310), or the loop left because the trial violates no free bound
    (280-281) or because the trials are used up. *)
Record bkt := Bkt { bk_found : option (vec * vec * R); bk_lt : list nat; bk_ut : list nat; bk_last : bool }.

(** blls.py 252-313; [tries] trials left.  [bk_last] tells whether the last
    trial of the loop was reached ([kb >= nback], line 324). *)
Fixpoint backtrack (tries : nat) (s ssub : vec) (free : list nat) (resn rred alpha : R)
    (lt ut : list nat) : bkt :=
  match tries with
  | O => Bkt None lt ut true
  | S k =>
    let stry0 := vadd (vscal (1 - alpha) s) (vscal alpha ssub) in
    let lt' := filter (fun i => negb (xler (lb i) (stry0 i))) free in
    let ut' := filter (fun i => negb (rlex (stry0 i) (ub i))) free in
    let stry := clipv stry0 in
    match lt', ut' with
    | [], [] => Bkt None lt' ut' (Nat.eqb k 0)
    | _, _ =>
      let rtry := resid stry in
      let rtryn := norm m rtry in
      if Rleb rtryn (resn - 1 / 100 * alpha * rred) then Bkt (Some (stry, rtry, rtryn)) lt' ut' (Nat.eqb k 0)
      else backtrack k s ssub free resn rred (1 / 2 * alpha) lt' ut'
    end
  end.

(** blls.py 326-333: the largest step along [d]. *)
Definition max_step (free : list nat) (s d : vec) : R :=
  fold_left (fun al i =>
    if Rleb (1 / 10 ^ 14) (d i) then
      match ub i with Fin u => Rmin al ((u - s i) / d i) | _ => al end
    else if Rleb (d i) (- (1 / 10 ^ 14)) then
      match lb i with Fin l => Rmin al ((l - s i) / d i) | _ => al end
    else al) free 1.

(** blls.py 223-232: the subspace minimiser in the full space. *)
Definition subspace (free atlb atub : list nat) : option vec :=
  let rhs := vsub (vsub b (csum A atlb (fun j => xval (lb j)))) (csum A atub (fun j => xval (ub j))) in
  match pin free rhs with
  | None => None
  | Some p => Some (fun i => if mem atub i then xval (ub i) else if mem atlb i then xval (lb i) else p i)
  end.

(** blls.py 215-380: the nested subspace loop, [k] passes left. *)
Fixpoint nested (k : nat) (t : nst) : option nst :=
  match k with
  | O => Some t
  | S k' =>
    match subspace (n_free t) (n_atlb t) (n_atub t) with
    | None => None
    | Some ssub =>
      let rsubo := resid ssub in
      let rsubon := norm m rsubo in
      if existsb (fun i => negb (xler (lb i) (ssub i)) || negb (rlex (ssub i) (ub i))) (n_free t) then
        let dtry := vsub ssub (n_s t) in
        let rred := rsubon - n_resn t in
        let bk := backtrack (4 * (1 - n_nuns t)) (n_s t) ssub (n_free t) (n_resn t) rred 1 (n_lt t) (n_ut t) in
        let atlb' := n_atlb t ++ bk_lt bk in
        let atub' := n_atub t ++ bk_ut bk in
        let free' := others n atlb' atub' in
        match bk_found bk with
        | Some (stry, rtry, rtryn) =>
          Some (NSt stry rtry rtryn free' atlb' atub' (n_nuns t) (bk_lt bk) (bk_ut bk)
                    (n_path t ++ [(stry, rtryn)]) (n_dirs t))
        | None =>
          let nuns' := if bk_last bk then S (n_nuns t) else n_nuns t in
          let alpha := max_step (n_free t) (n_s t) dtry in
          let s' := vadd (n_s t) (vscal alpha dtry) in
          let rsub := vadd (vscal (1 - alpha) (n_res t)) (vscal alpha rsubo) in
          let rsubn := norm m rsub in
          nested k' (NSt s' rsub rsubn free' atlb' atub' nuns' (bk_lt bk) (bk_ut bk)
                    (n_path t ++ [(s', rsubn)]) (n_dirs t ++ [(n_free t, dtry)]))
        end
      else
        Some (NSt ssub rsubo rsubon (n_free t) (n_atlb t) (n_atub t) (n_nuns t) (n_lt t) (n_ut t)
                  (n_path t ++ [(ssub, rsubon)]) (n_dirs t))
    end
  end.

(** What the solver gives back (line 430) and, for stating properties, the
    number of iterations, the path and the directions. *)
Record blres := BlRes { r_s : vec; r_resn : R; r_opt : R; r_exitc : Z; r_nit : nat;
  r_path : list (vec * R); r_dirs : list (list nat * vec) }.

(** blls.py 140-411: the main loop, [left] iterations left out of [2*n];
    [nit] are done. *)
Fixpoint iterate (left nit nuns : nat) (lt ut : list nat) (s res : vec) (resn opt : R)
    (path : list (vec * R)) (dirs : list (list nat * vec)) : option blres :=
  match left with
  | O => Some (BlRes s resn opt (if Nat.leb (2 * n) nit then 1 else 0)%Z nit path dirs)
  | S left' =>
    let g := tmv m A res in
    let alpha := (norm n g / norm m (mv n A g)) * (norm n g / norm m (mv n A g)) in
    match cauchy 14 s g alpha with
    | None => Some (BlRes s resn opt (-1)%Z (S nit) path dirs)
    | Some stry =>
      let atlb := filter (fun i => at_bound (lb i) (stry i)) (seq 0 n) in
      let atub := filter (fun i => at_bound (ub i) (stry i)) (seq 0 n) in
      let free := others n atlb atub in
      let s1 : vec := fun i => if mem atub i then xval (ub i) else if mem atlb i then xval (lb i) else stry i in
      let res1 := resid s1 in
      let resn1 := norm m res1 in
      let path1 := path ++ [(s1, resn1)] in
      let stop opt' resn' := Rleb opt' (1 / 10 ^ 10) || Rleb resn' (1 / 10 ^ 11) in
      let exit k := (if Nat.leb (2 * n) k then 1 else 0)%Z in
      if Nat.eqb (length free) 0 || Rleb resn1 (1 / 10 ^ 11) then
        (* opt = 0 (line 202), so line 402 leaves the loop *)
        Some (BlRes s1 resn1 0 (exit (S nit)) (S nit) path1 dirs)
      else
        match nested n (NSt s1 res1 resn1 free atlb atub nuns lt ut path1 dirs) with
        | None => None
        | Some t =>
          let opt' := optm (n_s t) (n_res t) in
          if stop opt' (n_resn t) then
            Some (BlRes (n_s t) (n_resn t) opt' (exit (S nit)) (S nit) (n_path t) (n_dirs t))
          else iterate left' (S nit) (n_nuns t) (n_lt t) (n_ut t) (n_s t) (n_res t) (n_resn t) opt' (n_path t) (n_dirs t)
        end
    end
  end.

(** blls.py 82-430.  [natlbt]/[natubt] have no value before the first
    backtracking loop; they are never read before it, [nuns] being 0 until
    then. *)
Definition blls : option blres :=
  match pin (seq 0 n) b with
  | None => None
  | Some p =>
    let s := clipv p in
    let res := resid s in
    let resn := norm m res in
    let opt := optm s res in
    let maxit := if Rleb opt (1 / 10 ^ 10) || Rleb resn (1 / 10 ^ 11) then O else (2 * n)%nat in
    iterate maxit 0 0 [] [] s res resn opt [(s, resn)] []
  end.

End BLLS.
