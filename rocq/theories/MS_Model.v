(** Model of the trust-region solver bcdfo_solve_TR_MS.py.

    Simplifications: exact reals, so the tests for NaN, complex and infinite entries of H
    (bcdfo_solve_TR_MS.py:81-106) and for NaN in the Cholesky factor (:196-203) never
    apply; printing is left out; the text of the messages is replaced by a tag.  The
    Cholesky factorisation ([chol], None is the caught exception of runtime.py:293-298),
    numpy.linalg.solve ([slv], None is LinAlgError) and numpy.linalg.eig ([eigv] and
    [eigd], real parts) are arguments. *)
From Coq Require Import Reals List Arith Bool.
From Verif Require Import RVec RBool Tri.
Import ListNotations.
Open Scope R_scope.

(** bcdfo_solve_TR_MS.py:65-67 *)
Definition ms_theta : R := / 10 ^ 13.
Definition ms_epsilon : R := / 10 ^ 12.
Definition ms_nitmax : nat := 300.

Inductive ms_msg := MsZeroRadius | MsZeroGradient | MsInterior | MsBoundary.

(** the returned tuple, bcdfo_solve_TR_MS.py:339 *)
Record ms_out := mkms { ms_s : vec; ms_lambda : R; ms_norms : R; ms_value : R; ms_gplus : vec;
  ms_nfact : nat; ms_neigd : nat; ms_tag : ms_msg; ms_hard : bool }.

(** largest sum of magnitudes in a row, root of the sum of squares; norm_(H,inf),
    norm_(H,'fro') of runtime.py:313-338 *)
Definition norminf (n : nat) (H : mat) : R :=
  fold_left (fun m i => Rmax m (rsum n (fun j => Rabs (H i j)))) (seq 0 n) 0.
Definition normfro (n : nat) (H : mat) : R := sqrt (rsum n (fun i => rsum n (fun j => H i j * H i j))).

(** H + lambda*I, bcdfo_solve_TR_MS.py:194 *)
Definition shifted (H : mat) (lam : R) : mat := fun i j => H i j + lam * idm i j.

(** initial bounds on lambda, bcdfo_solve_TR_MS.py:110-125.  The Frobenius norm of a zero
    matrix is 0 anyway. *)
Definition ms_hn (n : nat) (H : mat) : R := Rmin (norminf n H) (normfro n H).
Definition ms_lower (n : nat) (g : vec) (H : mat) (D : R) : R := Rmax 0 (norm n g / D - ms_hn n H).
Definition ms_upper (n : nat) (g : vec) (H : mat) (D : R) : R := Rmax 0 (norm n g / D + ms_hn n H).

(** interval step used when Newton's value is not acceptable, bcdfo_solve_TR_MS.py:181, 259 *)
Definition ms_inner (lower upper : R) : R := Rmax (sqrt (lower * upper)) (lower + ms_theta * (upper - lower)).

(** initial lambda, bcdfo_solve_TR_MS.py:178-181 *)
Definition ms_first (lower upper : R) : R := if Reqb lower 0 then 0 else ms_inner lower upper.

(** position of the first smallest entry; min_(diag(D),nargout=2), bcdfo_solve_TR_MS.py:282 *)
Fixpoint argmin (n : nat) (d : vec) : nat :=
  match n with
  | O => O
  | S O => O
  | S k => let j := argmin k d in if Rltb (d k) (d j) then k else j
  end.
Definition maxentry (n : nat) (d : vec) : R := fold_left (fun m i => Rmax m (d i)) (seq 1 (n - 1)) (d 0%nat).

Section MS.
Variable chol : mat -> option mat.
Variable slv : mat -> vec -> option vec.
Variable eigv : mat.
Variable eigd : vec.
Variables (n : nat) (g : vec) (H : mat) (Delta eps_D : R).

(** model value at a step, bcdfo_solve_TR_MS.py:225-227, 321-323 *)
Definition ms_model (s : vec) : R := dot n g s + / 2 * dot n s (mv n H s).
Definition ms_grad (s : vec) : vec := vadd g (mv n H s).

(** one pass of the loop, bcdfo_solve_TR_MS.py:185-272: an exception, a return, or new
    bounds and lambda together with the test for leaving the loop *)
Inductive ms_pass := PRaise | PExit (s : vec) | PNext (lower upper lam : R) (stop : bool).

Definition ms_stop (lower upper : R) : bool := Rltb (upper - lower) (ms_theta * Rmax 1 upper).

Definition ms_step (lower upper lam : R) : ms_pass :=
  match chol (shifted H lam) with
  | Some U =>
      match slv (tr U) g with
      | None => PRaise
      | Some y =>
      match slv (fun i j => - U i j) y with
      | None => PRaise
      | Some s =>
          let norms := norm n s in
          let Dlower := (1 - eps_D) * Delta in
          let Dupper := (1 + eps_D) * Delta in
          if ((Rleb lam ms_epsilon && Rleb norms Dupper) || (Rleb Dlower norms && Rleb norms Dupper))%bool
          then PExit s
          else match slv (tr U) s with
          | None => PRaise
          | Some w =>
              let new := lam + (norms - Delta) / Delta * (norms ^ 2 / dot n w w) in
              let lower' := if Rltb Dupper norms then lam else lower in
              let upper' := if Rltb Dupper norms then upper else lam in
              let range := ms_theta * (upper' - lower') in
              let lam' := if (Rltb (lower' + range) new && Rltb new (upper' - range))%bool
                          then new else ms_inner lower' upper' in
              PNext lower' upper' lam' (ms_stop lower' upper')
          end
      end end
  | None => PNext lam upper ((1 - / 2) * lam + / 2 * upper) (ms_stop lam upper)
  end.

(** the loop: Some (Some (s, lambda)) is a regular exit, Some None goes on to the pseudo
    hard case, None is an exception; the number counts factorisations *)
Fixpoint ms_loop (fuel nfact : nat) (lower upper lam : R) : option (option (vec * R) * nat) :=
  match fuel with
  | O => Some (None, nfact)
  | S k => match ms_step lower upper lam with
           | PRaise => None
           | PExit s => Some (Some (s, lam), S nfact)
           | PNext l u m stop => if stop then Some (None, S nfact) else ms_loop k (S nfact) l u m
           end
  end.

(** the state after k passes that neither returned nor raised (the test for leaving the
    loop is not applied here); bcdfo_solve_TR_MS.py:185-272 *)
Fixpoint passes (k : nat) (l u lam : R) : option (R * R * R) :=
  match k with
  | O => Some (l, u, lam)
  | S k => match ms_step l u lam with
           | PNext l' u' lam' _ => passes k l' u' lam'
           | _ => None
           end
  end.

(** the pseudo hard case, bcdfo_solve_TR_MS.py:274-334.  Since D is diagonal, inverting it
    and clearing the block of the small entries leaves the inverses of the others.  The
    largest root of the polynomial is given by the usual formula; its leading coefficient
    is the squared length of an eigenvector. *)
Definition hard_small (maxdiag : R) (d : vec) (i : nat) : bool := Rltb (Rabs (d i)) (/ 10 ^ 10 * maxdiag).
Definition hard_scri (mu : R) : vec :=
  let d := fun i => eigd i - mu in
  let maxdiag := maxentry n d in
  let ii := filter (hard_small maxdiag d) (seq 0 n) in
  if ((length ii <? n)%nat && negb (length ii =? 0)%nat)%bool
  then vneg (mv n eigv (fun i => if hard_small maxdiag d i then 0 else mv n (tr eigv) g i / d i))
  else vzero.
Definition hard_root (a b c : R) : R := (- b + sqrt (b * b - a * c)) / a.
Definition hard_step (mu : R) (v : vec) : vec :=
  let scri := hard_scri mu in
  let nscri := norm n scri in
  if Rleb nscri Delta
  then vadd scri (vscal (hard_root (norm n v ^ 2) (dot n v scri) (nscri ^ 2 - Delta ^ 2)) v)
  else vscal (Delta / nscri) scri.
Definition hard_case (nfact : nat) : ms_out :=
  let imu := argmin n eigd in
  let mu := eigd imu in
  let s := hard_step mu (fun i => eigv i imu) in
  let value := ms_model s in
  mkms (if Rleb (Rabs value) (/ 10 ^ 15) then vzero else s) (- mu) (norm n s) value (ms_grad s) nfact 1
    (if Rltb (norm n s) ((1 - eps_D) * Delta) then MsInterior else MsBoundary) true.

(** the whole routine; None is an exception.  bcdfo_solve_TR_MS.py:64-339 *)
Definition solve_MS : option ms_out :=
  if Reqb Delta 0 then Some (mkms vzero 0 0 0 g 0 0 MsZeroRadius false)
  else if Rltb (norm n g ^ 2) ms_epsilon then Some (mkms vzero 0 0 0 g 0 0 MsZeroGradient false)
  else
    let lower := ms_lower n g H Delta in
    let upper := ms_upper n g H Delta in
    match ms_loop ms_nitmax 0 lower upper (ms_first lower upper) with
    | None => None
    | Some (Some (s, lam), k) =>
        Some (mkms s lam (norm n s) (ms_model s) (ms_grad s) k 0
          (if Rltb (norm n s) ((1 - eps_D) * Delta) then MsInterior else MsBoundary) false)
    | Some (None, k) => Some (hard_case k)
    end.
End MS.
