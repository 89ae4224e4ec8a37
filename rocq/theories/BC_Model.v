(** Model of the bound-constrained trust-region solver bcdfo_solve_TR_MS_bc.py.

    Simplifications: exact reals and possibly infinite bounds, so the tests for NaN, complex
    and infinite entries of H (bcdfo_solve_TR_MS_bc.py:95-115) and for NaN in the Cholesky
    factor (:225-236) never apply; printing is left out; messages are replaced by tags.
    The call of bcdfo_solve_TR_MS_ is an argument [ms] that gets the number of the call, the
    dimension, the reduced gradient and Hessian and the radius and answers the step and the
    gradient at the step (None is an exception).  The homotopy in lambda (:224, 240-241,
    258-315, 353-406: the choice of lambda, the Cholesky factorisation and the solves) is an
    argument [hom] that gets the number of the pass, the number of the trial, the free
    variables and the current step and answers the trial step in the free variables
    (HStep), an unsuccessful factorisation or the first trial after a hard case (HFail), or
    an exception (HRaise).  The multiplier and the count of factorisations inside
    bcdfo_solve_TR_MS_ are not modelled. *)
From Coq Require Import Reals List Arith Bool.
From Verif Require Import RVec RBool.
Import ListNotations.
Open Scope R_scope.

(** bcdfo_solve_TR_MS_bc.py:72, 118 *)
Definition bc_eps : R := / 10 ^ 5.
Definition bc_tiny : R := / 10 ^ 10.

(** messages of the returns: :77/473, :165, :416, :430, :443, :448, :465 *)
Inductive bc_tag := BcNoFree | BcAllFixed | BcLimit | BcInterior | BcError7 | BcRadiusUsed | BcCritical.

(** the returned tuple (:473), and counters: calls of bcdfo_solve_TR_MS_ ([j]), passes of
    the outer loop, trials of the homotopy *)
Record bc_out := mkbc { bc_s : vec; bc_norms : R; bc_value : R; bc_gplus : vec; bc_end : bc_tag;
  bc_calls : nat; bc_passes : nat; bc_trials : nat }.

Inductive hans := HStep (d : vec) | HFail | HRaise.

(** ub - s, s - lb and abs(.) <= r with possibly infinite bounds *)
Definition above (u : xR) (s r : R) : bool := xler (xsub u s) r.
Definition below (l : xR) (s r : R) : bool := rlex (s - r) l.
Definition xabs_le (e : xR) (r : R) : bool := match e with Fin a => Rleb (Rabs a) r | _ => false end.
Definition near (e : xR) (s r : R) : bool := xabs_le (xsub e s) r.

(** positions in ind_free of a component; setdiff_(range(0,n),ind_active), :153, 453 *)
Definition memb (i : nat) (l : list nat) : bool := existsb (Nat.eqb i) l.
Definition complement (n : nat) (l : list nat) : list nat := filter (fun i => negb (memb i l)) (seq 0 n).

(** v[ind_free], H[ix_(ind_free,ind_free)], I[:,ind_free].dot(d); :137-138, 145 *)
Definition sub_vec (l : list nat) (v : vec) : vec := fun k => v (nth k l 0%nat).
Definition sub_mat (l : list nat) (H : mat) : mat := fun j k => H (nth j l 0%nat) (nth k l 0%nat).
Definition expand (l : list nat) (d : vec) : vec := fun i => rsum (length l) (fun k => idm i (nth k l 0%nat) * d k).

Section BC.
Variable ms : nat -> nat -> vec -> mat -> R -> option (vec * vec).
Variable hom : nat -> nat -> list nat -> vec -> hans.
Variables (n : nat) (H : mat) (lb ub : nat -> xR) (g0 : vec) (Delta0 : R).

(** :118, 467 *)
Definition g_crit (g : vec) (i : nat) : bool :=
  (Rltb 0 (g i) && xabs_le (lb i) bc_tiny) || (Rltb (g i) 0 && xler (ub i) bc_tiny).
(** :147-148, 244-245 *)
Definition u_crit (s : vec) (i : nat) : bool := above (ub i) (s i) bc_eps && xler (ub i) bc_tiny.
Definition l_crit (s : vec) (i : nat) : bool := below (lb i) (s i) bc_eps && rlex (- bc_tiny) (lb i).
(** :172-173, 254-255 (r = 0), 327-328 (r = eps_bound): outside by more than r *)
Definition out_by (r : R) (s : vec) (i : nat) : bool :=
  (negb (rlex (s i - r) (ub i))) || (negb (xler (lb i) (s i + r))).
(** :209-210, 335-336 *)
Definition u_act (s : vec) (i : nat) : bool := near (ub i) (s i) bc_eps.
Definition l_act (s : vec) (i : nat) : bool := near (lb i) (s i) bc_eps.
(** :451 *)
Definition at_bound (s : vec) (i : nat) : bool := above (ub i) (s i) bc_eps || below (lb i) (s i) bc_eps.

(** model value with the initial gradient, :161, 427, 434 *)
Definition bc_model (s : vec) : R := / 2 * dot n s (mv n H s) + dot n s g0.

(** repeated calls of the unconstrained solver, :130-167.  [CRaise]: an exception;
    [CFixed]: no free variable left; [CGo]: go on with this step. *)
Inductive callres :=
| CRaise
| CFixed (gplus : vec) (calls : nat)
| CGo (active free : list nat) (sa : vec) (gplus : vec) (calls : nat)
| CFuel.

Fixpoint ms_calls (fuel calls : nat) (s g : vec) (Delta : R) (gplus : vec) (active free : list nat) : callres :=
  match fuel with
  | O => CFuel
  | S k =>
      match ms (S calls) (length free) (sub_vec free g) (sub_mat free H) Delta with
      | None => CRaise
      | Some (d, gp) =>
          let gplus' := vadd gplus (expand free gp) in
          let sa := vadd s (expand free d) in
          let crit := filter (u_crit sa) free ++ filter (l_crit sa) free in
          match crit with
          | nil => CGo active free sa gplus' (S calls)
          | _ :: _ =>
              let active' := active ++ crit in
              let free' := complement n active' in
              match free' with
              | nil => CFixed gplus' (S calls)
              | _ :: _ => ms_calls k (S calls) s g Delta gplus' active' free'
              end
          end
      end
  end.

(** the homotopy, :213-416; [out] and [act] are the two tests of the while condition
    (:214).  [HomFall]: the condition fails without a break, so s_afterH is not assigned. *)
Inductive homres := HomRaise | HomFall | HomLimit (i : nat) | HomBreak (sH : vec) (i : nat).

Definition crit_zero (s : vec) (i : nat) : bool := u_crit s i || l_crit s i.
Definition move (free : list nat) (sd sH : vec) : vec := fun i =>
  if memb i free then (if l_act sd i then xval (lb i) else if u_act sd i then xval (ub i) else sH i) else sH i.

Fixpoint hom_loop (left i : nat) (pass : nat) (free : list nat) (s : vec) (out act : bool) : homres :=
  if negb (negb act || out) then HomFall
  else match hom pass (S i) free s with
  | HRaise => HomRaise
  | HFail => match left with O => HomLimit (S i) | S k => hom_loop k (S i) pass free s out act end
  | HStep d =>
      let s1 := vadd s (expand free d) in
      let d' := fun k => if crit_zero s1 (nth k free 0%nat) then 0 else d k in
      let sd := fun i => if memb i free && crit_zero s1 i then 0 else s1 i in
      let out' := existsb (out_by 0 sd) free in
      let act' := existsb (fun i => u_act sd i || l_act sd i) free in
      if negb (existsb (out_by bc_eps sd) free) then
        if act' then HomBreak (move free sd (vadd s (expand free d'))) (S i)
        else match left with O => HomLimit (S i) | S k => hom_loop k (S i) pass free s out' false end
      else match left with O => HomLimit (S i) | S k => hom_loop k (S i) pass free s out' act end
  end.

(** the outer loop, :127-471; None is an exception, Some None stands for running out of
    fuel or leaving the homotopy without a step *)
Fixpoint bc_outer (fuel passes calls trials : nat) (s g : vec) (Delta norms value : R) (gplus : vec)
    (active free : list nat) (tag : bc_tag) : option (option bc_out) :=
  match free with
  | nil => Some (Some (mkbc s norms value gplus tag calls passes trials))
  | _ :: _ =>
  match fuel with
  | O => Some None
  | S k =>
      match ms_calls (length free) calls s g Delta gplus active free with
      | CRaise => None
      | CFuel => Some None
      | CFixed gp c => Some (Some (mkbc s (norm n s) (bc_model s) gp BcAllFixed c (S passes) trials))
      | CGo active1 free1 sa gp c =>
          if existsb (out_by 0 sa) free1 then
            match hom_loop 99 0 (S passes) free1 s true (existsb (fun i => u_act sa i || l_act sa i) free1) with
            | HomRaise => None
            | HomFall => Some None
            | HomLimit i => Some (Some (mkbc vzero 0 value gp BcLimit c (S passes) (trials + i)))
            | HomBreak s' i =>
                let norms' := norm n s' in
                let value' := bc_model s' in
                let Delta' := Delta0 - norms' in
                let out t := Some (Some (mkbc s' norms' value' gp t c (S passes) (trials + i))) in
                if Rltb Delta' (- bc_eps) then out BcError7
                else if Rltb Delta' 0 then out BcRadiusUsed
                else
                  let g' := vadd g0 (mv n H s') in
                  let active2 := filter (at_bound s') (seq 0 n) in
                  let free2 := complement n active2 in
                  match free2 with
                  | nil => out BcNoFree
                  | _ :: _ =>
                      if forallb (fun i => Rleb (Rabs (g' i)) (/ 10 ^ 5)) free2 then out BcCritical
                      else
                        let gc := filter (g_crit g') free2 in
                        let active3 := active2 ++ gc in
                        let free3 := filter (fun i => negb (memb i active3)) free2 in
                        bc_outer k (S passes) c (trials + i) s' g' Delta' norms' value' gp active3 free3 BcNoFree
                  end
            end
          else Some (Some (mkbc sa (norm n sa) (bc_model sa) gp BcInterior c (S passes) trials))
      end
  end
  end.

(** the whole routine, :64-473 *)
Definition solve_bc : option (option bc_out) :=
  let active := filter (g_crit g0) (seq 0 n) in
  bc_outer n 0 0 0 vzero g0 Delta0 0 0 g0 active (complement n active) BcNoFree.
End BC.
