(** Model of the search for the multiplier inside bcdfo_solve_TR_MS_bc.py (the argument [hom]
    of BC_Model), together with the solver around it.

    Simplifications: as in BC_Model.  Only stratLam = 1 (Newton's iteration) is modelled here (0: Bis_Model), the
    value set in sqpdfo.py:240 and sqpdfo_solve_TR_bc.py:72, 218.  numpy.linalg.cholesky
    ([chol], None is the exception caught in runtime.py:293-298) and numpy.linalg.solve ([slv],
    None is LinAlgError) are arguments.  The unconstrained solver [ms] is an argument that gets
    the number of the call, the dimension, the reduced gradient and Hessian and the radius. *)
From Coq Require Import Reals List Arith Bool.
From Verif Require Import RVec RBool Tri MS_Model BC_Model.
Import ListNotations.
Open Scope R_scope.

(** the variables of the loop, bcdfo_solve_TR_MS_bc.py:175-217: lower, upper, _lambda, hardcase,
    back_inside, out_of_ubound_init, out_of_lbound_init (positions in ind_free) *)
Record hst := mkh { h_lower : R; h_upper : R; h_lam : R; h_hard : bool; h_back : bool;
  h_uinit : list nat; h_linit : list nat }.

(** numpy.sign, runtime.py:412-416 *)
Definition rsign (x : R) : R := if Rltb 0 x then 1 else if Rltb x 0 then -1 else 0.

(** first position with the largest / smallest value; max_ and min_ with nargout=2,
    bcdfo_solve_TR_MS_bc.py:195-199, 264, 271, 294, 300; the list is not empty there *)
Fixpoint arg_max (f : nat -> R) (l : list nat) (best : nat) : nat :=
  match l with
  | nil => best
  | k :: r => arg_max f r (if Rltb (f best) (f k) then k else best)
  end.
Definition argmax (f : nat -> R) (l : list nat) : nat := arg_max f (tl l) (hd 0%nat l).
Definition argmin_in (f : nat -> R) (l : list nat) : nat := arg_max (fun k => - f k) (tl l) (hd 0%nat l).

(** the value used when Newton's value is not acceptable, bcdfo_solve_TR_MS_bc.py:399: the
    root of a negative number is NaN, which max_ passes over *)
Definition hom_inner (l u : R) : R :=
  if Rltb (l * u) 0 then l + ms_theta * (u - l) else Rmax (sqrt (l * u)) (l + ms_theta * (u - l)).

Section Hom.
Variable chol : mat -> option mat.
Variable slv : mat -> vec -> option vec.
Variables (lb ub : nat -> xR) (free : list nat) (Hf : mat) (gf s : vec).

Definition comp (k : nat) : nat := nth k free 0%nat.
(** positions outside an upper or a lower bound, bcdfo_solve_TR_MS_bc.py:172-173, 254-255 *)
Definition out_u (sd : vec) : list nat := filter (fun k => negb (rlex (sd (comp k)) (ub (comp k)))) (seq 0 (length free)).
Definition out_l (sd : vec) : list nat := filter (fun k => negb (xler (lb (comp k)) (sd (comp k)))) (seq 0 (length free)).
(** distance of a position from its bounds; the bounds are finite where these are used *)
Definition gap_u (x : vec) (k : nat) : R := Rabs (xval (ub (comp k)) - x (comp k)).
Definition gap_l (x : vec) (k : nat) : R := Rabs (x (comp k) - xval (lb (comp k))).

(** the component and the bound Newton's iteration aims at, bcdfo_solve_TR_MS_bc.py:258-318:
    true is an upper bound.  Outside the bounds the furthest component outside, inside the
    closest of the components that were outside once. *)
Definition target (sd : vec) (ou ol iu il : list nat) : nat * bool :=
  match ou, ol with
  | nil, nil =>
      let ku := argmin_in (gap_u sd) iu in let kl := argmin_in (gap_l sd) il in
      match iu, il with
      | _, nil => (ku, true)
      | nil, _ => (kl, false)
      | _, _ => if Rltb (gap_u sd ku) (gap_l sd kl) then (ku, true) else (kl, false)
      end
  | _, _ =>
      let ku := argmax (gap_u sd) ou in let kl := argmax (gap_l sd) ol in
      match ou, ol with
      | _, nil => (ku, true)
      | nil, _ => (kl, false)
      | _, _ => if Rltb (gap_l sd kl) (gap_u sd ku) then (ku, true) else (kl, false)
      end
  end.

(** result of a trial: an exception; the step found (:351); Newton's value and with it the upper
    bound became infinite, so that no later factorisation succeeds (:391-393); or the next state
    with the two tests of the loop condition (:214) *)
Inductive tres := TRaise | TBreak (s' : vec) | TNever | TNext (st : hst) (out act : bool).

(** bcdfo_solve_TR_MS_bc.py:394-399: keep the value if it is well inside the interval *)
Definition hom_keep (l u new : R) : R :=
  let range := ms_theta * (u - l) in
  if (Rltb (l + range) new && Rleb new (u - range))%bool then new else hom_inner l u.

(** one trial, bcdfo_solve_TR_MS_bc.py:216-406.  [d] is s_deltaH before, [d'] after clearing
    the critical components, [sd] is s_duringH.  numpy gives NaN or an infinity for a zero
    denominator in :390; delta_b is not zero (C70_next). *)
Definition hom_trial (st : hst) (out act : bool) : tres :=
  let fail := TNext (mkh (h_lam st) (h_upper st) ((1 - / 2) * h_lam st + / 2 * h_upper st) false
                      (h_back st) (h_uinit st) (h_linit st)) out act in
  match chol (shifted Hf (h_lam st)) with
  | None => fail
  | Some U =>
  if h_hard st then fail else
  match slv (tr U) gf with
  | None => TRaise
  | Some y =>
  match slv (fun i j => - U i j) y with
  | None => TRaise
  | Some d =>
      let s1 := vadd s (expand free d) in
      let d' := fun k => if crit_zero lb ub s1 (nth k free 0%nat) then 0 else d k in
      let sd := fun i => if memb i free && crit_zero lb ub s1 i then 0 else s1 i in
      let ou := out_u sd in
      let ol := out_l sd in
      let iu := match ou, ol with nil, nil => h_uinit st | _, _ => h_uinit st ++ ou end in
      let il := match ou, ol with nil, nil => h_linit st | _, _ => h_linit st ++ ol end in
      let '(k, isu) := target sd ou ol iu il in
      let bound := xval (if isu then ub (comp k) else lb (comp k)) in
      let norms_b := Rabs (d' k) in
      let delta_b := Rabs (bound - s (comp k)) in
      let sign_b := rsign (bound - s (comp k)) in
      let near_in := negb (existsb (out_by lb ub bc_eps sd) free) in
      let act' := existsb (fun i => u_act ub sd i || l_act lb sd i) free in
      if (near_in && act')%bool then TBreak (move lb ub free sd (vadd s (expand free d')))
      else
        let back := (h_back st || near_in)%bool in
        let inside := match ou, ol with nil, nil => true | _, _ => false end in
        let l := if inside then h_lower st else h_lam st in
        let u := if inside then h_lam st else h_upper st in
        let next u' new := TNext (mkh l u' (hom_keep l u' new) false back iu il) (negb inside) (if near_in then false else act) in
        if negb (Reqb (rsign (d' k)) sign_b) then next u ((l + u) / 2)
        else
          match slv (tr U) (unitv k), slv (tr U) d' with
          | Some w1, Some w2 =>
              let den := d' k * dot (length free) w1 w2 in
              if Reqb den 0 then
                if (Rltb delta_b norms_b && negb back)%bool then TNever
                else TNext (mkh l u (hom_inner l u) false back iu il) (negb inside) (if near_in then false else act)
              else
                let new := h_lam st + (norms_b - delta_b) / delta_b * (norms_b ^ 2 / den) in
                next (if (negb back && Rleb u new)%bool then 2 * new else u) new
          | _, _ => TRaise
          end
  end end end.

(** the loop, bcdfo_solve_TR_MS_bc.py:213-417, with the results of BC_Model; after [TNever]
    every further factorisation fails and the limit of 100 trials is reached.  An unsuccessful
    factorisation leaves out_of_ubound and out_of_lbound as they are ([out]). *)
Fixpoint hom_search (left i : nat) (st : hst) (out act : bool) : homres :=
  if negb (negb act || out) then HomFall
  else match hom_trial st out act with
  | TRaise => HomRaise
  | TBreak s' => HomBreak s' (S i)
  | TNever => HomLimit (i + left + 1)
  | TNext st' out' act' =>
      match left with
      | O => HomLimit (S i)
      | S k => hom_search k (S i) st' out' act'
      end
  end.

(** the state after [k] trials that neither ended the search nor raised *)
Fixpoint hom_states (k : nat) (st : hst) (out act : bool) : option (hst * bool * bool) :=
  match k with
  | O => Some (st, out, act)
  | S k => match hom_trial st out act with TNext st' out' act' => hom_states k st' out' act' | _ => None end
  end.

(** the start of the search, bcdfo_solve_TR_MS_bc.py:174-210; [g] and [H] are the full gradient
    and Hessian, [lam] and [hard] come from the unconstrained solver, [sa] is its point *)
Definition hom_delta (sa : vec) : R :=
  match out_u sa, out_l sa with
  | ou, nil => gap_u s (argmin_in (gap_u s) ou)
  | nil, ol => gap_l s (argmin_in (gap_l s) ol)
  | ou, ol => Rmin (gap_u s (argmin_in (gap_u s) ou)) (gap_l s (argmin_in (gap_l s) ol))
  end.
Definition hom_start (n : nat) (g : vec) (H : mat) (lam : R) (hard : bool) (sa : vec) : hst :=
  mkh lam (Rmax 0 (norm n g / hom_delta sa + ms_hn n H)) lam hard false (out_u sa) (out_l sa).
End Hom.

Section Outer.
Variable ms : nat -> nat -> vec -> mat -> R -> option ms_out.
Variable chol : nat -> mat -> option mat.
Variable slv : nat -> mat -> vec -> option vec.
Variables (n : nat) (H : mat) (lb ub : nat -> xR) (g0 : vec) (Delta0 : R).

(** what BC_Model keeps of the answer of the unconstrained solver *)
Definition ms_part (j k : nat) (g : vec) (A : mat) (D : R) : option (vec * vec) :=
  match ms j k g A D with Some o => Some (ms_s o, ms_gplus o) | None => None end.

(** the search of one pass; the last call of the unconstrained solver was number [c] with the
    free variables [free] *)
Definition search_of (c : nat) (free : list nat) (s g sa : vec) (Delta : R) : homres :=
  match ms c (length free) (sub_vec free g) (sub_mat free H) Delta with
  | None => HomRaise
  | Some o => hom_search (chol (length free)) (slv (length free)) lb ub free (sub_mat free H) (sub_vec free g) s 99 0
      (hom_start lb ub free s n g H (ms_lambda o) (ms_hard o) sa) true
      (existsb (fun i => u_act ub sa i || l_act lb sa i)%bool free)
  end.

(** the outer loop as in BC_Model with the search in place, bcdfo_solve_TR_MS_bc.py:127-471 *)
Fixpoint bcx_outer (fuel passes calls trials : nat) (s g : vec) (Delta norms value : R) (gplus : vec)
    (active free : list nat) (tag : bc_tag) : option (option bc_out) :=
  match free with
  | nil => Some (Some (mkbc s norms value gplus tag calls passes trials))
  | _ :: _ =>
  match fuel with
  | O => Some None
  | S k =>
      match ms_calls ms_part n H lb ub (length free) calls s g Delta gplus active free with
      | CRaise => None
      | CFuel => Some None
      | CFixed gp c => Some (Some (mkbc s (norm n s) (bc_model n H g0 s) gp BcAllFixed c (S passes) trials))
      | CGo active1 free1 sa gp c =>
          if existsb (out_by lb ub 0 sa) free1 then
            match search_of c free1 s g sa Delta with
            | HomRaise => None
            | HomFall => Some None
            | HomLimit i => Some (Some (mkbc vzero 0 value gp BcLimit c (S passes) (trials + i)))
            | HomBreak s' i =>
                let norms' := norm n s' in
                let value' := bc_model n H g0 s' in
                let Delta' := Delta0 - norms' in
                let out t := Some (Some (mkbc s' norms' value' gp t c (S passes) (trials + i))) in
                if Rltb Delta' (- bc_eps) then out BcError7
                else if Rltb Delta' 0 then out BcRadiusUsed
                else
                  let g' := vadd g0 (mv n H s') in
                  let active2 := filter (at_bound lb ub s') (seq 0 n) in
                  let free2 := complement n active2 in
                  match free2 with
                  | nil => out BcNoFree
                  | _ :: _ =>
                      if forallb (fun i => Rleb (Rabs (g' i)) (/ 10 ^ 5)) free2 then out BcCritical
                      else
                        let gc := filter (g_crit lb ub g') free2 in
                        let active3 := active2 ++ gc in
                        let free3 := filter (fun i => negb (memb i active3)) free2 in
                        bcx_outer k (S passes) c (trials + i) s' g' Delta' norms' value' gp active3 free3 BcNoFree
                  end
            end
          else Some (Some (mkbc sa (norm n sa) (bc_model n H g0 sa) gp BcInterior c (S passes) trials))
      end
  end
  end.

(** the whole routine, bcdfo_solve_TR_MS_bc.py:64-473 *)
Definition solve_bcx : option (option bc_out) :=
  let active := filter (g_crit lb ub g0) (seq 0 n) in
  bcx_outer n 0 0 0 vzero g0 Delta0 0 0 g0 active (complement n active) BcNoFree.
End Outer.
