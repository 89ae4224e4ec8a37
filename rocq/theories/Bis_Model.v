(** Model of the search for the multiplier inside bcdfo_solve_TR_MS_bc.py with stratLam = 0
    ("bisection method" in the comments), together with the solver around it.

    Simplifications: as in Hom_Model, which models stratLam = 1; state, results of a trial and
    the start are those of Hom_Model.  The component aimed at (:258-318) is computed for
    stratLam = 0 only to be printed (verbose > 1) and is left out. *)
From Coq Require Import Reals List Arith Bool.
From Verif Require Import RVec RBool Tri MS_Model BC_Model Hom_Model.
Import ListNotations.
Open Scope R_scope.

(** bcdfo_solve_TR_MS_bc.py:366-370; both comparisons are strict *)
Definition bis_keep (l u new : R) : R :=
  let range := ms_theta * (u - l) in
  if (Rltb (l + range) new && Rltb new (u - range))%bool then new else hom_inner l u.

Section Bis.
Variable chol : mat -> option mat.
Variable slv : mat -> vec -> option vec.
Variables (lb ub : nat -> xR) (free : list nat) (Hf : mat) (gf s : vec).

(** one trial, bcdfo_solve_TR_MS_bc.py:216-257, 330-370, 400-406.  [old] is old_lambda (:217), which is
    the multiplier of this trial; the sets out_of_*_init stay as they are *)
Definition bis_trial (st : hst) (out act : bool) : tres :=
  let old := h_lam st in
  let fail := TNext (mkh (h_lam st) (h_upper st) ((1 - / 2) * h_lam st + / 2 * h_upper st) false
                      (h_back st) (h_uinit st) (h_linit st)) out act in
  match chol (shifted Hf (h_lam st)) with
  | None => fail
  | Some U =>
  if h_hard st then fail else
  match slv (tr U) gf with
  | None => TRaise
  | Some y =>
  match slv (fun i j => - U i j) y with
  | None => TRaise
  | Some d =>
      let s1 := vadd s (expand free d) in
      let d' := fun k => if crit_zero lb ub s1 (nth k free 0%nat) then 0 else d k in
      let sd := fun i => if memb i free && crit_zero lb ub s1 i then 0 else s1 i in
      let near_in := negb (existsb (out_by lb ub bc_eps sd) free) in
      let act' := existsb (fun i => u_act ub sd i || l_act lb sd i) free in
      if (near_in && act')%bool then TBreak (move lb ub free sd (vadd s (expand free d')))
      else
        let back := (h_back st || near_in)%bool in
        let inside := match out_u ub free sd, out_l lb free sd with nil, nil => true | _, _ => false end in
        let acts := if near_in then false else act in
        if negb back then
          let lam := 2 * h_lam st in
          let u := if Rltb (h_upper st) lam then 2 * lam else h_upper st in
          TNext (mkh (h_lower st) u lam false back (h_uinit st) (h_linit st)) (negb inside) acts
        else
          let l := if inside then h_lower st else h_lam st in
          let u := if inside then h_lam st else h_upper st in
          TNext (mkh l u (bis_keep l u ((h_lam st + old) / 2)) false back (h_uinit st) (h_linit st)) (negb inside) acts
  end end end.

(** the loop, bcdfo_solve_TR_MS_bc.py:213-417; [TNever] does not occur *)
Fixpoint bis_search (left i : nat) (st : hst) (out act : bool) : homres :=
  if negb (negb act || out) then HomFall
  else match bis_trial st out act with
  | TRaise | TNever => HomRaise
  | TBreak s' => HomBreak s' (S i)
  | TNext st' out' act' =>
      match left with
      | O => HomLimit (S i)
      | S k => bis_search k (S i) st' out' act'
      end
  end.

(** the state after [k] trials that neither ended the search nor raised *)
Fixpoint bis_states (k : nat) (st : hst) (out act : bool) : option (hst * bool * bool) :=
  match k with
  | O => Some (st, out, act)
  | S k => match bis_trial st out act with TNext st' out' act' => bis_states k st' out' act' | _ => None end
  end.

(** the start, bcdfo_solve_TR_MS_bc.py:174-210: the multiplier is at least doubled (:189-190) *)
Definition bis_start (n : nat) (g : vec) (H : mat) (lam : R) (hard : bool) (sa : vec) : hst :=
  mkh lam (Rmax 0 (norm n g / hom_delta lb ub free s sa + ms_hn n H)) (Rmax 2 (2 * lam)) hard false (out_u ub free sa) (out_l lb free sa).
End Bis.

Section Outer.
Variable ms : nat -> nat -> vec -> mat -> R -> option ms_out.
Variables (n : nat) (H : mat) (lb ub : nat -> xR) (g0 : vec) (Delta0 : R).

(** the outer loop of BC_Model with a search [srch] in place, bcdfo_solve_TR_MS_bc.py:127-471 *)
Section Any.
Variable srch : nat -> list nat -> vec -> vec -> vec -> R -> homres.
Fixpoint bcs_outer (fuel passes calls trials : nat) (s g : vec) (Delta norms value : R) (gplus : vec)
    (active free : list nat) (tag : bc_tag) : option (option bc_out) :=
  match free with
  | nil => Some (Some (mkbc s norms value gplus tag calls passes trials))
  | _ :: _ =>
  match fuel with
  | O => Some None
  | S k =>
      match ms_calls (ms_part ms) n H lb ub (length free) calls s g Delta gplus active free with
      | CRaise => None
      | CFuel => Some None
      | CFixed gp c => Some (Some (mkbc s (norm n s) (bc_model n H g0 s) gp BcAllFixed c (S passes) trials))
      | CGo active1 free1 sa gp c =>
          if existsb (out_by lb ub 0 sa) free1 then
            match srch c free1 s g sa Delta with
            | HomRaise => None
            | HomFall => Some None
            | HomLimit i => Some (Some (mkbc vzero 0 value gp BcLimit c (S passes) (trials + i)))
            | HomBreak s' i =>
                let norms' := norm n s' in
                let value' := bc_model n H g0 s' in
                let Delta' := Delta0 - norms' in
                let out t := Some (Some (mkbc s' norms' value' gp t c (S passes) (trials + i))) in
                if Rltb Delta' (- bc_eps) then out BcError7
                else if Rltb Delta' 0 then out BcRadiusUsed
                else
                  let g' := vadd g0 (mv n H s') in
                  let active2 := filter (at_bound lb ub s') (seq 0 n) in
                  let free2 := complement n active2 in
                  match free2 with
                  | nil => out BcNoFree
                  | _ :: _ =>
                      if forallb (fun i => Rleb (Rabs (g' i)) (/ 10 ^ 5)) free2 then out BcCritical
                      else
                        let gc := filter (g_crit lb ub g') free2 in
                        let active3 := active2 ++ gc in
                        let free3 := filter (fun i => negb (memb i active3)) free2 in
                        bcs_outer k (S passes) c (trials + i) s' g' Delta' norms' value' gp active3 free3 BcNoFree
                  end
            end
          else Some (Some (mkbc sa (norm n sa) (bc_model n H g0 sa) gp BcInterior c (S passes) trials))
      end
  end
  end.
End Any.

Variable chol : nat -> mat -> option mat.
Variable slv : nat -> mat -> vec -> option vec.

(** the search of one pass with stratLam = 0; the last call of the unconstrained solver was
    number [c] with the free variables [free], bcdfo_solve_TR_MS_bc.py:174-417 *)
Definition bis_of (c : nat) (free : list nat) (s g sa : vec) (Delta : R) : homres :=
  match ms c (length free) (sub_vec free g) (sub_mat free H) Delta with
  | None => HomRaise
  | Some o => bis_search (chol (length free)) (slv (length free)) lb ub free (sub_mat free H) (sub_vec free g) s 99 0
      (bis_start lb ub free s n g H (ms_lambda o) (ms_hard o) sa) true
      (existsb (fun i => u_act ub sa i || l_act lb sa i)%bool free)
  end.

(** the whole routine with stratLam = 0, bcdfo_solve_TR_MS_bc.py:64-473 *)
Definition solve_bc0 : option (option bc_out) :=
  let active := filter (g_crit lb ub g0) (seq 0 n) in
  bcs_outer bis_of n 0 0 0 vzero g0 Delta0 0 0 g0 active (complement n active) BcNoFree.
End Outer.
