(** Model of sqpdfo_truncated_cg.py.  Exact reals; printing is left out. *)
From Coq Require Import Reals Arith ZArith.
From Verif Require Import RVec RBool.
Open Scope R_scope.

(** sqpdfo_truncated_cg.py 159-182 (comp_dir_in_delta). *)
Definition comp_dir (n : nat) (dc dn : vec) (delta : R) : vec * R :=
  let dir := vsub dn dc in
  let dir_inner := dot n dir dir in
  if Reqb dir_inner 0 then (dc, 0)
  else
    let bb := dot n dc dir in
    let dc_inner := dot n dc dc - delta ^ 2 in
    if Rleb 0 dc_inner then (dc, 0)
    else
      let t := (sqrt (bb ^ 2 - dir_inner * dc_inner) - bb) / dir_inner in
      (vadd dc (vscal t dir), t).

(** What the solver returns: the step, [info.flag], [info.iter], [info.prec]. *)
Record tcg_res := { tcg_x : vec; tcg_flag : Z; tcg_iter : nat; tcg_prec : R }.

(** sqpdfo_truncated_cg.py 75-147: the main loop.  [rem] is [max_iter+1-iter],
    so [rem = 0] is the test [iter > max_iter]; [prev] holds the previous
    direction and the previous squared gradient norm. *)
Fixpoint tcg_loop (n : nat) (A : mat) (delta tol2 : R) (max_iter : nat)
  (rem : nat) (iter : nat) (x g : vec) (prev : option (vec * R)) : tcg_res :=
  let g2 := dot n g g in
  if Rleb g2 tol2 then {| tcg_x := x; tcg_flag := 0; tcg_iter := iter; tcg_prec := sqrt g2 |}
  else
    match rem with
    | O => {| tcg_x := x; tcg_flag := -1; tcg_iter := max_iter; tcg_prec := sqrt g2 |}
    | S rem' =>
        let d := match prev with
                 | None => vneg g
                 | Some (d_, g2_) => vadd (vneg g) (vscal (g2 / g2_) d_)
                 end in
        let Ad := mv n A d in
        let dAd := dot n d Ad in
        if Rleb dAd 0 then
          {| tcg_x := fst (comp_dir n x (vadd x d) delta); tcg_flag := 2; tcg_iter := iter; tcg_prec := sqrt g2 |}
        else
          let alpha := - dot n g d / dAd in
          let xx := vadd x (vscal alpha d) in
          if Rltb (delta * delta) (dot n xx xx) then
            {| tcg_x := fst (comp_dir n x xx delta); tcg_flag := 1; tcg_iter := iter; tcg_prec := sqrt g2 |}
          else
            tcg_loop n A delta tol2 max_iter rem' (S iter) xx (vadd g (vscal alpha Ad)) (Some (d, g2))
    end.

(** sqpdfo_truncated_cg.py 45-155. *)
Definition truncated_cg (n : nat) (A : mat) (b : vec) (delta : R) (max_iter : nat) (tol : R) : tcg_res :=
  tcg_loop n A delta (tol * tol) max_iter max_iter 1 vzero (vneg b) None.
