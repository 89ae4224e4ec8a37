(** Model of the one-dimensional minimiser and the coordinate search of
    minq.py.  Exact reals; bounds may be infinite. *)
From Coq Require Import Reals List Arith ZArith Bool.
From Verif Require Import RVec RBool.
Import ListNotations.
Open Scope R_scope.

(** Result of [_quadMin]: the point, the two activity marks and [ier];
    [qm_x = None] is the NaN returned with [ier = 1]. *)
Record qmres := { qm_x : option xR; qm_lba : bool; qm_uba : bool; qm_ier : bool }.

(** minq.py 150-198.  The comparison [2*b+(low+high)*a > 0] (line 187) is only
    reached with finite [low] and [high]. *)
Definition quadMin (low high : xR) (b a : R) : qmres :=
  let u1 := is_ninf low && (Rltb a 0 || (Reqb a 0 && Rltb 0 b)) in
  let u2 := is_pinf high && (Rltb a 0 || (Reqb a 0 && Rltb b 0)) in
  if u1 || u2 then {| qm_x := None; qm_lba := u1; qm_uba := u2; qm_ier := true |}
  else
    let '(x, lba, uba) :=
      if Reqb a 0 && Reqb b 0 then (Fin 0, false, false)
      else if Rleb a 0 then
        let lba := if is_ninf low then false
                   else if is_pinf high then true
                   else Rltb 0 (2 * b + (xval low + xval high) * a) in
        (Fin 0, lba, negb lba)
      else
        let x := - b / a in
        (Fin x, rlex x low, xler high x) in
    let x1 := if lba then low else x in
    let x2 := if uba then high else x1 in
    {| qm_x := Some x2; qm_lba := lba; qm_uba := uba; qm_ier := false |}.

(** State of the coordinate search: point, gradient, free marks. *)
Record csstate := { cs_x : vec; cs_g : vec; cs_free : nat -> bool }.

Inductive csres :=
| CSDone (s : csstate) (trace : list nat)        (* lines 418-420: sweep complete *)
| CSUnbounded (k : nat) (lower : bool) (s : csstate) (trace : list nat) (* lines 429-433 *)
| CSIndexError (s : csstate) (trace : list nat)  (* self.free[k] with k = n *)
| CSFuel (s : csstate) (trace : list nat).       (* model only: fuel exhausted *)

(** minq.py 412-413: the next coordinate ([k] is -1 before the first). *)
Definition next_k (n : nat) (k : Z) : Z :=
  let k' := if (k =? Z.of_nat n - 1)%Z then 0%Z else k in (k' + 1)%Z.

Inductive scanres := Found (count : nat) (k : nat) | Sweep (count : nat) (k : Z) | OutOfRange.

(** minq.py 409-416: the inner loop; [fuel] is [n+1-count], the exact number
    of rounds the loop can make. *)
Fixpoint scan (n : nat) (free : nat -> bool) (unfix : bool) (fuel count : nat) (k : Z) : scanres :=
  match fuel with
  | O => Sweep count k
  | S fuel' =>
      let count' := S count in
      let k' := next_k n k in
      if (Z.of_nat n <=? k')%Z then OutOfRange
      else if free (Z.to_nat k') || unfix then Found count' (Z.to_nat k')
      else scan n free unfix fuel' count' k'
  end.

Definition upd {A} (f : nat -> A) (k : nat) (v : A) : nat -> A := fun i => if (i =? k)%nat then v else f i.

(** minq.py 422-461: one coordinate step; [None] is the unbounded return. *)
Definition coord_step (G : mat) (xu xo : nat -> xR) (s : csstate) (k : nat)
  : (csstate * bool (* count reset to 0 *)) + bool (* lba of the unbounded case *) :=
  let q : vec := fun i => G i k in
  let au := xsub (xu k) (cs_x s k) in
  let ao := xsub (xo k) (cs_x s k) in
  let r := quadMin au ao (cs_g s k) (q k) in
  match qm_x r with
  | None => inr (qm_lba r)
  | Some al =>
      let alpha := xval al in
      let xnew := cs_x s k + alpha in
      if qm_lba r || rlex xnew (xu k) then
        if xnz au then
          inl ({| cs_x := upd (cs_x s) k (xval (xu k)); cs_g := vadd (cs_g s) (vscal (xval au) q);
                  cs_free := upd (cs_free s) k false |}, true)
        else inl ({| cs_x := cs_x s; cs_g := cs_g s; cs_free := upd (cs_free s) k false |}, false)
      else if qm_uba r || xler (xo k) xnew then
        if xnz ao then
          inl ({| cs_x := upd (cs_x s) k (xval (xo k)); cs_g := vadd (cs_g s) (vscal (xval ao) q);
                  cs_free := upd (cs_free s) k false |}, true)
        else inl ({| cs_x := cs_x s; cs_g := cs_g s; cs_free := upd (cs_free s) k false |}, false)
      else if Reqb alpha 0 then inl (s, false)
      else inl ({| cs_x := upd (cs_x s) k xnew; cs_g := vadd (cs_g s) (vscal alpha q);
                   cs_free := upd (cs_free s) k true |}, false)
  end.

(** minq.py 398-461.  [trace] lists the coordinates tried, latest first. *)
Fixpoint coord_loop (fuel n : nat) (G : mat) (xu xo : nat -> xR) (unfix : bool)
  (s : csstate) (count : nat) (k : Z) (trace : list nat) : csres :=
  match fuel with
  | O => CSFuel s trace
  | S fuel' =>
      match scan n (cs_free s) unfix (n + 1 - count) count k with
      | OutOfRange => CSIndexError s trace
      | Sweep _ _ => CSDone s trace
      | Found count' k' =>
          if (n <? count')%nat then CSDone s trace
          else match coord_step G xu xo s k' with
               | inr lower => CSUnbounded k' lower s (k' :: trace)
               | inl (s', reset) =>
                   coord_loop fuel' n G xu xo unfix s' (if reset then 0%nat else count') (Z.of_nat k') (k' :: trace)
               end
      end
  end.

Definition coordinateSearch (fuel n : nat) (G : mat) (xu xo : nat -> xR) (unfix : bool) (s : csstate) : csres :=
  coord_loop fuel n G xu xo unfix s 0 (-1) [].
