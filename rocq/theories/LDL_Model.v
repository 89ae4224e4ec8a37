(** Model of the factorisation updates of minq.py: ldlrk1, ldlup, ldldown.  Exact reals,
    arguments that are plain arrays of the right sizes.  [slv] is mldiv for a square matrix
    (minq_util.py:49-56, numpy.linalg.solve): order, matrix, right-hand side, None is
    LinAlgError.  The arrays are overwritten by the program (L and u in ldlrk1 through views);
    the model returns the new values, the arguments of the callers are not used afterwards
    except as written here. *)
From Coq Require Import Reals List Arith Bool.
From Verif Require Import RVec RBool.
Import ListNotations.
Open Scope R_scope.

Definition solver := nat -> mat -> vec -> option vec.

(** the answers of ldlrk1 and ldlup: factorisation and empty p, factorisation and direction p;
    an exception (for ldlrk1 also the missing value returned in line 238, on which the callers
    fail) *)
Inductive ldl_res := LdlRaise | LdlNone | LdlOk (L : mat) (d : vec) | LdlBad (L : mat) (d : vec) (p : vec).

(** find(u!=0), minq.py:246: evaluated once, before the loop *)
Definition nonzero (n : nat) (u : vec) : list nat := filter (fun k => negb (Reqb (u k) 0)) (seq 0 n).

(** minq.py:262-269: one step of the update, for column k *)
Definition col_upd (k : nat) (L : mat) (u : vec) (q a : R) : mat := fun i j =>
  if ((j =? k) && (k <=? i))%nat then L i k * q + a * u i else L i j.
Definition d_upd (k : nat) (d : vec) (delta : R) : vec := fun i => if (i =? k)%nat then delta else d i.
Definition u_upd (k : nat) (L : mat) (u : vec) : vec := fun i => if (k <=? i)%nat then u i - L i k * u k else u i.

Section LDL.
Variables (neps : R) (slv : solver).

(** minq.py:246-275; [L0], [d0] is the factorisation saved in lines 242-243 *)
Fixpoint rk1_loop (ks : list nat) (L0 : mat) (d0 : vec) (L : mat) (d u : vec) (alpha : R) : ldl_res :=
  match ks with
  | [] => LdlOk L d
  | k :: ks' =>
      let delta := d k + alpha * (u k * u k) in
      if Rltb alpha 0 && Rleb delta neps then
        match slv (S k) (fun i j => L j i) (unitv k) with
        | None => LdlRaise
        | Some p => LdlBad L0 d0 (fun i => if (i <=? k)%nat then p i else 0)
        end
      else
        let q := d k / delta in
        let L' := col_upd k L u q (alpha * u k / delta) in
        let d' := d_upd k d delta in
        if Reqb (alpha * q) 0 then LdlOk L' d'
        else rk1_loop ks' L0 d0 L' d' (u_upd k L u) (alpha * q)
  end.

(** minq.py:224-275 *)
Definition ldlrk1 (n : nat) (L : mat) (d : vec) (alpha : R) (u : vec) : ldl_res :=
  if Reqb alpha 0 then LdlNone else rk1_loop (nonzero n u) L d L d u alpha.

(** the part of a matrix or vector after position j (K = j+1, ..., n-1) *)
Definition tailm (j : nat) (L : mat) : mat := fun a b => L (S j + a)%nat (S j + b)%nat.
Definition tailv (j : nat) (d : vec) : vec := fun a => d (S j + a)%nat.
(** d[j+1:n] = ... *)
Definition put_tail (j : nat) (d dk : vec) : vec := fun i => if (i <=? j)%nat then d i else dk (i - S j)%nat.

(** minq.py:329-343: bmat('L1; Lv,L_1,L3; LKI,Lw,LKK') *)
Definition block_up (j : nat) (L : mat) (v w : vec) (LKK : mat) : mat := fun a b =>
  if (a <? j)%nat then L a b
  else if (a =? j)%nat then (if (b <? j)%nat then v b else if (b =? j)%nat then 1 else L a b)
  else (if (b <? j)%nat then L a b else if (b =? j)%nat then w (a - S j)%nat else LKK (a - S j)%nat (b - S j)%nat).
(** minq.py:347-349: bmat('L1; LKI,L2,LKK') *)
Definition block_back (j : nat) (L : mat) (LKK : mat) : mat := fun a b =>
  if (a <=? j)%nat then L a b else if (b <=? j)%nat then L a b else LKK (a - S j)%nat (b - S j)%nat.

(** minq.py:278-358 *)
Definition ldlup (n : nat) (L : mat) (d : vec) (j : nat) (g : vec) : ldl_res :=
  if (j =? 0)%nat then
    if Rleb (g 0%nat) neps then LdlBad L d (unitv 0) else LdlOk L (d_upd 0 d (g 0%nat))
  else
    match slv j L g with
    | None => LdlRaise
    | Some u =>
        let v := fun i => u i / d i in
        let delta := g j - dot j u v in
        if Rleb delta neps then
          match slv j (fun a b => L b a) v with
          | None => LdlRaise
          | Some p => LdlBad L d (fun i => if (i <? j)%nat then p i else if (i =? j)%nat then -1 else 0)
          end
        else
          let w := fun a => (g (S j + a)%nat - rsum j (fun b => L (S j + a)%nat b * u b)) / delta in
          match ldlrk1 (n - S j) (tailm j L) (tailv j d) (- delta) w with
          | LdlRaise | LdlNone => LdlRaise
          | LdlOk LKK dk => LdlOk (block_up j L v w LKK) (d_upd j (put_tail j d dk) delta)
          | LdlBad LKK dk q =>
              let pi := rsum (n - S j) (fun a => w a * q a) in
              match slv j (fun a b => L b a) (fun i => pi * v i - rsum (n - S j) (fun a => L (S j + a)%nat i * q a)) with
              | None => LdlRaise
              | Some p1 => LdlBad (block_back j L LKK) (put_tail j d dk)
                  (fun i => if (i <? j)%nat then p1 i else if (i =? j)%nat then - pi else q (i - S j)%nat)
              end
          end
    end.

(** minq.py:382-387: bmat('L1; L2; L3,L4,LKK') and L[j,j] = 1 *)
Definition block_down (j : nat) (L : mat) (LKK : mat) : mat := fun a b =>
  if (a <? j)%nat then L a b
  else if (a =? j)%nat then (if (b =? j)%nat then 1 else 0)
  else (if (b <? j)%nat then L a b else if (b =? j)%nat then 0 else LKK (a - S j)%nat (b - S j)%nat).

(** minq.py:363-395; [j < n], so the branch of lines 389-391 is not taken *)
Definition ldldown (n : nat) (L : mat) (d : vec) (j : nat) : option (mat * vec) :=
  match ldlrk1 (n - S j) (tailm j L) (tailv j d) (d j) (fun a => L (S j + a)%nat j) with
  | LdlRaise | LdlNone => None
  | LdlOk LKK dk | LdlBad LKK dk _ => Some (block_down j L LKK, d_upd j (put_tail j d dk) 1)
  end.
End LDL.
