(** Specification of the helper functions. *)
From Coq Require Import List Arith ZArith QArith Qabs Bool.
Import ListNotations.
From Verif Require Import Main_Model Run_Model.
Local Open Scope Q_scope.

(** order of the extended numbers; NaN is comparable to nothing *)
Definition xle (a b : xQ) : Prop :=
  match a, b with
  | NaN, _ | _, NaN => False
  | NInf, _ => True
  | _, PInf => True
  | Fin p, Fin q => p <= q
  | _, _ => False
  end.

(** [v] is the largest (smallest) number of [l], NaN ignored; NaN if there is none *)
Definition greatest (l : list xQ) (v : xQ) : Prop :=
  (v = NaN /\ forall x, In x l -> x = NaN) \/
  (v <> NaN /\ In v l /\ forall x, In x l -> x <> NaN -> xle x v).
Definition least (l : list xQ) (v : xQ) : Prop :=
  (v = NaN /\ forall x, In x l -> x = NaN) \/
  (v <> NaN /\ In v l /\ forall x, In x l -> x <> NaN -> xle v x).

(** equal as numbers *)
Definition xeq (a b : xQ) : Prop := xle a b /\ xle b a.

(** the pair is accepted: infinite with equal sign, or finite, closer than [atol], and
    one of them at most [atol] or the difference below [rtol] times the first one
    (enlarged by the smallest normal number) *)
Definition agree (atol rtol : Q) (a b : xQ) : Prop :=
  (a = PInf /\ b = PInf) \/ (a = NInf /\ b = NInf) \/
  exists p q, a = Fin p /\ b = Fin q /\ Qabs (p - q) < atol /\
    (Qabs p <= atol \/ Qabs q <= atol \/ Qabs (p - q) < rtol * Qabs (p + (1 # (2 ^ 1022)))).

(** shape of a matrix: as many rows as stated, each with as many entries as stated *)
Definition shaped (A : mx) : Prop := length (m_rows A) = m_r A /\ forall r, In r (m_rows A) -> length r = m_c A.
