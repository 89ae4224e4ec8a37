(** One pass of the main loop of minq, described by what the attributes of the object satisfy. *)
From Coq Require Import Reals List Arith.
From Verif Require Import RVec RBool MinQ_Model MinQ_Spec LDL_Spec MinS_Model MinS_Spec.
Import ListNotations.
Open Scope R_scope.

(** k of the entries below n are marked *)
Definition marks (n : nat) (b : nat -> bool) (k : nat) : Prop :=
  exists l, NoDup l /\ (forall i, In i l <-> (i < n)%nat /\ b i = true) /\ length l = k.

Section Pass.
Variables (neps gamma : R) (n : nat) (G : mat) (c : vec) (lo hi : nat -> xR) (cfuel : nat).

Definition grad (x : vec) : vec := fun i => rsum n (fun j => G i j * x j) + c i.

(** the value kept: that of the point, after a count of refinements of zero not above the last *)
Definition kept (s : mqstate) (v : R) : Prop :=
  (m_nitref s <> 0%nat -> v = fobj gamma n G c (m_x s)) /\
  (m_nitref s = 0%nat -> match m_fval s with
                         | None => v = fobj gamma n G c (m_x s)
                         | Some f => v = Rmin f (fobj gamma n G c (m_x s))
                         end).

(** when the search ends at the head of the loop, and why *)
Definition at_limit (s : mqstate) : Prop := m_nitref s = 0%nat /\ m_nsub s = (3 * n)%nat.
Definition ended (s : mqstate) (why : mq_reason) : Prop :=
  match why with
  | Limit => at_limit s
  | NoImprovement => ~ at_limit s /\ m_improved s = false
  | RefinedOften => m_improved s = true /\ (4 <= m_nitref s)%nat
  | RefinedSame => m_improved s = true /\ (1 <= m_nitref s <= 3)%nat /\ m_nfree_old s = Some (m_nfree s)
  | _ => False
  end.
Definition goes_on (s : mqstate) : Prop :=
  ~ at_limit s /\ m_improved s = true /\ (m_nitref s <= 3)%nat /\
  ((1 <= m_nitref s)%nat -> m_nfree_old s <> Some (m_nfree s)).

Definition at_bound (i : nat) (t : R) : Prop := lo i = Fin t \/ hi i = Fin t.
(** the coordinates that change stay inside their bounds *)
Definition allowed (x p : vec) (u : R) : Prop :=
  forall i, (i < n)%nat -> p i <> 0 -> in_itv (lo i) (hi i) (x i + u * p i).

(** the step in the subspace, from the point x with the marks free *)
Definition newton_step (x : vec) (free : nat -> bool) (s' : mqstate) : Prop :=
  unit_lower n (m_L s') /\ positive n (m_d s') /\ (forall i, (i < n)%nat -> m_K s' i = free i) /\
  exists p t b,
    (forall i, (i < n)%nat -> mv n (ldlt n (m_L s') (m_d s')) p i = if free i then - grad x i else 0) /\
    (Rabs (dot n (grad x) p) < neps * rsum n (fun i => Rabs (grad x i) * Rabs (p i)) -> b = 0) /\
    (neps * rsum n (fun i => Rabs (grad x i) * Rabs (p i)) <= Rabs (dot n (grad x) p) -> b = dot n (grad x) p) /\
    allowed x p t /\ (forall u, allowed x p u -> q1 (quad n G p) b t <= q1 (quad n G p) b u) /\
    (forall i, (i < n)%nat -> m_x s' i = x i + t * p i) /\
    (forall i, (i < n)%nat -> (m_free s' i = true <-> free i = true /\ (p i = 0 \/ ~ at_bound i (m_x s' i)))) /\
    (m_unfix s' = false <-> ~ (quad n G p = 0 /\ b = 0) /\ exists i, (i < n)%nat /\ p i <> 0 /\ at_bound i (m_x s' i)).

(** the coordinate search of one pass *)
Definition coords (s : mqstate) : csres :=
  coordinateSearch cfuel n G lo hi (m_unfix s) {| cs_x := m_x s; cs_g := grad (m_x s); cs_free := m_free s |}.

(** one pass: the coordinate search led to cs, and k variables are free there *)
Definition passes (s s' : mqstate) : Prop :=
  exists cs tr k v, coords s = CSDone cs tr /\ tr <> [] /\ marks n (cs_free cs) k /\ kept s v /\
    m_fval s' = Some v /\ m_nfree_old s' = Some k /\ marks n (m_free s') (m_nfree s') /\
    (m_unfix s = true /\ m_nfree_old s = Some k -> m_nitref s' = S (m_nitref s)) /\
    (m_unfix s = false \/ m_nfree_old s <> Some k -> m_nitref s' = 0%nat) /\
    (m_improved s' = true <-> m_unfix s = false \/ fobj gamma n G c (cs_x cs) < v) /\
    (m_improved s' = true /\ (m_nitref s' <= 3)%nat /\ (1 <= k)%nat ->
       newton_step (cs_x cs) (cs_free cs) s' /\ m_nsub s' = S (m_nsub s)) /\
    (m_improved s' = false \/ (4 <= m_nitref s')%nat \/ k = 0%nat ->
       m_x s' = cs_x cs /\ m_free s' = cs_free cs /\ m_nsub s' = m_nsub s /\
       m_L s' = m_L s /\ m_d s' = m_d s /\ m_K s' = m_K s /\
       (m_unfix s' = true <-> m_unfix s = true \/ (m_improved s' = true /\ (m_nitref s' <= 3)%nat))).

(** a complete search from the state s: why it ended, the point, the value and the number of
    steps in a subspace *)
Inductive completes (s : mqstate) : mq_reason -> vec -> R -> nat -> Prop :=
| ends_here why v : ended s why -> kept s v -> completes s why (m_x s) v (m_nsub s)
| ends_unbounded v k lower cs tr : goes_on s -> kept s v -> coords s = CSUnbounded k lower cs tr ->
    completes s CoordUnbounded (cs_x cs) v (m_nsub s)
| ends_untried v cs : goes_on s -> kept s v -> coords s = CSDone cs [] ->
    completes s NothingTried (cs_x cs) v (m_nsub s)
| ends_later s' why x v k : goes_on s -> passes s s' -> completes s' why x v k -> completes s why x v k.

(** the state in which a search begins *)
Definition begins (x0 : vec) (s : mqstate) : Prop :=
  nearest n lo hi x0 (m_x s) /\ (forall i, m_free s i = false) /\ m_unfix s = true /\ m_nitref s = 0%nat /\
  m_improved s = true /\ m_fval s = None /\ m_nfree_old s = None /\ m_nsub s = 0%nat /\
  (forall i, m_K s i = false) /\ (forall i, m_d s i = 1) /\ (forall i j, m_L s i j = if Nat.eqb i j then 1 else 0).
End Pass.
