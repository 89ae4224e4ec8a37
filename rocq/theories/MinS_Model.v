(** Model of the main loop and the subspace step of minq.py, with the coordinate search of
    MinQ_Model and the factorisation updates of LDL_Model.  Exact reals; bounds may be infinite;
    c, G, xu, xo and the guess are real arrays of matching sizes; [slv] is mldiv for a square
    matrix (minq_util.py:49-56, numpy.linalg.solve), None is LinAlgError.  Texts printed are not
    modelled except through the reason of an ending. *)
From Coq Require Import Reals List Arith ZArith Bool.
From Verif Require Import RVec RBool MinQ_Model LDL_Model.
Import ListNotations.
Open Scope R_scope.

(** The attributes of a [Minq] object that change (minq.py:51-75, 141-147).  self.x and
    self.xTry are the same array from line 653 on; [m_fval = None] is the inf of line 72,
    [m_nfree_old = None] the -1 of line 75. *)
Record mqstate := { m_x : vec; m_g : vec; m_free : nat -> bool; m_unfix : bool; m_nitref : nat;
  m_improved : bool; m_fval : option R; m_nfree : nat; m_nfree_old : option nat; m_nsub : nat;
  m_L : mat; m_d : vec; m_K : nat -> bool }.

(** Why the search ended: the three texts printed in _Info (lines 204-213), the iteration limit
    (line 218), and the two returns after the coordinate search (line 662). *)
Inductive mq_reason := NoImprovement | RefinedOften | RefinedSame | Limit | CoordUnbounded | NothingTried.
Inductive mqout :=
| MqReturn (why : mq_reason) (x : vec) (fval : option R) (info : Z) (nsub : nat)
| MqRaise                     (* an exception *)
| MqNaN (x : vec)             (* NaN enters the point (lines 540-561); what follows is not modelled *)
| MqFuel.                     (* model only: fuel exhausted *)

(** minq.py:137-138: the diagonal of G is multiplied by 1+neps, in place. *)
Definition regular (neps : R) (G : mat) : mat := fun i j => if (i =? j)%nat then G i j * (1 + neps) else G i j.

(** minq.py:129: numpy.maximum(xu, numpy.minimum(xTry, xo)), for xu below +inf and xo above -inf. *)
Definition into_box (xu xo : nat -> xR) (x : vec) : vec := fun i =>
  let y := match xo i with Fin o => Rmin (x i) o | _ => x i end in
  match xu i with Fin u => Rmax u y | _ => y end.

(** numpy.sum(self.free), minq.py:566 and 665 *)
Definition count_free (n : nat) (free : nat -> bool) : nat := length (filter free (seq 0 n)).

(** minq.py:123-147 and the class attributes of lines 51-75 *)
Definition mq_init (xu xo : nat -> xR) (x0 : vec) : mqstate :=
  {| m_x := into_box xu xo x0; m_g := vzero; m_free := fun _ => false; m_unfix := true; m_nitref := 0;
     m_improved := true; m_fval := None; m_nfree := 0; m_nfree_old := None; m_nsub := 0;
     m_L := idm; m_d := fun _ => 1; m_K := fun _ => false |}.

(** [e / r] for a finite [r], not zero. *)
Definition xdiv (e : xR) (r : R) : xR :=
  match e with
  | Fin a => Fin (a / r)
  | PInf => if Rltb r 0 then NInf else PInf
  | NInf => if Rltb r 0 then PInf else NInf
  end.
Definition xmax (e f : xR) : xR :=
  match e, f with
  | PInf, _ | _, PInf => PInf | NInf, y => y | x, NInf => x | Fin a, Fin b => Fin (Rmax a b)
  end.
Definition xmin (e f : xR) : xR :=
  match e, f with
  | NInf, _ | _, NInf => NInf | PInf, y => y | x, PInf => x | Fin a, Fin b => Fin (Rmin a b)
  end.
(** [r == e] *)
Definition xis (r : R) (e : xR) : bool := match e with Fin a => Reqb r a | _ => false end.

Section Search.
Variables (neps : R) (slv : solver) (n : nat) (G : mat) (c : vec) (gamma : R) (xu xo : nat -> xR).

(** minq.py:598-600 (calc_g) and 603-604 (calc_newfval) *)
Definition calc_g (x : vec) : vec := fun i => mv n G x i + c i.
Definition calc_fval (x g : vec) : R := gamma + / 2 * dot n (fun i => c i + g i) x.

(** minq.py:471-474: downdates for the newly fixed variables *)
Fixpoint downdate (js : list nat) (L : mat) (d : vec) (K : nat -> bool) : option (mat * vec * (nat -> bool)) :=
  match js with
  | [] => Some (L, d, K)
  | j :: js' => match ldldown neps slv n L d j with
                | None => None
                | Some (L', d') => downdate js' L' d' (upd K j false)
                end
  end.

(** minq.py:479-482: the column given to ldlup *)
Definition new_col (K : nat -> bool) (j : nat) : vec := fun i =>
  if (i =? j)%nat then G j j else if K i then G i j else 0.
(** p.any(), line 485 *)
Definition any_nonzero (p : vec) : bool := existsb (fun i => negb (Reqb (p i) 0)) (seq 0 n).

(** minq.py:476-490: updates for the newly freed variables.  A direction p of ldlup with a nonzero
    entry ends the loop with definite = 0; the program then always fails: p has one dimension
    (lines 295 and 310), and list(p.T[0]) of line 499 raises for a number; or it is an n x 1 matrix
    (line 356), line 499 gives a list of one 1 x n matrix, line 500 an array with three dimensions,
    and line 508 or the product of line 527 raises for n >= 2. *)
Fixpoint update (js : list nat) (L : mat) (d : vec) (K : nat -> bool) : option (mat * vec * (nat -> bool)) :=
  match js with
  | [] => Some (L, d, K)
  | j :: js' => match ldlup neps slv n L d j (new_col K j) with
                | LdlRaise | LdlNone => None
                | LdlOk L' d' => update js' L' d' (upd K j true)
                | LdlBad L' d' p => if any_nonzero p then None else update js' L' d' (upd K j true)
                end
  end.

(** minq.py:492-496: the reduced Newton direction; a division by zero gives NaN or inf, [Some None] *)
Definition newton (L : mat) (d : vec) (K : nat -> bool) (g : vec) : option (option vec) :=
  match slv n L (fun i => if K i then g i else 0) with
  | None => None
  | Some y =>
      if existsb (fun i => Reqb (d i) 0) (seq 0 n) then Some None
      else match slv n (fun i j => L j i) (fun i => y i / d i) with
           | None => None
           | Some z => Some (Some (vneg z))
           end
  end.

(** minq.py:501: find(p != 0) *)
Definition moving (p : vec) : list nat := filter (fun i => negb (Reqb (p i) 0)) (seq 0 n).
(** minq.py:507-509: oo and uu *)
Definition to_upper (x p : vec) (i : nat) : xR := xdiv (xsub (xo i) (x i)) (p i).
Definition to_lower (x p : vec) (i : nat) : xR := xdiv (xsub (xu i) (x i)) (p i).
(** minq.py:511-521: the range of step sizes *)
Definition range_low (x p : vec) : xR :=
  fold_right (fun i a => xmax (if Rltb (p i) 0 then to_upper x p i else to_lower x p i) a) NInf (moving p).
Definition range_high (x p : vec) : xR :=
  fold_right (fun i a => xmin (if Rltb (p i) 0 then to_lower x p i else to_upper x p i) a) PInf (moving p).
(** minq.py:527-532: the linear term, zero if it is only rounding *)
Definition slope (g p : vec) : R :=
  let gTp := dot n g p in
  if Rltb (Rabs gTp) (neps * dot n (fun i => Rabs (g i)) (fun i => Rabs (p i))) then 0 else gTp.

(** minq.py:549-561: the new point and the new marks *)
Definition moved (x p : vec) (alpha : R) : vec := fun i =>
  if Reqb (p i) 0 then x i
  else if xis alpha (to_lower x p i) then xval (xu i)
  else if xis alpha (to_upper x p i) then xval (xo i)
  else x i + alpha * p i.
Definition still_free (x p : vec) (free : nat -> bool) (alpha : R) : nat -> bool := fun i =>
  if Reqb (p i) 0 then free i
  else if xis alpha (to_lower x p i) || xis alpha (to_upper x p i) then false else free i.

Inductive subres := SubRaise | SubNaN (x : vec) | SubDone (s : mqstate).

(** minq.py:465-567.  (x + p) - x of line 500 is p; convex is 0. *)
Definition subspace (s : mqstate) : subres :=
  match downdate (filter (fun i => negb (m_free s i) && m_K s i) (seq 0 n)) (m_L s) (m_d s) (m_K s) with
  | None => SubRaise
  | Some (L1, d1, K1) =>
      match update (filter (fun i => m_free s i && negb (K1 i)) (seq 0 n)) L1 d1 K1 with
      | None => SubRaise
      | Some (L2, d2, K2) =>
          match newton L2 d2 K2 (m_g s) with
          | None => SubRaise
          | Some None => SubNaN (m_x s)
          | Some (Some p) =>
              let r := quadMin (range_low (m_x s) p) (range_high (m_x s) p) (slope (m_g s) p) (quad n G p) in
              match qm_x r with
              | None => SubNaN (m_x s)
              | Some al =>
                  let free' := still_free (m_x s) p (m_free s) (xval al) in
                  SubDone {| m_x := moved (m_x s) p (xval al); m_g := m_g s; m_free := free';
                             m_unfix := negb (qm_lba r || qm_uba r); m_nitref := m_nitref s;
                             m_improved := m_improved s; m_fval := m_fval s; m_nfree := count_free n free';
                             m_nfree_old := m_nfree_old s; m_nsub := S (m_nsub s);
                             m_L := L2; m_d := d2; m_K := K2 |}
              end
          end
      end
  end.

(** minq.py:571-590 *)
Definition subspaceSearch (s : mqstate) : subres :=
  if negb (m_improved s) || (3 <? m_nitref s)%nat then SubDone s
  else if (m_nfree s =? 0)%nat then
    SubDone {| m_x := m_x s; m_g := m_g s; m_free := m_free s; m_unfix := true; m_nitref := m_nitref s;
               m_improved := m_improved s; m_fval := m_fval s; m_nfree := m_nfree s;
               m_nfree_old := m_nfree_old s; m_nsub := m_nsub s; m_L := m_L s; m_d := m_d s; m_K := m_K s |}
  else subspace s.

Definition same_count (a : option nat) (b : nat) : bool := match a with Some a => (a =? b)%nat | None => false end.

(** minq.py:645-651: the value at the point and the best value *)
Definition best_value (s : mqstate) : R :=
  let new := calc_fval (m_x s) (calc_g (m_x s)) in
  if (m_nitref s =? 0)%nat then match m_fval s with None => new | Some f => Rmin f new end else new.

(** minq.py:201-221 (_Info), after the two values have been set *)
Definition stop_reason (s : mqstate) : option mq_reason :=
  let new := calc_fval (m_x s) (calc_g (m_x s)) in
  if (m_nitref s =? 0)%nat && (m_nsub s =? 3 * n)%nat then Some Limit
  else if negb (m_improved s) then Some NoImprovement
  else if (3 <? m_nitref s)%nat then Some RefinedOften
  else if (0 <? m_nitref s)%nat && same_count (m_nfree_old s) (m_nfree s) && Rleb (best_value s) new
  then Some RefinedSame
  else None.
Definition stop_info (why : mq_reason) : Z := match why with Limit => 99%Z | _ => 0%Z end.

(** minq.py:665-681: after the coordinate search.  The gradient recomputed in line 669 is the same
    in exact arithmetic. *)
Definition after_coord (s : mqstate) (cs : csstate) (fval : R) : mqstate :=
  let nfree := count_free n (cs_free cs) in
  let again := m_unfix s && same_count (m_nfree_old s) nfree in
  let g := if again then calc_g (cs_x cs) else cs_g cs in
  let gain := fval - gamma - / 2 * dot n (cs_x cs) (fun i => c i + g i) in
  {| m_x := cs_x cs; m_g := g; m_free := cs_free cs; m_unfix := m_unfix s;
     m_nitref := if again then S (m_nitref s) else 0%nat; m_improved := Rltb 0 gain || negb (m_unfix s);
     m_fval := Some fval; m_nfree := nfree; m_nfree_old := Some nfree; m_nsub := m_nsub s;
     m_L := m_L s; m_d := m_d s; m_K := m_K s |}.

(** minq.py:643-702: the main loop; [cfuel] is the fuel of each coordinate search.  self.info is -1
    when the coordinate search starts (line 216) and is only set when a coordinate is tried
    (line 427), so a coordinate search without a trial ends the search with -1 (line 662). *)
Fixpoint mq_loop (fuel cfuel : nat) (s : mqstate) : mqout :=
  match fuel with
  | O => MqFuel
  | S fuel' =>
      let fval := best_value s in
      match stop_reason s with
      | Some why => MqReturn why (m_x s) (Some fval) (stop_info why) (m_nsub s)
      | None =>
          match coordinateSearch cfuel n G xu xo (m_unfix s)
                  {| cs_x := m_x s; cs_g := calc_g (m_x s); cs_free := m_free s |} with
          | CSFuel _ _ => MqFuel
          | CSIndexError _ _ => MqRaise
          | CSUnbounded _ _ cs _ => MqReturn CoordUnbounded (cs_x cs) (Some fval) 1 (m_nsub s)
          | CSDone cs [] => MqReturn NothingTried (cs_x cs) (Some fval) (-1) (m_nsub s)
          | CSDone cs (_ :: _) =>
              match subspaceSearch (after_coord s cs fval) with
              | SubRaise => MqRaise
              | SubNaN x => MqNaN x
              | SubDone s' => mq_loop fuel' cfuel s'
              end
          end
      end
  end.
End Search.

(** Minq(gamma, c, G, xu, xo, prt, x0).search(), minq.py:77-103, 123-147 and 629-702; the second component
    is what is left in the caller's array G (numpy.mat in line 94 does not copy an array). *)
Definition minq_search (neps : R) (slv : solver) (fuel cfuel n : nat) (G : mat) (c : vec) (gamma : R)
    (xu xo : nat -> xR) (x0 : vec) : mqout * mat :=
  (mq_loop neps slv n (regular neps G) c gamma xu xo fuel cfuel (mq_init xu xo x0), regular neps G).
