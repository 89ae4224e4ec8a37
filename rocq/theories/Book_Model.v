(** Model of the routines that keep the books of the interpolation set.

    Common conventions (all simplifications are listed here and at the
    definitions):
    - numbers are exact rationals; rounding is not modelled;
    - points are of an arbitrary type [P]; a matrix of points is the list of its
      columns; the Euclidean distance of two points is an arbitrary function
      [dist] handed in, because it is not rational;
    - the factorisation (QZ, RZ, scale) is not represented: it is recomputed by
      bcdfo_build_QR_of_Y from the new set in every routine below, and read only
      by the linear algebra, which enters through oracle arguments;
    - [shift_Y] is 1 as everywhere in the program (/repo/sqpdfo/sqpdfo.py:238). *)
From Coq Require Import List Arith ZArith QArith Bool Lia.
Import ListNotations.
From Verif Require Import QB.
Local Open Scope Q_scope.

Section Book.
Context {P : Type}.

(** The interpolation set with the data attached to its columns:
    points, indices into the archive, function values, inequality and equality
    constraint values.  [s_ci] / [s_ce] are the empty list when the program holds
    an empty array.  (/repo/sqpdfo/sqpdfo_main.py:168-197) *)
Record iset := mkset {
  s_Y : list P; s_ind : list nat; s_f : list Q;
  s_ci : list (list Q); s_ce : list (list Q) }.

(** The base point computed by bcdfo_build_QR_of_Y with shift_Y = 1: the first
    column if there are at least two columns, the zero vector otherwise.
    (/repo/sqpdfo/bcdfo_build_QR_of_Y.py:84-95) *)
Definition base_of (zero : P) (Y : list P) : P :=
  match Y with y0 :: _ :: _ => y0 | _ => zero end.

(** Exchange of entries [ii] and [jj]; [None] is the IndexError of an access
    outside the array.  (/repo/sqpdfo/sqpdfo_swap_in_Y.py:70-78) *)
Definition swapl {A : Type} (ii jj : nat) (l : list A) : option (list A) :=
  match nth_error l ii, nth_error l jj with
  | Some a, Some b => Some (upd (upd l ii b) jj a)
  | _, _ => None
  end.

(** The same for an optional block of constraint values, skipped when empty.
    (/repo/sqpdfo/sqpdfo_swap_in_Y.py:79-86) *)
Definition swapc (ii jj : nat) (l : list (list Q)) : option (list (list Q)) :=
  match l with [] => Some [] | _ => swapl ii jj l end.

(** sqpdfo_swap_in_Y: the two positions are ordered, equal positions change
    nothing (the base point handed in is returned), otherwise all data are
    exchanged and the base point is recomputed.
    (/repo/sqpdfo/sqpdfo_swap_in_Y.py:49-90) *)
Definition swap_in_Y (zero : P) (i j : nat) (S : iset) (xbase : P)
  : option (iset * P) :=
  if (i =? j)%nat then Some (S, xbase) else
  let ii := Nat.min i j in
  let jj := Nat.max i j in
  match swapl ii jj (s_Y S), swapl ii jj (s_ind S), swapl ii jj (s_f S),
        swapc ii jj (s_ci S), swapc ii jj (s_ce S) with
  | Some Y', Some ind', Some f', Some ci', Some ce' =>
      Some (mkset Y' ind' f' ci' ce', base_of zero Y')
  | _, _, _, _, _ => None
  end.

(** Merit value of column [i] as computed by sqpdfo_find_smallf: the function
    value plus the penalty parameter truncated to an integer times the norm of
    the (slack corrected) constraints; all norms count as 0 when every stored
    constraint value is 0 ([ceY.any()] is false).  [cnorm] is the norm of a
    column of constraint values after subtracting the squared slacks.
    (/repo/sqpdfo/sqpdfo_find_smallf.py:84, 100-110) *)
Definition any_ce (ce : list (list Q)) : bool :=
  existsb (existsb (fun v => negb (qeqb v 0))) ce.

(** Python's int() of a number: truncation towards zero
    (/repo/sqpdfo/sqpdfo_find_smallf.py:110) *)
Definition qtrunc (s : Q) : Z := Z.quot (Qnum s) (Zpos (Qden s)).

Definition meritY (cnorm : list Q -> Q) (sigma : Q) (S : iset) (i : nat) : Q :=
  nth i (s_f S) 0 +
  inject_Z (qtrunc sigma) * (if any_ce (s_ce S) then cnorm (nth i (s_ce S) []) else 0).

(** The position list built by the bound test: the position itself for a point
    that passes, the placeholder 0 otherwise.  No point is ever a dummy
    (dstatus is 0 for every point, /repo/sqpdfo/sqpdfo_augmX_evalf.py:74, 78).
    (/repo/sqpdfo/sqpdfo_find_smallf.py:88-96) *)
Definition inside_list (inside : P -> bool) (Y : list P) : list nat :=
  map (fun p => if inside (snd p) then fst p else 0%nat)
      (combine (seq 0 (length Y)) Y).

(** Result of sqpdfo_find_smallf: new set, base point, incumbent value and index,
    and the function and constraint values put into [info].  [None] is an
    exception.  (/repo/sqpdfo/sqpdfo_find_smallf.py:112-139) *)
Record smallf_res := mksf {
  r_set : iset; r_x : P; r_fx : Q; r_ibest : nat; r_f : Q; r_ce : option (list Q) }.

Definition find_smallf (zero : P) (inside : P -> bool) (cnorm : list Q -> Q)
  (sigma : Q) (S : iset) (x : P) (fx : Q) (ibest : nat) : option smallf_res :=
  match argmin (map (meritY cnorm sigma S) (inside_list inside (s_Y S))) with
  | None => None
  | Some (fmin, imin) =>
      let moved :=
        if (negb (imin =? 1)%nat && qltb fmin (meritY cnorm sigma S 0))%bool then
          match swap_in_Y zero 0 imin S x with
          | Some (S', x') =>
              match s_f S', s_ind S' with
              | f0 :: _, i0 :: _ => Some (S', x', f0, i0)
              | _, _ => None
              end
          | None => None
          end
        else Some (S, x, fx, ibest) in
      match moved with
      | None => None
      | Some (S', x', fx', ib') =>
          match s_f S' with
          | [] => None
          | f0 :: _ =>
              Some (mksf S' x' fx' ib' f0
                      (match s_ce S' with [] => None | c0 :: _ => Some c0 end))
          end
      end
  end.

(** The bound test itself, on points given by their coordinates.  The column
    [Y[:,i]] has shape (n,) and the bounds have shape (n,1), so numpy compares
    every coordinate with every bound.
    (/repo/sqpdfo/sqpdfo_find_smallf.py:92) *)
Definition inside_bcast (xl xu : list Q) (y : list Q) : bool :=
  forallb (fun l => forallb (fun v => negb (qltb v l)) y) xl &&
  forallb (fun u => forallb (fun v => negb (qltb u v)) y) xu.

(** ** bcdfo_include_in_Y *)

Inductive criterion := Weighted | Standard | Distance.

(** Value of the selection criterion for position [j]: [dx j] is the distance of
    column j to the new point, [d0 j] its distance to the base point, [L] the
    Lagrange values at the new point.
    (/repo/sqpdfo/bcdfo_include_in_Y.py:132-143) *)
Definition crit_value (c : criterion) (succ : bool) (dx d0 L : nat -> Q) (j : nat) : Q :=
  let d := if succ then dx j else d0 j in
  match c with
  | Weighted => d * d * qabs (L j)
  | Standard => qabs (L j)
  | Distance => d
  end.

(** Scan of the qualifying positions in increasing order; a position is taken
    only if its criterion is strictly larger than the best so far, which starts
    at 0.  (/repo/sqpdfo/bcdfo_include_in_Y.py:128-146) *)
Fixpoint best_pos (cv : nat -> Q) (l : list nat) (best : Q) (pos : option nat)
  : option nat :=
  match l with
  | [] => pos
  | j :: t => if qltb best (cv j) then best_pos cv t (cv j) (Some j)
              else best_pos cv t best pos
  end.

(** Position chosen for the new point, [None] for -1.  bcdfo_evalL returns 0 for
    positions outside the choice set, so these qualify only for a negative
    threshold.  (/repo/sqpdfo/bcdfo_include_in_Y.py:115-148) *)
Definition include_pos (cset : list nat) (thr : Q) (c : criterion) (succ : bool)
  (dx d0 L : nat -> Q) (p1 : nat) : option nat :=
  match cset with
  | [] => None
  | _ =>
      let Lv := fun j => if existsb (Nat.eqb j) cset then L j else 0 in
      let choice := filter (fun j => qltb thr (qabs (Lv j))) (seq 0 p1) in
      best_pos (crit_value c succ dx d0 Lv) choice 0 None
  end.

(** The set after the inclusion; the base point is recomputed when a point was
    replaced.  (/repo/sqpdfo/bcdfo_include_in_Y.py:149-151,
    /repo/sqpdfo/bcdfo_replace_in_Y.py:106-113) *)
Definition include_in_Y (zero : P) (dist : P -> P -> Q) (x : P) (Y : list P)
  (cset : list nat) (thr : Q) (c : criterion) (xbase : P) (succ : bool)
  (L : nat -> Q) : list P * option nat * P :=
  let dx := fun j => match nth_error Y j with Some y => dist y x | None => 0 end in
  let d0 := fun j => match nth_error Y j, nth_error Y 0 with
                     | Some y, Some y0 => dist y y0 | _, _ => 0 end in
  match include_pos cset thr c succ dx d0 L (length Y) with
  | None => (Y, None, xbase)
  | Some j => let Y' := upd Y j x in (Y', Some j, base_of zero Y')
  end.

(** ** bcdfo_augment_Y *)

(** Adding one column: refused (with the size unchanged) when the set is already
    fully quadratic, except in regression mode.  [q] is (n+1)(n+2)/2.
    (/repo/sqpdfo/bcdfo_augment_Y.py:140-149) *)
Definition augment_Y (q : nat) (whichmodel : nat) (ynew : list P) (Y : list P)
  : nat * list P :=
  if ((q <=? length Y)%nat && negb (whichmodel =? 3)%nat)%bool
  then (length Y, Y)
  else ((length Y + length ynew)%nat, Y ++ ynew).

(** ** bcdfo_repair_Y *)

(** Answer of bcdfo_find_new_yj for one position: a proposed point with its
    improvement, or no proposal.  In the second case (position 0, or a Lagrange
    polynomial with NaN or infinite coefficients) the routine returns a *row* of
    zeros and improvement 0.  (/repo/sqpdfo/bcdfo_find_new_yj.py:75-90, 119-128) *)
Inductive nyj := NewPt (y : P) (imp : Q) | NoPt.

Section Repair.
Variables (zero : P) (dist : P -> P -> Q).
(** norm of (row of zeros) - (column of the base point): an n x n matrix by
    broadcasting, whose spectral norm is not the distance of the two points
    (/repo/sqpdfo/bcdfo_repair_Y.py:217) *)
Variable rowdist : P -> Q.
(** answer of bcdfo_find_new_yj in the k-th call, for set and position *)
Variable newpt : nat -> list P -> nat -> nyj.
(** np.argsort(d)[::-1]: positions by decreasing distance; the order of equal
    entries is left open (/repo/sqpdfo/bcdfo_repair_Y.py:194) *)
Variable argsort : list Q -> list nat.
Variables (farfact epsL Delta closethr : Q).

(** the answer with the j < 1 case of the routine made explicit
    (/repo/sqpdfo/bcdfo_find_new_yj.py:82-83) *)
Definition find_new (k : nat) (Y : list P) (j : nat) : nyj :=
  if (j <? 1)%nat then NoPt else newpt k Y j.

(** distances of the columns to the first one
    (/repo/sqpdfo/bcdfo_repair_Y.py:190-192) *)
Definition dists (Y : list P) : list Q :=
  match Y with
  | [] => []
  | y0 :: t => 0 :: map (fun y => dist y y0) t
  end.

(** replacement of the far points, in order of decreasing initial distance,
    until the first one that is not far; every proposal is taken whatever its
    improvement (/repo/sqpdfo/bcdfo_repair_Y.py:205-220) *)
Fixpoint far_loop (k : nat) (d0 : list Q) (js : list nat) (Y : list P) (d : list Q)
  (repl : list nat) : nat * list P * list Q * list nat :=
  match js with
  | [] => (k, Y, d, repl)
  | j :: t =>
      if qltb (farfact * (1 + epsL) * Delta) (nth j d0 0) then
        let '(y, dj) := match find_new k Y j, Y with
                        | NewPt y _, y0 :: _ => (y, dist y y0)
                        | NewPt y _, [] => (y, 0)
                        | NoPt, y0 :: _ => (zero, rowdist y0)
                        | NoPt, [] => (zero, 0)
                        end in
        far_loop (S k) d0 t (upd Y j y) (upd d j dj) (repl ++ [j])
      else (k, Y, d, repl)
  end.

(** one scan for the best proposal; [None] while no proposal has a positive
    improvement (/repo/sqpdfo/bcdfo_repair_Y.py:231-248) *)
Fixpoint scan (k : nat) (Y : list P) (js : list nat) (best : option (Q * nat * P))
  : nat * option (Q * nat * P) :=
  match js with
  | [] => (k, best)
  | j :: t =>
      let cur := match best with Some (v, _, _) => v | None => 0 end in
      let best' := match find_new k Y j with
                   | NewPt y imp => if qltb cur imp then Some (imp, j, y) else best
                   | NoPt => best
                   end in
      scan (S k) Y t best'
  end.

(** result: set, replaced positions, maximal improvement, radius; [None] is the
    UnboundLocalError that a non-positive threshold can cause when no position
    has a positive improvement *)
Definition rep_res : Type := list P * list nat * Q * Q.

Fixpoint improve (rounds k : nat) (Y : list P) (d : list Q) (repl : list nat)
  (lastimp : Q) : option rep_res :=
  match rounds with
  | O => (* after the last round: lines 270-277 *)
      match qmaxl d with Some r => Some (Y, repl, lastimp, r) | None => None end
  | S rest =>
      let '(k', best) := scan k Y (seq 1 (length Y - 1)) None in
      match best with
      | None =>
          if qltb 0 closethr then
            match qmaxl d with Some r => Some (Y, repl, 0, r) | None => None end
          else None
      | Some (imp, j, y) =>
          if qltb imp closethr then
            match qmaxl d with
            | Some r => Some (Y, repl, (match repl with [] => 0 | _ => imp end), r)
            | None => None end
          else
            let dj := match Y with y0 :: _ => dist y y0 | [] => 0 end in
            improve rest k' (upd Y j y) (upd d j dj)
              (if existsb (Nat.eqb j) repl then repl else repl ++ [j]) imp
      end
  end.

(** bcdfo_repair_Y with hardcons = 0 (the other branch calls an undefined
    function).  The base point is recomputed when something was replaced.
    (/repo/sqpdfo/bcdfo_repair_Y.py:181-277) *)
Definition repair_Y (Y : list P) (xbase : P) : option (rep_res * P) :=
  let d := dists Y in
  let '(k, Y1, d1, repl1) := far_loop 0 d (argsort d) Y d [] in
  match improve 20 k Y1 d1 repl1 0 with
  | None => None
  | Some r =>
      let '(Y2, repl2, imp, rad) := r in
      Some (r, match repl2 with [] => xbase | _ => base_of zero Y2 end)
  end.
End Repair.

End Book.

Arguments iset : clear implicits.
Arguments smallf_res : clear implicits.
Arguments nyj : clear implicits.

(** ** Overwriting of huge constraint values *)

Definition c1e25 : Q := inject_Z (10 ^ 25).

(** All constraint values recorded so far, as a list of columns.  Entries of at
    least 1e25 become ten times the largest smaller entry, then entries of at most
    -1e25 become ten times the smallest larger entry; [None] is the ValueError of
    assigning an empty array.
    (/repo/sqpdfo/sqpdfo_prelim.py:382-383, /repo/sqpdfo/sqpdfo_main.py:790-791) *)
Definition over_up (ceX : list (list Q)) : option (list (list Q)) :=
  let all := concat ceX in
  match qmaxl (filter (fun v => qltb v c1e25) all) with
  | Some m => Some (map (map (fun v => if qleb c1e25 v then 10 * m else v)) ceX)
  | None => if existsb (fun v => qleb c1e25 v) all then None else Some ceX
  end.

Definition over_dn (ceX : list (list Q)) : option (list (list Q)) :=
  let all := concat ceX in
  match qminl (filter (fun v => qltb (- c1e25) v) all) with
  | Some m => Some (map (map (fun v => if qleb v (- c1e25) then 10 * m else v)) ceX)
  | None => if existsb (fun v => qleb v (- c1e25)) all then None else Some ceX
  end.

Definition overwrite_ce (ceX : list (list Q)) : option (list (list Q)) :=
  match over_up ceX with Some c => over_dn c | None => None end.

(** Clamping of one constraint value before it is recorded; infinite values are
    represented by any number beyond the bound.
    (/repo/sqpdfo/sqpdfo_augmX_evalf.py:138-139) *)
Definition clamp25 (v : Q) : Q :=
  if qltb c1e25 v then c1e25 else if qltb v (- c1e25) then - c1e25 else v.
