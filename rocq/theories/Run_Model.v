(** Model of helper functions of runtime.py: find_, max_, min_, concatenate_, setdiff_,
    compare_array.

    Numbers are exact rationals, plus and minus infinity and NaN; rounding, overflow and
    the sign of zero are not represented.  None is an exception. *)
From Coq Require Import List Arith ZArith QArith Bool.
Import ListNotations.
From Verif Require Import QB Main_Model.
Local Open Scope Q_scope.

(** comparison "less than"; always false with NaN (IEEE) *)
Definition xltb (a b : xQ) : bool :=
  match a, b with
  | NaN, _ | _, NaN => false
  | Fin p, Fin q => qltb p q
  | NInf, NInf => false
  | NInf, _ => true
  | _, NInf => false
  | PInf, _ => false
  | Fin _, PInf => true
  end.

(** ** max_ and min_ *)

(** np.fmax, np.fmin of two numbers, used in runtime.py:143 and :174 *)
Definition fmax (a b : xQ) : xQ :=
  if is_nan a then b else if is_nan b then a else if xltb a b then b else a.
Definition fmin (a b : xQ) : xQ :=
  if is_nan a then b else if is_nan b then a else if xltb b a then b else a.

(** element by element, with numpy's broadcasting of one-element arrays; other lengths
    raise ValueError *)
Definition broadcast {A : Type} (f : xQ -> xQ -> A) (a b : list xQ) : option (list A) :=
  if (length a =? length b)%nat then Some (map (fun p => f (fst p) (snd p)) (combine a b))
  else match a, b with
       | [x], _ => Some (map (f x) b)
       | _, [y] => Some (map (fun x => f x y) a)
       | _, _ => None
       end.

(** np.nanmax, np.nanmin of a non-empty array: NaN only if all entries are
    (runtime.py:145, :176) *)
Definition nanmax (a : list xQ) : xQ := fold_right fmax NaN a.
Definition nanmin (a : list xQ) : xQ := fold_right fmin NaN a.

(** np.nanargmax, np.nanargmin: the first position of the extreme value; ValueError if all
    entries are NaN (runtime.py:152, :181) *)
Definition xeqb (a b : xQ) : bool :=
  match a, b with Fin p, Fin q => qeqb p q | PInf, PInf => true | NInf, NInf => true | _, _ => false end.
Fixpoint position (v : xQ) (a : list xQ) (k : nat) : option nat :=
  match a with [] => None | x :: t => if xeqb x v then Some k else position v t (S k) end.

(** max_(a,d): an empty first argument gives an empty array (runtime.py:140-143,
    171-174) *)
Definition max2 (a d : list xQ) : option (list xQ) := match a with [] => Some [] | _ => broadcast fmax a d end.
Definition min2 (a d : list xQ) : option (list xQ) := match a with [] => Some [] | _ => broadcast fmin a d end.

(** max_(a): one number, or an empty array (runtime.py:140-145, 171-176) *)
Definition max1 (a : list xQ) : list xQ := match a with [] => [] | _ => [nanmax a] end.
Definition min1 (a : list xQ) : list xQ := match a with [] => [] | _ => [nanmin a] end.

(** max_(a,nargout=2): value and position (runtime.py:148-154, 178-184) *)
Definition max1_pos (a : list xQ) : option (list xQ * list nat) :=
  match a with
  | [] => Some ([], [])
  | _ => match position (nanmax a) a 0 with Some k => Some ([nanmax a], [k]) | None => None end
  end.
Definition min1_pos (a : list xQ) : option (list xQ * list nat) :=
  match a with
  | [] => Some ([], [])
  | _ => match position (nanmin a) a 0 with Some k => Some ([nanmin a], [k]) | None => None end
  end.

(** ** find_: positions of the true entries of a vector; [] if there are none.  The shape
    (a column without n, one-dimensional with n) is not represented.
    With a number n the first n positions; IndexError if there are fewer
    (runtime.py:38-55, nargout = 1) *)
Definition trues (a : list bool) : list nat := map fst (filter snd (combine (seq 0 (length a)) a)).
Definition find1 (a : list bool) (n : option nat) : option (list nat) :=
  match trues a, n with
  | [], _ => Some []
  | l, None => Some l
  | l, Some n => if (n <=? length l)%nat then Some (firstn n l) else None
  end.

(** ** setdiff_: sorted different values of the first argument that are not in the second;
    here for indices, the only use (runtime.py:418-422) *)
Fixpoint insert (x : nat) (l : list nat) : list nat :=
  match l with
  | [] => [x]
  | y :: t => if (x <? y)%nat then x :: l else if (x =? y)%nat then l else y :: insert x t
  end.
Definition uniq (l : list nat) : list nat := fold_right insert [] l.
Definition setdiff (a b : list nat) : list nat := filter (fun x => negb (existsb (Nat.eqb x) b)) (uniq a).

(** ** concatenate_ *)

(** a matrix: numbers of rows and columns, and the rows *)
Record mx := mkmx { m_r : nat; m_c : nat; m_rows : list (list xQ) }.
Definition is_empty (A : mx) : bool := ((m_r A =? 0) || (m_c A =? 0))%nat%bool.

(** one pass of the outer loop deletes the first empty block (runtime.py:385-395); a tuple
    does not support deletion: TypeError *)
Fixpoint del_empty (l : list mx) : list mx :=
  match l with [] => [] | A :: t => if is_empty A then t else A :: del_empty t end.
Fixpoint passes (k : nat) (l : list mx) : list mx :=
  match k with O => l | S k => passes k (del_empty l) end.

(** np.vstack, np.hstack of matrices; ValueError if the numbers of columns (rows) differ *)
Fixpoint vcat (l : list mx) : option mx :=
  match l with
  | [] => None
  | [A] => Some A
  | A :: t => match vcat t with
              | Some B => if (m_c A =? m_c B)%nat
                          then Some (mkmx (m_r A + m_r B) (m_c A) (m_rows A ++ m_rows B)) else None
              | None => None
              end
  end.
Definition join (a b : list (list xQ)) : list (list xQ) := map (fun p => fst p ++ snd p) (combine a b).
Fixpoint hcat (l : list mx) : option mx :=
  match l with
  | [] => None
  | [A] => Some A
  | A :: t => match hcat t with
              | Some B => if (m_r A =? m_r B)%nat
                          then Some (mkmx (m_r A) (m_c A + m_c B) (join (m_rows A) (m_rows B))) else None
              | None => None
              end
  end.

(** concatenate_(arrs,axis); [tuple] says that arrs is a tuple; an empty result has shape
    (0,), written here as 0 rows and 0 columns (runtime.py:381-410) *)
Definition concatenate (tuple : bool) (axis : nat) (l : list mx) : option mx :=
  if (tuple && existsb is_empty l)%bool then None else
  match passes (length l) l with
  | [] => if tuple then None else Some (mkmx 0 0 [])
  | l' => if (axis =? 0)%nat then vcat l' else hcat l'
  end.

(** ** compare_array *)

(** 2.2250738585072014e-308, smallest normal number: 2^-1022 *)
Definition tinymin : Q := 1 # (2 ^ 1022)%positive.

Definition xopp (a : xQ) : xQ := match a with Fin q => Fin (- q) | PInf => NInf | NInf => PInf | NaN => NaN end.
Definition xadd (a b : xQ) : xQ :=
  match a, b with
  | NaN, _ | _, NaN => NaN
  | Fin p, Fin q => Fin (p + q)
  | PInf, NInf | NInf, PInf => NaN
  | PInf, _ | _, PInf => PInf
  | NInf, _ | _, NInf => NInf
  end.
Definition xsub (a b : xQ) : xQ := xadd a (xopp b).
(** quotient; the sign of an infinite quotient by zero is not determined here (signed
    zeros), its magnitude is used only *)
Definition xdiv (a b : xQ) : xQ :=
  match a, b with
  | NaN, _ | _, NaN => NaN
  | Fin p, Fin q => if qeqb q 0 then (if qeqb p 0 then NaN else if qltb 0 p then PInf else NInf) else Fin (p / q)
  | Fin _, _ => Fin 0
  | PInf, Fin q => if qltb q 0 then NInf else PInf
  | NInf, Fin q => if qltb q 0 then PInf else NInf
  | _, _ => NaN
  end.
Definition xabs (a : xQ) : xQ := match a with Fin q => Fin (qabs q) | PInf | NInf => PInf | NaN => NaN end.
Definition xleb (a : xQ) (q : Q) : bool :=
  match a with Fin p => qleb p q | NInf => true | _ => false end.

(** both infinite with the same sign (runtime.py:520) *)
Definition same_inf (p : xQ * xQ) : bool :=
  match p with (PInf, PInf) => true | (NInf, NInf) => true | _ => false end.

(** for two arrays of the same number of entries (runtime.py:510-535) *)
Definition compare_array (x y : list xQ) (abs_tol rel_tol : Q) : bool :=
  let ps := filter (fun p => negb (same_inf p)) (combine x y) in
  let error := fun p => xsub (fst p) (snd p) in
  let rel := fun p : xQ * xQ => if (xleb (xabs (fst p)) abs_tol || xleb (xabs (snd p)) abs_tol)%bool
               then Fin 0 else xdiv (error p) (xadd (fst p) (Fin tinymin)) in
  (forallb (fun p => xltb (xabs (error p)) (Fin abs_tol)) ps &&
   forallb (fun p => xltb (xabs (rel p)) (Fin rel_tol)) ps)%bool.
