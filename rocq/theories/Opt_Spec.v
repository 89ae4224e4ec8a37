(** What validated options are, independently of the code. *)
From Coq Require Import List ZArith QArith Bool String Ascii.
Import ListNotations.
From Verif Require Import Main_Model Opt_Model.
Local Open Scope Q_scope.

(** orders on extended numbers, as propositions *)
Definition is_neg (x : num) : Prop :=
  match x with NInt z => (z < 0)%Z | NFlt (Fin q) => q < 0 | NFlt NInf => True | _ => False end.
Definition is_zero (x : num) : Prop :=
  match x with NInt z => z = 0%Z | NFlt (Fin q) => q == 0 | _ => False end.
Definition is_nan_num (x : num) : Prop := x = NFlt NaN.
Definition is_pos (x : num) : Prop :=
  match x with NInt z => (0 < z)%Z | NFlt (Fin q) => 0 < q | NFlt PInf => True | _ => False end.
Definition above6 (x : num) : Prop :=
  match x with NInt z => (6 < z)%Z | NFlt (Fin q) => 6 < q | NFlt PInf => True | _ => False end.
Definition infinite (x : num) : Prop := x = NFlt PInf \/ x = NFlt NInf.

(** [s] is the word [w] up to blanks and capital letters *)
Definition small_letter (c : ascii) : ascii :=
  if andb (Nat.leb (nat_of_ascii "A") (nat_of_ascii c)) (Nat.leb (nat_of_ascii c) (nat_of_ascii "Z"))
  then ascii_of_nat (nat_of_ascii c + (nat_of_ascii "a" - nat_of_ascii "A")) else c.
Definition spells (s w : string) : Prop :=
  map small_letter (filter (fun c => negb (Ascii.eqb c " ")) (list_ascii_of_string s)) =
  list_ascii_of_string w.

(** what becomes of one field: [old] as given, [new] after a successful validation *)
Definition kept_or (bad : num -> Prop) (dflt : num) (old : option num) (new : option num) : Prop :=
  match old with
  | None => new = Some dflt
  | Some x => (bad x /\ new = Some dflt) \/ (~ bad x /\ new = Some x)
  end.
Definition positive_or (dflt : num) (old new : option num) : Prop :=
  match old with
  | None => new = Some dflt
  | Some x => (is_pos x \/ is_nan_num x) /\ new = Some x
  end.
Definition tolerance (old new : option num) : Prop :=
  match old with
  | None => new = Some (NFlt (Fin (1 # 100000)))
  | Some x => (is_zero x /\ new = Some (NFlt (Fin (1 # 100000)))) \/
              ((is_pos x \/ is_nan_num x) /\ new = Some x)
  end.
Definition one_of (words : list (string * Z)) (dflt : Z) (old new : option enumv) : Prop :=
  match old with
  | None => new = Some (VInt dflt)
  | Some (VStr s) => exists w z, In (w, z) words /\ spells s w /\ new = Some (VInt z)
  | Some (VInt _) => False
  end.

(** the effect of a successful validation *)
Definition accepted (o o' : opts) : Prop :=
  kept_or is_neg (NInt 1) (fout o) (fout o') /\
  kept_or (fun x => is_neg x \/ above6 x) (NInt 1) (verbose o) (verbose o') /\
  one_of [("powell"%string, 120%Z); ("wolfe"%string, 121%Z)] 120 (algo o) (algo o') /\
  positive_or (NFlt (Fin (1 # 100000000))) (dxmin o) (dxmin o') /\
  positive_or (NFlt PInf) (inff_ o) (inff_ o') /\
  positive_or (NInt 1000) (miter o) (miter o') /\
  positive_or (NInt 1000) (msimul o) (msimul o') /\
  tolerance (tol_grad o) (tol_grad o') /\
  tolerance (tol_feas o) (tol_feas o') /\
  tolerance (tol_bnds o) (tol_bnds o') /\
  one_of [("bfgs"%string, 130%Z); ("model"%string, 131%Z)] 131 (hess o) (hess o') /\
  one_of [("subbasis"%string, 0%Z); ("frobnorm"%string, 1%Z); ("l2norm"%string, 2%Z);
          ("regression"%string, 3%Z)] 0 (wmodel o) (wmodel o') /\
  one_of [("linear"%string, 140%Z); ("diagonal"%string, 141%Z); ("quadratic"%string, 142%Z)] 141
    (degree o) (degree o').

(** options for which no message and no method call can raise an exception:
    identifiers are integers, verbose is not infinite, enumerations are strings *)
Definition plain (o : opts) : Prop :=
  (forall x, fout o = Some x -> exists z, x = NInt z) /\
  (forall x, verbose o = Some x -> ~ infinite x) /\
  (forall z, algo o <> Some (VInt z) /\ hess o <> Some (VInt z) /\
             wmodel o <> Some (VInt z) /\ degree o <> Some (VInt z)).

(** the ranges promised for validated options *)
Definition in_range (o : opts) : Prop :=
  (exists x, fout o = Some x /\ ~ is_neg x) /\
  (exists x, verbose o = Some x /\ ~ is_neg x /\ ~ above6 x) /\
  (forall get, In get [dxmin; inff_; miter; msimul; tol_grad; tol_feas; tol_bnds] ->
     exists x, get o = Some x /\ (is_pos x \/ is_nan_num x)) /\
  (algo o = Some (VInt 120) \/ algo o = Some (VInt 121)) /\
  (hess o = Some (VInt 130) \/ hess o = Some (VInt 131)) /\
  (exists k, wmodel o = Some (VInt k) /\ (0 <= k <= 3)%Z) /\
  (exists k, degree o = Some (VInt k) /\ (140 <= k <= 142)%Z).

(** the same options with the enumerations left out *)
Definition numeric_part (o : opts) : opts :=
  mkopts (fout o) (verbose o) None (dxmin o) (inff_ o) (miter o) (msimul o)
         (tol_grad o) (tol_feas o) (tol_bnds o) None None None.

(** the rule that a successful validation obeys for the field with the number [k],
    and that field being the same in both objects *)
Definition rule (k : nat) (o o' : opts) : Prop :=
  match k with
  | 0 => kept_or is_neg (NInt 1) (fout o) (fout o')
  | 1 => kept_or (fun x => is_neg x \/ above6 x) (NInt 1) (verbose o) (verbose o')
  | 2 => one_of [("powell"%string, 120%Z); ("wolfe"%string, 121%Z)] 120 (algo o) (algo o')
  | 3 => positive_or (NFlt (Fin (1 # 100000000))) (dxmin o) (dxmin o')
  | 4 => positive_or (NFlt PInf) (inff_ o) (inff_ o')
  | 5 => positive_or (NInt 1000) (miter o) (miter o')
  | 6 => positive_or (NInt 1000) (msimul o) (msimul o')
  | 7 => tolerance (tol_grad o) (tol_grad o')
  | 8 => tolerance (tol_feas o) (tol_feas o')
  | 9 => tolerance (tol_bnds o) (tol_bnds o')
  | 10 => one_of [("bfgs"%string, 130%Z); ("model"%string, 131%Z)] 131 (hess o) (hess o')
  | 11 => one_of [("subbasis"%string, 0%Z); ("frobnorm"%string, 1%Z); ("l2norm"%string, 2%Z);
                  ("regression"%string, 3%Z)] 0 (wmodel o) (wmodel o')
  | 12 => one_of [("linear"%string, 140%Z); ("diagonal"%string, 141%Z); ("quadratic"%string, 142%Z)] 141
            (degree o) (degree o')
  | _ => True
  end%nat.
Definition same (k : nat) (o o' : opts) : Prop :=
  match k with
  | 0 => fout o = fout o' | 1 => verbose o = verbose o' | 2 => algo o = algo o'
  | 3 => dxmin o = dxmin o' | 4 => inff_ o = inff_ o' | 5 => miter o = miter o'
  | 6 => msimul o = msimul o' | 7 => tol_grad o = tol_grad o' | 8 => tol_feas o = tol_feas o'
  | 9 => tol_bnds o = tol_bnds o' | 10 => hess o = hess o' | 11 => wmodel o = wmodel o'
  | 12 => degree o = degree o' | _ => True
  end%nat.
(** the fields before number [k] have been dealt with, the others are untouched *)
Definition reached (k : nat) (o o' : opts) : Prop :=
  (forall i, (i < k)%nat -> rule i o o') /\ (forall i, (k <= i)%nat -> same i o o').

(** a message is wanted, but the place it goes to is not an integer *)
Definition speaking (o : opts) : Prop := exists x, verbose o = Some x /\ ~ is_zero x.
Definition printable (o : opts) : Prop := exists z, fout o = Some (NInt z).
Definition mute (o : opts) : Prop := speaking o /\ ~ printable o.
(** a number instead of a word, or an unknown word that cannot be reported *)
Definition wrong_word (words : list (string * Z)) (old : option enumv) (o' : opts) : Prop :=
  match old with
  | None => False
  | Some (VInt _) => True
  | Some (VStr s) => (forall w z, In (w, z) words -> ~ spells s w) /\ mute o'
  end.
(** dealing with field [k] raises an exception; [o'] are the options at that moment *)
Definition raises_at (k : nat) (o o' : opts) : Prop :=
  match k with
  | 0 => fout o = Some (NFlt NInf)
  | 1 => exists x, verbose o = Some x /\ (is_neg x \/ above6 x) /\ (infinite x \/ ~ printable o')
  | 2 => wrong_word [("powell"%string, 120%Z); ("wolfe"%string, 121%Z)] (algo o) o'
  | 3 => exists x, dxmin o = Some x /\ ~ (is_pos x \/ is_nan_num x) /\ mute o'
  | 10 => wrong_word [("bfgs"%string, 130%Z); ("model"%string, 131%Z)] (hess o) o'
  | 11 => wrong_word [("subbasis"%string, 0%Z); ("frobnorm"%string, 1%Z); ("l2norm"%string, 2%Z);
                      ("regression"%string, 3%Z)] (wmodel o) o'
  | 12 => wrong_word [("linear"%string, 140%Z); ("diagonal"%string, 141%Z); ("quadratic"%string, 142%Z)]
            (degree o) o'
  | _ => False
  end%nat.
