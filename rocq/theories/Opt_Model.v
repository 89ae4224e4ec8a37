(** Model of the validation of the user options, sqpdfo_options_.

    An option value is a Python int or float, or (for the four enumerations) a
    string; other types are not represented.  An attribute counts as given when it is in
    the __dict__ of the object (isfield_, /repo/sqpdfo/runtime.py:424-428), so a
    record with optional fields is used.  Strings are ASCII.  Messages are not
    represented, but the two ways in which producing a message raises an exception
    are: formatting an infinity with %0i, and printing to an [fout] that is a
    float (/repo/sqpdfo/runtime.py:358-372). *)
From Coq Require Import List ZArith QArith Bool String Ascii.
Import ListNotations.
From Verif Require Import QB Main_Model.
Local Open Scope Q_scope.

(** a Python number *)
Inductive num := NInt (z : Z) | NFlt (x : xQ).

Definition val (n : num) : xQ := match n with NInt z => Fin (inject_Z z) | NFlt x => x end.

(** Python comparisons [a < b], [a <= b], [a == b] of floats; all false on NaN *)
Definition xlt (a b : xQ) : bool :=
  match a, b with
  | NaN, _ | _, NaN => false
  | Fin p, Fin q => qltb p q
  | NInf, NInf => false | NInf, _ => true
  | PInf, _ => false
  | Fin _, PInf => true | Fin _, NInf => false
  end.
Definition xle (a b : xQ) : bool :=
  match a, b with
  | NaN, _ | _, NaN => false
  | Fin p, Fin q => qleb p q
  | NInf, _ => true
  | _, PInf => true
  | PInf, _ => false
  | Fin _, NInf => false
  end.
Definition xeq (a b : xQ) : bool :=
  match a, b with
  | Fin p, Fin q => qeqb p q
  | PInf, PInf => true | NInf, NInf => true
  | _, _ => false
  end.

(** value of an enumeration: the user's string, or the integer constant that the
    validation puts there (/repo/sqpdfo/sqpdfo_values.py) *)
Inductive enumv := VStr (s : string) | VInt (z : Z).

Record opts := mkopts {
  fout : option num; verbose : option num; algo : option enumv;
  dxmin : option num; inff_ : option num; miter : option num; msimul : option num;
  tol_grad : option num; tol_feas : option num; tol_bnds : option num;
  hess : option enumv; wmodel : option enumv; degree : option enumv }.

(** end of the validation: flag 0, flag 1 (fail_on_argument) or an exception *)
Inductive vres := VDone (o : opts) | VFail (o : opts) | VRaise.

Definition vbind (r : vres) (k : opts -> vres) : vres :=
  match r with VDone o => k o | _ => r end.

(** str.lower on ASCII letters, and .replace(" ", "") *)
Definition lower_c (c : ascii) : ascii :=
  let n := nat_of_ascii c in
  if andb (Nat.leb 65 n) (Nat.leb n 90) then ascii_of_nat (n + 32) else c.
Fixpoint lower_s (s : string) : string :=
  match s with EmptyString => EmptyString | String c r => String (lower_c c) (lower_s r) end.
Fixpoint no_blank (s : string) : string :=
  match s with
  | EmptyString => EmptyString
  | String c r => if Ascii.eqb c " "%char then no_blank r else String c (no_blank r)
  end.
Definition word (s : string) : string := no_blank (lower_s s).

(** '%0i' % x fails on infinities (NaN does not reach such a message) *)
Definition fmt_i_ok (x : num) : bool :=
  match val x with PInf | NInf => false | _ => true end.

(** fprintf_ to an integer identifier works, to a float it raises *)
Definition can_print (o : opts) : bool :=
  match fout o with Some (NInt _) => true | _ => false end.

(** [if options.verbose:], a NaN counts as true *)
Definition talks (o : opts) : bool :=
  match verbose o with Some v => negb (xeq (val v) (Fin 0)) | None => false end.

(** failure with a message printed to options.fout *)
Definition fail_fout (o : opts) : vres :=
  if talks o then (if can_print o then VFail o else VRaise) else VFail o.

Definition zero : xQ := Fin 0.

(** /repo/sqpdfo/sqpdfo_options.py:32-38 *)
Definition v_fout (o : opts) : vres :=
  let put x := VDone (mkopts (Some x) (verbose o) (algo o) (dxmin o) (inff_ o) (miter o) (msimul o)
                 (tol_grad o) (tol_feas o) (tol_bnds o) (hess o) (wmodel o) (degree o)) in
  match fout o with
  | Some x => if xlt (val x) zero
              then (if fmt_i_ok x then put (NInt 1) else VRaise)
              else put x
  | None => put (NInt 1)
  end.

(** /repo/sqpdfo/sqpdfo_options.py:40-46; the message is printed in any case *)
Definition v_verbose (o : opts) : vres :=
  let put x := VDone (mkopts (fout o) (Some x) (algo o) (dxmin o) (inff_ o) (miter o) (msimul o)
                 (tol_grad o) (tol_feas o) (tol_bnds o) (hess o) (wmodel o) (degree o)) in
  match verbose o with
  | Some x => if orb (xlt (val x) zero) (xlt (Fin 6) (val x))
              then (if andb (fmt_i_ok x) (can_print o) then put (NInt 1) else VRaise)
              else put x
  | None => put (NInt 1)
  end.

(** an enumeration: a value that is not a string has no method lower; an unknown
    word fails; [None] when the field is to be defaulted *)
Definition lookup (tab : list (string * Z)) (s : string) : option Z :=
  match find (fun e => String.eqb (fst e) (word s)) tab with Some e => Some (snd e) | None => None end.

Definition v_enum (tab : list (string * Z)) (dflt : Z) (get : opts -> option enumv)
    (put : opts -> enumv -> opts) (o : opts) : vres :=
  match get o with
  | None => VDone (put o (VInt dflt))
  | Some (VInt _) => VRaise
  | Some (VStr s) =>
      match lookup tab s with
      | Some z => VDone (put o (VInt z))
      | None => fail_fout o
      end
  end.

(** tables of /repo/sqpdfo/sqpdfo_values.py as used in
    /repo/sqpdfo/sqpdfo_options.py:48-61, 132-145, 147-164, 166-181 *)
Definition tab_algo : list (string * Z) := [("powell"%string, 120%Z); ("wolfe"%string, 121%Z)].
Definition tab_hess : list (string * Z) := [("bfgs"%string, 130%Z); ("model"%string, 131%Z)].
Definition tab_model : list (string * Z) :=
  [("subbasis"%string, 0%Z); ("frobnorm"%string, 1%Z); ("l2norm"%string, 2%Z); ("regression"%string, 3%Z)].
Definition tab_degree : list (string * Z) :=
  [("linear"%string, 140%Z); ("diagonal"%string, 141%Z); ("quadratic"%string, 142%Z)].

(** /repo/sqpdfo/sqpdfo_options.py:48-61 *)
Definition v_algo := v_enum tab_algo 120 algo
  (fun o v => mkopts (fout o) (verbose o) (Some v) (dxmin o) (inff_ o) (miter o) (msimul o)
                 (tol_grad o) (tol_feas o) (tol_bnds o) (hess o) (wmodel o) (degree o)).

(** /repo/sqpdfo/sqpdfo_options.py:63-70; the message goes to options.fout *)
Definition v_dxmin (o : opts) : vres :=
  let put x := VDone (mkopts (fout o) (verbose o) (algo o) (Some x) (inff_ o) (miter o) (msimul o)
                 (tol_grad o) (tol_feas o) (tol_bnds o) (hess o) (wmodel o) (degree o)) in
  match dxmin o with
  | Some x => if xle (val x) zero then fail_fout o else put x
  | None => put (NFlt (Fin (1 # 100000000)))
  end.

(** /repo/sqpdfo/sqpdfo_options.py:72-79 (message without file identifier) *)
Definition v_inf (o : opts) : vres :=
  let put x := VDone (mkopts (fout o) (verbose o) (algo o) (dxmin o) (Some x) (miter o) (msimul o)
                 (tol_grad o) (tol_feas o) (tol_bnds o) (hess o) (wmodel o) (degree o)) in
  match inff_ o with
  | Some x => if xle (val x) zero then VFail o else put x
  | None => put (NFlt PInf)
  end.

(** /repo/sqpdfo/sqpdfo_options.py:81-88 *)
Definition v_miter (o : opts) : vres :=
  let put x := VDone (mkopts (fout o) (verbose o) (algo o) (dxmin o) (inff_ o) (Some x) (msimul o)
                 (tol_grad o) (tol_feas o) (tol_bnds o) (hess o) (wmodel o) (degree o)) in
  match miter o with
  | Some x => if xle (val x) zero then VFail o else put x
  | None => put (NInt 1000)
  end.

(** /repo/sqpdfo/sqpdfo_options.py:90-97 *)
Definition v_msimul (o : opts) : vres :=
  let put x := VDone (mkopts (fout o) (verbose o) (algo o) (dxmin o) (inff_ o) (miter o) (Some x)
                 (tol_grad o) (tol_feas o) (tol_bnds o) (hess o) (wmodel o) (degree o)) in
  match msimul o with
  | Some x => if xle (val x) zero then VFail o else put x
  | None => put (NInt 1000)
  end.

Definition dtol : num := NFlt (Fin (1 # 100000)).

(** one of the three tolerances, /repo/sqpdfo/sqpdfo_options.py:99-130 *)
Definition v_tol (get : opts -> option num) (put : opts -> num -> opts) (o : opts) : vres :=
  match get o with
  | Some x => if xlt (val x) zero then VFail o
              else if xeq (val x) zero then VDone (put o dtol) else VDone (put o x)
  | None => VDone (put o dtol)
  end.
Definition v_tolg := v_tol tol_grad
  (fun o v => mkopts (fout o) (verbose o) (algo o) (dxmin o) (inff_ o) (miter o) (msimul o)
                 (Some v) (tol_feas o) (tol_bnds o) (hess o) (wmodel o) (degree o)).
Definition v_tolf := v_tol tol_feas
  (fun o v => mkopts (fout o) (verbose o) (algo o) (dxmin o) (inff_ o) (miter o) (msimul o)
                 (tol_grad o) (Some v) (tol_bnds o) (hess o) (wmodel o) (degree o)).
Definition v_tolb := v_tol tol_bnds
  (fun o v => mkopts (fout o) (verbose o) (algo o) (dxmin o) (inff_ o) (miter o) (msimul o)
                 (tol_grad o) (tol_feas o) (Some v) (hess o) (wmodel o) (degree o)).

(** /repo/sqpdfo/sqpdfo_options.py:132-145 *)
Definition v_hess := v_enum tab_hess 131 hess
  (fun o v => mkopts (fout o) (verbose o) (algo o) (dxmin o) (inff_ o) (miter o) (msimul o)
                 (tol_grad o) (tol_feas o) (tol_bnds o) (Some v) (wmodel o) (degree o)).
(** /repo/sqpdfo/sqpdfo_options.py:147-164 *)
Definition v_wmodel := v_enum tab_model 0 wmodel
  (fun o v => mkopts (fout o) (verbose o) (algo o) (dxmin o) (inff_ o) (miter o) (msimul o)
                 (tol_grad o) (tol_feas o) (tol_bnds o) (hess o) (Some v) (degree o)).
(** /repo/sqpdfo/sqpdfo_options.py:166-181 *)
Definition v_degree := v_enum tab_degree 141 degree
  (fun o v => mkopts (fout o) (verbose o) (algo o) (dxmin o) (inff_ o) (miter o) (msimul o)
                 (tol_grad o) (tol_feas o) (tol_bnds o) (hess o) (wmodel o) (Some v)).

(** the whole routine, in the order of the source
    (/repo/sqpdfo/sqpdfo_options.py:28-183) *)
Definition steps : list (opts -> vres) :=
  [v_fout; v_verbose; v_algo; v_dxmin; v_inf; v_miter; v_msimul; v_tolg; v_tolf; v_tolb;
   v_hess; v_wmodel; v_degree].
Definition validate (o : opts) : vres := fold_left vbind steps (VDone o).

(** ** Where the assignments land

    A heap of option objects.  [copy] of an instance gives a new object with the
    same attributes; [copy] of a class object gives the class object itself
    (Python's copy module).  The options are copied in
    /repo/sqpdfo/sqpdfo.py:128, /repo/sqpdfo/sqpdfo_prelim.py:63 and
    /repo/sqpdfo/sqpdfo_options.py:20; when none are given a new, empty class is
    used (/repo/sqpdfo/sqpdfo.py:123-126). *)
Inductive objkind := Instance | ClassObj.
Record heap := mkheap { hnext : nat; hcell : nat -> objkind * opts }.

Definition hset (h : heap) (r : nat) (v : objkind * opts) : heap :=
  mkheap (hnext h) (fun i => if Nat.eqb i r then v else hcell h i).

Definition hcopy (h : heap) (r : nat) : heap * nat :=
  match fst (hcell h r) with
  | Instance => let h' := mkheap (S (hnext h)) (hcell h) in
                (hset h' (hnext h) (hcell h r), hnext h)
  | ClassObj => (h, r)
  end.

(** the validation as a computation on the heap: assignments made before a failure
    stay; on an exception they stay, too, but the exact intermediate object is not
    represented (the cell is left as it was) *)
Definition validate_at (h : heap) (r : nat) : heap * vres :=
  let v := validate (snd (hcell h r)) in
  match v with
  | VDone o | VFail o => (hset h r (fst (hcell h r), o), v)
  | VRaise => (h, v)
  end.

(** all three copies, then the validation *)
Definition run_options (h : heap) (r : nat) : heap * vres :=
  let (h1, r1) := hcopy h r in
  let (h2, r2) := hcopy h1 r1 in
  let (h3, r3) := hcopy h2 r2 in
  validate_at h3 r3.
