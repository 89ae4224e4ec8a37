(** Vocabulary for the evaluation of the user functions (C67). *)
From Coq Require Import List ZArith QArith Bool.
Import ListNotations.
From Verif Require Import QB Book_Model Main_Model Usr_Model.
Local Open Scope Q_scope.

(** the answer is a finite number, with real part [q] *)
Definition finite_part (r : fret) (q : Q) : Prop :=
  r = FVal (Fin q) \/ exists p, r = FComplex (Fin q) (Fin p).

(** the answer is nothing that can be tested for NaN *)
Definition no_number (r : fret) : Prop := r = FOther \/ exists vs, r = FMany vs.

(** what the objective answers at [y], and the list it leaves *)
Definition f_at (U : user) (y : list Q) : fret := fst (u_f U y).
Definition f_left (U : user) (y : list Q) : list Q := snd (u_f U y).

(** what the constraint function answers when it is handed what the objective left; no
    constraint function counts as no values *)
Definition c_at (U : user) (y : list Q) : cret :=
  match u_c U with None => CVal [] | Some g => fst (g (f_left U y)) end.

(** the objective keeps its hands off its argument *)
Definition hands_off (U : user) : Prop := forall y, f_left U y = y.

(** value [v] cut off at 1e25 *)
Definition cut (v : xQ) (w : Q) : Prop :=
  match v with
  | Fin q => (- c1e25 <= q <= c1e25 -> w = q) /\ (c1e25 < q -> w = c1e25) /\ (q < - c1e25 -> w = - c1e25)
  | PInf => w = c1e25
  | NInf => w = - c1e25
  | NaN => False
  end.

(** the answers, when they are numbers or exceptions, as the model of the main loop
    takes them *)
Definition seen (r : fret) (k : cret) (o : outcome) : Prop :=
  match r with
  | FVal v => o_f o = Some v
  | FRaise => o_f o = None
  | _ => False
  end /\
  match k with
  | CVal vs => o_c o = Some vs
  | CRaise => o_c o = None
  | _ => False
  end.
