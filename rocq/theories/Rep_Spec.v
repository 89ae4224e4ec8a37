(** Vocabulary for the final report (C78). *)
From Coq Require Import List Arith ZArith QArith Bool String.
Import ListNotations.
From Verif Require Import QB Main_Model Opt_Model Rep_Model.
Local Open Scope Q_scope.

(** verbosity at least [v], more than [v] *)
Definition loud (o : opts) (v : Q) : Prop :=
  exists u, verbose o = Some u /\ (val u = PInf \/ exists q, val u = Fin q /\ v <= q).
Definition louder (o : opts) (v : Q) : Prop :=
  exists u, verbose o = Some u /\ (val u = PInf \/ exists q, val u = Fin q /\ v < q).

(** the report has a NaN as a norm *)
Definition shows_nan (es : list entry) : Prop :=
  In (ELag NaN) es \/ In (EFeas NaN) es \/ In (EGrad NaN) es.

(** options.fout as given: missing, 1, or a negative number *)
Definition to_screen (f : option num) : Prop :=
  match f with
  | None => True
  | Some (NInt z) => z = 1%Z \/ (z < 0)%Z
  | Some (NFlt (Fin q)) => q < 0
  | Some (NFlt _) => False
  end.
(** a floating-point number that is not negative, or NaN *)
Definition unusable (f : option num) : Prop :=
  match f with
  | Some (NFlt (Fin q)) => 0 <= q
  | Some (NFlt PInf) | Some (NFlt NaN) => True
  | _ => False
  end.

(** the user functions always answer [m] constraint values *)
Definition fixed_number (user : nat -> list Q -> outcome) (m : nat) : Prop :=
  forall k y c, o_c (user k y) = Some c -> List.length c = m.
