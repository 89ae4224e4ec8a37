(** Sample options used in the examples of Opt_Props.v. *)
From Coq Require Import List ZArith QArith Bool String.
Import ListNotations.
From Verif Require Import Main_Model Opt_Model.
Local Open Scope Q_scope.

Definition no_opts : opts :=
  mkopts None None None None None None None None None None None None None.
Definition some_opts : opts :=
  mkopts (Some (NInt (-3))) (Some (NInt 9)) (Some (VStr " Wol FE"%string)) None None (Some (NInt 500)) None
    (Some (NInt 0)) (Some (NFlt (Fin (1 # 10)))) (Some (NFlt NaN)) (Some (VStr "BFGS"%string)) None
    (Some (VStr "Quadratic"%string)).

Definition one_obj (k : objkind) : heap := mkheap 1 (fun _ => (k, no_opts)).
