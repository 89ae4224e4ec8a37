(** The messages that bcdfo_solve_TR_MS_bc_ can return: its own, and those of
    bcdfo_solve_TR_MS_ that it passes on. *)
From Coq Require Import List String.
Import ListNotations.
Open Scope string_scope.

Definition may_say (m : string) : Prop :=
  In m ["no free variables"; "error1"; "error2"; "error3"; "error4"; "error7"; "limit in bc-MS exceeded"; "boundary solution";
        "(partly) interior solution"; "interior solution"; "zero gradient"; "bcdfo_solve_TR_MS : trust region is zero - exit !"] \/
  exists rest, m = "interior solution ( " ++ rest \/ m = "boundary solution ( " ++ rest.
