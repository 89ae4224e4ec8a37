(** The message of the restoration solver and how it is read.

    The texts are those assigned in /repo/sqpdfo/bcdfo_solve_TR_MS_bc.py.  For the ends that
    keep the last message of bcdfo_solve_TR_MS_ (/repo/sqpdfo/bcdfo_solve_TR_MS.py:233-235,
    330-334, with the numbers of factorisations and the multiplier behind it) one of these
    messages stands for all; Lib_Spec.may_say lists them. *)
From Coq Require Import List Bool String.
From Verif Require Import BC_Model TR_Model.
Import ListNotations.
Open Scope string_scope.

(** the comparisons of /repo/sqpdfo/sqpdfo_solve_TR_bc.py:242-247 *)
Definition classify (m : string) : rmsg :=
  if ((m =? "error") || (m =? "limit"))%bool then MsgError
  else if m =? "boundary" then MsgBoundary else MsgOther.

(** /repo/sqpdfo/bcdfo_solve_TR_MS_bc.py:77, 165, 351, 411, 423, 440, 448, 465, 473 *)
Definition bc_text (t : bc_tag) : string :=
  match t with
  | BcNoFree => "no free variables"
  | BcAllFixed => "interior solution"
  | BcLimit => "limit in bc-MS exceeded"
  | BcInterior => "(partly) interior solution"
  | BcError7 => "error7"
  | BcRadiusUsed => "boundary solution"
  | BcCritical => "boundary solution"
  end.
