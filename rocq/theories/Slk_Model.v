(** Model of the adjustment of the slacks after an accepted step, sqpdfo_main.py 982-991 (the same
    statements are at 1242-1250 and 1365-1373).  Exact reals.  [ce] holds the [me] constraint
    values of the new point, [slp] the [nsl] slacks of the step.  The slacks are changed in place
    and then stored as the current ones (989-991). *)
From Coq Require Import Reals Arith Bool.
From Verif Require Import RVec RBool.
Open Scope R_scope.

Definition adjust (nsl me : nat) (ce slp : vec) : vec := fun i =>
  let v := ce (me - nsl + i)%nat in
  if (Reqb (slp i) 0 && Rltb (1 / 100) v)%bool then sqrt v else slp i.
