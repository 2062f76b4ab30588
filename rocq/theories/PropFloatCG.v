(** C57 in doubles. *)
From Coq Require Import Reals ZArith Floats List.
From Verif Require Import Arith Vec ModelCG Spec SpecFloating PFloatCG.
Import ListNotations.
Local Open Scope R_scope.

(** The guarantee of C57 on the residual does not hold in doubles: the loop tests a residual computed by
    recurrence.  With the matrix of the unit test, a right-hand side of size 10^17 and the default tolerance the
    returned point has the exact residual (8, 14). *)
Theorem C57_double_residual_refuted :
  exists (M : mat FA) (b x : vec FA) (tol : num FA) (it : Z),
  symmetric 2 (ffm M) /\ posdef 2 (ffm M) /\
  conjugate_gradient (A:=FA) M b None tol it = Ok x /\ fval tol < 1 / 1000 /\
  ffv b 0%nat - mv 2 (ffm M) (ffv x) 0%nat = 8 /\ ffv b 1%nat - mv 2 (ffm M) (ffv x) 1%nat = 14.
Proof. exact cg_double. Qed.
Print Assumptions C57_double_residual_refuted.
