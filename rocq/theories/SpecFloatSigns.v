(** What the property-based tests of the project assert about the cut
    calculators, in terms of the values of doubles. *)
From Coq Require Import Reals List Floats.
From Verif Require Import Arith ModelCalc SpecFloating.
Local Open Scope R_scope.

(** finite and at least zero *)
Definition fin_nonneg (x : float) : Prop := ffinite x /\ 0 <= fval x.

(** every offset handed over is finite and at least zero *)
Definition cut_nonneg (beta : cutchoice FA) : Prop :=
  match beta with
  | CSingle b => fin_nonneg b
  | CList l => forall b, In (Some b) l -> fin_nonneg b
  end.
