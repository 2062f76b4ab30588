(** The conjugate gradient recurrences as documented
    (conjugate_gradient.py:28-41), on functions. *)
From Coq Require Import Reals ZArith.
From Verif Require Import Spec.
Local Open Scope R_scope.

Definition norm (n : nat) (v : nat -> R) : R := sqrt (dot n v v).

Record cg_state : Type := { cg_x : nat -> R; cg_r : nat -> R; cg_p : nat -> R }.

(** iterate, residual and direction after [k] steps from [x0] *)
Fixpoint cg (n : nat) (M : nat -> nat -> R) (b x0 : nat -> R) (k : nat) : cg_state :=
  match k with
  | O => let r := fun i => b i - mv n M x0 i in {| cg_x := x0; cg_r := r; cg_p := r |}
  | S k' =>
      let s := cg n M b x0 k' in
      let alpha := dot n (cg_r s) (cg_r s) / quad n M (cg_p s) in
      let x := fun i => cg_x s i + alpha * cg_p s i in
      let r := fun i => cg_r s i - alpha * mv n M (cg_p s) i in
      let beta := dot n r r / dot n (cg_r s) (cg_r s) in
      {| cg_x := x; cg_r := r; cg_p := fun i => r i + beta * cg_p s i |}
  end.

(** [x] agrees with the [k]-th iterate, no earlier iterate (after the start)
    met the tolerance and no direction up to then had curvature zero *)
Definition cg_first (n : nat) (M : nat -> nat -> R) (b x0 : nat -> R) (tol : R) (k : nat) : Prop :=
  (forall j, (1 <= j < k)%nat -> tol <= norm n (cg_r (cg n M b x0 j))) /\
  (forall j, (j < k)%nat -> quad n M (cg_p (cg n M b x0 j)) <> 0).

(** the start of the iteration: the given vector, or zero *)
Definition cg_start (x0 : option (list R)) : nat -> R :=
  match x0 with None => fun _ => 0 | Some x => fv x end.

Definition cg_shape (n : nat) (M : list (list R)) (b : list R) (x0 : option (list R)) : Prop :=
  mat_wf n M /\ vec_wf n b /\ match x0 with None => True | Some x => vec_wf n x end.
