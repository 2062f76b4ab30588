(** What the properties about [LDLTMgr.factor] in doubles say. *)
From Coq Require Import Reals List Arith Bool.
From Verif Require Import Arith Vec ModelLdlt ModelLmi Spec SpecLdlt SpecFloating.
Local Open Scope R_scope.

(** the real matrix of which [get_elem] gives the lower half *)
Definition matrix_of (n : nat) (get_elem : nat -> nat -> num FA) (A : nat -> nat -> R) : Prop :=
  symmetric n A /\ forall i j, (j <= i < n)%nat -> A i j = fval (get_elem i j).

(** the pivots of the rows visited by the factorisation *)
Definition pivots_finite (n : nat) (s : ldlt FA) : Prop :=
  forall k, (k < rows n s)%nat -> ffinite (mget (storage s) k k).

(** size of the accumulated rounding errors: relative to the diagonal, and
    absolute (underflow) *)
Definition ldlt_rel (n : nat) : R := 2 * INR n * (INR n + 1) * u53.
Definition ldlt_abs (n : nat) (A : nat -> nat -> R) : R :=
  8 * INR n * (INR n + 1) * tiny * (1 + sumn n (fun i => Rabs (A i i))).

(** [tol n A v]: the margin in direction [v] *)
Definition ldlt_tol (n : nat) (A : nat -> nat -> R) (v : nat -> R) : R :=
  ldlt_rel n * sumn n (fun i => A i i * (v i * v i)) + ldlt_abs n A * dot n v v.

(** ** The LMI oracle
    The matrix [B - sum_k x_k F_k] of the real numbers that the doubles denote *)
Definition flmi_at (f : list (mat FA)) (b : mat FA) (x : vec FA) : nat -> nat -> R :=
  fun i j => ffm b i j - sumn (length f) (fun k => ffm (nth k f nil) i j * ffv x k).

Definition fsym_mat (m : nat) (a : mat FA) : Prop := square_mat m a /\ symmetric m (ffm a).
Definition flmi_wf (m : nat) (o : lmi FA) : Prop :=
  fsym_mat m (mat_f0 o) /\ Forall (fsym_mat m) (mat_f o) /\ shape m (ldlt_mgr o).

(** [S] bounds the size of the terms of every entry *)
Definition flmi_size (m : nat) (f : list (mat FA)) (b : mat FA) (x : vec FA) (S : R) : Prop :=
  forall i j, (i < m)%nat -> (j < m)%nat ->
    Rabs (ffm b i j) + sumn (length f) (fun k => Rabs (ffm (nth k f nil) i j) * Rabs (ffv x k)) <= S.

(** accumulated rounding error for [m * m] matrices and [n] variables *)
Definition flmi_margin (m n : nat) (S : R) : R :=
  4 * INR m * (INR m + INR n + 2) * u53 * S + 20 * INR m * (INR m + 1) * (INR m + INR n + 1) * tiny * (1 + S).
