(** Vocabulary for the power iterations: repeated application of a matrix,
    Rayleigh quotients, the two normalisations and what a run should report. *)
From Coq Require Import Reals ZArith.
From Verif Require Import Spec SpecCG.
Local Open Scope R_scope.

(** [M^k x] *)
Fixpoint pw (n : nat) (M : nat -> nat -> R) (x : nat -> R) (k : nat) : nat -> R :=
  match k with
  | O => x
  | S j => mv n M (pw n M x j)
  end.

Definition norm1 (n : nat) (v : nat -> R) : R := sumn n (fun i => Rabs (v i)).

Definition unit2 (n : nat) (v : nat -> R) : nat -> R := fun i => v i / norm n v.
Definition unit1 (n : nat) (v : nat -> R) : nat -> R := fun i => v i / norm1 n v.

Definition rayleigh (n : nat) (M : nat -> nat -> R) (v : nat -> R) : R := quad n M v / dot n v v.

(** [u] and [v] are within [tol] of each other up to sign *)
Definition close_up_to_sign (n : nat) (tol : R) (u v : nat -> R) : Prop :=
  norm1 n (fun i => u i - v i) <= tol \/ norm1 n (fun i => u i + v i) <= tol.

(** the three stopping tests after the [k]-th round (counted from zero) *)
Definition stop_l2 n M x tol (k : nat) : Prop :=
  close_up_to_sign n tol (unit2 n (pw n M x (S k))) (unit2 n (pw n M x k)).
Definition stop_l1 n M x tol (k : nat) : Prop :=
  close_up_to_sign n tol (unit1 n (pw n M x (S k))) (unit1 n (pw n M x k)).
Definition stop_ray n M x tol (k : nat) : Prop :=
  Rabs (rayleigh n M (pw n M x k) - rayleigh n M (pw n M x (S k))) <= tol.

(** A run from [x] of at most [maxit] rounds that reports [niter] has applied
    the matrix [m] times: it stopped in the first round whose test was met,
    or went through all rounds without meeting it. *)
Definition pow_run (stop : nat -> Prop) (maxit : Z) (m : nat) (niter : Z) : Prop :=
  (exists k, m = S k /\ niter = Z.of_nat k /\ (niter < maxit)%Z /\ stop k /\ forall j, (j < k)%nat -> ~ stop j) \/
  (m = Z.to_nat maxit /\ niter = maxit /\ forall j, (j < m)%nat -> ~ stop j).

(** number of times the matrix has been applied, from what is reported *)
Definition pow_steps (maxit niter : Z) : nat :=
  if Z.ltb niter maxit then S (Z.to_nat niter) else Z.to_nat maxit.

(** [v] is a unit eigenvector for [lam], and [M] shrinks everything
    orthogonal to [v] to at most [mu] times its length *)
Definition dominant (n : nat) (M : nat -> nat -> R) (v : nat -> R) (lam mu : R) : Prop :=
  dot n v v = 1 /\ (forall i, (i < n)%nat -> mv n M v i = lam * v i) /\ 0 <= mu < Rabs lam /\
  forall w, dot n w v = 0 -> dot n (mv n M w) (mv n M w) <= mu * mu * dot n w w.

(** squared tangent of the angle between [x] and the unit vector [v] *)
Definition tan2 (n : nat) (x v : nat -> R) : R := dot n x x / (dot n x v * dot n x v) - 1.

Definition eigenvalue (n : nat) (M : nat -> nat -> R) (lam : R) : Prop :=
  exists v, nonzero n v /\ forall i, (i < n)%nat -> mv n M v i = lam * v i.

(** What a run from [x] should report: [y] is the normalised [m]-th power of
    the matrix applied to [x], and [ld] its Rayleigh quotient. *)
Definition pow_reports (n : nat) (M : nat -> nat -> R) (x : nat -> R) (stop : nat -> Prop) (maxit : Z)
    (y : list R) (ld : R) (niter : Z) : Prop :=
  exists m, pow_run stop maxit m niter /\ (forall j, (j <= m)%nat -> nonzero n (pw n M x j)) /\
    vec_wf n y /\ (forall i, (i < n)%nat -> fv y i = unit2 n (pw n M x m) i) /\ ld = rayleigh n M (pw n M x m).

(** some power reachable within the limit maps [x] to zero, before any test
    is met *)
Definition pow_vanishes (n : nat) (M : nat -> nat -> R) (x : nat -> R) (stop : nat -> Prop) (maxit : Z) : Prop :=
  exists j, (j <= Z.to_nat maxit)%nat /\ (forall i, (i < n)%nat -> pw n M x j i = 0) /\
    (forall i, (i < j)%nat -> nonzero n (pw n M x i)) /\ forall i, (S i < j)%nat -> ~ stop i.

(** The quality promised by the rate of convergence for a reported [y], [ld]
    after [m] applications of the matrix *)
Definition pow_accuracy (n : nat) (x v : nat -> R) (lam mu : R) (m : nat) (y : nat -> R) (ld : R) : Prop :=
  1 - dot n y v * dot n y v <= (mu / Rabs lam) ^ (2 * m) * tan2 n x v /\
  Rabs (ld - lam) <= (mu + Rabs lam) * ((mu / Rabs lam) ^ (2 * m) * tan2 n x v).

(** length of [M u - ld u] *)
Definition residual (n : nat) (M : nat -> nat -> R) (u : nat -> R) (ld : R) : R :=
  norm n (fun i => mv n M u i - ld * u i).
