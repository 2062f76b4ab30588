(** Properties C83-C87: the power iterations of experiment/power_iteration.py. *)
From Coq Require Import Reals List Arith ZArith Lra Lia.
From Verif Require Import Arith Vec ModelPower Spec SpecCG SpecPower.
From Verif Require Import PPower PPower2 PPower3 PPower4 PPowerEx.
Import ListNotations.
Local Open Scope R_scope.

(** C83: what is returned.  Each variant returns the normalised power
    [M^m x] and its Rayleigh quotient, for the first [m] whose test is met
    (or the limit), unless some power vanishes before that. *)
Theorem C83_power_iteration : forall n (M : mat RA) (x : vec RA) maxit tol, mat_wf n M -> vec_wf n x ->
  match power_iteration M x maxit tol with
  | Ok r => pow_reports n (fm M) (fv x) (stop_l2 n (fm M) (fv x) tol) maxit (p_vec r) (p_ld r) (p_niter r)
  | Err e => e = ZeroDivision /\ pow_vanishes n (fm M) (fv x) (stop_l2 n (fm M) (fv x) tol) maxit
  end.
Proof. exact pow1_reported. Qed.
Print Assumptions C83_power_iteration.

Theorem C83_power_iteration4 : forall n (M : mat RA) (x : vec RA) maxit tol, mat_wf n M -> vec_wf n x ->
  match power_iteration4 M x maxit tol with
  | Ok r => pow_reports n (fm M) (fv x) (stop_l1 n (fm M) (fv x) tol) maxit (p_vec r) (p_ld r) (p_niter r)
  | Err e => e = ZeroDivision /\ pow_vanishes n (fm M) (fv x) (stop_l1 n (fm M) (fv x) tol) maxit
  end.
Proof. exact pow4_reported. Qed.
Print Assumptions C83_power_iteration4.

Theorem C83_power_iteration2 : forall n (M : mat RA) (x : vec RA) maxit tol, mat_wf n M -> vec_wf n x ->
  match power_iteration2 M x maxit tol with
  | Ok r => pow_reports n (fm M) (fv x) (stop_ray n (fm M) (fv x) tol) maxit (p_vec r) (p_ld r) (p_niter r)
  | Err e => e = ZeroDivision /\ pow_vanishes n (fm M) (fv x) (stop_ray n (fm M) (fv x) tol) maxit
  end.
Proof. exact pow2_reported. Qed.
Print Assumptions C83_power_iteration2.

(** In exact arithmetic the variant that postpones normalisation is the same
    function, whatever the threshold. *)
Theorem C83_power_iteration3 : forall n (M : mat RA) (x : vec RA) maxit tol, mat_wf n M -> vec_wf n x ->
  forall big, power_iteration3 big M x maxit tol = power_iteration2 M x maxit tol.
Proof. exact pow23_same. Qed.
Print Assumptions C83_power_iteration3.

(** The caller's array is overwritten: with the normalised start by the first
    and fourth variant, with the result by the others. *)
Theorem C83_argument1 : forall n (M : mat RA) (x : vec RA) maxit tol, mat_wf n M -> vec_wf n x ->
  forall r, power_iteration M x maxit tol = Ok r ->
  vec_wf n (p_arg r) /\ forall i, (i < n)%nat -> fv (p_arg r) i = unit2 n (fv x) i.
Proof. exact pow1_arg. Qed.
Print Assumptions C83_argument1.

Theorem C83_argument4 : forall n (M : mat RA) (x : vec RA) maxit tol, mat_wf n M -> vec_wf n x ->
  forall r, power_iteration4 M x maxit tol = Ok r ->
  ((0 < maxit)%Z -> vec_wf n (p_arg r) /\ forall i, (i < n)%nat -> fv (p_arg r) i = unit1 n (fv x) i) /\
  ((maxit <= 0)%Z -> p_arg r = p_vec r).
Proof. exact pow4_arg. Qed.
Print Assumptions C83_argument4.

Theorem C83_argument2 : forall n (M : mat RA) (x : vec RA) maxit tol, mat_wf n M -> vec_wf n x ->
  forall r, power_iteration2 M x maxit tol = Ok r -> p_arg r = p_vec r.
Proof. exact pow2_arg. Qed.
Print Assumptions C83_argument2.

Example C83_case_error : forall tol : R, tol < 0 -> power_iteration (A:=RA) nil2 e2 3 tol = Err ZeroDivision.
Proof. exact nil2_case. Qed.

(** A matrix that is not n by n is refused with ValueError by every variant. *)
Theorem C83_misfit : forall n (M : mat RA) (x : vec RA), vec_wf n x -> ~ mat_wf n M ->
  forall maxit (tol big : R), power_iteration M x maxit tol = Err ValueError /\ power_iteration2 M x maxit tol = Err ValueError /\
    power_iteration3 (A:=RA) big M x maxit tol = Err ValueError /\ power_iteration4 M x maxit tol = Err ValueError.
Proof. exact pow_misfit. Qed.
Print Assumptions C83_misfit.

Example C83_misfit_case : vec_wf 2 (e1 : list R) /\ ~ mat_wf 2 ([[1; 0]; [0]] : list (list R)).
Proof. split; [reflexivity|]. intros (_ & H). specialize (H 1%nat ltac:(lia)). discriminate H. Qed.

(** C84: stopping by the test on the vectors gives an approximate eigenpair. *)
Theorem C84_residual : forall n (M : mat RA) (x : vec RA) maxit tol, mat_wf n M -> vec_wf n x ->
  forall a r, (forall i j, (i < n)%nat -> (j < n)%nat -> Rabs (fm M i j) <= a) ->
  power_iteration M x maxit tol = Ok r -> (p_niter r < maxit)%Z ->
  residual n (fm M) (fv (p_vec r)) (p_ld r) <= sqrt (INR n) * (a * tol).
Proof. exact pow1_residual. Qed.
Print Assumptions C84_residual.

Theorem C84_residual4 : forall n (M : mat RA) (x : vec RA) maxit tol, mat_wf n M -> vec_wf n x ->
  forall a r, (forall i j, (i < n)%nat -> (j < n)%nat -> Rabs (fm M i j) <= a) ->
  power_iteration4 M x maxit tol = Ok r -> (p_niter r < maxit)%Z ->
  residual n (fm M) (fv (p_vec r)) (p_ld r) <= INR n * (a * tol).
Proof. exact pow4_residual. Qed.
Print Assumptions C84_residual4.

(** The test on the values does not: whatever the tolerance, the other two
    variants report a value that is no eigenvalue after one round. *)
Theorem C84_value_test_refuted : exists (M : mat RA) (x : vec RA), mat_wf 2 M /\ vec_wf 2 x /\ symmetric 2 (fm M) /\ nonzero 2 (fv x) /\
  forall maxit (tol big : R), (0 < maxit)%Z -> 0 <= tol ->
  exists r, power_iteration2 M x maxit tol = Ok r /\ power_iteration3 (A:=RA) big M x maxit tol = Ok r /\
    p_niter r = 0%Z /\ ~ eigenvalue 2 (fm M) (p_ld r) /\ residual 2 (fm M) (fv (p_vec r)) (p_ld r) = 1.
Proof. exact swap_refuted. Qed.
Print Assumptions C84_value_test_refuted.

(** C85: for a symmetric matrix with a dominant eigenvalue and a start not
    orthogonal to its eigenvector, every variant returns, its vector and
    value approach the eigenpair geometrically, and the test is met after a
    number of rounds known in advance. *)
Theorem C85_rate : forall n (M : mat RA) (x : vec RA) maxit tol, mat_wf n M -> vec_wf n x ->
  forall v lam mu, symmetric n (fm M) -> dominant n (fm M) v lam mu -> dot n (fv x) v <> 0 ->
  exists r, power_iteration M x maxit tol = Ok r /\
    pow_accuracy n (fv x) v lam mu (pow_steps maxit (p_niter r)) (fv (p_vec r)) (p_ld r) /\
    forall k, 2 * sqrt (INR n) * sqrt (tan2 n (fv x) v) * (mu / Rabs lam) ^ k <= tol -> (p_niter r <= Z.of_nat k)%Z.
Proof. exact pow1_rate. Qed.
Print Assumptions C85_rate.

Theorem C85_rate4 : forall n (M : mat RA) (x : vec RA) maxit tol, mat_wf n M -> vec_wf n x ->
  forall v lam mu, symmetric n (fm M) -> dominant n (fm M) v lam mu -> dot n (fv x) v <> 0 ->
  exists r, power_iteration4 M x maxit tol = Ok r /\
    pow_accuracy n (fv x) v lam mu (pow_steps maxit (p_niter r)) (fv (p_vec r)) (p_ld r) /\
    forall k, 4 * sqrt (INR n) * sqrt (tan2 n (fv x) v) * (mu / Rabs lam) ^ k <= tol -> (p_niter r <= Z.of_nat k)%Z.
Proof. exact pow4_rate. Qed.
Print Assumptions C85_rate4.

Theorem C85_rate2 : forall n (M : mat RA) (x : vec RA) maxit tol, mat_wf n M -> vec_wf n x ->
  forall v lam mu, symmetric n (fm M) -> dominant n (fm M) v lam mu -> dot n (fv x) v <> 0 ->
  exists r, power_iteration2 M x maxit tol = Ok r /\
    pow_accuracy n (fv x) v lam mu (pow_steps maxit (p_niter r)) (fv (p_vec r)) (p_ld r) /\
    forall k, 2 * (mu + Rabs lam) * tan2 n (fv x) v * (mu / Rabs lam) ^ (2 * k) <= tol -> (p_niter r <= Z.of_nat k)%Z.
Proof. exact pow2_rate. Qed.
Print Assumptions C85_rate2.

Theorem C85_rate3 : forall n (M : mat RA) (x : vec RA) maxit tol, mat_wf n M -> vec_wf n x ->
  forall v lam mu, symmetric n (fm M) -> dominant n (fm M) v lam mu -> dot n (fv x) v <> 0 ->
  forall big, exists r, power_iteration3 big M x maxit tol = Ok r /\
    pow_accuracy n (fv x) v lam mu (pow_steps maxit (p_niter r)) (fv (p_vec r)) (p_ld r) /\
    forall k, 2 * (mu + Rabs lam) * tan2 n (fv x) v * (mu / Rabs lam) ^ (2 * k) <= tol -> (p_niter r <= Z.of_nat k)%Z.
Proof. exact pow3_rate. Qed.
Print Assumptions C85_rate3.

Example C85_hypotheses : dominant 2 (fm k25) v34 50 25 /\ dot 2 (fv e1) v34 = 3/5 /\ tan2 2 (fv e1) v34 = 16/9.
Proof. exact (conj k25_dom (conj k25_start k25_tan)). Qed.

Example C83_C86_case : exists r, power_iteration (A:=RA) k25 e1 100 (1/20) = Ok r /\ (p_niter r <= 7)%Z /\
  pow_accuracy 2 (fv e1) v34 50 25 (pow_steps 100 (p_niter r)) (fv (p_vec r)) (p_ld r) /\
  residual 2 (fm k25) (fv (p_vec r)) (p_ld r) <= sqrt 2 * (41 * (1/20)) /\ 34 <= p_ld r <= 50.
Proof. exact k25_case. Qed.

(** C86: for a positive semidefinite matrix the reported value lies between
    the Rayleigh quotient of the start and every upper bound on the form, and
    never gets smaller with a tighter tolerance or more rounds. *)
Theorem C86_between : forall n (M : mat RA) (x : vec RA) maxit (tol : R) L (r : pow_result (A:=RA)),
  mat_wf n M -> vec_wf n x -> symmetric n (fm M) -> possemidef n (fm M) ->
  (forall u, quad n (fm M) u <= L * dot n u u) ->
  power_iteration M x maxit tol = Ok r \/ power_iteration4 M x maxit tol = Ok r \/ power_iteration2 M x maxit tol = Ok r \/
    (exists big, power_iteration3 big M x maxit tol = Ok r) ->
  rayleigh n (fm M) (fv x) <= p_ld r <= L.
Proof. exact pow_between. Qed.
Print Assumptions C86_between.

Theorem C86_monotone : forall n (M : mat RA) (x : vec RA) maxit maxit' (tol tol' : R),
  mat_wf n M -> vec_wf n x -> symmetric n (fm M) -> possemidef n (fm M) -> tol' <= tol -> (maxit <= maxit')%Z ->
  (forall r r', power_iteration M x maxit tol = Ok r -> power_iteration M x maxit' tol' = Ok r' -> p_ld r <= p_ld r') /\
  (forall r r', power_iteration4 M x maxit tol = Ok r -> power_iteration4 M x maxit' tol' = Ok r' -> p_ld r <= p_ld r') /\
  (forall r r', power_iteration2 M x maxit tol = Ok r -> power_iteration2 M x maxit' tol' = Ok r' -> p_ld r <= p_ld r') /\
  (forall big r r', power_iteration3 big M x maxit tol = Ok r -> power_iteration3 big M x maxit' tol' = Ok r' -> p_ld r <= p_ld r').
Proof. exact pow_mono. Qed.
Print Assumptions C86_monotone.

Example C86_hypotheses : possemidef 2 (fm k25) /\ symmetric 2 (fm k25) /\ forall u, quad 2 (fm k25) u <= 50 * dot 2 u u.
Proof. exact (conj k25_psd (conj (m22_sym 34 12 41) k25_top)). Qed.

(** C87: "the largest eigenvalue" is what converges only if it is also the
    largest in modulus ... *)
Theorem C87_largest_refuted : exists (M : mat RA) (x : vec RA) v, mat_wf 2 M /\ vec_wf 2 x /\ symmetric 2 (fm M) /\
  dominant 2 (fm M) v (-3) 1 /\ dot 2 (fv x) v <> 0 /\ eigenvalue 2 (fm M) 1 /\
  forall maxit (tol big : R), (0 < maxit)%Z ->
    exists r1 r2 r3 r4, power_iteration M x maxit tol = Ok r1 /\ power_iteration2 M x maxit tol = Ok r2 /\
      power_iteration3 (A:=RA) big M x maxit tol = Ok r3 /\ power_iteration4 M x maxit tol = Ok r4 /\
      p_ld r1 < 0 /\ p_ld r2 < 0 /\ p_ld r3 < 0 /\ p_ld r4 < 0.
Proof. exact largest_refuted. Qed.
Print Assumptions C87_largest_refuted.

(** ... and a non-zero start is not enough. *)
Theorem C87_start_refuted : exists (M : mat RA) (x : vec RA), mat_wf 2 M /\ vec_wf 2 x /\ symmetric 2 (fm M) /\ posdef 2 (fm M) /\
  nonzero 2 (fv x) /\ eigenvalue 2 (fm M) 2 /\
  forall maxit (tol big : R),
    exists r1 r2 r3 r4, power_iteration M x maxit tol = Ok r1 /\ power_iteration2 M x maxit tol = Ok r2 /\
      power_iteration3 (A:=RA) big M x maxit tol = Ok r3 /\ power_iteration4 M x maxit tol = Ok r4 /\
      p_ld r1 = 1 /\ p_ld r2 = 1 /\ p_ld r3 = 1 /\ p_ld r4 = 1.
Proof. exact orthogonal_refuted. Qed.
Print Assumptions C87_start_refuted.
