(** Properties C56-C60: autocorrelation, conjugate gradient, Fibonacci. *)
From Coq Require Import Reals List Arith ZArith Lra.
From Verif Require Import Arith Vec ModelSkel ModelSpectral ModelCG Spec SpecSkel SpecSpectral SpecCG.
From Verif Require Import PSkel PSpectral PCG PCG2 PMiscEx.
Import ListNotations.
Local Open Scope R_scope.

(** C56 *)
Theorem C56_autocorrelation : forall h : vec RA, h <> [] ->
  exists r, inverse_spectral_fact h = Ok r /\ length r = length h /\
  forall k, (k < length h)%nat -> fv r k = autocorr (length h) (fv h) k.
Proof. exact inverse_ok. Qed.
Print Assumptions C56_autocorrelation.

Theorem C56_empty : inverse_spectral_fact (A:=RA) [] = Err ValueError.
Proof. exact inverse_empty. Qed.
Print Assumptions C56_empty.

Theorem C56_power_spectrum : forall (h r : vec RA) w, inverse_spectral_fact h = Ok r ->
  power_spectrum (length h) (fv r) w =
    resp_re (length h) (fv h) w * resp_re (length h) (fv h) w +
    resp_im (length h) (fv h) w * resp_im (length h) (fv h) w /\
  0 <= power_spectrum (length h) (fv r) w.
Proof. exact inverse_power. Qed.
Print Assumptions C56_power_spectrum.

Example C56_case : exists r, inverse_spectral_fact (A:=RA) (@cons R 1 [2; -3]) = Ok r /\
  fv r 0 = 14 /\ fv r 1 = -4 /\ fv r 2 = -3.
Proof. exact inv_case. Qed.

(** C57: a returned vector solves the system up to the tolerance, whatever
    the matrix. *)
Theorem C57_sound : forall n M b x0 tol it x,
  cg_shape n M b x0 -> conjugate_gradient (A:=RA) M b x0 tol it = Ok x ->
  vec_wf n x /\ norm n (fun i => fv b i - mv n (fm M) (fv x) i) < tol.
Proof. exact cg_sound. Qed.
Print Assumptions C57_sound.

(** It is the first documented iterate meeting the tolerance, and comes
    within the iteration limit. *)
Theorem C57_iterate : forall n M b x0 tol it x,
  cg_shape n M b x0 -> conjugate_gradient (A:=RA) M b x0 tol it = Ok x ->
  exists k, (1 <= Z.of_nat k <= it)%Z /\ cg_first n (fm M) (fv b) (cg_start x0) tol k /\
    norm n (cg_r (cg n (fm M) (fv b) (cg_start x0) k)) < tol /\
    forall i, (i < n)%nat -> fv x i = cg_x (cg n (fm M) (fv b) (cg_start x0) k) i.
Proof. exact cg_first_hit. Qed.
Print Assumptions C57_iterate.

(** Otherwise ValueError, and then no iterate within the limit qualifies. *)
Theorem C57_error : forall n M b x0 tol it e,
  cg_shape n M b x0 -> conjugate_gradient (A:=RA) M b x0 tol it = Err e ->
  e = ValueError /\ forall k, (1 <= Z.of_nat k <= it)%Z ->
    cg_first n (fm M) (fv b) (cg_start x0) tol k ->
    tol <= norm n (cg_r (cg n (fm M) (fv b) (cg_start x0) k)).
Proof. exact cg_fails. Qed.
Print Assumptions C57_error.

Theorem C57_only_value_error : forall (A : Arith) (M : mat A) b x0 tol it e,
  conjugate_gradient M b x0 tol it = Err e -> e = ValueError.
Proof. exact @cg_err. Qed.
Print Assumptions C57_only_value_error.

(** Shapes that do not fit raise; the exception is a right-hand side of length one, which counts
    for every row. *)
Theorem C57_misfit : forall (A : Arith) (M : mat A) b x0 tol it,
  let n := match x0 with None => length b | Some x => length x end in
  (length M <> n \/ Exists (fun row => length row <> n) M \/ length b <> n /\ length b <> 1%nat) ->
  conjugate_gradient M b x0 tol it = Err ValueError.
Proof. exact @cg_misfit. Qed.
Print Assumptions C57_misfit.

Theorem C57_stretch : forall (A : Arith) (M : mat A) c x tol it, length M = length x ->
  conjugate_gradient M [c] (Some x) tol it = conjugate_gradient M (repeat c (length x)) (Some x) tol it.
Proof. exact @cg_stretch. Qed.
Print Assumptions C57_stretch.

Example C57_misfit_case :
  (length (@cons (list R) [1; 0] [[0; 1]]) = length (@cons R 0 [0])) /\
  (length (@cons R 1 [1; 1]) <> length (@cons R 0 [0]) /\ length (@cons R 1 [1; 1]) <> 1%nat).
Proof. repeat split; discriminate. Qed.

(** The recursively updated residual is the true one, and the second quotient
    of the loop never has a zero denominator. *)
Theorem C57_true_residual : forall n M b x0 k i,
  cg_r (cg n M b x0 k) i = b i - mv n M (cg_x (cg n M b x0 k)) i.
Proof. exact r_true. Qed.
Print Assumptions C57_true_residual.

Theorem C57_no_zero_division : forall n M b x0 k,
  quad n M (cg_p (cg n M b x0 k)) <> 0 ->
  0 < dot n (cg_r (cg n M b x0 k)) (cg_r (cg n M b x0 k)).
Proof. exact cg_nonzero_rr. Qed.
Print Assumptions C57_no_zero_division.

Example C57_case : cg_shape 2 spd_mat spd_rhs None /\
  exists x, conjugate_gradient (A:=RA) spd_mat spd_rhs None (1/10) 2 = Ok x.
Proof. exact (conj spd_shape spd_returns). Qed.

Example C57_case_indefinite : cg_shape 2 [[1; 0]; [0; -1]] [1; 1] None /\
  conjugate_gradient (A:=RA) (@cons (list R) [1; 0] [[0; -1]]) (@cons R 1 [1]) None (1/10) 5 = Err ValueError.
Proof. exact indef_fails. Qed.

(** C58 *)
Theorem C58_converges_in_n_steps : forall n M b x0 tol it,
  cg_shape n M b x0 -> symmetric n (fm M) -> posdef n (fm M) -> 0 < tol ->
  (exists i, (i < n)%nat /\ mv n (fm M) (cg_start x0) i <> fv b i) -> (Z.of_nat n <= it)%Z ->
  exists x, conjugate_gradient (A:=RA) M b x0 tol it = Ok x.
Proof. exact cg_converges. Qed.
Print Assumptions C58_converges_in_n_steps.

(** Exactly zero residual after at most [n] documented steps. *)
Theorem C58_residual_vanishes : forall n M b x0, symmetric n M -> posdef n M ->
  exists k, (k <= n)%nat /\
    dot n (cg_r (cg n M b x0 k)) (cg_r (cg n M b x0 k)) = 0 /\
    forall j, (j < k)%nat -> 0 < dot n (cg_r (cg n M b x0 j)) (cg_r (cg n M b x0 j)).
Proof. exact residual_vanishes. Qed.
Print Assumptions C58_residual_vanishes.

Example C58_case : cg_shape 2 spd_mat spd_rhs None /\ symmetric 2 (fm spd_mat) /\ posdef 2 (fm spd_mat) /\
  exists i, (i < 2)%nat /\ mv 2 (fm spd_mat) (cg_start None) i <> fv spd_rhs i.
Proof. exact (conj spd_shape (conj spd_sym (conj spd_pd spd_start))). Qed.

(** C59 *)
Theorem C59_exact_start_rejected : forall n M b x0 tol it,
  cg_shape n M b x0 ->
  (forall i, (i < n)%nat -> mv n (fm M) (cg_start x0) i = fv b i) ->
  conjugate_gradient (A:=RA) M b x0 tol it = Err ValueError.
Proof. exact cg_exact_start. Qed.
Print Assumptions C59_exact_start_rejected.

Example C59_case : cg_shape 2 spd_mat spd_rhs (Some [1/11; 7/11]) /\
  forall i, (i < 2)%nat -> mv 2 (fm spd_mat) (cg_start (Some [1/11; 7/11])) i = fv spd_rhs i.
Proof. exact spd_exact. Qed.

(** C60 *)
Theorem C60_fib : forall n : Z,
  ((0 < n)%Z -> exists v, fib n = Ok v /\ fibonacci n v) /\ ((n <= 0)%Z -> fib n = Err AssertionError).
Proof. exact fib_spec. Qed.
Print Assumptions C60_fib.

Theorem C60_fibonacci_function : forall n v w, fibonacci n v -> fibonacci n w -> v = w.
Proof. exact fibonacci_fun. Qed.
Print Assumptions C60_fibonacci_function.

Example C60_case : fib 10 = Ok 55%Z /\ fib 0 = Err AssertionError.
Proof. split; reflexivity. Qed.
