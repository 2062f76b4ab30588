(** Properties of the spectral factorisation. *)
From Coq Require Import Reals List Arith.
From Verif Require Import Arith Vec ModelFactor ModelSpectral Spec SpecSpectral PFactor2 PFactor3 PFactorEx PFactor4 PFactor4Ex.
Import ListNotations.
Local Open Scope R_scope.

(** C68: when it fails, *)
Theorem C68_empty : spectral_fact (A:=RA) RW [] = Err ValueError.
Proof. exact spectral_empty. Qed.
Print Assumptions C68_empty.

Theorem C68_total : forall r : vec RA, r <> [] ->
  (exists h, spectral_fact RW r = Ok h) \/ spectral_fact RW r = Err RuntimeError.
Proof. exact spectral_total. Qed.
Print Assumptions C68_total.

Theorem C68_fails : forall r : vec RA, r <> [] ->
  (spectral_fact RW r = Err RuntimeError <->
   exists i, (i < 100 * length r)%nat /\
     power_spectrum (length r) (fv r) (grid (100 * length r) i) <= - (1 / 10000)).
Proof. exact spectral_error. Qed.
Print Assumptions C68_fails.

(** and what it returns otherwise: at each frequency [2 pi k / n] the response of
    [h] is [exp (sum_j c_j u^j)], [u = exp(-2 pi i k / n)], for a
    real polynomial of degree [m/2] whose exponential has the prescribed
    magnitude at all [m = 100 n] frequencies.  (An exponential of a polynomial in
    [u] has no zeros: this is the minimum-phase choice.) *)
Theorem C68_minimum_phase : forall r h : vec RA, spectral_fact RW r = Ok h ->
  length h = length r /\
  exists level,
    levelled (100 * length r) (fun i => power_spectrum (length r) (fv r) (grid (100 * length r) i)) level /\
  exists c,
    (forall i, (i < 100 * length r)%nat ->
       exp (2 * resp_re (50 * length r + 1) c (grid (100 * length r) i)) = level i) /\
    forall k, (k < length r)%nat ->
      resp_re (length r) (fv h) (grid (length r) k) =
        exp_re (resp_re (50 * length r + 1) c (grid (length r) k))
               (resp_im (50 * length r + 1) c (grid (length r) k)) /\
      resp_im (length r) (fv h) (grid (length r) k) =
        exp_im (resp_re (50 * length r + 1) c (grid (length r) k))
               (resp_im (50 * length r + 1) c (grid (length r) k)).
Proof. exact spectral_cepstrum. Qed.
Print Assumptions C68_minimum_phase.

(** There is only one such polynomial, so [h] is determined. *)
Theorem C68_phase_unique : forall n (c c' : nat -> R), (0 < n)%nat ->
  (forall i, (i < 100 * n)%nat ->
     exp (2 * resp_re (50 * n + 1) c (grid (100 * n) i)) =
     exp (2 * resp_re (50 * n + 1) c' (grid (100 * n) i))) ->
  forall k, (k < 50 * n + 1)%nat -> c k = c' k.
Proof. exact cepstrum_unique. Qed.
Print Assumptions C68_phase_unique.

Example C68_phase_case :
  let c := fun k : nat => / INR (S k) in let c' := fun k : nat => if Nat.ltb k 51 then / INR (S k) else 0 in
  c 51%nat <> c' 51%nat /\
  forall i, (i < 100 * 1)%nat ->
    exp (2 * resp_re (50 * 1 + 1) c (grid (100 * 1) i)) = exp (2 * resp_re (50 * 1 + 1) c' (grid (100 * 1) i)).
Proof. exact ex_phase. Qed.

Theorem C68_power : forall r h : vec RA, spectral_fact RW r = Ok h -> positive_samples r ->
  forall k, (k < length r)%nat ->
  resp_re (length r) (fv h) (grid (length r) k) * resp_re (length r) (fv h) (grid (length r) k) +
  resp_im (length r) (fv h) (grid (length r) k) * resp_im (length r) (fv h) (grid (length r) k) =
  power_spectrum (length r) (fv r) (grid (length r) k).
Proof. exact spectral_power. Qed.
Print Assumptions C68_power.

(** (5, 2) is the autocorrelation of (2, 1) and of (1, 2); the first is minimum phase. *)
Example C68_case : spectral_fact RW r52 = Ok (@cons R 2 [1]) /\ positive_samples r52.
Proof. exact (conj r52_fact r52_pos). Qed.
Example C68_fails_case : r01 <> [] /\ exists i, (i < 100 * length r01)%nat /\
  power_spectrum (length r01) (fv r01) (grid (100 * length r01) i) <= - (1 / 10000).
Proof. split; [discriminate|exact r01_bad]. Qed.
Example C68_three_taps : exists h, spectral_fact RW rgap = Ok h.
Proof. exact rgap_ok. Qed.

(** C69: the energy is right, and the autocorrelation is right up to circular
    aliasing; *)
Theorem C69_circular : forall r h : vec RA, spectral_fact RW r = Ok h -> positive_samples r ->
  autocorr (length r) (fv h) 0 = fv r 0 /\
  forall l, (0 < l < length r)%nat ->
  autocorr (length r) (fv h) l + autocorr (length r) (fv h) (length r - l) = fv r l + fv r (length r - l).
Proof. exact spectral_circular. Qed.
Print Assumptions C69_circular.

(** so it is exact for one and two taps. *)
Theorem C69_short_roundtrip : forall r h : vec RA,
  spectral_fact RW r = Ok h -> positive_samples r -> (length r <= 2)%nat ->
  inverse_spectral_fact h = Ok r.
Proof. exact spectral_short. Qed.
Print Assumptions C69_short_roundtrip.

Example C69_case : spectral_fact RW r52 = Ok (@cons R 2 [1]) /\ positive_samples r52 /\ (length r52 <= 2)%nat.
Proof. exact (conj r52_fact (conj r52_pos (le_n 2))). Qed.

(** Not every input that is no autocorrelation is rejected: negative between the
    samples, *)
Theorem C69_valid_input_refuted : exists r h : vec RA, spectral_fact RW r = Ok h /\ positive_samples r /\
  (exists w, power_spectrum (length r) (fv r) w < 0) /\
  forall h' q, inverse_spectral_fact h' = Ok q -> q <> r.
Proof. exact invalid_accepted. Qed.
Print Assumptions C69_valid_input_refuted.

(** or slightly negative at a sample. *)
Theorem C69_negative_sample_refuted : exists r h i, spectral_fact RW r = Ok h /\ (i < 100 * length r)%nat /\
  power_spectrum (length r) (fv r) (grid (100 * length r) i) < 0 /\
  forall h' q, inverse_spectral_fact h' = Ok q -> q <> r.
Proof. exact negative_accepted. Qed.
Print Assumptions C69_negative_sample_refuted.

(** C70: given a column, as the docstring asks, the result is a matrix whose
    rows are constant: no phase and no transform along the frequencies. *)
Theorem C70_column : forall r : vec RA, r <> [] ->
  (exists H, spectral_fact_column RW r = Ok H /\ mat_wf (length r) H /\
    exists level,
      levelled (100 * length r) (fun i => power_spectrum (length r) (fv r) (grid (100 * length r) i)) level /\
    forall k t, (k < length r)%nat -> (t < length r)%nat ->
      fm H k t = sqrt (level (100 * k)%nat) / INR (length r)) \/
  (spectral_fact_column RW r = Err RuntimeError /\ spectral_fact RW r = Err RuntimeError).
Proof. exact column_outcome. Qed.
Print Assumptions C70_column.

Theorem C70_column_empty : spectral_fact_column (A:=RA) RW [] = Err ValueError.
Proof. exact column_empty. Qed.
Print Assumptions C70_column_empty.

(** None of its rows or columns is an impulse response for [r], even where the
    one-dimensional form returns one. *)
Theorem C70_column_refuted : exists (r h : vec RA) H,
  spectral_fact RW r = Ok h /\ inverse_spectral_fact h = Ok r /\ spectral_fact_column RW r = Ok H /\
  forall k, (k < length r)%nat ->
    autocorr (length r) (fun t => fm H k t) 0 <> fv r 0 /\ autocorr (length r) (fun t => fm H t k) 0 <> fv r 0.
Proof. exact column_wrong. Qed.
Print Assumptions C70_column_refuted.

Example C70_case : r52 <> [] /\ positive_samples r52.
Proof. split; [discriminate|exact r52_pos]. Qed.

(** C73: the autocorrelation of a filter whose zeros lie inside the circle of
    radius [q < 1] is factored back into that filter, up to a relative error
    [fact_error q n] in the Euclidean norm; *)
Theorem C73_recovers_minimum_phase : forall q (h r : vec RA), 0 <= q < 1 ->
  minimum_phase q (length h) (fv h) -> inverse_spectral_fact h = Ok r ->
  exists g, spectral_fact RW r = Ok g /\ length g = length h /\
  sumn (length h) (fun t => (fv g t - fv h t) * (fv g t - fv h t)) <=
  (fact_error q (length h) * fact_error q (length h)) * sumn (length h) (fun t => fv h t * fv h t).
Proof. exact recovers. Qed.
Print Assumptions C73_recovers_minimum_phase.

(** the autocorrelation of the result is then the given one, up to twice that error. *)
Theorem C73_round_trip : forall q (h r : vec RA), 0 <= q < 1 ->
  minimum_phase q (length h) (fv h) -> inverse_spectral_fact h = Ok r ->
  exists g s, spectral_fact RW r = Ok g /\ inverse_spectral_fact g = Ok s /\ length s = length r /\
  forall k, (k < length r)%nat -> Rabs (fv s k - fv r k) <= 2 * fact_error q (length r) * fv r 0.
Proof. exact round_trip. Qed.
Print Assumptions C73_round_trip.

(** Other filters do not come back: (1, 2) has its zero outside the circle. *)
Theorem C73_other_phase_refuted : exists h r g : vec RA,
  inverse_spectral_fact h = Ok r /\ positive_samples r /\ spectral_fact RW r = Ok g /\
  fv h 0 = 1 /\ fv h 1 = 2 /\ fv g 0 = 2 /\ fv g 1 = 1.
Proof. exact h12_not_recovered. Qed.
Print Assumptions C73_other_phase_refuted.

(** [1 - u/2 + u^2/4], with two complex zeros of modulus one half *)
Example C73_case : minimum_phase (1/2) (length h3) (fv h3) /\
  (exists r, inverse_spectral_fact h3 = Ok r) /\ fact_error (1/2) (length h3) <= 1 / 2 ^ 139.
Proof. exact h3_case. Qed.
