(** Autocorrelation, frequency response, power spectrum. *)
From Coq Require Import Reals List.
From Verif Require Import Spec.
Local Open Scope R_scope.

(** [sum_i h_i h_(i+k)] for a sequence of length [n] *)
Definition autocorr (n : nat) (h : nat -> R) (k : nat) : R :=
  sumn (n - k) (fun i => h i * h (i + k)%nat).

(** real and (negated) imaginary part of [sum_k h_k exp(-j k w)] *)
Definition resp_re (n : nat) (h : nat -> R) (w : R) : R := sumn n (fun k => h k * cos (INR k * w)).
Definition resp_im (n : nat) (h : nat -> R) (w : R) : R := sumn n (fun k => h k * sin (INR k * w)).

(** [r_0 + 2 sum_(k >= 1) r_k cos(k w)] *)
Definition power_spectrum (n : nat) (r : nat -> R) (w : R) : R :=
  r O + 2 * sumn (n - 1) (fun k => r (S k) * cos (INR (S k) * w)).

(** The frequencies [2 pi i / m] *)
Definition grid (m i : nat) : R := 2 * PI * INR i / INR m.

(** What a spectrum [P] sampled at [m] frequencies is replaced by: itself when
    positive; raised to [1e-10] when some sample is not positive and all are
    above [-1e-4]. *)
Definition levelled (m : nat) (P level : nat -> R) : Prop :=
  (forall i, (i < m)%nat -> 0 < P i /\ level i = P i) \/
  ((forall i, (i < m)%nat -> - (1 / 10000) < P i) /\ (exists i, (i < m)%nat /\ P i <= 0) /\
   forall i, (i < m)%nat -> level i = Rmax (P i) (1 / 10000000000)).

(** Real and (negated) imaginary part of [sum_(k < d) c_k exp(-j k w)] are
    [resp_re d c w] and [resp_im d c w].  The complex number [exp (a - j b)]: *)
Definition exp_re (a b : R) : R := exp a * cos b.
Definition exp_im (a b : R) : R := exp a * sin b.

(** The spectrum of [r] is positive at the [100 n] frequencies the code looks at. *)
Definition positive_samples (r : list R) : Prop :=
  forall i, (i < 100 * length r)%nat -> 0 < power_spectrum (length r) (fv r) (grid (100 * length r) i).

(** Zeros are given as [rho exp(j psi)], [rho] of either sign: real ones, and
    pairs of conjugates. *)
Definition zeros (reals : list R) (pairs : list (R * R)) : list (R * R) :=
  List.map (fun a => (a, 0)) reals ++ List.flat_map (fun z => z :: (fst z, - snd z) :: nil) pairs.

(** real and (negated) imaginary part of the product over the zeros of
    [1 - rho exp(j psi) exp(-j w)] *)
Fixpoint factored (zs : list (R * R)) (w : R) : R * R :=
  match zs with
  | nil => (1, 0)
  | cons z zs =>
      let u := 1 - fst z * cos (w - snd z) in
      let v := - (fst z * sin (w - snd z)) in
      let p := factored zs w in
      (u * fst p - v * snd p, u * snd p + v * fst p)
  end.

(** The response of the [n] taps [h] is a positive constant times a product
    over fewer than [n] zeros, none of modulus above [q]. *)
Definition minimum_phase (q : R) (n : nat) (h : nat -> R) : Prop :=
  exists b reals pairs, 0 < b /\
  (forall a, List.In a reals -> Rabs a <= q) /\ (forall z, List.In z pairs -> Rabs (fst z) <= q) /\
  (length (zeros reals pairs) < n)%nat /\
  forall w, resp_re n h w = b * fst (factored (zeros reals pairs) w) /\
            resp_im n h w = b * snd (factored (zeros reals pairs) w).

(** [(100 n + 1) (n - 1) q^(50 n + 1) / (1 - q)] *)
Definition fact_error (q : R) (n : nat) : R :=
  INR (100 * n + 1) * (INR (n - 1) * (q ^ (50 * n + 1) / (1 - q))).
