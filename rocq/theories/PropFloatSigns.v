(** Property C97: what the property-based tests assert about the cuts, in doubles. *)
From Coq Require Import Reals List Arith ZArith Bool Lia Floats.
From Verif Require Import Arith Vec ModelCalc ModelEll SpecDrivers SpecFloating SpecFloatSigns SpecCut.
From Verif Require Import PFloatSigns PFloatSigns2.
Import ListNotations.
Local Open Scope R_scope.

(** Whenever a cut calculation succeeds on offsets that are not negative, the three
    numbers it returns are finite and not negative. *)
Theorem C97_signs : forall n p c k beta (T : num FA) rho sigma delta,
  fcalc_for n p c -> (Z.of_nat n < 2 ^ 53)%Z ->
  ffinite T -> powerRZ 2 (-200) <= fval T <= powerRZ 2 200 -> cut_nonneg beta ->
  fstrat_of k c beta T = Ok (Success, Some (rho, sigma, delta)) ->
  fin_nonneg rho /\ fin_nonneg sigma /\ fin_nonneg delta.
Proof. exact signs_double. Qed.
Print Assumptions C97_signs.

Example C97_signs_case : exists (c : calc FA) (T : num FA) r1 r2 r3,
  fcalc_for 2 true c /\ ffinite T /\ powerRZ 2 (-200) <= fval T <= powerRZ 2 200 /\
  cut_nonneg (CList (A:=FA) [Some 0.5%float; Some 0.75%float]) /\
  fstrat_of OpBias c (CList (A:=FA) [Some 0.5%float; Some 0.75%float]) T = Ok (Success, Some r1) /\
  fstrat_of OpCentral c (CList (A:=FA) [Some 0.5%float; Some 0.75%float]) T = Ok (Success, Some r2) /\
  fstrat_of OpQ c (CList (A:=FA) [Some 0.5%float; Some 0.75%float]) T = Ok (Success, Some r3).
Proof. exact ex_signs. Qed.

(** The delicate case: the exact square of the offset exceeds the limit, the rounded one
    does not, and the cut is carried out; the scale factor is then exactly zero. *)
Example C97_signs_edge : exists (c : calc FA) (b T : num FA) r,
  fcalc_for 2 true c /\ ffinite T /\ powerRZ 2 (-200) <= fval T <= powerRZ 2 200 /\ cut_nonneg (CSingle (A:=FA) b) /\
  fval T < fval b * fval b /\ fstrat_of OpBias c (CSingle (A:=FA) b) T = Ok (Success, Some (r, 1%float, 0%float)).
Proof. exact ex_edge. Qed.

(** "Delta should be less than 1" (a comment of the tests) is not so. *)
Theorem C97_delta_below_one_refuted : exists (c : calc FA) (T : num FA) rho sigma delta,
  fcalc_for 2 true c /\ ffinite T /\ powerRZ 2 (-200) <= fval T <= powerRZ 2 200 /\
  fstrat_of OpCentral c (CSingle (A:=FA) PrimFloat.zero) T = Ok (Success, Some (rho, sigma, delta)) /\ 1 < fval delta.
Proof. exact ex_delta. Qed.
Print Assumptions C97_delta_below_one_refuted.

(** A central cut and a deep cut with offset zero give the same step and the same scale
    factor, bit for bit; the shrink factors agree up to rounding. *)
Theorem C97_central_is_bias_at_zero : forall n p c (T : num FA), fcalc_for n p c -> (Z.of_nat n < 2 ^ 53)%Z ->
  ffinite T -> powerRZ 2 (-200) <= fval T <= powerRZ 2 200 ->
  forall b, exists rho s1 s2 delta,
  fstrat_of OpCentral c (CSingle (A:=FA) b) T = Ok (Success, Some (rho, s1, delta)) /\
  fstrat_of OpBias c (CSingle (A:=FA) PrimFloat.zero) T = Ok (Success, Some (rho, s2, delta)) /\
  Rabs (fval s2 - fval s1) <= 3 * u53 * fval s1.
Proof. exact central_bias_zero. Qed.
Print Assumptions C97_central_is_bias_at_zero.

(** ... so on the object: same answer, same centre, same scale, same measure. *)
Theorem C97_same_step : forall n p (e : ell FA) g, fcalc_for n p (helper e) -> (Z.of_nat n < 2 ^ 53)%Z ->
  let r1 := fell_update OpCentral (g, CSingle (A:=FA) PrimFloat.zero) e in
  let r2 := fell_update OpBias (g, CSingle (A:=FA) PrimFloat.zero) e in
  ffinite (tsq (fst r1)) -> powerRZ 2 (-200) <= fval (tsq (fst r1)) <= powerRZ 2 200 ->
  snd r1 = snd r2 /\ xc (fst r1) = xc (fst r2) /\ kappa (fst r1) = kappa (fst r2) /\ tsq (fst r1) = tsq (fst r2).
Proof. exact ell_central_bias_zero. Qed.
Print Assumptions C97_same_step.

Example C97_same_step_case : exists e, ell_init (A:=FA) (VScalar (A:=FA) 1%float) [0%float; 0%float] = Ok e /\
  fcalc_for 2 true (helper e) /\
  tsq (fst (fell_update OpCentral ([1%float; 0%float], CSingle (A:=FA) PrimFloat.zero) e)) = 1%float /\
  powerRZ 2 (-200) <= fval 1%float <= powerRZ 2 200.
Proof. exact ex_same_step. Qed.

(** The shrink factors are not always equal. *)
Theorem C97_same_sigma_refuted : exists (c : calc FA) (T : num FA) rho s1 s2 delta,
  fcalc_for 2 true c /\ ffinite T /\ powerRZ 2 (-200) <= fval T <= powerRZ 2 200 /\
  fstrat_of OpCentral c (CSingle (A:=FA) PrimFloat.zero) T = Ok (Success, Some (rho, s1, delta)) /\
  fstrat_of OpBias c (CSingle (A:=FA) PrimFloat.zero) T = Ok (Success, Some (rho, s2, delta)) /\
  PrimFloat.eqb s1 s2 = false.
Proof. exact ex_sigma. Qed.
Print Assumptions C97_same_sigma_refuted.

(** Inside the ranges the tests draw from (kappa in [0.001, 10], entries in [-10, 10], not all
    zero) the two methods differ: with a tiny gradient the central cut reports success and
    stores NaN in the matrix, the deep cut with offset zero raises ZeroDivisionError. *)
Theorem C97_cut_consistency_refuted : exists (k : num FA) (e e1 : ell FA) (g : vec FA),
  1 / 1000 <= fval k <= 10 /\ ell_init (VScalar (A:=FA) k) [0%float; 0%float; 0%float] = Ok e /\
  length g = 3%nat /\ (forall i, (i < 3)%nat -> ffinite (vget g i) /\ 0 <= fval (vget g i) <= 10) /\ 0 < fval (vget g 0) /\
  fell_update OpCentral (g, CSingle (A:=FA) PrimFloat.zero) e = (e1, Ok Success) /\
  PrimFloat.is_nan (mget (mq e1) 0 1) = true /\
  snd (fell_update OpBias (g, CSingle (A:=FA) PrimFloat.zero) e) = Err ZeroDivision.
Proof. exact ex_consistency. Qed.
Print Assumptions C97_cut_consistency_refuted.
