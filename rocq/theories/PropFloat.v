(** Properties of the code in double arithmetic (binary64, round to nearest,
    ties to even; the instance [FA] of the model). *)
From Coq Require Import Reals List Arith ZArith Bool Lia Floats.
From Verif Require Import Arith Vec ModelCalc ModelEll ModelStable ModelCut SpecDrivers SpecFloating Spec SpecCut.
From Verif Require Import PFloatEll PFloatStable3 PFloatZero PFloatCut2 PFloatAcc2 PFloatAcc3 PFloatBs PFloatEx PFloatEx2 PFloatEx3.
Import ListNotations.

(** C74. The shape matrix of [Ell] stays exactly symmetric, bit for bit. *)
Theorem C74_ell_symmetric_double : forall v x0 (e : ell FA) l,
  ell_init v x0 = Ok e ->
  forall i j, mget (mq (fst (fell_seq l e))) i j = mget (mq (fst (fell_seq l e))) j i.
Proof. exact fell_symmetric. Qed.
Print Assumptions C74_ell_symmetric_double.

(** the off-diagonal entry really moves: -0.4615... after 36 calls *)
Example C74_case :
  exists e, ell_init (A:=FA) (VScalar (A:=FA) 1%float) [0%float; 0%float] = Ok e /\
  mget (mq (fst (fell_seq (thirty_six 36) e))) 0 1 = (-0x1.d89d89d89d89fp-2)%float /\
  mget (mq (fst (fell_seq (thirty_six 36) e))) 1 0 = (-0x1.d89d89d89d89fp-2)%float.
Proof. exact ex_sym. Qed.

(** C75. [EllStable] under central cuts: nothing it stores or reports goes negative,
    and every call answers Success. *)
Theorem C75_stable_never_negative_double : forall n v x0 (s : stable FA) l,
  stable_init v x0 = Ok s -> length x0 = n -> (Z.of_nat n < 2 ^ 53)%Z ->
  fval_notneg n v -> central_calls n l ->
  let r := fstable_seq l s in
  fstable_notneg n (fst r) /\ fnotneg (s_tsq (fst r)) /\
  forall o, In o (snd r) -> o = Ok Success.
Proof. exact fstable_never_negative. Qed.
Print Assumptions C75_stable_never_negative_double.

(** one call of any of the three methods keeps the sign invariant, provided the
    answer of the calculation has [0 <= sigma < 1] and [delta] not negative; it raises
    nothing that the calculation does not raise *)
Theorem C75_stable_step_double : forall n (s : stable FA) k g beta s1 o,
  (1 <= n)%nat -> fstable_notneg n s -> length g = n ->
  fstable_update k (g, beta) s = (s1, o) ->
  (forall st rho sigma delta,
     fstrat_of k (s_helper s) beta (s_tsq s1) = Ok (st, Some (rho, sigma, delta)) ->
     fnonneg sigma /\ PrimFloat.ltb sigma PrimFloat.one = true /\ fnotneg delta) ->
  fstable_notneg n s1 /\ fnotneg (s_tsq s1) /\ s_helper s1 = s_helper s /\
  o = match fstrat_of k (s_helper s) beta (s_tsq s1) with Err x => Err x | Ok (st, _) => Ok st end.
Proof. intros n s k g beta s1 o. exact (fstable_step n s k g beta s1 o). Qed.
Print Assumptions C75_stable_step_double.

(** the same 36 cuts as below, all answered with Success *)
Example C75_case :
  exists s, stable_init (A:=FA) (VScalar (A:=FA) 1%float) [0%float; 0%float] = Ok s /\
  fval_notneg 2 (VScalar (A:=FA) 1%float) /\ central_calls 2 (thirty_six 36) /\
  snd (fstable_seq (thirty_six 36) s) = repeat (Ok Success) 36 /\
  fpos (s_tsq (fst (fstable_seq (thirty_six 36) s))).
Proof. exact ex_stable_case. Qed.

(** a bias cut meeting the hypotheses of the step theorem *)
Example C75_step_case :
  exists s st rho sigma delta, stable_init (A:=FA) (VScalar (A:=FA) 1%float) [0%float; 0%float] = Ok s /\
  fstable_notneg 2 s /\
  fstrat_of OpBias (s_helper s) (CSingle (A:=FA) 0.5%float) 1%float = Ok (st, Some (rho, sigma, delta)) /\
  fnonneg sigma /\ PrimFloat.ltb sigma PrimFloat.one = true /\ fnotneg delta /\
  s_tsq (fst (fstable_update OpBias ([1%float; 0%float], CSingle (A:=FA) 0.5%float) s)) = 1%float.
Proof. exact ex_step_case. Qed.

(** C33 in doubles: [EllStable] answers Success to a central cut with a zero gradient (of either
    sign of zero) and overwrites the whole centre with NaN. *)
Theorem C33_stable_zero_central_double : forall n p (s : stable FA) (g : vec FA) b, (Z.of_nat n < 2 ^ 53)%Z ->
  fstable_notneg n s -> fcalc_for n p (s_helper s) -> length g = n ->
  (forall i, (i < n)%nat -> PrimFloat.eqb (vget g i) PrimFloat.zero = true) ->
  (forall i j, (j <= i < n)%nat -> ffinite (mget (s_mq s) i j)) -> ffinite (s_kappa s) ->
  exists s1, fstable_update OpCentral (g, CSingle (A:=FA) b) s = (s1, Ok Success) /\
  forall i, (i < n)%nat -> fnan (vget (s_xc s1) i).
Proof. exact fstable_zero_central. Qed.
Print Assumptions C33_stable_zero_central_double.

Example C33_stable_zero_central_double_case :
  exists s, stable_init (A:=FA) (VScalar (A:=FA) 1%float) [0%float; 0%float] = Ok s /\
  fstable_notneg 2 s /\ fcalc_for 2 true (s_helper s) /\
  (forall i j, (j <= i < 2)%nat -> ffinite (mget (s_mq s) i j)) /\ ffinite (s_kappa s) /\
  (forall i, (i < 2)%nat -> PrimFloat.eqb (vget (A:=FA) [0%float; (-0)%float] i) PrimFloat.zero = true).
Proof. exact ex_zero_case. Qed.

(** C76. [Ell] does not have this: after 35 accepted central cuts with one and the same
    non-zero gradient the matrix is no longer positive semidefinite, tsq comes out
    negative and [math.sqrt] raises. *)
Theorem C76_ell_positive_double_refuted :
  exists (v : ellval FA) x0 (e : ell FA) (g : vec FA) k,
  ell_init v x0 = Ok e /\ fval_notneg 2 v /\ length g = 2%nat /\ (forall i, (i < 2)%nat -> fpos (vget g i)) /\
  let r := fell_seq (repeat (OpCentral, (g, CSingle (A:=FA) PrimFloat.zero)) (S k)) e in
  snd r = repeat (Ok Success) k ++ [Err ValueError] /\ ~ fnotneg (tsq (fst r)).
Proof. exact ex_ell_fails. Qed.
Print Assumptions C76_ell_positive_double_refuted.

(** C77. The cut calculations raise no arithmetic error in doubles, whatever the offsets
    (infinities and NaN included), for tsq from 2^-400 upwards. *)
Theorem C77_no_math_error_double : forall n p c k beta (T : num FA),
  fcalc_for n p c -> (Z.of_nat n < 2 ^ 53)%Z -> ffinite T -> (powerRZ 2 (-400) <= fval T)%R ->
  fstrat_of k c beta T <> Err ValueError /\ fstrat_of k c beta T <> Err ZeroDivision.
Proof. exact no_math_error_double. Qed.
Print Assumptions C77_no_math_error_double.

(** for every positive tsq, except for parallel deep cuts *)
Theorem C77_no_math_error_double_any : forall n p c k beta (T : num FA),
  fcalc_for n p c -> (Z.of_nat n < 2 ^ 53)%Z -> ffinite T -> fpos T ->
  k <> OpBias \/ (exists b, beta = CSingle b) ->
  fstrat_of k c beta T <> Err ValueError /\ fstrat_of k c beta T <> Err ZeroDivision.
Proof. exact no_math_error_double_any. Qed.
Print Assumptions C77_no_math_error_double_any.

Example C77_case : exists (c : calc FA) (T : num FA) r,
  fcalc_for 2 true c /\ ffinite T /\ fpos T /\ (powerRZ 2 (-400) <= fval T)%R /\
  fstrat_of OpBias c (CList (A:=FA) [Some (-0.25)%float; Some 0.5%float]) T = Ok (Success, Some r).
Proof. exact ex_nomath. Qed.

(** for a parallel deep cut and a tiny positive tsq the code does divide by zero,
    which it cannot in exact arithmetic (C14) *)
Theorem C77_tiny_tsq_refuted : exists n (c : calc FA) (b0 b1 T : num FA),
  fcalc_for n true c /\ (Z.of_nat n < 2 ^ 53)%Z /\ ffinite T /\ fpos T /\ ffinite b0 /\ ffinite b1 /\
  fstrat_of OpBias c (CList (A:=FA) [Some b0; Some b1]) T = Err ZeroDivision.
Proof. exact ex_tiny. Qed.
Print Assumptions C77_tiny_tsq_refuted.

(** C78. A NoSoln answer computed in doubles is exactly true: no displacement [t0] inside
    the ellipsoid ([t0^2 <= tsq], over the reals) satisfies the cut. *)
Theorem C78_nosoln_truthful_double : forall n p c k beta (T : num FA) o t0,
  fcalc_for n p c -> (Z.of_nat n < 2 ^ 53)%Z -> ffinite T -> fpos T -> cut_finite beta ->
  fstrat_of k c beta T = Ok (NoSoln, o) ->
  (t0 * t0 <= fval T)%R -> cut_holds k p (cut_real beta) t0 -> False.
Proof. exact nosoln_double. Qed.
Print Assumptions C78_nosoln_truthful_double.

(** and a deep cut that misses the ellipsoid by more than the rounding is reported *)
Theorem C78_nosoln_complete_double : forall n p c (b T : num FA),
  fcalc_for n p c -> (Z.of_nat n < 2 ^ 53)%Z ->
  ffinite T -> (powerRZ 2 (-400) <= fval T)%R -> ffinite b -> (0 <= fval b)%R ->
  (fval T * (1 + 4 * u53) < fval b * fval b)%R ->
  calc_bias_cut c b T = Ok (NoSoln, None).
Proof. exact bias_nosoln_complete. Qed.
Print Assumptions C78_nosoln_complete_double.

Example C78_case : exists (c : calc FA) (b T : num FA),
  fcalc_for 2 true c /\ ffinite T /\ fpos T /\ (powerRZ 2 (-400) <= fval T)%R /\
  cut_finite (CSingle (A:=FA) b) /\ (0 <= fval b)%R /\ (fval T * (1 + 4 * u53) < fval b * fval b)%R /\
  fstrat_of OpBias c (CSingle (A:=FA) b) T = Ok (NoSoln, None).
Proof. exact ex_nosoln. Qed.

(** C79. [EllStable] under deep cuts.  The sign invariant of C75 is lost by a deep cut
    that almost touches the ellipsoid: the call answers Success, leaves a negative
    diagonal entry, and the next central cut raises in [math.sqrt]. *)
Theorem C79_stable_deep_cut_double_refuted :
  exists (v : ellval FA) x0 (s : stable FA) (g : vec FA) (b : num FA),
  stable_init v x0 = Ok s /\ fval_notneg 3 v /\ length x0 = 3%nat /\ length g = 3%nat /\ ffinite b /\ fpos b /\
  let r1 := fstable_seq [(OpBias, (g, CSingle (A:=FA) b))] s in
  let r2 := fstable_seq [(OpBias, (g, CSingle (A:=FA) b)); (OpCentral, (g, CSingle (A:=FA) PrimFloat.zero))] s in
  snd r1 = [Ok Success] /\ ~ fstable_notneg 3 (fst r1) /\
  snd r2 = [Ok Success; Err ValueError] /\ ~ fnotneg (s_tsq (fst r2)).
Proof. exact ex_stable_fails. Qed.
Print Assumptions C79_stable_deep_cut_double_refuted.

(** It is kept by every deep cut with a relative margin of 2^-40. *)
Theorem C79_stable_deep_cut_margin_double : forall n p (s : stable FA) g b s1 o,
  (Z.of_nat n < 2 ^ 53)%Z -> fstable_notneg n s -> fcalc_for n p (s_helper s) -> length g = n ->
  fstable_update OpBias (g, CSingle (A:=FA) b) s = (s1, o) ->
  ffinite (s_tsq s1) -> (powerRZ 2 (-400) <= fval (s_tsq s1))%R ->
  ffinite b -> (0 <= fval b)%R -> (fval b * fval b <= fval (s_tsq s1) * (1 - powerRZ 2 (-40)))%R ->
  fstable_notneg n s1 /\ s_helper s1 = s_helper s /\ o = Ok Success.
Proof. exact stable_bias_margin. Qed.
Print Assumptions C79_stable_deep_cut_margin_double.

Example C79_margin_case : exists (s : stable FA) s1 (b : num FA),
  stable_init (A:=FA) (VScalar (A:=FA) 1%float) [0%float; 0%float] = Ok s /\
  fstable_notneg 2 s /\ fcalc_for 2 true (s_helper s) /\
  fstable_update OpBias ([1%float; 0%float], CSingle (A:=FA) b) s = (s1, Ok Success) /\
  ffinite (s_tsq s1) /\ (powerRZ 2 (-400) <= fval (s_tsq s1))%R /\
  ffinite b /\ (0 < fval b)%R /\ (fval b * fval b <= fval (s_tsq s1) * (1 - powerRZ 2 (-40)))%R.
Proof. exact ex_margin. Qed.

(** C80. Accuracy of the deep cut: the doubles [rho], [sigma], [delta] against what the same
    code computes in exact arithmetic from the same inputs. *)
Theorem C80_bias_cut_accuracy_double : forall n p (c : calc FA) (b T : num FA),
  fcalc_for n p c -> (Z.of_nat n < 2 ^ 53)%Z ->
  ffinite T -> (powerRZ 2 (-400) <= fval T)%R -> ffinite b -> (0 <= fval b)%R ->
  (fval b * fval b <= fval T)%R ->
  forall cR : calc RA, calc_for n p cR ->
  exists rho sigma delta : num FA, exists r s d : R,
  calc_bias_cut c b T = Ok (Success, Some (rho, sigma, delta)) /\
  calc_bias_cut cR (fval b) (fval T) = Ok (Success, Some (r, s, d)) /\
  ffinite rho /\ ffinite sigma /\ ffinite delta /\
  (Rabs (fval rho - r) <= 8 * u53 * r)%R /\
  (Rabs (fval sigma - s) <= 16 * u53 * s)%R /\
  (Rabs (fval delta - d) <= 64 * u53)%R.
Proof. exact bias_accuracy. Qed.
Print Assumptions C80_bias_cut_accuracy_double.

Example C80_case : exists (c : calc FA) (cR : calc RA) (b T : num FA),
  fcalc_for 2 true c /\ calc_for 2 true cR /\ ffinite T /\ (powerRZ 2 (-400) <= fval T)%R /\
  ffinite b /\ (0 < fval b)%R /\ (fval b * fval b <= fval T)%R /\
  calc_bias_cut c b T = Ok (Success, Some (0x1.5555555555555p-1, 0x1.c71c71c71c71cp-1, 1)%float).
Proof. exact ex_accuracy. Qed.

Theorem C80_central_cut_accuracy_double : forall n p (c : calc FA) (T : num FA),
  fcalc_for n p c -> (Z.of_nat n < 2 ^ 53)%Z ->
  ffinite T -> (powerRZ 2 (-400) <= fval T)%R ->
  forall (b : num FA) (cR : calc RA) (b' : R), calc_for n p cR ->
  exists rho sigma delta : num FA, exists r s d : R,
  fstrat_of OpCentral c (CSingle (A:=FA) b) T = Ok (Success, Some (rho, sigma, delta)) /\
  strat_of OpCentral cR (CSingle (A:=RA) b') (fval T) = Ok (Success, Some (r, s, d)) /\
  ffinite rho /\ ffinite sigma /\ ffinite delta /\
  (Rabs (fval rho - r) <= 5 * u53 * r)%R /\
  (Rabs (fval sigma - s) <= 1 * u53 * s)%R /\
  (Rabs (fval delta - d) <= 9 * u53 * d)%R.
Proof. exact central_accuracy. Qed.
Print Assumptions C80_central_cut_accuracy_double.

(** The discrete variant does the same as the deep cut for such offsets. *)
Theorem C80_q_cut_accuracy_double : forall n p (c : calc FA) (b T : num FA),
  fcalc_for n p c -> (Z.of_nat n < 2 ^ 53)%Z ->
  ffinite T -> (powerRZ 2 (-400) <= fval T)%R -> ffinite b -> (0 <= fval b)%R ->
  (fval b * fval b <= fval T)%R ->
  forall cR : calc RA, calc_for n p cR ->
  exists rho sigma delta : num FA, exists r s d : R,
  fstrat_of OpQ c (CSingle (A:=FA) b) T = Ok (Success, Some (rho, sigma, delta)) /\
  strat_of OpQ cR (CSingle (A:=RA) (fval b)) (fval T) = Ok (Success, Some (r, s, d)) /\
  ffinite rho /\ ffinite sigma /\ ffinite delta /\
  (Rabs (fval rho - r) <= 8 * u53 * r)%R /\
  (Rabs (fval sigma - s) <= 16 * u53 * s)%R /\
  (Rabs (fval delta - d) <= 64 * u53)%R.
Proof. exact q_accuracy. Qed.
Print Assumptions C80_q_cut_accuracy_double.

Example C80_others_case : exists (c : calc FA) (T : num FA),
  fcalc_for 2 true c /\ ffinite T /\ (powerRZ 2 (-400) <= fval T)%R /\
  fstrat_of OpCentral c (CSingle (A:=FA) 0%float) T = Ok (Success, Some (0x1.5555555555555p-2, 0x1.5555555555555p-1, 0x1.5555555555555p+0)%float) /\
  fstrat_of OpQ c (CSingle (A:=FA) 0.5%float) T = Ok (Success, Some (0x1.5555555555555p-1, 0x1.c71c71c71c71cp-1, 1)%float).
Proof. exact ex_accuracy_others. Qed.

(** C81. Binary search on double bounds.  The threshold [t] is a real number; the
    oracle accepts above it and rejects below it. *)
Theorem C81_bsearch_double : forall (B : Type) (f : B -> num FA -> B * res bool) (t : R),
  (forall o x, ffinite x -> exists b, snd (f o x) = Ok b /\
     (b = true -> (t <= fval x)%R) /\ (b = false -> (fval x <= t)%R)) ->
  forall (tol : num FA) (maxit : Z) o (lower upper : num FA) o' v k,
  ffinite tol -> ffinite lower -> ffinite upper -> ffinite (upper - lower)%float ->
  (fval lower <= t <= fval upper)%R -> (0 <= maxit)%Z ->
  bsearch f (narrow_num (A:=FA) tol) (mid_num (A:=FA)) maxit o lower upper = (o', Ok (v, k)) ->
  ffinite v /\ (t <= fval v <= fval upper)%R /\ (0 <= k <= maxit)%Z /\
  ((k < maxit)%Z -> ((fval v - t) / 2 * (1 - u53) - tiny < fval tol)%R) /\
  (forall j : nat, (Z.of_nat j < maxit)%Z ->
     (bs_width_bound (fval lower) (fval upper) j / 2 * (1 + u53) + tiny < fval tol)%R -> (k <= Z.of_nat j)%Z) /\
  (k = maxit -> (fval v - t <= bs_width_bound (fval lower) (fval upper) (Z.to_nat maxit))%R).
Proof. exact bsearch_double. Qed.
Print Assumptions C81_bsearch_double.

Example C81_case :
  (forall o x, ffinite x -> exists b, snd (gt_half o x) = Ok b /\
     (b = true -> (/ 2 <= fval x)%R) /\ (b = false -> (fval x <= / 2)%R)) /\
  ffinite (0x1p-20)%float /\ ffinite 0%float /\ ffinite 1%float /\ ffinite (1 - 0)%float /\
  (fval 0%float <= / 2 <= fval 1%float)%R /\
  bsearch gt_half (narrow_num (A:=FA) (0x1p-20)%float) (mid_num (A:=FA)) 2000 0%nat 0%float 1%float
    = (20%nat, Ok (0x1.00002p-1%float, 20%Z)).
Proof. exact ex_bs. Qed.

(** With the default options (2000 iterations, tolerance 1e-20) the search of the docstring,
    [gamma > 0.5] on (0, 1), never meets its tolerance in doubles: it calls the oracle 2000
    times, where 66 calls suffice in exact arithmetic (third clause of C10). *)
Theorem C81_bsearch_default_tolerance_refuted :
  exists (f : nat -> num FA -> nat * res bool) (t : R) (tol lower upper v : num FA),
  (forall o x, ffinite x -> exists b, snd (f o x) = Ok b /\
     (b = true -> (t <= fval x)%R) /\ (b = false -> (fval x <= t)%R)) /\
  ffinite tol /\ ffinite lower /\ ffinite upper /\ ffinite (upper - lower)%float /\
  (fval lower <= t <= fval upper)%R /\ ((fval upper - fval lower) / 2 ^ 67 < fval tol)%R /\
  bsearch f (narrow_num (A:=FA) tol) (mid_num (A:=FA)) 2000 0%nat lower upper = (2000%nat, Ok (v, 2000%Z)).
Proof. exact ex_bs_default. Qed.
Print Assumptions C81_bsearch_default_tolerance_refuted.

(** C82. Containment (C20) is an exact-arithmetic property.  In doubles the first central
    cut of the unit disc already leaves out a point of the half that was kept: (0, 1). *)
Theorem C82_containment_double_refuted :
  exists (e e1 : ell FA) (g : vec FA) (x : nat -> R),
  ell_init (A:=FA) (VScalar (A:=FA) 1%float) [0%float; 0%float] = Ok e /\
  fell_update OpCentral (g, CSingle (A:=FA) PrimFloat.zero) e = (e1, Ok Success) /\
  in_ellipsoid 2 (ffv (xc e)) (fval (kappa e)) (ffm (mq e)) x /\
  (cutval 2 (ffv g) (ffv (xc e)) x <= 0)%R /\
  ~ in_ellipsoid 2 (ffv (xc e1)) (fval (kappa e1)) (ffm (mq e1)) x.
Proof. exact ex_containment. Qed.
Print Assumptions C82_containment_double_refuted.
