(** C80 and C16 in doubles, for the parallel cuts. *)
From Coq Require Import Reals ZArith Floats List.
From Verif Require Import Arith Vec ModelCalc ModelEll ModelStable SpecDrivers SpecFloating SpecCut.
From Verif Require Import PFloatAcc4 PFloatAcc5 PFloatPar2 PFloatPar3 PFloatPar4.
Import ListNotations.
Local Open Scope R_scope.

(** C80. Accuracy of the parallel central cut in doubles: the answer [rho], [sigma], [delta] against the
    answer of the same code in exact arithmetic.  The first offset and any further offsets are ignored. *)
Theorem C80_parallel_central_accuracy_double : forall n (c : calc FA) (b T : num FA),
  fcalc_for n true c -> (Z.of_nat n < 2 ^ 53)%Z ->
  ffinite T -> powerRZ 2 (-400) <= fval T -> ffinite b -> 0 <= fval b ->
  fval b * fval b < fval T ->
  forall (b0 : option (num FA)) (tl : list (option (num FA))) (cR : calc RA) (b0' : option R) (tl' : list (option R)),
  calc_for n true cR ->
  exists rho sigma delta : num FA, exists r s d : R,
  fstrat_of OpCentral c (CList (A:=FA) (b0 :: Some b :: tl)) T = Ok (Success, Some (rho, sigma, delta)) /\
  strat_of OpCentral cR (CList (A:=RA) (b0' :: Some (fval b) :: tl')) (fval T) = Ok (Success, Some (r, s, d)) /\
  ffinite rho /\ ffinite sigma /\ ffinite delta /\
  Rabs (fval rho - r) <= 24 * u53 * r + tiny /\
  Rabs (fval sigma - s) <= 24 * u53 * s /\
  Rabs (fval delta - d) <= 61 * u53 * d.
Proof. exact par_central_accuracy. Qed.
Print Assumptions C80_parallel_central_accuracy_double.

Example C80_parallel_central_case : exists (c : calc FA) (cR : calc RA) (b T : num FA),
  fcalc_for 2 true c /\ calc_for 2 true cR /\ ffinite T /\ powerRZ 2 (-400) <= fval T /\
  ffinite b /\ 0 < fval b /\ fval b * fval b < fval T /\
  fstrat_of OpCentral c (CList (A:=FA) [Some 0%float; Some b]) T =
  Ok (Success, Some (0x1.dbf8c9efc6577p-3, 0x1.dbf8c9efc6577p-1, 0x1.c480e6c207351p+0)%float).
Proof. exact ex_par_central. Qed.

(** C80. Accuracy of the parallel deep cut in doubles, for [0 <= b0 <= b1] with [b1] clearly inside the ellipsoid,
    both as a usual cut and as a discrete one.  Further offsets are ignored. *)
Theorem C80_parallel_deep_accuracy_double : forall k n (c : calc FA) (b0 b1 T : num FA), k = OpBias \/ k = OpQ ->
  fcalc_for n true c -> (Z.of_nat n < 2 ^ 53)%Z ->
  ffinite T -> powerRZ 2 (-400) <= fval T <= powerRZ 2 400 -> ffinite b0 -> ffinite b1 ->
  0 <= fval b0 <= fval b1 -> fval b1 * fval b1 <= (1 - 2 * u53) * fval T ->
  forall (tl : list (option (num FA))) (cR : calc RA) (tl' : list (option R)),
  calc_for n true cR ->
  exists rho sigma delta : num FA, exists r s d : R,
  fstrat_of k c (CList (A:=FA) (Some b0 :: Some b1 :: tl)) T = Ok (Success, Some (rho, sigma, delta)) /\
  strat_of k cR (CList (A:=RA) (Some (fval b0) :: Some (fval b1) :: tl')) (fval T) = Ok (Success, Some (r, s, d)) /\
  ffinite rho /\ ffinite sigma /\ ffinite delta /\
  Rabs (fval rho - r) <= 58 * u53 * r + tiny /\
  Rabs (fval sigma - s) <= 51 * u53 * s /\
  Rabs (fval delta - d) <= 96 * u53.
Proof. exact par_deep_accuracy. Qed.
Print Assumptions C80_parallel_deep_accuracy_double.

Example C80_parallel_deep_case : exists (c : calc FA) (cR : calc RA) (b0 b1 T : num FA),
  fcalc_for 2 true c /\ calc_for 2 true cR /\ ffinite T /\ powerRZ 2 (-400) <= fval T <= powerRZ 2 400 /\
  ffinite b0 /\ ffinite b1 /\ 0 < fval b0 < fval b1 /\ fval b1 * fval b1 <= (1 - 2 * u53) * fval T /\
  (forall k, k = OpBias \/ k = OpQ -> fstrat_of k c (CList (A:=FA) [Some b0; Some b1]) T =
   Ok (Success, Some (0x1.78f41b3e3d74ep-2, 0x1.f69acefda7468p-1, 0x1.b2a475c8a8f42p+0)%float)).
Proof. exact ex_par_deep. Qed.

(** C80. The restriction to [0 <= b0] is needed.  With a negative first offset [tsq + n*b0*b1] may cancel completely:
    here the doubles answer [rho = sigma = 0] (and the discrete rule answers NoEffect) whereas the exact
    [rho] and [sigma] are positive and both rules answer Success. *)
Theorem C80_parallel_negative_offset_refuted : exists (c : calc FA) (cR : calc RA) (b0 b1 T : num FA),
  fcalc_for 2 true c /\ calc_for 2 true cR /\ ffinite T /\ ffinite b0 /\ ffinite b1 /\
  fval T = 1 /\ fval b0 < 0 < fval b1 /\ fval b1 * fval b1 <= (1 - 2 * u53) * fval T /\
  (exists delta : num FA, fstrat_of OpBias c (CList (A:=FA) [Some b0; Some b1]) T = Ok (Success, Some (0, 0, delta)%float)) /\
  fstrat_of OpQ c (CList (A:=FA) [Some b0; Some b1]) T = Ok (NoEffect, None) /\
  (exists r s d : R, 0 < r /\ 0 < s /\ forall k, k = OpBias \/ k = OpQ ->
    strat_of k cR (CList (A:=RA) [Some (fval b0); Some (fval b1)]) (fval T) = Ok (Success, Some (r, s, d))).
Proof. exact neg_offset_double. Qed.
Print Assumptions C80_parallel_negative_offset_refuted.

(** C16. In doubles the old formula of the parallel central cut does not agree with the current one: it divides
    a cancelled difference by a small number.  Here it answers [sigma > 5/4] (the new matrix would be
    indefinite), whereas its exact value is at most 1 and the current formula answers 1. *)
Theorem C16_old_central_double_refuted : exists (c : calc FA) (cR : calc RA) (b T : num FA),
  fcalc_for 2 true c /\ calc_for 2 true cR /\ ffinite T /\ ffinite b /\
  0 < fval b /\ fval b * fval b < fval T /\
  (exists rho sigma delta : num FA,
     core_parallel_central_cut_old (c_helper c) b T = Ok (rho, sigma, delta) /\ 5 / 4 < fval sigma) /\
  (exists rho sigma delta : R,
     core_parallel_central_cut_old (c_helper cR) (fval b) (fval T) = Ok (rho, sigma, delta) /\ sigma <= 1) /\
  (exists rho delta : num FA,
     core_parallel_central_cut (c_helper c) b T = Ok (rho, 1%float, delta)).
Proof. exact old_central_double. Qed.
Print Assumptions C16_old_central_double_refuted.

(** C16. The same for the old formulas of the parallel deep cut, on a narrow band near the centre.  In exact arithmetic all four
    give the same answer; in doubles two of the old ones answer [sigma > 5/4], and the third takes its
    central branch and moves the centre by more than 1/3, whereas the exact move is less than 10^-6.  The
    current formula answers [sigma = 1]. *)
Theorem C16_old_parallel_double_refuted : exists (c : calc FA) (cR : calc RA) (b0 b1 T : num FA),
  fcalc_for 2 true c /\ calc_for 2 true cR /\ ffinite b0 /\ ffinite b1 /\ ffinite T /\
  0 < fval b0 < fval b1 /\ fval b1 * fval b1 < fval T /\
  (exists rho sigma delta : num FA, let b0b1 := amul (a:=FA) b0 b1 in
     core_parallel_bias_cut_old (c_helper c) b0 b1 T = Ok (rho, sigma, delta) /\
     core_parallel_bias_cut_fast2 (c_helper c) b0 b1 T b0b1 (aadd (a:=FA) T (amul (a:=FA) (n_f (c_helper c)) b0b1)) =
       Ok (rho, sigma, delta) /\
     5 / 4 < fval sigma) /\
  (exists rho sigma delta : num FA, let b0b1 := amul (a:=FA) b0 b1 in
     core_parallel_bias_cut_fast_old (c_helper c) b0 b1 T b0b1 (aadd (a:=FA) T (amul (a:=FA) (n_f (c_helper c)) b0b1)) =
       Ok (rho, sigma, delta) /\
     1 / 3 < fval rho) /\
  (exists r s d : R, let b0b1 := fval b0 * fval b1 in let eta := fval T + 2 * b0b1 in
     core_parallel_bias_cut (c_helper cR) (fval b0) (fval b1) (fval T) = Ok (r, s, d) /\
     core_parallel_bias_cut_old (c_helper cR) (fval b0) (fval b1) (fval T) = Ok (r, s, d) /\
     core_parallel_bias_cut_fast2 (c_helper cR) (fval b0) (fval b1) (fval T) b0b1 eta = Ok (r, s, d) /\
     core_parallel_bias_cut_fast_old (c_helper cR) (fval b0) (fval b1) (fval T) b0b1 eta = Ok (r, s, d) /\
     r < / 1000000 /\ s < 9 / 8) /\
  (exists rho delta : num FA, core_parallel_bias_cut (c_helper c) b0 b1 T = Ok (rho, 1%float, delta) /\ fval rho < / 10000000).
Proof. exact old_parallel_double. Qed.
Print Assumptions C16_old_parallel_double_refuted.
