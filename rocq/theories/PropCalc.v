(** Properties of the cut calculators (EllCalc, EllCalcCore). *)
From Coq Require Import Reals List Bool Lra.
From Verif Require Import Arith ModelCalc ModelEll SpecDrivers Spec SpecCut PCalc PCalc3 PCalc4 PCalcEx.
Import ListNotations.
Local Open Scope R_scope.

(** C14: no square root of a negative number and no division by zero, for
    any of the three dispatchers and any [beta] whatsoever. *)
Theorem C14_no_math_error : forall n p c k beta T,
  calc_for n p c -> 0 < T ->
  strat_of k c beta T <> Err ValueError /\ strat_of k c beta T <> Err ZeroDivision.
Proof. exact no_math_error. Qed.
Print Assumptions C14_no_math_error.

Theorem C14_bias_cut_total : forall n p c beta T,
  calc_for n p c -> 0 < T ->
  (0 <= beta -> exists st r, calc_bias_cut c beta T = Ok (st, r)) /\
  (beta < 0 -> calc_bias_cut c beta T = Err AssertionError).
Proof. exact bias_total. Qed.
Print Assumptions C14_bias_cut_total.

Theorem C14_parallel_total : forall n p c b0 b1 T,
  calc_for n p c -> 0 < T ->
  (b0 < 0 /\ sqrt T <= b1 /\ calc_parallel c b0 b1 T = Err AssertionError) \/
  ((0 <= b0 \/ b1 < sqrt T) /\ exists st r, calc_parallel c b0 b1 T = Ok (st, r)).
Proof. exact parallel_total. Qed.
Print Assumptions C14_parallel_total.

Theorem C14_discrete_total : forall n p c b0 b1 T,
  calc_for n p c -> 0 < T ->
  (exists st r, calc_bias_cut_q c b0 T = Ok (st, r)) /\
  (exists st r, calc_parallel_q c b0 b1 T = Ok (st, r)).
Proof. exact q_total. Qed.
Print Assumptions C14_discrete_total.

Theorem C14_central_total : forall n p c b0 b1 T,
  calc_for n p c -> 0 < T ->
  (exists st r, calc_single_or_parallel_central_cut c (CSingle b0) T = Ok (st, r)) /\
  (exists st r, calc_single_or_parallel_central_cut c (CList [Some b0; Some b1]) T = Ok (st, r)).
Proof. exact central_total. Qed.
Print Assumptions C14_central_total.

(** The constructor delivers such a calculator for n = 2, and a parallel cut with it. *)
Example C14_case : calc_for 2 true (calc_R true 2) /\
  strat_of OpBias (calc_R true 2) (@CList RA [Some 2; Some 3]) 12
  = Ok (Success, Some (12/5, 24/25, 1)).
Proof. split; [apply ex_calc|apply ex_par; discriminate]. Qed.

(** C15: ranges for deep and central cuts ... *)
Theorem C15_ranges_deep : forall n p c k beta T rho sigma delta,
  calc_for n p c -> 0 < T ->
  deep k beta ->
  strat_of k c beta T = Ok (Success, Some (rho, sigma, delta)) ->
  0 < sigma <= 1 /\ 0 <= delta /\ 0 <= rho <= sqrt T.
Proof. exact ranges_deep. Qed.
Print Assumptions C15_ranges_deep.

(** ... and for every cut that meets the ellipsoid ([t0] is a value of the
    linear form inside it that satisfies the cut).  If a second value does,
    the update is not degenerate. *)
Theorem C15_ranges_meeting : forall n p c k beta T rho sigma delta t0,
  calc_for n p c -> 0 < T ->
  bias_cond n k p beta T ->
  t0 * t0 <= T -> cut_holds k p beta t0 ->
  strat_of k c beta T = Ok (Success, Some (rho, sigma, delta)) ->
  0 <= sigma <= 1 /\ 0 <= delta /\ (k = OpQ -> 0 < sigma) /\
  (forall t1, t1 * t1 <= T -> cut_holds k p beta t1 -> t1 <> t0 -> sigma < 1 /\ 0 < delta).
Proof. exact ranges_meet. Qed.
Print Assumptions C15_ranges_meeting.

Example C15_case_deep : deep OpBias (@CList RA [Some 2; Some 3]) /\
  strat_of OpBias (calc_R true 2) (@CList RA [Some 2; Some 3]) 12
  = Ok (Success, Some (12/5, 24/25, 1)).
Proof. split; [right; exists 2; split; [reflexivity|lra]|apply ex_par; discriminate]. Qed.

Example C15_case_shallow : 0 * 0 <= 1 /\
  cut_holds OpQ true (@CList RA [Some (-1/2); Some (1/2)]) 0 /\
  strat_of OpQ (calc_R true 2) (@CList RA [Some (-1/2); Some (1/2)]) 1
  = Ok (Success, Some (0, 2/3, 3/2)).
Proof. split; [lra|]. split; [split; cbn [first_beta second_beta]; lra|apply ex_shallow]. Qed.

(** C16 *)
Theorem C16_parallel_formulations : forall n p c b0 b1 T,
  calc_for n p c -> 0 < T -> b0 <= b1 -> (b1 <= 0 \/ b1 * b1 < T) ->
  let h := c_helper c in
  let eta := T + INR n * (b0 * b1) in
  exists r : triple RA,
    core_parallel_bias_cut h b0 b1 T = Ok r /\
    core_parallel_bias_cut_fast h b0 b1 T (b0 * b1) eta = Ok r /\
    (b0 + b1 <> 0 -> core_parallel_bias_cut_old h b0 b1 T = Ok r /\
                     core_parallel_bias_cut_fast2 h b0 b1 T (b0 * b1) eta = Ok r) /\
    (b0 + b1 = 0 -> core_parallel_bias_cut_old h b0 b1 T = Err ZeroDivision /\
                    core_parallel_bias_cut_fast2 h b0 b1 T (b0 * b1) eta = Err ZeroDivision) /\
    (b0 < b1 -> core_parallel_bias_cut_fast_old h b0 b1 T (b0 * b1) eta = Ok r) /\
    (b0 = b1 -> b1 * b1 <= T ->
       core_parallel_bias_cut_fast_old h b0 b1 T (b0 * b1) eta = Ok (core_central_cut h (sqrt T)) /\
       snd (fst r) = 1).
Proof. exact formulations_agree. Qed.
Print Assumptions C16_parallel_formulations.

Theorem C16_parallel_central_formulations : forall n p c b1 T,
  calc_for n p c -> 0 < T -> 0 <= b1 -> b1 * b1 < T ->
  exists r : triple RA,
    core_parallel_central_cut (c_helper c) b1 T = Ok r /\
    (0 < b1 -> core_parallel_central_cut_old (c_helper c) b1 T = Ok r) /\
    (b1 = 0 -> core_parallel_central_cut_old (c_helper c) b1 T = Err ZeroDivision).
Proof. exact central_formulations_agree. Qed.
Print Assumptions C16_parallel_central_formulations.

Example C16_case : calc_for 2 true (calc_R true 2) /\ 0 < 12 /\ 2 <= 3 /\ 3 * 3 < 12.
Proof. split; [apply ex_calc|lra]. Qed.

(** C17 *)
Theorem C17_deep_zero_is_central : forall n p c tau,
  calc_for n p c -> 0 < tau ->
  core_bias_cut (c_helper c) 0 tau = Ok (core_central_cut (c_helper c) tau).
Proof. exact deep_zero_is_central. Qed.
Print Assumptions C17_deep_zero_is_central.

Theorem C17_parallel_zero_is_central : forall n p c b1 T,
  calc_for n p c -> 0 < T -> 0 <= b1 -> b1 * b1 < T ->
  core_parallel_bias_cut (c_helper c) 0 b1 T = core_parallel_central_cut (c_helper c) b1 T.
Proof. exact parallel_zero_is_central. Qed.
Print Assumptions C17_parallel_zero_is_central.

Theorem C17_parallel_tau_is_single : forall n p c beta tau,
  calc_for n p c -> 0 < tau -> - tau < beta <= tau ->
  core_parallel_bias_cut (c_helper c) beta tau (tau * tau) = core_bias_cut (c_helper c) beta tau.
Proof. exact parallel_tau_is_single. Qed.
Print Assumptions C17_parallel_tau_is_single.

(** The results of [calc_parallel] do not jump where it switches formulas. *)
Theorem C17_fallback_continuous : forall n p c b0 T,
  calc_for n p c -> 0 < T -> 0 <= b0 < sqrt T ->
  forall eps, 0 < eps -> exists d, 0 < d /\
  forall b1, Rabs (b1 - sqrt T) < d -> exists r s e r' s' e',
    calc_parallel c b0 b1 T = Ok (Success, Some (r, s, e)) /\
    calc_parallel c b0 (sqrt T) T = Ok (Success, Some (r', s', e')) /\
    Rabs (r - r') < eps /\ Rabs (s - s') < eps /\ Rabs (e - e') < eps.
Proof. exact fallback_continuous. Qed.
Print Assumptions C17_fallback_continuous.

Example C17_case : calc_for 2 true (calc_R true 2) /\ 0 < 2 /\ -2 < 1 <= 2 /\ 0 <= 1 < sqrt 4.
Proof. split; [apply ex_calc|]. rewrite sqrt_4. lra. Qed.

(** C18 *)
Theorem C18_parallel_off : forall k c b0 rest T,
  use_parallel_cut c = false ->
  strat_of k c (CList (Some b0 :: rest)) T = strat_of k c (CSingle b0) T.
Proof. exact parallel_off. Qed.
Print Assumptions C18_parallel_off.

Theorem C18_one_element : forall k c b0 T,
  strat_of k c (CList [Some b0]) T = strat_of k c (CSingle b0) T.
Proof. exact parallel_one. Qed.
Print Assumptions C18_one_element.

Theorem C18_none_bound : forall k c o0 rest T,
  use_parallel_cut c = true ->
  strat_of k c (CList (o0 :: None :: rest)) T = Err AssertionError.
Proof. exact parallel_none. Qed.
Print Assumptions C18_none_bound.

Theorem C18_empty : forall c T,
  strat_of OpBias c (CList []) T = Err IndexError /\ strat_of OpQ c (CList []) T = Err IndexError /\
  strat_of OpCentral c (CList []) T = strat_of OpCentral c (@CSingle RA 0) T.
Proof. exact parallel_empty. Qed.
Print Assumptions C18_empty.

Example C18_case : use_parallel_cut (calc_R false 2) = false /\
  strat_of OpQ (calc_R false 2) (@CSingle RA 1) 4 = Ok (Success, Some (4/3, 8/9, 1)).
Proof. split; [reflexivity|apply ex_single; discriminate]. Qed.

(** C19 *)
Theorem C19_status_bias : forall n p c beta T,
  calc_for n p c -> 0 < T ->
  ((exists r, calc_bias_cut c beta T = Ok (NoSoln, r)) <-> sqrt T < beta).
Proof. exact status_bias. Qed.
Print Assumptions C19_status_bias.

Theorem C19_status_bias_q : forall n p c beta T,
  calc_for n p c -> 0 < T ->
  ((exists r, calc_bias_cut_q c beta T = Ok (NoSoln, r)) <-> sqrt T < beta) /\
  ((exists r, calc_bias_cut_q c beta T = Ok (NoEffect, r)) <-> sqrt T + INR n * beta <= 0).
Proof. exact status_bias_q. Qed.
Print Assumptions C19_status_bias_q.

Theorem C19_status_parallel : forall n p c b0 b1 T,
  calc_for n p c -> 0 < T ->
  ((exists r, calc_parallel c b0 b1 T = Ok (NoSoln, r)) <-> b1 < b0 \/ sqrt T < b0).
Proof. exact status_parallel. Qed.
Print Assumptions C19_status_parallel.

Theorem C19_status_parallel_q : forall n p c b0 b1 T,
  calc_for n p c -> 0 < T ->
  ((exists r, calc_parallel_q c b0 b1 T = Ok (NoSoln, r)) <-> b1 < b0 \/ sqrt T < b0) /\
  ((exists r, calc_parallel_q c b0 b1 T = Ok (NoEffect, r)) <->
     b0 <= b1 /\ ((sqrt T <= b1 /\ sqrt T + INR n * b0 <= 0) \/
                  (b1 < sqrt T /\ T + INR n * (b0 * b1) <= 0))).
Proof. exact status_parallel_q. Qed.
Print Assumptions C19_status_parallel_q.

Theorem C19_triple_iff_success : forall n p c k beta T st r,
  calc_for n p c -> 0 < T ->
  strat_of k c beta T = Ok (st, r) -> ((exists t, r = Some t) <-> st = Success).
Proof. exact triple_iff_success. Qed.
Print Assumptions C19_triple_iff_success.

Example C19_case : calc_for 2 true (calc_R true 2) /\ sqrt 4 < 3 /\
  strat_of OpBias (calc_R true 2) (@CSingle RA 1) 4 = Ok (Success, Some (4/3, 8/9, 1)).
Proof. split; [apply ex_calc|]. rewrite sqrt_4. split; [lra|apply ex_single; discriminate]. Qed.

(** C27: squared volume factor of an accepted deep or central cut. *)
Theorem C27_volume_factor : forall n p c k beta T rho sigma delta,
  calc_for n p c -> 0 < T ->
  deep k beta ->
  strat_of k c beta T = Ok (Success, Some (rho, sigma, delta)) ->
  delta ^ n * (1 - sigma) <= exp (- / (INR n + 1)) < 1.
Proof. exact volume_factor. Qed.
Print Assumptions C27_volume_factor.

Example C27_case : deep OpBias (@CList RA [Some 2; Some 3]) /\
  strat_of OpBias (calc_R true 2) (@CList RA [Some 2; Some 3]) 12
  = Ok (Success, Some (12/5, 24/25, 1)).
Proof. split; [right; exists 2; split; [reflexivity|lra]|apply ex_par; discriminate]. Qed.
