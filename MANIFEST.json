{
 "claims": [
  {
   "property": "C01",
   "status": "proved",
   "theorems": [
    "C01_feas_returns_accepted_point"
   ],
   "note": ""
  },
  {
   "property": "C02",
   "status": "proved",
   "theorems": [
    "C02_feas_none_causes",
    "C02_feas_call_budget"
   ],
   "note": "causes of None and the number of oracle calls"
  },
  {
   "property": "C03",
   "status": "proved",
   "theorems": [
    "C03_optim_value_achieved"
   ],
   "note": ""
  },
  {
   "property": "C04",
   "status": "proved",
   "theorems": [
    "C04_optim_best_value"
   ],
   "note": ""
  },
  {
   "property": "C05",
   "status": "proved",
   "theorems": [
    "C05_optim_central_on_improvement"
   ],
   "note": ""
  },
  {
   "property": "C06",
   "status": "proved",
   "theorems": [
    "C06_optim_q_value_achieved"
   ],
   "note": ""
  },
  {
   "property": "C07",
   "status": "proved",
   "theorems": [
    "C07_optim_q_retry_protocol"
   ],
   "note": ""
  },
  {
   "property": "C08",
   "status": "proved",
   "theorems": [
    "C08_optim_best_point_is_stable",
    "C08_optim_q_best_point_is_stable_refuted",
    "C08_optim_q_best_point_if_not_shared"
   ],
   "note": "holds for cutting_plane_optim; refuted for cutting_plane_optim_q with an oracle that returns the centre array itself, proved when the oracle returns a fresh array"
  },
  {
   "property": "C09",
   "status": "proved",
   "theorems": [
    "C09_bsearch_bracket"
   ],
   "note": ""
  },
  {
   "property": "C10",
   "status": "proved",
   "theorems": [
    "C10_bsearch_real_precision"
   ],
   "note": "over exact reals"
  },
  {
   "property": "C11",
   "status": "proved",
   "theorems": [
    "C11_doubles",
    "C11_no_rounding",
    "C11_any_size",
    "C11_big_refuted",
    "C11_outside_refuted",
    "C11_bsearch_int",
    "C11_formulas",
    "C11_any_tolerance"
   ],
   "note": ""
  },
  {
   "property": "C12",
   "status": "proved",
   "theorems": [
    "C12_adaptor_isolates"
   ],
   "note": ""
  },
  {
   "property": "C13",
   "status": "proved",
   "theorems": [
    "C13_bsearch_adaptor_witness"
   ],
   "note": ""
  },
  {
   "property": "C14",
   "status": "proved",
   "theorems": [
    "C14_no_math_error",
    "C14_bias_cut_total",
    "C14_parallel_total",
    "C14_discrete_total",
    "C14_central_total"
   ],
   "note": ""
  },
  {
   "property": "C15",
   "status": "proved",
   "theorems": [
    "C15_ranges_deep",
    "C15_ranges_meeting"
   ],
   "note": ""
  },
  {
   "property": "C16",
   "status": "proved",
   "theorems": [
    "C16_parallel_formulations",
    "C16_parallel_central_formulations",
    "C16_old_central_double_refuted",
    "C16_old_parallel_double_refuted"
   ],
   "note": ""
  },
  {
   "property": "C17",
   "status": "proved",
   "theorems": [
    "C17_deep_zero_is_central",
    "C17_parallel_zero_is_central",
    "C17_parallel_tau_is_single",
    "C17_fallback_continuous"
   ],
   "note": ""
  },
  {
   "property": "C18",
   "status": "proved",
   "theorems": [
    "C18_parallel_off",
    "C18_one_element",
    "C18_none_bound",
    "C18_empty"
   ],
   "note": ""
  },
  {
   "property": "C19",
   "status": "proved",
   "theorems": [
    "C19_status_bias",
    "C19_status_bias_q",
    "C19_status_parallel",
    "C19_status_parallel_q",
    "C19_triple_iff_success"
   ],
   "note": ""
  },
  {
   "property": "C20",
   "status": "proved",
   "theorems": [
    "C20_containment",
    "C20_containment_stable"
   ],
   "note": ""
  },
  {
   "property": "C21",
   "status": "proved",
   "theorems": [
    "C21_containment_run",
    "C21_containment_run_stable"
   ],
   "note": ""
  },
  {
   "property": "C22",
   "status": "proved",
   "theorems": [
    "C22_nosoln_truthful",
    "C22_nosoln_truthful_stable"
   ],
   "note": ""
  },
  {
   "property": "C23",
   "status": "proved",
   "theorems": [
    "C23_refused_unchanged",
    "C23_refused_unchanged_stable"
   ],
   "note": ""
  },
  {
   "property": "C24",
   "status": "proved",
   "theorems": [
    "C24_init",
    "C24_init_semidefinite",
    "C24_stays_positive_definite",
    "C24_omega_positive"
   ],
   "note": ""
  },
  {
   "property": "C25",
   "status": "proved",
   "theorems": [
    "C25_new_centre_satisfies_cut",
    "C25_new_centre_stable"
   ],
   "note": ""
  },
  {
   "property": "C26",
   "status": "proved",
   "theorems": [
    "C26_tsq_is_max",
    "C26_tsq_bounds_stable",
    "C26_tsq_attained_stable"
   ],
   "note": ""
  },
  {
   "property": "C27",
   "status": "proved",
   "theorems": [
    "C27_volume_factor",
    "C27_det_product",
    "C27_volume_init",
    "C27_volume_step",
    "C27_volume_positive",
    "C27_volume_shrinks",
    "C27_volume_run",
    "C27_smallest",
    "C27_smallest_deep",
    "C27_monotone",
    "C27_parallel_helps",
    "C27_far_plane_refuted",
    "C27_stable_volume_shrinks",
    "C27_same_volume",
    "C27_stable_smallest"
   ],
   "note": ""
  },
  {
   "property": "C28",
   "status": "proved",
   "theorems": [
    "C28_no_defer_trick"
   ],
   "note": ""
  },
  {
   "property": "C29",
   "status": "proved",
   "theorems": [
    "C29_straddling_bias_cut_loses_points"
   ],
   "note": ""
  },
  {
   "property": "C30",
   "status": "proved",
   "theorems": [
    "C30_same_from_constructor",
    "C30_same_run",
    "C30_same_refusal"
   ],
   "note": "gradients non-zero and every Ell state on the way positive definite (holds unless a cut touches the ellipsoid in one point)"
  },
  {
   "property": "C31",
   "status": "proved",
   "theorems": [
    "C31_no_defer_refuted"
   ],
   "note": "false of the code: the theorem is the counterexample"
  },
  {
   "property": "C32",
   "status": "proved",
   "theorems": [
    "C32_exception_safety_refuted",
    "C32_touching_cut_fails"
   ],
   "note": "false of the code: the theorem is the counterexample; C23_refused_unchanged_stable covers every other outcome"
  },
  {
   "property": "C33",
   "status": "proved",
   "theorems": [
    "C33_zero_gradient_ell",
    "C33_stable_zero_central_double",
    "C33_stable_zero_central",
    "C33_stable_zero_deep"
   ],
   "note": "Ell raises; EllStable divides by zero for a central cut and reports NoSoln for a deep one"
  },
  {
   "property": "C34",
   "status": "proved",
   "theorems": [
    "C34_feas_keeps_feasible_points",
    "C34_nosoln_means_infeasible",
    "C34_small_means_thin",
    "C34_feas_keeps_feasible_points_stable",
    "C34_nosoln_means_infeasible_stable",
    "C34_small_means_thin_stable"
   ],
   "note": ""
  },
  {
   "property": "C35",
   "status": "proved",
   "theorems": [
    "C35_ell_converges",
    "C35_stable_converges",
    "C35_ell_converges_any",
    "C35_stable_converges_any"
   ],
   "note": "With a ball of radius r in S inside the initial ball, the exact-arithmetic run returns a point after at most n(n+1)ln(kappa/r^2) iterations, for Ell and EllStable, with parallel cuts on or off; the _any variants start from any scalar or diagonal ellipsoid. The oracle must answer at every point of the right length (an oracle that raises ends the run)."
  },
  {
   "property": "C36",
   "status": "proved",
   "theorems": [
    "C36_optim_keeps_better_points",
    "C36_nosoln_means_optimal",
    "C36_q_keeps_better_points",
    "C36_q_nosoln_means_optimal",
    "C36_optim_keeps_better_points_stable",
    "C36_nosoln_means_optimal_stable",
    "C36_q_keeps_better_points_stable",
    "C36_q_nosoln_means_optimal_stable"
   ],
   "note": ""
  },
  {
   "property": "C37",
   "status": "proved",
   "theorems": [
    "C37_factor_decides",
    "C37_factorize_decides",
    "C37_fresh"
   ],
   "note": ""
  },
  {
   "property": "C38",
   "status": "proved",
   "theorems": [
    "C38_product",
    "C38_sqrt"
   ],
   "note": ""
  },
  {
   "property": "C39",
   "status": "proved",
   "theorems": [
    "C39_witness"
   ],
   "note": ""
  },
  {
   "property": "C40",
   "status": "proved",
   "theorems": [
    "C40_history_independent",
    "C40_wit_stale"
   ],
   "note": "any arithmetic; the theorem about the wit attribute exhibits the stale entry"
  },
  {
   "property": "C41",
   "status": "proved",
   "theorems": [
    "C41_false_has_witness",
    "C41_psd_accepted",
    "C41_accepted_is_psd_refuted"
   ],
   "note": "the converse is false of the code: C41_accepted_is_psd_refuted is the counterexample"
  },
  {
   "property": "C42",
   "status": "proved",
   "theorems": [
    "C42_lmi_decides",
    "C42_init"
   ],
   "note": ""
  },
  {
   "property": "C43",
   "status": "proved",
   "theorems": [
    "C43_lmi_cut_valid"
   ],
   "note": ""
  },
  {
   "property": "C44",
   "status": "proved",
   "theorems": [
    "C44_lmi0_decides",
    "C44_lmi0_cut_valid",
    "C44_init",
    "C44_init_empty",
    "C44_lmi0_too_many_variables",
    "C44_lmi0_no_rows"
   ],
   "note": ""
  },
  {
   "property": "C45",
   "status": "proved",
   "theorems": [
    "C45_old_oracle_same",
    "C45_old_too_many_variables"
   ],
   "note": ""
  },
  {
   "property": "C46",
   "status": "proved",
   "theorems": [
    "C46_zero_gradient_infeasible",
    "C46_run_raises"
   ],
   "note": ""
  },
  {
   "property": "C47",
   "status": "proved",
   "theorems": [
    "C47_accepted_is_solution",
    "C47_nosoln_means_infeasible",
    "C47_small_means_thin",
    "C47_nosoln_means_infeasible_stable"
   ],
   "note": ""
  },
  {
   "property": "C48",
   "status": "proved",
   "theorems": [
    "C48_init",
    "C48_describes",
    "C48_decides_feasibility",
    "C48_domain",
    "C48_mismatch",
    "C48_empty",
    "C48_methods",
    "C48_grad2",
    "C48_one_input",
    "C48_one_price",
    "C48_one_price_feas"
   ],
   "note": "over exact reals; two inputs as in the class; gamma + v.y > 0, otherwise ValueError (C48_domain)"
  },
  {
   "property": "C49",
   "status": "proved",
   "theorems": [
    "C49_value_is_profit",
    "C49_reports_when_feasible",
    "C49_run"
   ],
   "note": ""
  },
  {
   "property": "C50",
   "status": "proved",
   "theorems": [
    "C50_one_price_optim",
    "C50_feas_cut_valid",
    "C50_optim_cut_valid",
    "C50_optim_oracle",
    "C50_run_optimal"
   ],
   "note": ""
  },
  {
   "property": "C51",
   "status": "proved",
   "theorems": [
    "C51_init",
    "C51_value_is_worst_case",
    "C51_reports_when_robust",
    "C51_cut_valid",
    "C51_run",
    "C51_run_optimal",
    "C51_one_price",
    "C51_misfit"
   ],
   "note": ""
  },
  {
   "property": "C52",
   "status": "proved",
   "theorems": [
    "C52_value_at_integer_point",
    "C52_run",
    "C52_fresh_retry",
    "C52_retry_misfit",
    "C52_one_entry",
    "C52_shift_refuted",
    "C52_keeps_better_points_refuted",
    "C52_cut_error"
   ],
   "note": "integer point and value proved; the shift identity is false of the code (wrong sign, profit_oracle.py:300): C52_shift_refuted and C52_keeps_better_points_refuted are counterexamples, C52_cut_error bounds the error"
  },
  {
   "property": "C53",
   "status": "proved",
   "theorems": [
    "C53_init",
    "C53_standard_case",
    "C53_empty_never_accepted",
    "C53_edge_beyond",
    "C53_decides_specification",
    "C53_wrong_length",
    "C53_after_any_history",
    "C53_run"
   ],
   "note": ""
  },
  {
   "property": "C54",
   "status": "proved",
   "theorems": [
    "C54_cut_valid",
    "C54_feas_oracle",
    "C54_run_infeasible"
   ],
   "note": ""
  },
  {
   "property": "C55",
   "status": "proved",
   "theorems": [
    "C55_stop_band_maximum",
    "C55_optim_oracle",
    "C55_run",
    "C55_run_optimal",
    "C55_no_stop_band_value",
    "C55_no_stop_band_run"
   ],
   "note": ""
  },
  {
   "property": "C56",
   "status": "proved",
   "theorems": [
    "C56_autocorrelation",
    "C56_empty",
    "C56_power_spectrum"
   ],
   "note": ""
  },
  {
   "property": "C57",
   "status": "proved",
   "theorems": [
    "C57_double_residual_refuted",
    "C57_sound",
    "C57_iterate",
    "C57_error",
    "C57_only_value_error",
    "C57_misfit",
    "C57_stretch",
    "C57_true_residual",
    "C57_no_zero_division"
   ],
   "note": ""
  },
  {
   "property": "C58",
   "status": "proved",
   "theorems": [
    "C58_converges_in_n_steps",
    "C58_residual_vanishes"
   ],
   "note": ""
  },
  {
   "property": "C59",
   "status": "proved",
   "theorems": [
    "C59_exact_start_rejected"
   ],
   "note": ""
  },
  {
   "property": "C60",
   "status": "proved",
   "theorems": [
    "C60_fib",
    "C60_fibonacci_function"
   ],
   "note": ""
  },
  {
   "property": "C61",
   "status": "proved",
   "theorems": [
    "C61_missing_cut_accepted",
    "C61_shallow_cut_asserts"
   ],
   "note": ""
  },
  {
   "property": "C62",
   "status": "proved",
   "theorems": [
    "C62_ell_optim_converges",
    "C62_stable_optim_converges"
   ],
   "note": "Any completed run (an oracle that raises ends the run). Both search spaces, parallel cuts on or off."
  },
  {
   "property": "C63",
   "status": "proved",
   "theorems": [
    "C63_lowpass_converges",
    "C63_lowpass_near_optimal"
   ],
   "note": "Ell. Stop band with at least one sample for the optimising run (f_ws < 1)."
  },
  {
   "property": "C64",
   "status": "proved",
   "theorems": [
    "C64_ell_margin",
    "C64_stable_margin",
    "C64_ell_margin_optim",
    "C64_stable_margin_optim"
   ],
   "note": "Both drivers, both search spaces, parallel cuts on or off."
  },
  {
   "property": "C65",
   "status": "proved",
   "theorems": [
    "C65_lmi_converges",
    "C65_lmi_converges_stable",
    "C65_lmi0_converges",
    "C65_lmi0_converges_stable",
    "C65_lmi_old_converges",
    "C65_lmi_old_converges_stable"
   ],
   "note": "Three oracles, two search spaces. The witness vector has norm at least 1, so each cut leaves the margin eps of C64."
  },
  {
   "property": "C66",
   "status": "proved",
   "theorems": [
    "C66_near_optimal",
    "C66_near_optimal_stable",
    "C66_robust_near_optimal",
    "C66_robust_near_optimal_stable"
   ],
   "note": "Two oracles, two search spaces, parallel cuts on or off; instance of C64."
  },
  {
   "property": "C67",
   "status": "proved",
   "theorems": [
    "C67_stationary_is_best",
    "C67_zero_gradient",
    "C67_optimum_raises",
    "C67_optimum_raises_stable"
   ],
   "note": "Global optimality by the tangent inequality of the logarithmic gap; the raised exceptions are those of C33."
  },
  {
   "property": "C68",
   "status": "proved",
   "theorems": [
    "C68_empty",
    "C68_total",
    "C68_fails",
    "C68_minimum_phase",
    "C68_phase_unique",
    "C68_power"
   ],
   "note": "Over exact reals; the FFT is modelled by its defining sum. How closely h is the factor of r for n > 2 is not covered."
  },
  {
   "property": "C69",
   "status": "proved",
   "theorems": [
    "C69_circular",
    "C69_short_roundtrip",
    "C69_valid_input_refuted",
    "C69_negative_sample_refuted"
   ],
   "note": "Refuted for the claim that every input without a factor is rejected; the positive parts hold as stated."
  },
  {
   "property": "C70",
   "status": "proved",
   "theorems": [
    "C70_column",
    "C70_column_empty",
    "C70_column_refuted"
   ],
   "note": "The column form is modelled separately, following numpy's convention that fft acts on the last axis."
  },
  {
   "property": "C71",
   "status": "proved",
   "theorems": [
    "C71_ell_near_optimal",
    "C71_stable_near_optimal",
    "C71_ell_near_optimal_margin",
    "C71_stable_near_optimal_margin"
   ],
   "note": "Over exact reals, conditional on bsearch returning (no exception)."
  },
  {
   "property": "C72",
   "status": "proved",
   "theorems": [
    "C72_recentring_refuted"
   ],
   "note": "Refutes the stronger claim that covering the solutions initially suffices."
  },
  {
   "property": "C73",
   "status": "proved",
   "theorems": [
    "C73_recovers_minimum_phase",
    "C73_round_trip",
    "C73_other_phase_refuted"
   ],
   "note": "Exact reals. Existence of a minimum-phase factor (Fejer-Riesz) is a hypothesis, not proved: the theorem starts from the filter. C73_other_phase_refuted shows the round trip is not the identity for other filters."
  },
  {
   "property": "C74",
   "status": "proved",
   "theorems": [
    "C74_ell_symmetric_double"
   ],
   "note": "double arithmetic; independent of the summation order of the BLAS dot products"
  },
  {
   "property": "C75",
   "status": "proved",
   "theorems": [
    "C75_stable_never_negative_double",
    "C75_stable_step_double"
   ],
   "note": "double arithmetic; C75_stable_step_double covers the three methods under a condition on the calculated answer"
  },
  {
   "property": "C76",
   "status": "proved",
   "theorems": [
    "C76_ell_positive_double_refuted"
   ],
   "note": "refuted for Ell by a run computed in the kernel; the run uses left-to-right sums without fused multiply-add"
  },
  {
   "property": "C77",
   "status": "proved",
   "theorems": [
    "C77_no_math_error_double",
    "C77_no_math_error_double_any",
    "C77_tiny_tsq_refuted"
   ],
   "note": "Proved for tsq >= 2^-400 (every positive tsq except for parallel deep cuts); the tiny-tsq case is refuted by a computed example."
  },
  {
   "property": "C78",
   "status": "proved",
   "theorems": [
    "C78_nosoln_truthful_double",
    "C78_nosoln_complete_double"
   ],
   "note": "Truthfulness for all strategies; completeness for the single deep cut."
  },
  {
   "property": "C79",
   "status": "proved",
   "theorems": [
    "C79_stable_deep_cut_double_refuted",
    "C79_stable_deep_cut_margin_double"
   ],
   "note": "Refuted by a computed run without margin; proved with a relative margin of 2^-40."
  },
  {
   "property": "C80",
   "status": "proved",
   "theorems": [
    "C80_bias_cut_accuracy_double",
    "C80_central_cut_accuracy_double",
    "C80_q_cut_accuracy_double",
    "C80_parallel_central_accuracy_double",
    "C80_parallel_deep_accuracy_double",
    "C80_parallel_negative_offset_refuted"
   ],
   "note": "Single deep cut; the reference is the same model over the reals."
  },
  {
   "property": "C81",
   "status": "proved",
   "theorems": [
    "C81_bsearch_double",
    "C81_bsearch_default_tolerance_refuted"
   ],
   "note": "Proved for all inputs; the default-tolerance run is a computed counterexample to the exact-arithmetic iteration bound of C10."
  },
  {
   "property": "C82",
   "status": "proved",
   "theorems": [
    "C82_containment_double_refuted"
   ],
   "note": "Refuted by a computed cut; the exact-arithmetic property is C20."
  },
  {
   "property": "C83",
   "status": "proved",
   "theorems": [
    "C83_power_iteration",
    "C83_power_iteration4",
    "C83_power_iteration2",
    "C83_power_iteration3",
    "C83_argument1",
    "C83_argument4",
    "C83_argument2",
    "C83_misfit"
   ],
   "note": ""
  },
  {
   "property": "C84",
   "status": "proved",
   "theorems": [
    "C84_residual",
    "C84_residual4",
    "C84_value_test_refuted"
   ],
   "note": ""
  },
  {
   "property": "C85",
   "status": "proved",
   "theorems": [
    "C85_rate",
    "C85_rate4",
    "C85_rate2",
    "C85_rate3"
   ],
   "note": ""
  },
  {
   "property": "C86",
   "status": "proved",
   "theorems": [
    "C86_between",
    "C86_monotone"
   ],
   "note": ""
  },
  {
   "property": "C87",
   "status": "proved",
   "theorems": [
    "C87_largest_refuted",
    "C87_start_refuted"
   ],
   "note": ""
  },
  {
   "property": "C88",
   "status": "proved",
   "theorems": [
    "C88_factor_decides_double_refuted",
    "C88_lmi_decides_double_refuted"
   ],
   "note": ""
  },
  {
   "property": "C89",
   "status": "proved",
   "theorems": [
    "C89_accept_nearly_psd",
    "C89_reject_nearly_not_pd"
   ],
   "note": ""
  },
  {
   "property": "C90",
   "status": "proved",
   "theorems": [
    "C90_lmi_accept_double",
    "C90_lmi_reject_double"
   ],
   "note": ""
  },
  {
   "property": "C91",
   "status": "proved",
   "theorems": [
    "C91_lmi_cut_nonneg_double",
    "C91_lmi_old_cut_nonneg_double",
    "C91_lmi0_cut_nonneg_double"
   ],
   "note": ""
  },
  {
   "property": "C92",
   "status": "proved",
   "theorems": [
    "C92_init",
    "C92_update_exact",
    "C92_halves",
    "C92_zero_gradient_refuted",
    "C92_init_double_refuted"
   ],
   "note": "Exact-arithmetic part proved; the zero-gradient and rounding claims refuted by exhibited cases. The draft lacks update_bias_cut/update_central_cut, so the drivers cannot use it."
  },
  {
   "property": "C93",
   "status": "proved",
   "theorems": [
    "C93_lmi2_decides",
    "C93_lmi2_cut_valid",
    "C93_init"
   ],
   "note": ""
  },
  {
   "property": "C94",
   "status": "proved",
   "theorems": [
    "C94_lmi3_decides",
    "C94_lmi3_cut_valid",
    "C94_init",
    "C94_too_many_variables",
    "C94_no_rows"
   ],
   "note": ""
  },
  {
   "property": "C95",
   "status": "proved",
   "theorems": [
    "C95_init",
    "C95_init_one",
    "C95_same",
    "C95_symmetric",
    "C95_central_zero",
    "C95_missing",
    "C95_same_everywhere_refuted"
   ],
   "note": "C95_same is the agreement; C95_same_everywhere_refuted shows the exclusion is needed."
  },
  {
   "property": "C96",
   "status": "proved",
   "theorems": [
    "C96_feas_same",
    "C96_optim_same",
    "C96_optim_q_same",
    "C96_feas_answer_is_the_centre",
    "C96_adaptor_same",
    "C96_ell",
    "C96_stable",
    "C96_profit_q",
    "C96_profit_q_start"
   ],
   "note": ""
  },
  {
   "property": "C97",
   "status": "proved",
   "theorems": [
    "C97_signs",
    "C97_delta_below_one_refuted",
    "C97_central_is_bias_at_zero",
    "C97_same_step",
    "C97_same_sigma_refuted",
    "C97_cut_consistency_refuted"
   ],
   "note": ""
  },
  {
   "property": "C98",
   "status": "proved",
   "theorems": [
    "C98_ell_gradient",
    "C98_ell_centre",
    "C98_ell_stretch",
    "C98_stable_short",
    "C98_stable_long",
    "C98_stable_long_tsq",
    "C98_stable_centre"
   ],
   "note": ""
  },
  {
   "property": "C99",
   "status": "proved",
   "theorems": [
    "C99_feas_in_step",
    "C99_optim_in_step",
    "C99_optim_q_in_step",
    "C99_feas_raises",
    "C99_optim_raises",
    "C99_optim_q_raises",
    "C99_bsearch_raises"
   ],
   "note": ""
  }
 ]
}