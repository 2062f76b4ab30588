# Formal model of ellalgo in Rocq

The subject is the Python package in `/repo/src/ellalgo` (pinned commit), and
`/repo/experiment/power_iteration.py`.  The model lives in
`rocq/theories`, is written as total computable Gallina functions, and every definition cites the
file and lines it models.  The properties are listed in `properties.jsonl` (C01...); the theorems
that settle each are listed in `MANIFEST.json`.

## 1. How the code is modelled

* **Numbers.**  The functions are written once over a record `Arith` of operations
  (`azero aone aadd asub amul adiv aneg asqrt altb aleb aeqb aofnat`).  Instance `RA` is Coq's stdlib
  reals: theorems about numeric behaviour are about exact real arithmetic unless they name `FA`
  (see Rounding).  Instance `FA` is
  Coq's primitive binary64 floats: it makes the model executable, and `FloatTests.v` runs it on the
  literals and iteration counts of the project's own doctests/tests (these runs are tests of the
  model, not proofs of properties).  Properties of the loop drivers are proved for *every* `Arith`
  instance, hence for floats too.  `exp`, `log` and `np.round` (profit oracles) are a second record
  `Trans` with the one instance `RT` over the reals, and `cos`, `pi`, `floor`, `log10`, `10**x`
  (low-pass oracle) a third, `Trig`, with the instance `RG`; `spectral_fact` uses a fourth, `Wave`,
  with the instance `RW`.
* **Rounding.**  The theorems up to C73 (and C83-C87) say what the formulas guarantee in exact arithmetic.  From C74
  on (`PropFloat.v`, `PropFloatLdlt.v`, `PropFloatSigns.v`, `PropFloatPar.v`), and in `PropFloatCG.v`, theorems are about the instance `FA`: every operation rounds to binary64, to
  nearest, ties to even, with infinities, NaN and gradual underflow, as CPython and numpy compute on
  the usual hardware.  They are proved by relating Coq's primitive floats to Flocq's real-number
  rounding (`PFloat.v`: `ev` maps a float to a real, an infinity or NaN, and each operation is shown
  to be the rounded real operation).  Order of evaluation: `EllStable` and `ell_calc*` use scalar and
  elementwise operations and Python's `sum`, the model does the same operations in the same order.
  `Ell` uses `@` and `dot`, whose summation order and use of fused multiply-add belong to the BLAS
  library; the model sums left to right without fusing.  C74 does not depend on that order, the
  concrete run in C76 does.  The same holds for `LDLTMgr.factor` (`.dot`): the bounds of C89, C90 are
  proved for left-to-right sums; they are larger than the worst case of any order.
* **Division.**  Python-float division by zero is `pdiv`, an error.  numpy-scalar division (`rho / omega`,
  `temp / newt` in `EllStable`) is `ndiv`: in `FA` it gives infinity or NaN and goes on, in `RA`, which has
  neither, it stops with `ZeroDivision`.  Elsewhere a numpy-scalar division by zero is either excluded by a
  test before it or modelled as `ZeroDivision`, where numpy gives inf or NaN and a warning.
* **Exceptions** are values: `res A := Ok a | Err exn` with `ValueError`, `AssertionError`,
  `IndexError`, `TypeError`, `ZeroDivision`, `AttributeError`, `RuntimeError`.  `math.sqrt` of a negative number,
  `math.log` of a non-positive one and division by zero are errors.  Methods that mutate return the new state beside the outcome, also for the error outcome,
  so what an exception leaves behind is visible.
* **Arrays** are lists; matrices lists of rows; in-place loops are folds over `seq` with explicit
  reads and writes in program order.  Arrays are float arrays (integer-dtype casting errors of
  in-place operators are not modelled) and a length mismatch is `ValueError`, an element access beyond the end `IndexError` (C98).  The elementwise
  operators that can meet a length-one array (centre update of `Ell`, the profit oracles, `b - A x` in
  `conjugate_gradient`) stretch it as numpy does (`Broadcast.v`: `bcast2`, and `isub` for `-=`); elsewhere the
  constructors rule it out (`EllCalc` asserts n >= 2) or a matrix-vector product, which does not stretch, comes first.  Aliasing is invisible in that representation,
  therefore the aliasing properties (C08) use a separate heap model (addresses to vectors) of the
  drivers (`ModelHeap.v`).
* **Oracles and search spaces** passed to the drivers are arbitrary state machines: the drivers
  are modelled over any space record (`space_ops`) and any stateful oracle function.

## 2. Specifications

The `Spec*.v` files hold the vocabulary of the theorem statements; they do not use the functions of
the model, only its records.

* `Spec.v`: points are functions `nat -> R` of which the first `n` values matter; finite sums,
  `dot`, `mv`, `quad`, `symmetric`, `posdef`, `possemidef`; `fv`/`fm` read a list as such a function.
* `SpecCut.v`, `SpecEll.v`: the ellipsoid `ell_in`, i.e. `x - xc = M y` for some `y` with
  `y.My <= kappa` (for invertible `M` this is `(x-xc)^T M^-1 (x-xc) <= kappa`, proved as a lemma).  A
  single cut `(g, beta)` is satisfied by `x` when `g.(x-xc) + beta <= 0`; a parallel cut
  `(g, [b0, b1])` when `-b1 <= g.(x-xc) <= -b0`.
* `SpecDrivers.v`: observers.  An oracle or a space is wrapped so that it logs every call; the
  wrapped one is again a legal oracle/space, the driver is run on it, and the properties speak
  about the log.
* `SpecSearch.v`: contracts of separation oracles.  They carry an invariant over the oracle state
  and (for optimisation) the current value, and say that each returned cut keeps the wanted points.
* `SpecStable.v`, `SpecLdlt.v`, `SpecCG.v`, `SpecPower.v`, `SpecSpectral.v`, `SpecSkel.v`, `SpecProfit.v`,
  `SpecLowpass.v`: the factored ellipsoid, leading minors and witnesses, the textbook CG
  recurrence, powers of a matrix and Rayleigh quotients, autocorrelation and power spectrum,
  Fibonacci numbers, the market and its profit
  function, the frequency bands.

## 3. Properties

| id | what is modelled | how it is proved |
|----|------------------|------------------|
| C01,C02 | `cutting_plane_feas` over any space/oracle | induction on fuel; oracle instrumented with a query log |
| C03-C05 | `cutting_plane_optim` | loop invariant on the trace |
| C06,C07 | `cutting_plane_optim_q` | loop invariant on the trace |
| C08 | heap model of `optim`, `optim_q`, `Ell.xc`, in-place update | frame invariant / explicit counterexample |
| C09-C11 | `bsearch` generic, over R, over Z (any tolerance); over Python ints of any size with the rounding of `/` and `+` (`ModelInt.v`, no overflow up to 2^1022) | loop invariants, halving, Z truncation; `PBigInt.v` ties the rounding to Flocq's and carries an error term through the halving |
| C12,C13 | `BSearchAdaptor` | unfolding + C01 + loop invariant |
| C14-C19 | all of `ell_calc.py`, `ell_calc_core.py` | real algebra (`nra`/`field`), case analysis |
| C20-C26, C29, C33, C61 | `Ell` | quadratic forms over lists; algebraic identity for the new ellipsoid |
| C27 | volume factor; volume of the ellipsoid | `delta^n (1-sigma)` bounded via `exp` inequality; `SpecDet.v` defines the determinant by expansion along the first column, `PDet.v`/`PDet2.v` give the rank-one update and product rules, `PVolume.v`/`PVolume2.v` apply them to `Ell` and `EllStable`; `PMinVol.v`/`PMinVol2.v` show that the new ellipsoid is the unique smallest one around the kept part (two rims of the slab bound the trace, then the inequality of the means), `PMinVolEx.v` that this fails when the first plane misses; keeping less never costs volume, so the parallel rule is never worse than its deep single cut |
| C28 | `no_defer_trick` | simulation relation |
| C30-C33 | `EllStable` | simulation relation with `Ell` through the form `A(x,y)=sum (L^T x)_i (L^T y)_i / d_i` |
| C34-C36, C62 | drivers + `Ell` + `EllStable` + oracle contract | combination; potential function `kappa^n prod d_i` (`SpecConverge.v`) |
| C64 | drivers + `Ell` + `EllStable` + oracle contract with a margin | same potential function; a point of the ball bounds tsq from below by eps^2 |
| C65 | `cutting_plane_feas` + `Ell` or `EllStable` + the three LMI oracles | the witness has norm at least 1, so C64 applies |
| C63 | drivers + `Ell` + `LowpassOracle` | every gradient starts with 1 or -1, so C35 and C62 apply with gmin = 1 |
| C66 | `cutting_plane_optim` + `Ell` or `EllStable` + profit oracles | tangent inequality with a margin, so C64 applies |
| C71, C72 | `bsearch` + `BSearchAdaptor` + `Ell` or `EllStable` | every sub-problem is a run covered by C35/C64; explicit counterexample |
| C67 | same, at a stationary point | tangent inequality with zero slope |
| C37-C41 | `LDLTMgr` | row-by-row invariant of the factorisation |
| C42-C47 | LMI oracles | from C37-C40, linearity of the quadratic form |
| C48-C52 | profit oracles (plain, robust, discrete) | log-sum-exp convexity over Coq reals |
| C53-C55 | low-pass oracle | round-robin coverage, case analysis |
| C56 | `inverse_spectral_fact` | convolution sums, trigonometric identity |
| C68-C70 | `spectral_fact`, one-dimensional and column form | discrete Fourier inversion from telescoped trigonometric sums (`PFourier.v`) |
| C73 | accuracy of `spectral_fact` on minimum-phase spectra | truncated logarithm series with remainder by the mean value theorem (`PLogSeries.v`), Parseval |
| C57-C59 | `conjugate_gradient` | residual invariant; orthogonality of residuals |
| C60 | `fib` | induction |
| C83-C87 | the four power iterations of `experiment/power_iteration.py` | loop invariant (iterates are normalised powers), orthogonal splitting against the dominant eigenvector |
| C74-C76 | `Ell`, `EllStable` in double arithmetic | symmetry in any commutative arithmetic; sign invariant through monotone rounding; a computed run |
| C77-C80 | `ell_calc.py` in double arithmetic: no arithmetic error, truthful NoSoln, `EllStable` under deep cuts, accuracy of deep, central and discrete single cuts and of the parallel central and deep cuts (deep: `0 <= beta0 <= beta1` only; `C80_parallel_negative_offset_refuted` shows that a negative first offset can cost all relative accuracy); the old formulas of the parallel cuts lose all accuracy for narrow bands (`C16_old_central_double_refuted`, `C16_old_parallel_double_refuted`) | relative error bounds for each operation (`PFloatErr.v`, `PFloatAcc.v`, `PFloatAcc3.v`, `PFloatAcc4.v`, `PFloatAcc5.v`) |
| C81 | `bsearch` on double bounds | one rounded bisection step, contraction of the bracket width (`PFloatBs.v`) |
| C88-C91 | `LDLTMgr.factor` and the LMI oracles in doubles | backward error of each stored entry (`PFloatLdlt2.v`), perturbation of the quadratic form (`PFloatLdlt3.v`); a computed run with NaN |
| C92-C94 | drafts `ell1d.tpy`, `lmi2_oracle.tpy`, `lmi3_oracle.tpy` | interval arithmetic by cases; LDLT theorems reused with the quadratic gradient |
| C95 | draft `ell_calc.tpy` against `ell_calc.py` | the equivalent formulations of C16; boundary cases by hand |
| C96 | drivers and adaptor on mutable arrays | simulation between `ModelHeap.v` and `ModelCut.v`; `ModelHeapQ.v` has `ProfitQOracle` with the arrays it keeps and hands out, `PHeapQ.v` shows that the discrete driver is safe with it |
| C97 | assertions of the property-based tests, in doubles | sizes as powers of two; `sqrt(fl(b*b)) >= b` after rounding |
| C98 | arrays of the wrong length in `Ell`, `EllStable` | any arithmetic; the loops on `a ++ b` |
| C99 | drivers: query points, order of updates, exceptions | `replay` of the logged updates; induction on the loop |
| C82 | containment in doubles (refuted) | a computed cut, checked over the rationals |

File layout: `Model*.v` definitions only; `Spec*.v` specifications; `P*.v` lemmas; `P*Ex.v`
concrete instances; `Prop*.v` the property theorems, nothing else, each followed by its
`Print Assumptions` and a concrete case meeting its hypotheses.

`spectral_fact`: the FFT is the defining sum, `np.isfinite` is not modelled (reals are finite).

`power_iteration.py`: the model has the four functions, not the module-level test data and printing.
A zero vector is normalised to NaN by numpy; the model stops there with `ZeroDivision`.  A matrix that
does not fit the vector is rejected up front.  The threshold `1e150` is a parameter.  The empty vector
(size 0) counts as a zero vector, numpy would return it.

Not modelled: printing/CLI code in
`skeleton.py`, type-annotation classes in `ell_typing.py`, logging, `benches`.

The `.tpy` drafts (`ell1d.tpy`, `lmi2_oracle.tpy`, `lmi3_oracle.tpy`, `ell_calc.tpy`) are old versions kept
beside the sources.  Their imports are out of date (`chol_ext`, `Optional` missing), so as they stand they do
not load; the models read them with the factorisation of `ldlt_mgr.py` in place of `chol_ext` and the current
`CutStatus`.  `ell1d` has neither `update_bias_cut` nor `update_central_cut`, so no driver accepts it.

## 4. Where the code and its documentation disagree

Defects of the code (each has a `_refuted` theorem or a theorem exhibiting it):

* `ProfitQOracle.assess_optim_q` shifts the cut from the integer point to the centre with the wrong
  sign (`beta += g.(xd - xc)`); a strictly better integer point can be cut off (C52).
* `EllStable` does not reject a zero gradient (C33; in doubles the answer is Success and a centre of NaNs), nor one that
  is too long (C98), and changes its state before a cut is refused
  (C32); it agrees with `Ell` only while no cut touches the ellipsoid in one point (C30, C31).
* `cutting_plane_optim_q` returns whatever array the oracle handed out; if that is the centre itself
  the "best" point changes afterwards (C08).
* `LDLTMgr.factor(..., allow_semidefinite)` accepts indefinite matrices such as `[[0,1],[1,0]]` (C41);
  `wit` keeps entries of earlier calls (C40).
* `bsearch` with integer bounds computes the midpoint in doubles: above 2^53 it can ask about the same end for ever and miss the least
  accepted integer, above 2^54 it can return a value above the given interval (C11).
* `conjugate_gradient` raises `ValueError` when started at the exact solution.  In doubles the residual of a returned point can exceed `tol`
  by many orders of magnitude, because the loop tests a residual updated by recurrence (C57).
* `cutting_plane_optim` with `ProfitOracle` raises when the centre is the exact optimum: the gradient is
  zero there (C67).
* `BSearchAdaptor` re-centres its search space with the original shape after an accepted parameter; it can
  then reject parameters a fresh adaptor accepts (C72).
* `spectral_fact` asks for a column vector; given one it transforms along the wrong axis and returns a
  matrix (C70).  It accepts spectra that are negative between the samples, or slightly negative at them,
  although its docstring announces a `RuntimeError` (C69).
* In doubles `Ell` loses positive definiteness: 36 identical central cuts end in `math.sqrt` of a negative
  number (C76).  `EllStable` does not under central cuts (C75), but a deep cut within rounding of the
  boundary of the ellipsoid leaves it with a negative diagonal entry (C79).
* In doubles a parallel deep cut with a tiny `tsq` (about 1e-301) divides by zero (C77); with numpy scalars
  this is an infinity and a warning instead of an exception.
* `bsearch` with the default `Options` (tolerance 1e-20) cannot meet its tolerance on doubles around 0.5: it
  calls the oracle 2000 times in its own docstring example, where 66 calls suffice in exact arithmetic (C81).
* `Ell(val, x)` and `EllStable(val, x)` keep the caller's array `x` and move it in place: after a run the
  starting point is gone (C96).  `cutting_plane_feas` returns this same array.
- `tests/test_ell_property_based.py:test_cut_consistency` asserts that a central cut and a deep
  cut with offset 0 agree.  They do while `kappa * omega` stays in range, but not for every value
  the test draws: with kappa = 2^-9 and gradient (2^-537, 0, 0) the product underflows to 0, the
  central cut answers Success with NaN in the matrix, the deep cut raises ZeroDivisionError
  (C97).  The same input breaks `test_bias_cut_preserves_positive_definiteness`.
- The comments "Delta should be less than 1" in `tests/test_ell_calc_property_based.py` are wrong:
  a central cut has delta = n^2/(n^2-1) > 1 (C97).
* Draft `ell1d`: a zero gradient with `beta = 0` halves the interval; its constructor loses an end point in
  doubles (C92).  Draft `ell_calc`: divides by zero on bounds symmetric about the centre and on a central cut
  with second bound 0 (C95); its `__main__` block asserts `status == (CutStatus.Success, ...)`, never true.
* In doubles the first central cut of the unit disc already loses the point (0, 1) of the half it keeps, by
  about 7e-33 (C82); containment (C20) is a property of the formulas, not of their rounded evaluation.
* `LDLTMgr.factor` tests `diag <= 0.0`, which is False for NaN: a matrix of finite doubles with a hugely
  negative eigenvalue is accepted as positive definite when the elimination overflows (`inf * 0`), and
  `LMIOracle` then reports an infeasible point as feasible (C88).  With finite pivots the answer is right
  up to rounding (C89, C90), so a test for finiteness of `diag` would repair it.
* `power_iteration2` and `power_iteration3` stop when two successive values agree; on `[[0,1],[1,0]]` started
  at `(1,0)` that happens at once, with the value 0, which is no eigenvalue (C84).  All four announce "the
  largest eigenvalue" but find the largest in modulus, and only from a start with a component along its
  eigenvector, not from every non-zero start (C87).  All four overwrite the caller's vector (C83).

Documentation only:

* `ell.py` documents `(x-xc)^T (kappa^2 M)^-1 (x-xc) <= 1`; the code uses `kappa`.
* `ell_stable.py` documents `M = kappa L D L^T`; the stored diagonal is that of the inverse.
* `ell_typing.py` describes a parallel cut with the opposite sign.
* The LMI oracles document `F(x) >= 0` (semidefinite); they test for positive definite.
* `optim` is documented as maximising a convex function; the oracle decides the direction.
* `LMIOracle` silently truncates to the shorter of `x` and `F` (`zip`).
* `LowpassOracle` with `wstop = 1` has an empty stop band; `assess_optim` then reports minus infinity.
  The model does the same in doubles (C55_no_stop_band_value, C55_no_stop_band_run); the reals have no such
  number and the model stops with an error there (the other C55 theorems assume `wstop < 1`).  The sample
  exactly at `wstop * pi` counts as transition band, the one at `wpass * pi` as pass band; the
  docstring calls `wstop` the end of the stop band, it is the beginning.  "Stopband attenuation of
  0.125" is the amplitude ratio 1/8, not decibels, and "ripple of 0.025 dB" likewise a ratio.
* `calc_parallel_bias_cut_old`, `_fast2`, `_fast_old` and `calc_parallel_central_cut_old` are documented as other forms of the same
  formulas.  In doubles they are not interchangeable with the current ones: on a narrow band near the centre they lose all accuracy
  (`C16_old_parallel_double_refuted`, `C16_old_central_double_refuted`).
* `update_q` in doubles may answer NoEffect although the exact rule answers Success, when `beta0 < 0` and `tsq + n*beta0*beta1`
  cancels (`C80_parallel_negative_offset_refuted`).
* `math.log` in `ProfitOracle.fn2` raises when `gamma + v.y <= 0` (C48_domain).

## 5. Trusted base

* The Coq 8.16.1 kernel, with `vm_compute` for `FloatTests.v` and the concrete cases (in `PFloat*Ex*.v`, `PFloatPar2.v`,
  `PFloatPar3.v`, `PFloatPar4.v`, `PFloatCG.v`, `PFloatSigns2.v`, `PBigInt.v`, `PDraftEx.v`, `PDriversP.v`, `PHeapQEx.v`, `PLowpassEmpty.v`,
  `PMisfitEx.v` and some examples in `Prop*.v`).
* For the theorems about `FA` (`PropFloat*.v` and single ones in `PropLowpass.v`, `PropMisfit.v`, `PropDraft.v`): the kernel's primitive 63-bit integers and binary64 floats and the
  axioms of Coq's `FloatAxioms` (and `Uint63`) that say what they compute; all from the standard library.
* The axioms below, all from Coq's standard library.
* The reading of the Python source by hand into Gallina, as cited definition by definition.

### Print Assumptions, theorem by theorem

* **Closed under the global context**: C01_feas_returns_accepted_point, C02_feas_call_budget, C02_feas_none_causes, C03_optim_value_achieved, C04_optim_best_value, C05_optim_central_on_improvement, C06_optim_q_value_achieved, C07_optim_q_retry_protocol, C08_optim_best_point_is_stable, C08_optim_q_best_point_if_not_shared, C08_optim_q_best_point_is_stable_refuted, C09_bsearch_bracket, C11_any_tolerance, C11_bsearch_int, C11_no_rounding, C11_outside_refuted, C12_adaptor_isolates, C13_bsearch_adaptor_witness, C37_fresh, C40_history_independent, C45_old_oracle_same, C45_old_too_many_variables, C48_one_input, C48_one_price, C48_one_price_feas, C50_one_price_optim, C51_misfit, C51_one_price, C52_retry_misfit, C53_empty_never_accepted, C57_misfit, C57_only_value_error, C57_stretch, C60_fib, C60_fibonacci_function, C96_adaptor_same, C96_ell, C96_feas_answer_is_the_centre, C96_feas_same, C96_optim_q_same, C96_optim_same, C96_profit_q, C96_profit_q_start, C96_stable, C98_ell_centre, C98_ell_gradient, C98_ell_stretch, C98_stable_centre, C98_stable_long, C98_stable_short, C99_bsearch_raises, C99_feas_in_step, C99_feas_raises, C99_optim_in_step, C99_optim_q_in_step, C99_optim_q_raises, C99_optim_raises.
* `ClassicalDedekindReals.sig_forall_dec`, `FunctionalExtensionality.functional_extensionality_dep`: C11_formulas, C57_no_zero_division, C57_true_residual, C58_residual_vanishes.
* `ClassicalDedekindReals.sig_forall_dec`, `ClassicalDedekindReals.sig_not_dec`, `FunctionalExtensionality.functional_extensionality_dep`: C10_bsearch_real_precision, C14_bias_cut_total, C14_central_total, C14_discrete_total, C14_no_math_error, C14_parallel_total, C15_ranges_meeting, C16_parallel_central_formulations, C16_parallel_formulations, C17_deep_zero_is_central, C17_fallback_continuous, C17_parallel_tau_is_single, C17_parallel_zero_is_central, C18_empty, C18_none_bound, C18_one_element, C18_parallel_off, C19_status_bias, C19_status_bias_q, C19_status_parallel, C19_status_parallel_q, C19_triple_iff_success, C20_containment, C21_containment_run, C22_nosoln_truthful, C23_refused_unchanged, C23_refused_unchanged_stable, C24_init, C24_init_semidefinite, C24_omega_positive, C27_det_product, C27_same_volume, C27_volume_init, C27_volume_positive, C27_volume_step, C28_no_defer_trick, C30_same_from_constructor, C30_same_refusal, C30_same_run, C31_no_defer_refuted, C32_exception_safety_refuted, C32_touching_cut_fails, C33_stable_zero_central, C33_stable_zero_deep, C33_zero_gradient_ell, C34_feas_keeps_feasible_points, C34_nosoln_means_infeasible, C34_small_means_thin, C36_nosoln_means_optimal, C36_optim_keeps_better_points, C36_q_keeps_better_points, C36_q_nosoln_means_optimal, C37_factor_decides, C37_factorize_decides, C38_product, C38_sqrt, C39_witness, C40_wit_stale, C41_accepted_is_psd_refuted, C41_false_has_witness, C41_psd_accepted, C42_init, C42_lmi_decides, C43_lmi_cut_valid, C44_init, C44_init_empty, C44_lmi0_cut_valid, C44_lmi0_decides, C44_lmi0_no_rows, C44_lmi0_too_many_variables, C46_run_raises, C46_zero_gradient_infeasible, C47_accepted_is_solution, C47_nosoln_means_infeasible, C47_small_means_thin, C53_decides_specification, C53_run, C53_wrong_length, C54_cut_valid, C54_feas_oracle, C54_run_infeasible, C55_optim_oracle, C55_run, C55_run_optimal, C55_stop_band_maximum, C56_autocorrelation, C56_empty, C56_power_spectrum, C57_error, C57_iterate, C57_sound, C58_converges_in_n_steps, C59_exact_start_rejected, C61_shallow_cut_asserts, C68_empty, C70_column_empty, C83_argument1, C83_argument2, C83_argument4, C83_misfit, C83_power_iteration, C83_power_iteration2, C83_power_iteration3, C83_power_iteration4, C84_residual, C84_residual4, C84_value_test_refuted, C85_rate, C85_rate2, C85_rate3, C85_rate4, C86_between, C86_monotone, C87_largest_refuted, C87_start_refuted, C92_halves, C92_init, C92_update_exact, C92_zero_gradient_refuted, C93_init, C93_lmi2_cut_valid, C93_lmi2_decides, C94_init, C94_lmi3_cut_valid, C94_lmi3_decides, C94_no_rows, C94_too_many_variables, C95_central_zero, C95_init, C95_init_one, C95_missing, C95_same, C95_same_everywhere_refuted, C95_symmetric, C98_stable_long_tsq.
* `ClassicalDedekindReals.sig_forall_dec`, `ClassicalDedekindReals.sig_not_dec`, `Classical_Prop.classic`, `FunctionalExtensionality.functional_extensionality_dep`: C11_any_size, C11_big_refuted, C11_doubles, C15_ranges_deep, C20_containment_stable, C21_containment_run_stable, C22_nosoln_truthful_stable, C24_stays_positive_definite, C25_new_centre_satisfies_cut, C25_new_centre_stable, C26_tsq_attained_stable, C26_tsq_bounds_stable, C26_tsq_is_max, C27_far_plane_refuted, C27_monotone, C27_parallel_helps, C27_smallest, C27_smallest_deep, C27_stable_smallest, C27_stable_volume_shrinks, C27_volume_factor, C27_volume_run, C27_volume_shrinks, C29_straddling_bias_cut_loses_points, C34_feas_keeps_feasible_points_stable, C34_nosoln_means_infeasible_stable, C34_small_means_thin_stable, C35_ell_converges, C35_ell_converges_any, C35_stable_converges, C35_stable_converges_any, C36_nosoln_means_optimal_stable, C36_optim_keeps_better_points_stable, C36_q_keeps_better_points_stable, C36_q_nosoln_means_optimal_stable, C47_nosoln_means_infeasible_stable, C48_decides_feasibility, C48_describes, C48_domain, C48_empty, C48_grad2, C48_init, C48_methods, C48_mismatch, C49_reports_when_feasible, C49_run, C49_value_is_profit, C50_feas_cut_valid, C50_optim_cut_valid, C50_optim_oracle, C50_run_optimal, C51_cut_valid, C51_init, C51_reports_when_robust, C51_run, C51_run_optimal, C51_value_is_worst_case, C52_cut_error, C52_fresh_retry, C52_keeps_better_points_refuted, C52_one_entry, C52_run, C52_shift_refuted, C52_value_at_integer_point, C53_after_any_history, C53_edge_beyond, C53_init, C53_standard_case, C61_missing_cut_accepted, C62_ell_optim_converges, C62_stable_optim_converges, C63_lowpass_converges, C63_lowpass_near_optimal, C64_ell_margin, C64_ell_margin_optim, C64_stable_margin, C64_stable_margin_optim, C65_lmi0_converges, C65_lmi0_converges_stable, C65_lmi_converges, C65_lmi_converges_stable, C65_lmi_old_converges, C65_lmi_old_converges_stable, C66_near_optimal, C66_near_optimal_stable, C66_robust_near_optimal, C66_robust_near_optimal_stable, C67_optimum_raises, C67_optimum_raises_stable, C67_stationary_is_best, C67_zero_gradient, C68_fails, C68_minimum_phase, C68_phase_unique, C68_power, C68_total, C69_circular, C69_negative_sample_refuted, C69_short_roundtrip, C69_valid_input_refuted, C70_column, C70_column_refuted, C71_ell_near_optimal, C71_ell_near_optimal_margin, C71_stable_near_optimal, C71_stable_near_optimal_margin, C72_recentring_refuted, C73_other_phase_refuted, C73_recovers_minimum_phase, C73_round_trip.
* `PrimFloat.add`, `PrimFloat.div`, `PrimFloat.eqb`, `PrimFloat.float`, `PrimFloat.leb`, `PrimFloat.ltb`, `PrimFloat.mul`, `PrimFloat.of_uint63`, `PrimFloat.opp`, `PrimFloat.sqrt`, `PrimFloat.sub`, `PrimInt63.int`, `PrimInt63.lor`, `PrimInt63.lsl`, `PrimInt63.sub`: C55_no_stop_band_run, C55_no_stop_band_value, C76_ell_positive_double_refuted.
* `PrimFloat.abs`, `PrimFloat.add`, `PrimFloat.div`, `PrimFloat.eqb`, `PrimFloat.float`, `PrimFloat.frshiftexp`, `PrimFloat.leb`, `PrimFloat.ltb`, `PrimFloat.mul`, `PrimFloat.normfr_mantissa`, `PrimFloat.of_uint63`, `PrimFloat.opp`, `PrimFloat.sqrt`, `PrimFloat.sub`, `PrimInt63.eqb`, `PrimInt63.int`, `PrimInt63.land`, `PrimInt63.lor`, `PrimInt63.lsl`, `PrimInt63.lsr`, `PrimInt63.sub`: C79_stable_deep_cut_double_refuted.
* `ClassicalDedekindReals.sig_forall_dec`, `FunctionalExtensionality.functional_extensionality_dep`, `PrimFloat.abs`, `PrimFloat.add`, `PrimFloat.div`, `PrimFloat.eqb`, `PrimFloat.float`, `PrimFloat.frshiftexp`, `PrimFloat.leb`, `PrimFloat.ltb`, `PrimFloat.mul`, `PrimFloat.normfr_mantissa`, `PrimFloat.of_uint63`, `PrimFloat.opp`, `PrimFloat.sqrt`, `PrimFloat.sub`, `PrimInt63.eqb`, `PrimInt63.int`, `PrimInt63.land`, `PrimInt63.lor`, `PrimInt63.lsl`, `PrimInt63.lsr`, `PrimInt63.sub`: C57_double_residual_refuted, C82_containment_double_refuted, C88_factor_decides_double_refuted, C88_lmi_decides_double_refuted, C92_init_double_refuted, C97_cut_consistency_refuted.
* `FloatAxioms.Prim2SF_valid`, `FloatAxioms.leb_spec`, `FloatAxioms.opp_spec`, `PrimFloat.abs`, `PrimFloat.add`, `PrimFloat.div`, `PrimFloat.eqb`, `PrimFloat.float`, `PrimFloat.frshiftexp`, `PrimFloat.leb`, `PrimFloat.ltb`, `PrimFloat.mul`, `PrimFloat.normfr_mantissa`, `PrimFloat.of_uint63`, `PrimFloat.opp`, `PrimFloat.sqrt`, `PrimFloat.sub`, `PrimInt63.eqb`, `PrimInt63.int`, `PrimInt63.land`, `PrimInt63.lor`, `PrimInt63.lsl`, `PrimInt63.lsr`, `PrimInt63.sub`: C91_lmi0_cut_nonneg_double, C91_lmi_cut_nonneg_double, C91_lmi_old_cut_nonneg_double.
* `ClassicalDedekindReals.sig_forall_dec`, `ClassicalDedekindReals.sig_not_dec`, `Classical_Prop.classic`, `FloatAxioms.Prim2SF_SF2Prim`, `FloatAxioms.Prim2SF_valid`, `FloatAxioms.SF2Prim_Prim2SF`, `FloatAxioms.mul_spec`, `FunctionalExtensionality.functional_extensionality_dep`, `PrimFloat.abs`, `PrimFloat.add`, `PrimFloat.div`, `PrimFloat.eqb`, `PrimFloat.float`, `PrimFloat.frshiftexp`, `PrimFloat.ldshiftexp`, `PrimFloat.leb`, `PrimFloat.ltb`, `PrimFloat.mul`, `PrimFloat.normfr_mantissa`, `PrimFloat.of_uint63`, `PrimFloat.opp`, `PrimFloat.sqrt`, `PrimFloat.sub`, `PrimInt63.eqb`, `PrimInt63.int`, `PrimInt63.land`, `PrimInt63.lor`, `PrimInt63.lsl`, `PrimInt63.lsr`, `PrimInt63.sub`: C74_ell_symmetric_double.
* `ClassicalDedekindReals.sig_forall_dec`, `ClassicalDedekindReals.sig_not_dec`, `Classical_Prop.classic`, `FloatAxioms.Prim2SF_SF2Prim`, `FloatAxioms.Prim2SF_valid`, `FloatAxioms.SF2Prim_Prim2SF`, `FloatAxioms.ltb_spec`, `FunctionalExtensionality.functional_extensionality_dep`, `PrimFloat.abs`, `PrimFloat.add`, `PrimFloat.div`, `PrimFloat.eqb`, `PrimFloat.float`, `PrimFloat.frshiftexp`, `PrimFloat.ldshiftexp`, `PrimFloat.leb`, `PrimFloat.ltb`, `PrimFloat.mul`, `PrimFloat.normfr_mantissa`, `PrimFloat.of_uint63`, `PrimFloat.opp`, `PrimFloat.sqrt`, `PrimFloat.sub`, `PrimInt63.eqb`, `PrimInt63.int`, `PrimInt63.land`, `PrimInt63.lor`, `PrimInt63.lsl`, `PrimInt63.lsr`, `PrimInt63.sub`: C81_bsearch_default_tolerance_refuted.
* `ClassicalDedekindReals.sig_forall_dec`, `ClassicalDedekindReals.sig_not_dec`, `Classical_Prop.classic`, `FloatAxioms.Prim2SF_SF2Prim`, `FloatAxioms.Prim2SF_valid`, `FloatAxioms.SF2Prim_Prim2SF`, `FloatAxioms.leb_spec`, `FloatAxioms.ltb_spec`, `FloatAxioms.mul_spec`, `FunctionalExtensionality.functional_extensionality_dep`, `PrimFloat.abs`, `PrimFloat.add`, `PrimFloat.div`, `PrimFloat.eqb`, `PrimFloat.float`, `PrimFloat.frshiftexp`, `PrimFloat.ldshiftexp`, `PrimFloat.leb`, `PrimFloat.ltb`, `PrimFloat.mul`, `PrimFloat.normfr_mantissa`, `PrimFloat.of_uint63`, `PrimFloat.opp`, `PrimFloat.sqrt`, `PrimFloat.sub`, `PrimInt63.eqb`, `PrimInt63.int`, `PrimInt63.land`, `PrimInt63.lor`, `PrimInt63.lsl`, `PrimInt63.lsr`, `PrimInt63.sub`: C78_nosoln_complete_double.
* `ClassicalDedekindReals.sig_forall_dec`, `ClassicalDedekindReals.sig_not_dec`, `Classical_Prop.classic`, `FloatAxioms.Prim2SF_SF2Prim`, `FloatAxioms.Prim2SF_valid`, `FloatAxioms.SF2Prim_Prim2SF`, `FloatAxioms.add_spec`, `FloatAxioms.div_spec`, `FloatAxioms.leb_spec`, `FloatAxioms.mul_spec`, `FloatAxioms.opp_spec`, `FloatAxioms.sub_spec`, `FunctionalExtensionality.functional_extensionality_dep`, `PrimFloat.abs`, `PrimFloat.add`, `PrimFloat.div`, `PrimFloat.eqb`, `PrimFloat.float`, `PrimFloat.frshiftexp`, `PrimFloat.ldshiftexp`, `PrimFloat.leb`, `PrimFloat.ltb`, `PrimFloat.mul`, `PrimFloat.normfr_mantissa`, `PrimFloat.of_uint63`, `PrimFloat.opp`, `PrimFloat.sqrt`, `PrimFloat.sub`, `PrimInt63.eqb`, `PrimInt63.int`, `PrimInt63.land`, `PrimInt63.lor`, `PrimInt63.lsl`, `PrimInt63.lsr`, `PrimInt63.sub`: C89_accept_nearly_psd, C89_reject_nearly_not_pd, C90_lmi_accept_double, C90_lmi_reject_double.
* `ClassicalDedekindReals.sig_forall_dec`, `ClassicalDedekindReals.sig_not_dec`, `Classical_Prop.classic`, `FloatAxioms.Prim2SF_SF2Prim`, `FloatAxioms.Prim2SF_valid`, `FloatAxioms.SF2Prim_Prim2SF`, `FloatAxioms.add_spec`, `FloatAxioms.div_spec`, `FloatAxioms.ltb_spec`, `FloatAxioms.of_uint63_spec`, `FloatAxioms.opp_spec`, `FloatAxioms.sub_spec`, `FunctionalExtensionality.functional_extensionality_dep`, `PrimFloat.abs`, `PrimFloat.add`, `PrimFloat.div`, `PrimFloat.eqb`, `PrimFloat.float`, `PrimFloat.frshiftexp`, `PrimFloat.ldshiftexp`, `PrimFloat.leb`, `PrimFloat.ltb`, `PrimFloat.mul`, `PrimFloat.normfr_mantissa`, `PrimFloat.of_uint63`, `PrimFloat.opp`, `PrimFloat.sqrt`, `PrimFloat.sub`, `PrimInt63.add`, `PrimInt63.eqb`, `PrimInt63.int`, `PrimInt63.land`, `PrimInt63.leb`, `PrimInt63.lor`, `PrimInt63.lsl`, `PrimInt63.lsr`, `PrimInt63.ltb`, `PrimInt63.sub`, `Uint63.add_spec`, `Uint63.eqb_correct`, `Uint63.eqb_refl`, `Uint63.leb_spec`, `Uint63.lor_spec`, `Uint63.lsl_spec`, `Uint63.lsr_spec`, `Uint63.ltb_spec`, `Uint63.of_to_Z`, `Uint63.sub_spec`: C81_bsearch_double.
* `ClassicalDedekindReals.sig_forall_dec`, `ClassicalDedekindReals.sig_not_dec`, `Classical_Prop.classic`, `FloatAxioms.Prim2SF_SF2Prim`, `FloatAxioms.Prim2SF_valid`, `FloatAxioms.SF2Prim_Prim2SF`, `FloatAxioms.add_spec`, `FloatAxioms.div_spec`, `FloatAxioms.eqb_spec`, `FloatAxioms.mul_spec`, `FloatAxioms.of_uint63_spec`, `FloatAxioms.opp_spec`, `FloatAxioms.sub_spec`, `FunctionalExtensionality.functional_extensionality_dep`, `PrimFloat.abs`, `PrimFloat.add`, `PrimFloat.div`, `PrimFloat.eqb`, `PrimFloat.float`, `PrimFloat.frshiftexp`, `PrimFloat.ldshiftexp`, `PrimFloat.leb`, `PrimFloat.ltb`, `PrimFloat.mul`, `PrimFloat.normfr_mantissa`, `PrimFloat.of_uint63`, `PrimFloat.opp`, `PrimFloat.sqrt`, `PrimFloat.sub`, `PrimInt63.add`, `PrimInt63.eqb`, `PrimInt63.int`, `PrimInt63.land`, `PrimInt63.leb`, `PrimInt63.lor`, `PrimInt63.lsl`, `PrimInt63.lsr`, `PrimInt63.ltb`, `PrimInt63.sub`, `Uint63.add_spec`, `Uint63.eqb_correct`, `Uint63.eqb_refl`, `Uint63.leb_spec`, `Uint63.lor_spec`, `Uint63.lsl_spec`, `Uint63.lsr_spec`, `Uint63.ltb_spec`, `Uint63.of_to_Z`, `Uint63.sub_spec`: C16_old_central_double_refuted, C77_tiny_tsq_refuted, C80_parallel_negative_offset_refuted, C97_delta_below_one_refuted, C97_same_sigma_refuted.
* `ClassicalDedekindReals.sig_forall_dec`, `ClassicalDedekindReals.sig_not_dec`, `Classical_Prop.classic`, `FloatAxioms.Prim2SF_SF2Prim`, `FloatAxioms.Prim2SF_valid`, `FloatAxioms.SF2Prim_Prim2SF`, `FloatAxioms.add_spec`, `FloatAxioms.div_spec`, `FloatAxioms.eqb_spec`, `FloatAxioms.ltb_spec`, `FloatAxioms.mul_spec`, `FloatAxioms.of_uint63_spec`, `FloatAxioms.opp_spec`, `FloatAxioms.sub_spec`, `FunctionalExtensionality.functional_extensionality_dep`, `PrimFloat.abs`, `PrimFloat.add`, `PrimFloat.div`, `PrimFloat.eqb`, `PrimFloat.float`, `PrimFloat.frshiftexp`, `PrimFloat.ldshiftexp`, `PrimFloat.leb`, `PrimFloat.ltb`, `PrimFloat.mul`, `PrimFloat.normfr_mantissa`, `PrimFloat.of_uint63`, `PrimFloat.opp`, `PrimFloat.sqrt`, `PrimFloat.sub`, `PrimInt63.add`, `PrimInt63.eqb`, `PrimInt63.int`, `PrimInt63.land`, `PrimInt63.leb`, `PrimInt63.lor`, `PrimInt63.lsl`, `PrimInt63.lsr`, `PrimInt63.ltb`, `PrimInt63.sub`, `Uint63.add_spec`, `Uint63.eqb_correct`, `Uint63.eqb_refl`, `Uint63.leb_spec`, `Uint63.lor_spec`, `Uint63.lsl_spec`, `Uint63.lsr_spec`, `Uint63.ltb_spec`, `Uint63.of_to_Z`, `Uint63.sub_spec`: C75_stable_never_negative_double.
* `ClassicalDedekindReals.sig_forall_dec`, `ClassicalDedekindReals.sig_not_dec`, `Classical_Prop.classic`, `FloatAxioms.Prim2SF_SF2Prim`, `FloatAxioms.Prim2SF_valid`, `FloatAxioms.SF2Prim_Prim2SF`, `FloatAxioms.add_spec`, `FloatAxioms.div_spec`, `FloatAxioms.eqb_spec`, `FloatAxioms.leb_spec`, `FloatAxioms.ltb_spec`, `FloatAxioms.mul_spec`, `FloatAxioms.of_uint63_spec`, `FloatAxioms.opp_spec`, `FloatAxioms.sub_spec`, `FunctionalExtensionality.functional_extensionality_dep`, `PrimFloat.abs`, `PrimFloat.add`, `PrimFloat.div`, `PrimFloat.eqb`, `PrimFloat.float`, `PrimFloat.frshiftexp`, `PrimFloat.ldshiftexp`, `PrimFloat.leb`, `PrimFloat.ltb`, `PrimFloat.mul`, `PrimFloat.normfr_mantissa`, `PrimFloat.of_uint63`, `PrimFloat.opp`, `PrimFloat.sqrt`, `PrimFloat.sub`, `PrimInt63.add`, `PrimInt63.eqb`, `PrimInt63.int`, `PrimInt63.land`, `PrimInt63.leb`, `PrimInt63.lor`, `PrimInt63.lsl`, `PrimInt63.lsr`, `PrimInt63.ltb`, `PrimInt63.sub`, `Uint63.add_spec`, `Uint63.eqb_correct`, `Uint63.eqb_refl`, `Uint63.leb_spec`, `Uint63.lor_spec`, `Uint63.lsl_spec`, `Uint63.lsr_spec`, `Uint63.ltb_spec`, `Uint63.of_to_Z`, `Uint63.sub_spec`: C75_stable_step_double.
* `ClassicalDedekindReals.sig_forall_dec`, `ClassicalDedekindReals.sig_not_dec`, `Classical_Prop.classic`, `FloatAxioms.Prim2SF_SF2Prim`, `FloatAxioms.Prim2SF_valid`, `FloatAxioms.SF2Prim_Prim2SF`, `FloatAxioms.add_spec`, `FloatAxioms.div_spec`, `FloatAxioms.eqb_spec`, `FloatAxioms.ltb_spec`, `FloatAxioms.mul_spec`, `FloatAxioms.of_uint63_spec`, `FloatAxioms.opp_spec`, `FloatAxioms.sqrt_spec`, `FloatAxioms.sub_spec`, `FunctionalExtensionality.functional_extensionality_dep`, `PrimFloat.abs`, `PrimFloat.add`, `PrimFloat.div`, `PrimFloat.eqb`, `PrimFloat.float`, `PrimFloat.frshiftexp`, `PrimFloat.ldshiftexp`, `PrimFloat.leb`, `PrimFloat.ltb`, `PrimFloat.mul`, `PrimFloat.normfr_mantissa`, `PrimFloat.of_uint63`, `PrimFloat.opp`, `PrimFloat.sqrt`, `PrimFloat.sub`, `PrimInt63.add`, `PrimInt63.eqb`, `PrimInt63.int`, `PrimInt63.land`, `PrimInt63.leb`, `PrimInt63.lor`, `PrimInt63.lsl`, `PrimInt63.lsr`, `PrimInt63.ltb`, `PrimInt63.sub`, `Uint63.add_spec`, `Uint63.eqb_correct`, `Uint63.eqb_refl`, `Uint63.leb_spec`, `Uint63.lor_spec`, `Uint63.lsl_spec`, `Uint63.lsr_spec`, `Uint63.ltb_spec`, `Uint63.of_to_Z`, `Uint63.sub_spec`: C33_stable_zero_central_double, C80_central_cut_accuracy_double, C97_central_is_bias_at_zero, C97_same_step.
* `ClassicalDedekindReals.sig_forall_dec`, `ClassicalDedekindReals.sig_not_dec`, `Classical_Prop.classic`, `FloatAxioms.Prim2SF_SF2Prim`, `FloatAxioms.Prim2SF_valid`, `FloatAxioms.SF2Prim_Prim2SF`, `FloatAxioms.add_spec`, `FloatAxioms.div_spec`, `FloatAxioms.eqb_spec`, `FloatAxioms.leb_spec`, `FloatAxioms.ltb_spec`, `FloatAxioms.mul_spec`, `FloatAxioms.of_uint63_spec`, `FloatAxioms.opp_spec`, `FloatAxioms.sqrt_spec`, `FloatAxioms.sub_spec`, `FunctionalExtensionality.functional_extensionality_dep`, `PrimFloat.abs`, `PrimFloat.add`, `PrimFloat.div`, `PrimFloat.eqb`, `PrimFloat.float`, `PrimFloat.frshiftexp`, `PrimFloat.ldshiftexp`, `PrimFloat.leb`, `PrimFloat.ltb`, `PrimFloat.mul`, `PrimFloat.normfr_mantissa`, `PrimFloat.of_uint63`, `PrimFloat.opp`, `PrimFloat.sqrt`, `PrimFloat.sub`, `PrimInt63.add`, `PrimInt63.eqb`, `PrimInt63.int`, `PrimInt63.land`, `PrimInt63.leb`, `PrimInt63.lor`, `PrimInt63.lsl`, `PrimInt63.lsr`, `PrimInt63.ltb`, `PrimInt63.sub`, `Uint63.add_spec`, `Uint63.eqb_correct`, `Uint63.eqb_refl`, `Uint63.leb_spec`, `Uint63.lor_spec`, `Uint63.lsl_spec`, `Uint63.lsr_spec`, `Uint63.ltb_spec`, `Uint63.of_to_Z`, `Uint63.sub_spec`: C16_old_parallel_double_refuted, C77_no_math_error_double, C77_no_math_error_double_any, C78_nosoln_truthful_double, C79_stable_deep_cut_margin_double, C80_bias_cut_accuracy_double, C80_parallel_central_accuracy_double, C80_parallel_deep_accuracy_double, C80_q_cut_accuracy_double, C97_signs.
