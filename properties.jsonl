{"id": "C01", "title": "cutting_plane_feas only returns points the oracle accepted", "statement": "If cutting_plane_feas returns a non-None x, then the oracle was asked about exactly that x and answered None (feasible), x is the search space's centre when the call returns, and nothing was applied to the space after the accepting query.", "quantifier": "every (possibly stateful) oracle, every search space, every Options, every start state", "why_tests_cant": "the oracle and the search space are arbitrary user objects with arbitrary state; tests only try a handful", "anchors": ["src/ellalgo/cutting_plane.py:cutting_plane_feas"]}
{"id": "C02", "title": "cutting_plane_feas: a None answer has one of three causes, and the iteration count is exact", "statement": "cutting_plane_feas always stops after at most max_iters oracle calls. It answers None only because (a) an update returned a status other than Success, (b) an update left tsq() below the tolerance, or (c) max_iters cuts were all applied; in (a),(b) niter+1 oracle calls were made, in (c) exactly max_iters and niter = max_iters.", "quantifier": "every oracle, space, options and start state", "why_tests_cant": "termination and exact call counts over all behaviours of user-supplied objects", "anchors": ["src/ellalgo/cutting_plane.py:cutting_plane_feas"]}
{"id": "C03", "title": "cutting_plane_optim: the returned value was achieved at the returned point", "statement": "cutting_plane_optim returns either (None, the initial gamma) when the oracle never reported an improvement, or (x, g) such that the oracle, asked about exactly x, reported the value g, and no later query reported a value.", "quantifier": "every oracle, space, initial gamma and options", "why_tests_cant": "arbitrary stateful oracles and arbitrary-length histories", "anchors": ["src/ellalgo/cutting_plane.py:cutting_plane_optim"]}
{"id": "C04", "title": "cutting_plane_optim: the returned gamma is the best ever reported", "statement": "If the oracle only reports values at least as good as the gamma it is given (for a reflexive transitive order), then the gamma returned by cutting_plane_optim is at least as good as the initial gamma and every value reported during the run.", "quantifier": "every oracle with that contract, every run length, every preorder", "why_tests_cant": "needs an induction over the whole run", "anchors": ["src/ellalgo/cutting_plane.py:cutting_plane_optim"]}
{"id": "C05", "title": "cutting_plane_optim applies central cuts exactly on improvement", "statement": "During a run the cut returned together with an improved value is applied by update_central_cut, every other cut by update_bias_cut, each exactly once and in the order returned, with the oracle always given the latest gamma; the loop stops at the first non-Success status or tsq < tolerance.", "quantifier": "every oracle, space, options", "why_tests_cant": "a statement about the whole interaction trace", "anchors": ["src/ellalgo/cutting_plane.py:cutting_plane_optim"]}
{"id": "C06", "title": "cutting_plane_optim_q: the returned value was reported with the returned point", "statement": "cutting_plane_optim_q returns either (None, the initial gamma), or (x_q, g) where x_q and g came out of one and the same oracle answer and no later answer carried a value.", "quantifier": "every discrete oracle, space, gamma, options", "why_tests_cant": "arbitrary stateful oracles and histories", "anchors": ["src/ellalgo/cutting_plane.py:cutting_plane_optim_q"]}
{"id": "C07", "title": "cutting_plane_optim_q: retry protocol", "statement": "The first query has retry=False; a query has retry=True exactly when the preceding update answered NoEffect (or the flag was already up and an unclassified status was returned) while the oracle announced an alternative; a NoEffect without alternative, or NoSoln, ends the run.", "quantifier": "every discrete oracle, space, gamma, options", "why_tests_cant": "history property", "anchors": ["src/ellalgo/cutting_plane.py:cutting_plane_optim_q"]}
{"id": "C08", "title": "Returned best points do not change behind the caller's back", "statement": "With arrays modelled as mutable heap objects: the x_best returned by cutting_plane_optim still holds the coordinates it had when the oracle reported its value, although the space updates its centre in place. The same claim for cutting_plane_optim_q is false when the oracle hands back the centre array itself.", "quantifier": "every oracle over heap arrays, every run", "why_tests_cant": "aliasing bugs depend on the whole history of in-place updates", "anchors": ["src/ellalgo/cutting_plane.py:cutting_plane_optim", "src/ellalgo/cutting_plane.py:cutting_plane_optim_q", "src/ellalgo/ell.py:Ell.xc", "src/ellalgo/ell.py:Ell._update_core"]}
{"id": "C09", "title": "bsearch keeps a certified bracket", "statement": "bsearch terminates within max_iters oracle calls; the value returned is the initial upper bound or a value the oracle accepted; every value accepted is an upper end and every value rejected a lower end of the bracket from then on.", "quantifier": "every oracle (also non-monotone, stateful), every interval, any number type", "why_tests_cant": "history property over arbitrary oracles", "anchors": ["src/ellalgo/cutting_plane.py:bsearch"]}
{"id": "C10", "title": "bsearch precision over the reals", "statement": "For lower <= upper and a monotone oracle with threshold t in the interval, bsearch returns a value v with t <= v <= t + 2*tolerance unless the budget ran out; each iteration exactly halves the bracket, so it stops by iteration k as soon as (upper-lower)/2^(k+1) < tolerance.", "quantifier": "all intervals, thresholds, tolerances > 0 and budgets", "why_tests_cant": "quantifies over a continuum and unbounded iteration counts", "anchors": ["src/ellalgo/cutting_plane.py:bsearch"]}
{"id": "C11", "title": "bsearch over integers", "statement": "With integer bounds (type preserved by truncation toward zero) and 0 <= lower, a monotone oracle whose threshold lies in (lower, upper] is answered with exactly the threshold given enough iterations, but the loop never detects convergence by itself when lower is rejected: it runs until max_iters. For any tolerance the answer v satisfies threshold <= v <= upper; a run that stops on the tolerance has (v - threshold + 1)/2 below it, and stops within j iterations once (upper - lower - 1)/2^j + 1 is below twice the tolerance. The interval test compares half the width with the tolerance, the midpoint is truncated toward zero. The midpoint is computed in doubles: for bounds within 2^52 nothing is rounded; for bounds within 2^k the answer is accepted, at most 2^k, and exceeds the threshold by at most 2^(k-51) + (upper - lower)/2^max_iters; exactness fails above 2^53 whatever the number of iterations, and above 2^54 the answer can exceed upper.", "quantifier": "all integer intervals, thresholds and budgets", "why_tests_cant": "unbounded integers and iteration counts", "anchors": ["src/ellalgo/cutting_plane.py:bsearch"]}
{"id": "C12", "title": "BSearchAdaptor isolates failed sub-problems", "statement": "assess_bs(gamma) returns True iff the feasibility run on a copy of the space finds a point; on True the stored space's centre becomes that point, on False the stored space is untouched; in both cases the stored shape and scale never change.", "quantifier": "every oracle, space, gamma", "why_tests_cant": "copy/alias behaviour for every state", "anchors": ["src/ellalgo/cutting_plane.py:BSearchAdaptor.assess_bs", "src/ellalgo/cutting_plane.py:BSearchAdaptor.x_best"]}
{"id": "C13", "title": "bsearch through BSearchAdaptor yields a witness point", "statement": "After bsearch(adaptor, interval) if any query was accepted, then the returned gamma is one for which the oracle, updated to that gamma, accepted the point adaptor.x_best.", "quantifier": "every oracle, space, interval, options", "why_tests_cant": "combination of two loops over arbitrary histories", "anchors": ["src/ellalgo/cutting_plane.py:bsearch", "src/ellalgo/cutting_plane.py:BSearchAdaptor"]}
{"id": "C14", "title": "Cut calculations never fail on documented inputs", "statement": "For every dimension n >= 2 and tsq > 0: the square roots never see a negative argument and no division is by zero, for single cuts with beta >= 0, all parallel cuts with beta0 <= beta1 that reach the formulas, central cuts, and the discrete variants for every beta; calc_bias_cut raises AssertionError exactly for beta < 0.", "quantifier": "all n >= 2, all real beta, beta0, beta1, tsq", "why_tests_cant": "continuum of inputs", "anchors": ["src/ellalgo/ell_calc.py:EllCalc", "src/ellalgo/ell_calc_core.py:EllCalcCore"]}
{"id": "C15", "title": "Update parameters stay in their valid ranges", "statement": "On Success: 0 < sigma <= 1 (sigma < 1 unless the two hyperplanes coincide or touch the boundary), delta >= 0, 0 <= rho <= tau for cuts with beta0 >= 0 (and for discrete cuts that meet the ellipsoid 0 < sigma, delta >= 0).", "quantifier": "all n >= 2, tsq > 0 and admissible cuts", "why_tests_cant": "continuum of inputs; the hypothesis tests sample it", "anchors": ["src/ellalgo/ell_calc.py:EllCalc", "src/ellalgo/ell_calc_core.py:EllCalcCore"]}
{"id": "C16", "title": "All formulations of the parallel-cut formulas agree", "statement": "calc_parallel_bias_cut, _fast, _fast2 and _old return the same (rho, sigma, delta), and so do calc_parallel_central_cut and _old, wherever the latter are defined; calc_parallel_bias_cut_fast_old agrees for beta0 < beta1 but answers with a central cut for beta0 = beta1, where the others collapse the ellipsoid onto the hyperplane. In doubles calc_parallel_central_cut_old does not agree: for n = 2, beta1 = 2^-26, tsq = 2 it answers sigma = 4/3 > 1 although its exact value is at most 1 and calc_parallel_central_cut answers 1 (shown by refutation). The same happens to the old formulas of the parallel deep cut: on a narrow band near the centre calc_parallel_bias_cut_old and _fast2 answer sigma > 5/4, and _fast_old takes its central branch, although their exact values agree with the current formula.", "quantifier": "all n >= 2 and all admissible beta0, beta1, tsq", "why_tests_cant": "algebraic identity on a continuum", "anchors": ["src/ellalgo/ell_calc_core.py:EllCalcCore.calc_parallel_bias_cut_fast", "src/ellalgo/ell_calc_core.py:EllCalcCore.calc_parallel_bias_cut_fast2", "src/ellalgo/ell_calc_core.py:EllCalcCore.calc_parallel_bias_cut_fast_old", "src/ellalgo/ell_calc_core.py:EllCalcCore.calc_parallel_bias_cut_old", "src/ellalgo/ell_calc_core.py:EllCalcCore.calc_parallel_central_cut_old"]}
{"id": "C17", "title": "Special cases of the formulas coincide", "statement": "The deep cut with beta = 0 equals the central cut; the parallel deep cut with beta0 = 0 equals the parallel central cut; the parallel deep cut with beta1 = tau equals the single deep cut; the fallback at tsq <= beta1^2 is therefore continuous.", "quantifier": "all n >= 2, tsq > 0, beta", "why_tests_cant": "continuum", "anchors": ["src/ellalgo/ell_calc_core.py:EllCalcCore"]}
{"id": "C18", "title": "Parallel cuts can be switched off", "statement": "With use_parallel_cut = False, or with a one-element beta, the three dispatchers behave exactly as with the single number beta[0]; a None second bound raises AssertionError and an empty list IndexError, except in the central dispatcher, which treats it as a single central cut.", "quantifier": "every beta list and tsq, every n", "why_tests_cant": "case analysis over all inputs", "anchors": ["src/ellalgo/ell_calc.py:EllCalc.calc_single_or_parallel", "src/ellalgo/ell_calc.py:EllCalc.calc_single_or_parallel_central_cut", "src/ellalgo/ell_calc.py:EllCalc.calc_single_or_parallel_q"]}
{"id": "C19", "title": "Status of a cut is determined by geometry", "statement": "calc_bias_cut answers NoSoln iff beta > tau; calc_parallel answers NoSoln iff beta1 < beta0 or beta0 > tau; the discrete variants answer NoEffect iff the cut is not NoSoln and eta <= 0; a result triple is present iff the status is Success.", "quantifier": "all n >= 2, tsq > 0, beta", "why_tests_cant": "continuum", "anchors": ["src/ellalgo/ell_calc.py:EllCalc"]}
{"id": "C20", "title": "An update never loses a point that satisfies the cut", "statement": "When Ell.update_bias_cut / update_central_cut / update_q returns Success, every point of the old ellipsoid that satisfies the cut (both inequalities for a parallel cut) lies in the new ellipsoid. For update_bias_cut with two bounds this needs tsq + n*beta0*beta1 >= 0.", "quantifier": "every dimension n >= 2, every symmetric positive definite shape, centre, scale, cut and every point", "why_tests_cant": "universally quantified geometric statement over real vectors", "anchors": ["src/ellalgo/ell.py:Ell._update_core", "src/ellalgo/ell_calc.py:EllCalc", "src/ellalgo/ell_calc_core.py:EllCalcCore"]}
{"id": "C21", "title": "No sequence of updates ever loses the target", "statement": "After any sequence of successful updates (bias, central, discrete, mixed) every point of the initial ellipsoid that satisfies every applied cut is in the current ellipsoid. The same holds for EllStable.", "quantifier": "every initial ellipsoid, every finite cut sequence, every point", "why_tests_cant": "unbounded histories", "anchors": ["src/ellalgo/ell.py:Ell"]}
{"id": "C22", "title": "NoSoln is truthful", "statement": "When an update answers NoSoln, no point of the current ellipsoid satisfies the cut.", "quantifier": "every ellipsoid, cut and point", "why_tests_cant": "universally quantified geometric statement", "anchors": ["src/ellalgo/ell.py:Ell", "src/ellalgo/ell_calc.py:EllCalc"]}
{"id": "C23", "title": "A refused cut leaves the ellipsoid unchanged", "statement": "When Ell's update answers NoSoln or NoEffect or raises an exception, centre, shape matrix and scale are exactly what they were before (only tsq may change).", "quantifier": "every state and cut", "why_tests_cant": "every error path on every input", "anchors": ["src/ellalgo/ell.py:Ell._update_core"]}
{"id": "C24", "title": "The shape stays symmetric positive definite", "statement": "From the constructor on, through every sequence of accepted non-degenerate cuts, Ell's shape matrix stays symmetric positive definite and the scale positive (hence omega > 0 for every non-zero gradient and NoEffect via omega = 0 never happens).", "quantifier": "every constructor argument, every finite cut sequence", "why_tests_cant": "invariant over unbounded histories", "anchors": ["src/ellalgo/ell.py:Ell"]}
{"id": "C25", "title": "The new centre satisfies the cut", "statement": "After a successful update with centre xc', -beta1 <= g.(xc'-xc) <= -beta0: the new centre lies inside the half-space (slab) that was cut, for every deep, central and effective discrete cut. The same holds for EllStable.", "quantifier": "every ellipsoid and cut", "why_tests_cant": "continuum", "anchors": ["src/ellalgo/ell.py:Ell._update_core", "src/ellalgo/ell_calc_core.py:EllCalcCore"]}
{"id": "C26", "title": "tsq is the exact squared half-width along the gradient", "statement": "After an update tsq() equals the maximum over the pre-update ellipsoid of (g.(x-xc))^2; it is an upper bound for every point of the ellipsoid and is attained. The same holds for EllStable.", "quantifier": "every ellipsoid, gradient and point", "why_tests_cant": "continuum; this is what the tsq < tolerance stopping rule relies on", "anchors": ["src/ellalgo/ell.py:Ell.tsq", "src/ellalgo/ell.py:Ell._update_core"]}
{"id": "C27", "title": "Each accepted cut shrinks the volume", "statement": "For cuts with beta0 >= 0 the squared volume factor delta^n * (1-sigma) is at most exp(-1/(n+1)) < 1. Measured on the object itself, by the determinant of kappa*mq: an accepted cut multiplies it by exactly delta^n * (1-sigma), it stays positive, one accepted central or deep cut leaves at most exp(-1/(n+1)) of it and m of them at most exp(-m/(n+1)). EllStable, measured by the determinant its factors stand for, shrinks in the same way, and the two classes fed the same cuts have the same volume. The update is also optimal: provided the first plane meets the ellipsoid (which a deep cut that keeps anything guarantees), no ellipsoid whatsoever that contains the kept part has a smaller volume than the new one, and the only one as small is the new one itself; this holds for both classes. Hence a cut that keeps less never leads to a larger ellipsoid, and using both offsets of a deep parallel cut is never worse than using the first one alone. When the first of two planes lies beyond the ellipsoid on the far side this fails: update_q answers Success with a larger ellipsoid than a cut with the second plane alone gives.", "quantifier": "all n >= 2, tsq > 0 and admissible beta; every positive definite ellipsoid, every finite sequence of accepted cuts, both classes; every ellipsoid (centre, positive scale, symmetric positive definite shape) containing the kept part", "why_tests_cant": "continuum; basis of the convergence guarantee", "anchors": ["src/ellalgo/ell_calc_core.py:EllCalcCore", "src/ellalgo/ell_calc.py:EllCalc"]}
{"id": "C28", "title": "no_defer_trick does not change Ell", "statement": "Two Ell objects differing only in no_defer_trick, fed the same calls, return the same statuses, centres and tsq and always describe the same ellipsoid, as long as no cut touches the ellipsoid in one point (which makes the scale 0).", "quantifier": "every finite sequence of updates", "why_tests_cant": "unbounded histories", "anchors": ["src/ellalgo/ell.py:Ell._update_core"]}
{"id": "C29", "title": "Shallow parallel bias cuts", "statement": "update_bias_cut accepts two-sided cuts with beta0 < 0 that satisfy tsq + n*beta0*beta1 < 0 and then throws away points that satisfy the cut; update_q refuses the same cut with NoEffect.", "quantifier": "existence claim plus universal claim for update_q", "why_tests_cant": "a counterexample to containment that the test-suite does not contain", "anchors": ["src/ellalgo/ell_calc.py:EllCalc.calc_parallel", "src/ellalgo/ell_calc.py:EllCalc.calc_parallel_q"]}
{"id": "C30", "title": "EllStable is equivalent to Ell", "statement": "EllStable and Ell started from the same scalar or positive diagonal and fed the same cuts return the same statuses, centres and tsq, and keep the same scale and describe the same ellipsoid, as long as no cut is degenerate (sigma = 1), has a zero gradient or a gradient of the wrong length.", "quantifier": "every dimension, every positive diagonal, every finite cut sequence", "why_tests_cant": "unbounded histories; correctness of the in-place LDL^T rank-one update for every size", "anchors": ["src/ellalgo/ell_stable.py:EllStable._update_core", "src/ellalgo/ell.py:Ell._update_core"]}
{"id": "C31", "title": "EllStable with no_defer_trick", "statement": "Setting no_defer_trick on EllStable should leave its behaviour unchanged, as it does for Ell; the code scales the whole factor storage (including L), so it does not.", "quantifier": "existence of a two-cut counterexample", "why_tests_cant": "the unit test checks only that kappa is reset", "anchors": ["src/ellalgo/ell_stable.py:EllStable._update_core"]}
{"id": "C32", "title": "EllStable degenerate cuts are not exception safe", "statement": "A cut with sigma = 1 (hyperplane touching the ellipsoid) makes EllStable fail with a division by zero after the centre has already been moved, whereas Ell succeeds; so EllStable is not exception safe.", "quantifier": "every state and every cut with beta = tau", "why_tests_cant": "boundary behaviour on a measure-zero set of inputs", "anchors": ["src/ellalgo/ell_stable.py:EllStable._update_core", "src/ellalgo/ell.py:Ell._update_core"]}
{"id": "C33", "title": "Zero gradients", "statement": "Ell raises ValueError on a zero gradient before changing anything; EllStable has no such check: a central cut runs into a division by zero omega, a deep cut (beta > 0) is answered NoSoln. In doubles the division gives NaN: EllStable answers Success to a central cut with a zero gradient (of either sign) and overwrites the whole centre with NaN.", "quantifier": "every state", "why_tests_cant": "all states", "anchors": ["src/ellalgo/ell.py:Ell._update_core", "src/ellalgo/ell_stable.py:EllStable._update_core"]}
{"id": "C34", "title": "A None from cutting_plane_feas through NoSoln proves infeasibility", "statement": "With Ell and an oracle whose cuts are valid for a set S, if cutting_plane_feas stops because an update answered NoSoln, no point of the initial ellipsoid belongs to S; if it stops because tsq < tolerance, all of S within the initial ellipsoid lies in a slab of squared half-width below the tolerance around the last gradient.", "quantifier": "every n, every initial ellipsoid, every valid stateful oracle, every options", "why_tests_cant": "end-to-end guarantee over all runs", "anchors": ["src/ellalgo/cutting_plane.py:cutting_plane_feas", "src/ellalgo/ell.py:Ell"]}
{"id": "C35", "title": "cutting_plane_feas converges", "statement": "If the set S contains a ball of radius r inside the initial ball of squared radius kappa, the oracle's cuts are valid for S with gradients of norm >= gmin, r^2*gmin^2 >= tolerance and max_iters > n*(n+1)*ln(kappa/r^2), then cutting_plane_feas with Ell or EllStable returns a point.", "quantifier": "every n >= 2, r, kappa, S, oracle", "why_tests_cant": "termination with success within an explicit number of steps for every problem", "anchors": ["src/ellalgo/cutting_plane.py:cutting_plane_feas", "src/ellalgo/ell.py:Ell", "src/ellalgo/ell_stable.py:EllStable"]}
{"id": "C36", "title": "cutting_plane_optim is optimal when it stops by NoSoln", "statement": "With Ell and an oracle whose cuts keep every point that is better than the current gamma, when cutting_plane_optim stops because an update answered NoSoln no point of the initial ellipsoid is feasible and strictly better than the returned gamma.", "quantifier": "every n, initial ellipsoid, oracle, options", "why_tests_cant": "end-to-end guarantee over all runs", "anchors": ["src/ellalgo/cutting_plane.py:cutting_plane_optim", "src/ellalgo/ell.py:Ell"]}
{"id": "C37", "title": "LDLTMgr.factor decides positive definiteness", "statement": "For a symmetric matrix factor/factorize returns True iff v.Av > 0 for every non-zero v. A new object that has factorised nothing already reports success.", "quantifier": "every dimension and every symmetric real matrix", "why_tests_cant": "continuum of matrices of every size", "anchors": ["src/ellalgo/oracles/ldlt_mgr.py:LDLTMgr.factor", "src/ellalgo/oracles/ldlt_mgr.py:LDLTMgr.factorize"]}
{"id": "C38", "title": "LDLT factors and sqrt reconstruct the matrix", "statement": "After a successful factorisation A = L D L^T holds for the stored factors and sqrt() returns an upper triangular R with positive diagonal and R^T R = A; sqrt() raises AssertionError otherwise.", "quantifier": "every dimension and every symmetric positive definite matrix", "why_tests_cant": "continuum of matrices of every size", "anchors": ["src/ellalgo/oracles/ldlt_mgr.py:LDLTMgr.factor", "src/ellalgo/oracles/ldlt_mgr.py:LDLTMgr.sqrt"]}
{"id": "C39", "title": "witness() certifies failure", "statement": "After a failed factorisation witness() returns ep >= 0 and leaves a vector v (the stored slice, zero elsewhere) with last component 1 such that v.Av = -ep, and sym_quad(B) = v.Bv for every B; it raises AssertionError after a successful factorisation.", "quantifier": "every dimension and symmetric matrix", "why_tests_cant": "continuum of matrices of every size", "anchors": ["src/ellalgo/oracles/ldlt_mgr.py:LDLTMgr.witness", "src/ellalgo/oracles/ldlt_mgr.py:LDLTMgr.sym_quad"]}
{"id": "C40", "title": "Factorisation is lazy and independent of history", "statement": "factor asks get_elem only for positions (i,j) with j <= i, never for a row beyond the failing one, and its answer, pos, witness and factors do not depend on anything left in the object by earlier calls; the wit attribute outside the failing block does keep stale data.", "quantifier": "every earlier history, matrix, dimension", "why_tests_cant": "unbounded call histories", "anchors": ["src/ellalgo/oracles/ldlt_mgr.py:LDLTMgr"]}
{"id": "C41", "title": "factor_with_allow_semidefinite", "statement": "False implies a vector with v.Av < 0 exists (and is produced by witness()); every positive semidefinite matrix is answered True; the converse 'True implies positive semidefinite' is false.", "quantifier": "every dimension and symmetric matrix; counterexample for the converse", "why_tests_cant": "continuum of matrices", "anchors": ["src/ellalgo/oracles/ldlt_mgr.py:LDLTMgr.factor_with_allow_semidefinite"]}
{"id": "C42", "title": "LMIOracle decides the matrix inequality", "statement": "LMIOracle.assess_feas(x) returns None iff B - sum x_k F_k is positive definite.", "quantifier": "every size, all symmetric F_k, B, every x, every earlier history of the oracle object", "why_tests_cant": "continuum", "anchors": ["src/ellalgo/oracles/lmi_oracle.py:LMIOracle.assess_feas"]}
{"id": "C43", "title": "LMIOracle's cuts are valid", "statement": "When LMIOracle.assess_feas(x) returns (g, ep), then ep >= 0 and every y with B - sum y_k F_k positive semidefinite satisfies g.(y-x) + ep <= 0.", "quantifier": "every size, all symmetric F_k, B, all x, y", "why_tests_cant": "continuum", "anchors": ["src/ellalgo/oracles/lmi_oracle.py:LMIOracle.assess_feas"]}
{"id": "C44", "title": "LMI0Oracle decides and cuts correctly", "statement": "LMI0Oracle.assess_feas(x) returns None iff sum x_k F_k is positive definite; a returned cut (g, ep) has ep >= 0 and g.(y-x)+ep <= 0 for every y with sum y_k F_k positive semidefinite. With no rows every point is accepted, also one with too many entries.", "quantifier": "every size, symmetric F_k, x, y", "why_tests_cant": "continuum", "anchors": ["src/ellalgo/oracles/lmi0_oracle.py:LMI0Oracle.assess_feas"]}
{"id": "C45", "title": "LMIOldOracle is interchangeable with LMIOracle", "statement": "For as many variables as matrices both oracles return the same answer on every point, after every history.", "quantifier": "all inputs and histories", "why_tests_cant": "continuum and histories", "anchors": ["src/ellalgo/oracles/lmi_old_oracle.py:LMIOldOracle.assess_feas", "src/ellalgo/oracles/lmi_oracle.py:LMIOracle.assess_feas"]}
{"id": "C46", "title": "A vanishing LMI gradient proves infeasibility but crashes Ell", "statement": "If LMIOracle returns a zero gradient with ep > 0 then no y satisfies the matrix inequality; feeding such a cut to Ell raises ValueError instead of reporting NoSoln.", "quantifier": "all LMI data; existence of such data", "why_tests_cant": "universal claim plus counterexample", "anchors": ["src/ellalgo/oracles/lmi_oracle.py:LMIOracle.assess_feas", "src/ellalgo/ell.py:Ell._update_core"]}
{"id": "C47", "title": "Solving LMIs end to end", "statement": "cutting_plane_feas with Ell and LMIOracle: a returned x makes B - sum x_k F_k positive definite; NoSoln means no point of the initial ellipsoid makes it positive semidefinite.", "quantifier": "every size, every LMI data, options", "why_tests_cant": "end-to-end guarantee", "anchors": ["src/ellalgo/cutting_plane.py:cutting_plane_feas", "src/ellalgo/oracles/lmi_oracle.py:LMIOracle", "src/ellalgo/ell.py:Ell"]}
{"id": "C48", "title": "ProfitOracle decides feasibility", "statement": "ProfitOracle.assess_feas(x, gamma) returns None iff y1 <= k and p*A*y1^a*y2^b - v1*y1 - v2*y2 >= gamma with y = exp(x), independently of the round-robin position. A fresh oracle given a point that does not fit its elasticities (or its prices) raises ValueError. On an empty point it raises IndexError. Called on its own, grad2 raises AttributeError before the first fn2 and afterwards returns q/(gamma+vy) - elasticities for the point last given to fn2. A single input price counts for every input: such an oracle answers, call after call, as the one with the price written out. With a single elasticity and price fn2 raises IndexError.", "quantifier": "all parameters with p*A > 0, k > 0, v >= 0, all x, gamma with gamma + v.y > 0, every round-robin state", "why_tests_cant": "continuum and histories", "anchors": ["src/ellalgo/oracles/profit_oracle.py:ProfitOracle.assess_feas", "src/ellalgo/oracles/profit_oracle.py:ProfitOracle.fn1", "src/ellalgo/oracles/profit_oracle.py:ProfitOracle.fn2"]}
{"id": "C49", "title": "ProfitOracle reports the true profit", "statement": "When assess_optim reports a value it is exactly the profit at x, it is >= the gamma passed in, and x satisfies y1 <= k.", "quantifier": "all parameters, points, gamma, histories", "why_tests_cant": "continuum and histories (cached intermediate values)", "anchors": ["src/ellalgo/oracles/profit_oracle.py:ProfitOracle.assess_optim"]}
{"id": "C50", "title": "ProfitOracle's cuts are valid", "statement": "Every cut (g, beta) returned satisfies g.(z-x) + beta <= 0 for all z that are feasible with profit >= the (new) gamma, for gamma >= 0 and non-negative prices.", "quantifier": "all parameters, x, z, gamma", "why_tests_cant": "continuum (log-sum-exp convexity)", "anchors": ["src/ellalgo/oracles/profit_oracle.py:ProfitOracle.assess_optim", "src/ellalgo/oracles/profit_oracle.py:ProfitOracle.grad2"]}
{"id": "C51", "title": "ProfitRbOracle is robust", "statement": "A value reported by ProfitRbOracle.assess_optim is a lower bound for the profit under every realisation of the uncertain parameters in the box, and x_1 satisfies the capacity limit in every realisation. Input prices of a length other than one or two raise ValueError in the constructor; one price counts for both inputs.", "quantifier": "all parameters and all realisations", "why_tests_cant": "continuum", "anchors": ["src/ellalgo/oracles/profit_oracle.py:ProfitRbOracle.assess_optim"]}
{"id": "C52", "title": "ProfitQOracle evaluates integer points", "statement": "The evaluation point handed out with a value has exp-coordinates that are positive integers, the value is the profit there, and the returned cut, shifted to the centre, is the cut at the integer point: g.(z-xc)+beta' = g.(z-xd)+beta for all z. A retry on a fresh oracle does not look at the given point but evaluates the quantities (1, 1). A retry with a one-entry centre answers as with the entry repeated. A retry with a centre of neither one entry nor the length of the stored point raises ValueError and keeps that point.", "quantifier": "all parameters, centres, histories", "why_tests_cant": "continuum and histories", "anchors": ["src/ellalgo/oracles/profit_oracle.py:ProfitQOracle.assess_optim_q"]}
{"id": "C53", "title": "LowpassOracle decides its specification", "statement": "LowpassOracle.assess_feas(x) returns None iff the sampled response is within [lp_sq, up_sq] on the whole pass band, within [0, sp_sq] on the whole stop band, non-negative on the transition band and x[0] >= 0, whatever the round-robin positions left by earlier calls. No oracle accepts the empty point. With a pass band edge so large that the band has more samples than there are rows, a fresh oracle accepts nothing and raises IndexError exactly when every sample but the first is within the pass band bounds.", "quantifier": "every oracle built by the constructor, every x, every earlier history", "why_tests_cant": "round-robin state over unbounded histories", "anchors": ["src/ellalgo/oracles/lowpass_oracle.py:LowpassOracle.assess_feas"]}
{"id": "C54", "title": "LowpassOracle's cuts are valid", "statement": "A returned cut (g, beta) or (g, (beta0, beta1)) is satisfied by every z meeting the specification: -beta1 <= g.(z-x) <= -beta0, and it is violated by x (beta0 > 0).", "quantifier": "all x, z, histories", "why_tests_cant": "continuum and histories", "anchors": ["src/ellalgo/oracles/lowpass_oracle.py:LowpassOracle.assess_feas"]}
{"id": "C55", "title": "LowpassOracle reports the stop-band maximum", "statement": "assess_optim reports a value iff x is feasible for sp_sq = gamma; the value is the maximum stop-band response, is attained at the reported row, is between 0 and gamma, and the accompanying cut keeps every specification-satisfying z whose stop-band maximum is at most the value. With no sample in the stop band (wstop = 1) an accepted point is reported, in doubles, with value minus infinity and bounds (0, -inf), and a run with Ell and parallel cuts ends at the first acceptable centre with that value.", "quantifier": "all x, gamma, histories", "why_tests_cant": "continuum and histories", "anchors": ["src/ellalgo/oracles/lowpass_oracle.py:LowpassOracle.assess_optim"]}
{"id": "C56", "title": "inverse_spectral_fact is the autocorrelation", "statement": "inverse_spectral_fact(h) has the length of h and k-th entry sum_i h[i]h[i+k]; its power spectrum r0 + 2 sum r_k cos(k w) equals |sum h_k e^(-jkw)|^2, hence is non-negative, for every w.", "quantifier": "every non-empty h and every frequency", "why_tests_cant": "continuum", "anchors": ["src/ellalgo/oracles/spectral_fact.py:inverse_spectral_fact"]}
{"id": "C57", "title": "conjugate_gradient returns true solutions", "statement": "If conjugate_gradient returns x then ||b - A x|| < tol in exact arithmetic; it never returns after more than max_iter iterations, and otherwise raises ValueError. Shapes that do not fit raise ValueError, except that a right-hand side of length one beside a longer starting point counts for every row. In doubles the first claim is false: the tested residual is updated by recurrence, and A=[[4,1],[1,3]], b=(1e17,2e17) with the default tolerance returns a point with residual (8,14).", "quantifier": "every matrix (also non-SPD), b, x0, tol, max_iter", "why_tests_cant": "continuum and unbounded iteration counts", "anchors": ["src/ellalgo/conjugate_gradient.py:conjugate_gradient"]}
{"id": "C58", "title": "conjugate_gradient terminates in n steps", "statement": "For symmetric positive definite A, tol > 0, a start that is not already a solution and max_iter >= n, conjugate_gradient returns (no ValueError).", "quantifier": "every n, SPD A, b, x0", "why_tests_cant": "classical convergence theorem over all matrices of all sizes", "anchors": ["src/ellalgo/conjugate_gradient.py:conjugate_gradient"]}
{"id": "C59", "title": "conjugate_gradient rejects an exact start", "statement": "If the initial guess already solves the system (for example b = 0) conjugate_gradient raises ValueError instead of returning it.", "quantifier": "every A, b, x0 with A x0 = b", "why_tests_cant": "boundary case", "anchors": ["src/ellalgo/conjugate_gradient.py:conjugate_gradient"]}
{"id": "C60", "title": "fib computes Fibonacci numbers", "statement": "fib(n) is the n-th Fibonacci number for every n >= 1 and raises AssertionError for n <= 0.", "quantifier": "all integers", "why_tests_cant": "unbounded integers", "anchors": ["src/ellalgo/skeleton.py:fib"]}
{"id": "C61", "title": "A parallel cut that misses the ellipsoid is accepted", "statement": "For beta0 <= beta1 < -tau no point of the ellipsoid satisfies the two-sided cut, yet update_bias_cut and update_q answer Success and make the scale kappa negative, after which tsq is negative and the next central cut fails with a square root of a negative number. With beta1 > tau >= beta0 and beta0 < 0 (a shallow one-sided cut) update_bias_cut raises AssertionError.", "quantifier": "every state and every such cut", "why_tests_cant": "no test contains such a cut", "anchors": ["src/ellalgo/ell_calc.py:EllCalc.calc_parallel", "src/ellalgo/ell_calc.py:EllCalc.calc_parallel_q", "src/ellalgo/ell.py:Ell._update_core"]}
{"id": "C62", "title": "cutting_plane_optim converges", "statement": "If the oracle's cuts keep every point strictly better than the current gamma and have gradients of norm >= gmin, r^2*gmin^2 >= tolerance and max_iters is above (n+1)*ln(prod of the squared semi-axes / r^(2n)) then, whatever value cutting_plane_optim with Ell or EllStable returns, no ball of radius r inside the initial ellipsoid consists only of points strictly better than it.", "quantifier": "every n >= 2, initial ellipsoid (scalar or diagonal), r, oracle, starting gamma, completed run", "why_tests_cant": "near-optimality of every run within an explicit number of steps", "anchors": ["src/ellalgo/cutting_plane.py:cutting_plane_optim", "src/ellalgo/ell.py:Ell", "src/ellalgo/ell_stable.py:EllStable"]}
{"id": "C63", "title": "Low-pass filter design converges", "statement": "For LowpassOracle every gradient has norm at least 1, so cutting_plane_feas with Ell returns a filter meeting the specification whenever a ball of radius r of such filters lies in the initial ball, tolerance <= r^2 and max_iters > n*(n+1)*ln(kappa/r^2); under the same iteration bound no ball of radius r in the initial ball consists of filters meeting the specification with the stop band bound returned by cutting_plane_optim.", "quantifier": "every filter specification, state of the oracle, r, kappa", "why_tests_cant": "success within an explicit number of steps for every specification", "anchors": ["src/ellalgo/oracles/lowpass_oracle.py:LowpassOracle", "src/ellalgo/cutting_plane.py:cutting_plane_feas", "src/ellalgo/cutting_plane.py:cutting_plane_optim"]}
{"id": "C64", "title": "Convergence for cuts with a margin", "statement": "If every cut of the oracle keeps S and puts all of S at least eps beyond the hyperplane through the refused point (as the cut of a convex function does when S is its sublevel set at -eps), eps^2 >= tolerance, a ball of radius r lies in S and in the initial ellipsoid, and max_iters is above the volume bound of C35, then cutting_plane_feas with Ell or EllStable returns an accepted point; cutting_plane_optim returns a value for which no such ball lies in S. No lower bound on the gradients is needed.", "quantifier": "every n >= 2, initial ellipsoid (scalar or diagonal), r, eps, oracle", "why_tests_cant": "success within an explicit number of steps for every oracle of the class", "anchors": ["src/ellalgo/cutting_plane.py:cutting_plane_feas", "src/ellalgo/cutting_plane.py:cutting_plane_optim", "src/ellalgo/ell.py:Ell", "src/ellalgo/ell_stable.py:EllStable"]}
{"id": "C65", "title": "LMI feasibility converges", "statement": "If every point of a ball of radius r inside the initial ball of squared radius kappa satisfies F(x) >= eps I, tolerance <= eps^2 and max_iters > n*(n+1)*ln(kappa/r^2), then cutting_plane_feas with LMIOracle, LMIOldOracle or LMI0Oracle and Ell or EllStable returns a point where the matrix is positive definite, after at most n*(n+1)*ln(kappa/r^2) iterations.", "quantifier": "every m, n >= 2, symmetric matrices, eps, r, kappa, start", "why_tests_cant": "success within an explicit number of steps for every matrix inequality", "anchors": ["src/ellalgo/oracles/lmi_oracle.py:LMIOracle", "src/ellalgo/oracles/lmi_old_oracle.py:LMIOldOracle", "src/ellalgo/oracles/lmi0_oracle.py:LMI0Oracle", "src/ellalgo/cutting_plane.py:cutting_plane_feas"]}
{"id": "C66", "title": "Profit maximisation is near-optimal", "statement": "If max_iters > 6*ln(kappa/r^2) and tolerance <= eps^2, then for the profit gamma returned by cutting_plane_optim with ProfitOracle (or ProfitRbOracle) and Ell or EllStable from a ball of squared radius kappa, no ball of radius r inside the initial ball consists of points that would still meet the limit and earn gamma (in every market of the box) with the limit and the revenue reduced by the factor exp(-eps).", "quantifier": "every market with non-negative input prices, start, kappa, r, eps, initial gamma >= 0", "why_tests_cant": "an optimality gap for every market and start", "anchors": ["src/ellalgo/oracles/profit_oracle.py:ProfitOracle", "src/ellalgo/oracles/profit_oracle.py:ProfitRbOracle", "src/ellalgo/cutting_plane.py:cutting_plane_optim"]}
{"id": "C67", "title": "Profit oracle at the exact optimum", "statement": "A point where each marginal revenue equals the input price maximises the profit over all points. ProfitOracle.assess_optim answers there with gradient zero, so cutting_plane_optim centred at the exact optimum raises (ValueError with Ell, ZeroDivisionError with EllStable) instead of returning it, whatever the budget.", "quantifier": "every market, every stationary point within the limit, every search space centred there", "why_tests_cant": "global optimality over all points; the failing start depends on the market data", "anchors": ["src/ellalgo/oracles/profit_oracle.py:ProfitOracle", "src/ellalgo/ell.py:Ell", "src/ellalgo/ell_stable.py:EllStable"]}
{"id": "C68", "title": "spectral_fact: outcome and frequency response", "statement": "spectral_fact raises ValueError on an empty array and RuntimeError exactly when the spectrum r_0 + 2 sum r_k cos(k w) is at most -1e-4 at one of the 100 n sampled frequencies. Otherwise it returns n numbers h whose response at 2 pi k / n is exp(L(exp(-2 pi i k / n))) for the unique real polynomial L of degree 50 n with exp(2 Re L) equal to the (clamped) spectrum at all 100 n frequencies, i.e. the sampled minimum-phase response; in particular |H|^2 equals the spectrum at those n frequencies when all samples are positive.", "quantifier": "every array of reals", "why_tests_cant": "all lengths and coefficients; the phase is an infinite family of identities", "anchors": ["src/ellalgo/oracles/spectral_fact.py:spectral_fact"]}
{"id": "C69", "title": "spectral_fact and inverse_spectral_fact", "statement": "If all sampled values are positive, the impulse response has energy r_0 and its autocorrelation q satisfies q_l + q_(n-l) = r_l + r_(n-l); for n <= 2 inverse_spectral_fact(spectral_fact(r)) = r exactly. Inputs that are no autocorrelation are not always rejected: the spectrum may be negative between the samples, or above -1e-4 at a sample.", "quantifier": "every array of reals with positive samples; two explicit inputs", "why_tests_cant": "all lengths and coefficients; tests compare a few cases up to a tolerance", "anchors": ["src/ellalgo/oracles/spectral_fact.py:spectral_fact", "src/ellalgo/oracles/spectral_fact.py:inverse_spectral_fact"]}
{"id": "C70", "title": "spectral_fact of a column vector", "statement": "Given r as a column of shape (n, 1), as its docstring asks, spectral_fact returns an n by n matrix with entry (k, t) = sqrt(R(2 pi k / n)) / n, not an impulse response: for r = (5, 2) no row and no column has autocorrelation r, although the one-dimensional call returns (2, 1). A column of no rows raises ValueError.", "quantifier": "every column of reals", "why_tests_cant": "the doctest checks only the shape of the result", "anchors": ["src/ellalgo/oracles/spectral_fact.py:spectral_fact"]}
{"id": "C71", "title": "bsearch with BSearchAdaptor is near-optimal", "statement": "Let a parametrised oracle accept only points of S(g) and return valid cuts for T(g), let T(g) hold a fixed ball of radius r for all g >= g0, and let that ball lie within the radius of the initial ball-shaped Ell/EllStable of its centre and of every point in any S(g). With enough iterations for the sub-problems, bsearch returns a value below g0 + 2 tolerance (or, at max_iters, at most g0 + (upper - lower)/2^max_iters), and x_best is a point of S at that value unless no query was accepted.", "quantifier": "every dimension n >= 2, oracle, interval and tolerance", "why_tests_cant": "all oracles and all runs of nested loops", "anchors": ["src/ellalgo/cutting_plane.py:bsearch", "src/ellalgo/cutting_plane.py:BSearchAdaptor", "src/ellalgo/ell.py:Ell", "src/ellalgo/ell_stable.py:EllStable"]}
{"id": "C72", "title": "BSearchAdaptor can lose the solution after an accepted parameter", "statement": "It is not enough that the initial ellipsoid covers the solutions: after an accepted parameter the adaptor re-centres an ellipsoid of the original shape about the accepted point, which can miss solutions the initial one covered, so a later parameter is wrongly reported infeasible and bsearch returns a value that is not near-optimal, although a fresh adaptor accepts the parameter.", "quantifier": "one explicit two-dimensional instance meeting all other conditions of C71", "why_tests_cant": "no test compares an answer after acceptance with a fresh run", "anchors": ["src/ellalgo/cutting_plane.py:BSearchAdaptor.assess_bs", "src/ellalgo/cutting_plane.py:bsearch"]}
{"id": "C73", "title": "spectral_fact inverts inverse_spectral_fact on minimum-phase filters, with an explicit error", "statement": "Let h be n taps whose response is a positive constant times a product over fewer than n real or conjugate zeros of modulus at most q < 1, and r its autocorrelation as computed by inverse_spectral_fact. Then spectral_fact(r) succeeds, and the result g satisfies |g - h| <= e |h| in the Euclidean norm and |autocorr(g)_k - r_k| <= 2 e r_0 for every lag k, with e = (100 n + 1)(n - 1) q^(50 n + 1)/(1 - q). A filter with a zero outside the circle is not returned: (1, 2) comes back as (2, 1).", "quantifier": "every n, every minimum-phase filter and every q < 1; exact arithmetic", "why_tests_cant": "the discretisation error depends on all zero positions; tests use a few random filters and a tolerance", "anchors": ["src/ellalgo/oracles/spectral_fact.py:spectral_fact", "src/ellalgo/oracles/spectral_fact.py:inverse_spectral_fact"]}
{"id": "C74", "title": "The shape matrix of Ell stays exactly symmetric in floating point", "statement": "Starting from a constructed Ell and after any sequence of update_bias_cut, update_central_cut and update_q calls with any arguments, including calls that raise, the entries (i,j) and (j,i) of the stored matrix are the same double, bit for bit; no rounding error makes the matrix unsymmetric.", "quantifier": "every dimension, every constructor argument, every sequence of calls, all doubles including infinities and NaN", "why_tests_cant": "symmetry could be lost by one rounding in one update; tests compare a few runs with a tolerance", "anchors": ["src/ellalgo/ell.py:_update_core"]}
{"id": "C75", "title": "EllStable never goes negative in floating point", "statement": "Starting from a constructed EllStable whose scale or diagonal has no negative entry, after any sequence of single central cuts no diagonal entry of the stored factor, no scale factor and no tsq is a negative double, so math.sqrt never raises and every call succeeds. More generally one call of any update method keeps this invariant whenever the calculated sigma lies in [0,1) and delta is not negative.", "quantifier": "every dimension from 2 below 2^53, every start, every sequence of gradients, all doubles including overflow, underflow and NaN", "why_tests_cant": "loss of positive definiteness depends on accumulated rounding error over long runs", "anchors": ["src/ellalgo/ell_stable.py:_update_core", "src/ellalgo/ell_calc.py:calc_single_or_parallel_central_cut"]}
{"id": "C76", "title": "Ell loses positive definiteness in floating point", "statement": "Ell does not have the property of C75: Ell(1.0, [0, 0]) accepts 35 central cuts with gradient (2, 3), and at the 36th identical call tsq is a negative double (about -7.9e-12) and math.sqrt raises ValueError. In exact arithmetic every one of these calls succeeds, and so they do for EllStable in doubles.", "quantifier": "exhibited run", "why_tests_cant": "tests stop after few iterations on well-conditioned problems", "anchors": ["src/ellalgo/ell.py:_update_core", "src/ellalgo/ell_calc.py:calc_single_or_parallel_central_cut"]}
{"id": "C77", "title": "The cut calculations raise no arithmetic error in floating point", "statement": "With a calculator built by EllCalc(n), none of the three strategies (single or parallel; deep, central, q) raises ValueError from math.sqrt or ZeroDivisionError when evaluated in IEEE doubles with a finite tsq >= 2^-400, for any offsets including infinities and NaN. For single cuts, central cuts and the q variant this holds for every finite positive tsq. For parallel deep cuts with a tiny tsq it is false: n=2, beta=(-1.5*2^-500, 2^-500), tsq=1.25*2^-1000 divides by zero, which exact arithmetic never does (C14).", "quantifier": "all dimensions 2 <= n < 2^53, all offsets, all finite tsq in the stated range", "why_tests_cant": "cancellation, overflow and underflow depend on exact bit patterns of the inputs", "anchors": ["src/ellalgo/ell_calc.py:calc_single_or_parallel", "src/ellalgo/ell_calc.py:calc_single_or_parallel_central_cut", "src/ellalgo/ell_calc.py:calc_single_or_parallel_q", "src/ellalgo/ell_calc_core.py:calc_parallel_bias_cut_fast"]}
{"id": "C78", "title": "NoSoln is truthful in floating point", "statement": "Whenever a strategy evaluated in doubles with finite offsets and finite positive tsq answers NoSoln, no real displacement t0 with t0^2 <= tsq satisfies the cut: rounding never turns a feasible cut into NoSoln. Conversely a single deep cut with beta^2 > tsq*(1 + 4*2^-53), tsq >= 2^-400, is always answered with NoSoln.", "quantifier": "all dimensions 2 <= n < 2^53, all finite offsets and tsq, all real displacements", "why_tests_cant": "the boundary cases lie within one rounding error", "anchors": ["src/ellalgo/ell_calc.py:calc_bias_cut", "src/ellalgo/ell_calc.py:calc_bias_cut_q", "src/ellalgo/ell_calc.py:calc_parallel"]}
{"id": "C79", "title": "EllStable under deep cuts in floating point", "statement": "The sign invariant of C75 is not kept by every accepted deep cut: EllStable(0x1.e09c84bc00adcp+0, [0,0,0]) with gradient (1,0,0) and beta = 0x1.5ec3ff83edf4ap+0 answers Success, stores a negative diagonal entry, and the following central cut with the same gradient makes math.sqrt raise ValueError. It is kept by every single deep cut with 0 <= beta and beta^2 <= tsq*(1 - 2^-40), tsq finite and >= 2^-400; such a call succeeds.", "quantifier": "all dimensions 2 <= n < 2^53, all states satisfying the invariant, all gradients and offsets with the margin; the failure is an exhibited run", "why_tests_cant": "needs an offset within rounding of the boundary of the ellipsoid", "anchors": ["src/ellalgo/ell_stable.py:_update_core", "src/ellalgo/ell_calc.py:calc_bias_cut", "src/ellalgo/ell_calc_core.py:calc_bias_cut_fast"]}
{"id": "C80", "title": "Accuracy of the single and parallel cuts in floating point", "statement": "For finite doubles beta >= 0 and tsq >= 2^-400 with beta^2 <= tsq, calc_bias_cut evaluated in doubles answers Success with finite rho, sigma, delta, and these differ from the values of the same code in exact arithmetic on the same inputs by at most 8*2^-53 relative (rho), 16*2^-53 relative (sigma) and 64*2^-53 absolute (delta). The q variant answers the same for these offsets. The central cut answers within 5*2^-53 (rho), 2^-53 (sigma) and 9*2^-53 (delta), all relative. The parallel central cut with 0 <= beta1 and beta1^2 < tsq answers within 24*2^-53 relative plus 2^-1074 (rho), 24*2^-53 relative (sigma) and 61*2^-53 relative (delta), also when beta1*beta1 rounds to tsq and the code takes the central branch. The parallel deep cut, usual or discrete, with 0 <= beta0 <= beta1, beta1^2 <= (1 - 2^-52)*tsq and tsq between 2^-400 and 2^400 answers within 58*2^-53 relative plus 2^-1074 (rho), 51*2^-53 relative (sigma) and 96*2^-53 absolute (delta). No relative bound holds for a negative beta0: tsq + n*beta0*beta1 may cancel to 0 in doubles although it is positive.", "quantifier": "all dimensions 2 <= n < 2^53, all finite beta and tsq in the stated range", "why_tests_cant": "an error bound over all doubles cannot be sampled", "anchors": ["src/ellalgo/ell_calc.py:calc_bias_cut", "src/ellalgo/ell_calc_core.py:calc_bias_cut", "src/ellalgo/ell_calc_core.py:calc_bias_cut_fast", "src/ellalgo/ell_calc.py:calc_bias_cut_q", "src/ellalgo/ell_calc.py:calc_single_or_parallel_central_cut", "src/ellalgo/ell_calc_core.py:calc_parallel_central_cut", "src/ellalgo/ell_calc.py:calc_parallel", "src/ellalgo/ell_calc.py:calc_parallel_q", "src/ellalgo/ell_calc_core.py:calc_parallel_bias_cut", "src/ellalgo/ell_calc_core.py:calc_parallel_bias_cut_fast"]}
{"id": "C81", "title": "Binary search on floating-point bounds", "statement": "bsearch on finite double bounds whose difference does not overflow, with an oracle that accepts above and rejects below a real threshold t in [lower, upper]: the returned value is a finite double with t <= v <= upper; if it stops before max_iters, (v-t)/2*(1-2^-53) - 2^-1074 < tolerance; the width of the bracket after j queries is at most (upper-lower)*((1+2^-53)/2)^j + 3*(2^-53*max(|lower|,|upper|) + 2^-1074), so the search stops as soon as half of that, rounded up, is below the tolerance. With the default options (tolerance 1e-20, 2000 iterations) the docstring's own search (gamma > 0.5 on (0,1)) never meets the tolerance and calls the oracle 2000 times.", "quantifier": "all finite bounds, tolerances, thresholds, oracles with state, iteration limits", "why_tests_cant": "rounding of midpoints and stagnation between neighbouring doubles depend on the bit pattern of the bounds", "anchors": ["src/ellalgo/cutting_plane.py:bsearch", "src/ellalgo/ell_config.py:Options"]}
{"id": "C82", "title": "Containment is lost by rounding", "statement": "The containment property C20 does not hold exactly for the code in doubles: for Ell(1.0, [0, 0]) and a central cut with gradient (1, 0), the point (0, 1) lies in the ellipsoid and satisfies the cut but, with the stored doubles read as real numbers, is not in the updated ellipsoid.", "quantifier": "exhibited cut", "why_tests_cant": "the violation is about 7e-33 and invisible when the check itself is done in doubles", "anchors": ["src/ellalgo/ell.py:_update_core", "src/ellalgo/ell_calc_core.py:calc_central_cut"]}
{"id": "C83", "title": "Power iterations compute normalised powers", "statement": "Each power iteration returns M^m x scaled to unit length and its Rayleigh quotient, where m is the first round whose stopping test is met or else the iteration limit; the result is undefined (division by a zero norm) exactly when some power M^j x vanishes before that. The variant that postpones normalisation returns the same as the one that normalises every time. A matrix that is not n by n is refused with ValueError. The caller's vector is overwritten by the normalised start (variants 1 and 4) or the result (2 and 3).", "quantifier": "every size, matrix, start, limit, tolerance and threshold (exact arithmetic)", "why_tests_cant": "continuum of matrices and unbounded iteration counts", "anchors": ["experiment/power_iteration.py:power_iteration", "experiment/power_iteration.py:power_iteration2", "experiment/power_iteration.py:power_iteration3", "experiment/power_iteration.py:power_iteration4"]}
{"id": "C84", "title": "Stopping test and residual of the power iterations", "statement": "When power_iteration or power_iteration4 stops before the limit, |M x - ld x| <= sqrt(n) a tol, respectively n a tol, with a the largest entry of M in modulus. For power_iteration2 and power_iteration3 no such bound holds: they can report a value that is no eigenvalue for every tolerance.", "quantifier": "every matrix (also unsymmetric), start, limit, tolerance", "why_tests_cant": "continuum", "anchors": ["experiment/power_iteration.py:power_iteration", "experiment/power_iteration.py:power_iteration2", "experiment/power_iteration.py:power_iteration3", "experiment/power_iteration.py:power_iteration4"]}
{"id": "C85", "title": "Rate of convergence of the power iterations", "statement": "For a symmetric matrix with dominant eigenvalue lam and everything orthogonal to its eigenvector shrunk by mu < |lam|, from a start not orthogonal to it, every variant returns normally, the squared sine of the angle is at most (mu/|lam|)^(2m) tan^2 and the value error at most (mu+|lam|) times that, and the number of rounds is bounded in advance by the tolerance.", "quantifier": "every size, symmetric matrix with a spectral gap, start, limit, tolerance", "why_tests_cant": "continuum; asymptotic statement", "anchors": ["experiment/power_iteration.py:power_iteration", "experiment/power_iteration.py:power_iteration2", "experiment/power_iteration.py:power_iteration3", "experiment/power_iteration.py:power_iteration4"]}
{"id": "C86", "title": "Reported values of the power iterations are monotone", "statement": "For a symmetric positive semidefinite matrix the reported value is at least the Rayleigh quotient of the start, at most every upper bound on the quadratic form over unit vectors, and never smaller for a tighter tolerance or a larger limit.", "quantifier": "every size, matrix, start, limits, tolerances", "why_tests_cant": "continuum; compares two runs", "anchors": ["experiment/power_iteration.py:power_iteration", "experiment/power_iteration.py:power_iteration2"]}
{"id": "C87", "title": "The power iterations find the largest eigenvalue", "statement": "From a non-zero start the power iterations return (an approximation of) the largest eigenvalue. Refuted: they find the eigenvalue largest in modulus, and only from a start not orthogonal to its eigenvector.", "quantifier": "existence of counterexamples, for all limits and tolerances", "why_tests_cant": "holds for every limit and tolerance at once", "anchors": ["experiment/power_iteration.py:power_iteration"]}
{"id": "C88", "title": "The factorisation decides positive definiteness in doubles", "statement": "For finite double data LDLTMgr.factor returns True only for positive definite matrices, and LMIOracle returns None only at feasible points. Refuted: the test diag <= 0 is False for NaN, so an indefinite matrix of finite doubles whose elimination overflows is accepted.", "quantifier": "existence of counterexamples", "why_tests_cant": "needs an overflow followed by inf*0 in exactly one place; no test uses such data", "anchors": ["src/ellalgo/oracles/ldlt_mgr.py:LDLTMgr.factor", "src/ellalgo/oracles/lmi_oracle.py:LMIOracle.assess_feas"]}
{"id": "C89", "title": "With finite pivots the factorisation in doubles is right up to rounding", "statement": "If the pivots of the visited rows are finite, True implies quad(A,v) >= -tol(v) for all v, and False implies quad(A,v) <= tol(v) for some non-zero v, where tol(v) = 2 n (n+1) 2^-53 sum A_ii v_i^2 + 8 n (n+1) 2^-1074 (1 + sum |A_ii|) |v|^2.", "quantifier": "every dimension up to 10^6, every matrix of doubles, every state left by earlier calls", "why_tests_cant": "continuum of data; backward error analysis", "anchors": ["src/ellalgo/oracles/ldlt_mgr.py:LDLTMgr.factor", "src/ellalgo/oracles/ldlt_mgr.py:LDLTMgr.is_spd"]}
{"id": "C90", "title": "The LMI oracle in doubles is right up to rounding", "statement": "With finite pivots, None at x implies that the exact matrix B - sum x_k F_k plus margin times the identity is positive semidefinite, and a cut implies that it is not positive definite by more than the margin; the margin is 4 m (m+n+2) 2^-53 S plus underflow terms, S a bound on the size of the terms of every entry.", "quantifier": "every size up to 10^6, all symmetric double data, every x, every state left by earlier calls", "why_tests_cant": "continuum of data; rounding error analysis of the whole oracle", "anchors": ["src/ellalgo/oracles/lmi_oracle.py:LMIOracle.assess_feas"]}
{"id": "C91", "title": "LMI cuts computed in doubles are deep or neutral", "statement": "In double arithmetic every cut returned by the three LMI oracles has an offset that is a number (not NaN) and at least zero, whatever the data (infinities and NaN included).", "quantifier": "every size, all double data, every x, every state left by earlier calls", "why_tests_cant": "quantifies over all double data including NaN", "anchors": ["src/ellalgo/oracles/ldlt_mgr.py:LDLTMgr.witness", "src/ellalgo/oracles/lmi_oracle.py:LMIOracle.assess_feas", "src/ellalgo/oracles/lmi0_oracle.py:LMI0Oracle.assess_feas", "src/ellalgo/oracles/lmi_old_oracle.py:LMIOldOracle.assess_feas"]}
{"id": "C92", "title": "The one-dimensional interval draft cuts exactly", "statement": "An ell1d object built from (l, u) stands for the interval [l, u]. An update with a nonzero gradient (or a nonzero beta, not central) never raises; Success leaves exactly the part of the interval satisfying the cut, NoSoln means that part is empty, NoEffect that it is everything; refused cuts change only tsq; tsq is (rd*grad)^2; a central or deep cut at least halves the radius. False: a zero gradient with beta = 0 is reported Success and drops half the interval; in doubles the constructor can lose the end point u.", "quantifier": "every interval, gradient, beta and flag (exact arithmetic); exhibited doubles", "why_tests_cant": "continuum of inputs", "anchors": ["src/ellalgo/ell1d.tpy:ell1d.update", "src/ellalgo/ell1d.tpy:ell1d.__init__"]}
{"id": "C93", "title": "Two-sided LMI draft: decision and parallel cuts", "statement": "lmi2_oracle's assess_feas answers None exactly when 0 < F(x) < U in the positive definite order; otherwise it returns a parallel cut with nonnegative first bound that every solution of 0 <= F(y) <= U satisfies on both sides. It never raises on well-formed data and leaves its data unchanged.", "quantifier": "every size, symmetric data, point, and history of the factorisation manager (exact arithmetic)", "why_tests_cant": "continuum", "anchors": ["src/ellalgo/oracles/lmi2_oracle.tpy:LMI2Oracle.assess_feas"]}
{"id": "C94", "title": "Reversed LMI draft: decision and cuts", "statement": "lmi3_oracle's assess_feas answers None exactly when F(x) - B is positive definite; otherwise it returns a cut with nonnegative beta satisfied by every y with F(y) - B positive semidefinite. With more variables than matrices both LMI drafts raise IndexError. Matrices of no rows accept every point, of whatever length.", "quantifier": "every size, symmetric data, point, and history (exact arithmetic)", "why_tests_cant": "continuum", "anchors": ["src/ellalgo/oracles/lmi3_oracle.tpy:lmi3_oracle.assess_feas", "src/ellalgo/oracles/lmi2_oracle.tpy:LMI2Oracle.assess_feas"]}
{"id": "C95", "title": "Draft calculator agrees with the current one away from its singularities", "statement": "Every strategy of the draft ell_calc.tpy (deep, central, discrete; single or parallel) returns what ell_calc.py returns, except on pairs of bounds where a formula of the draft divides by zero or a test is met with equality. On bounds symmetric about the centre it raises ZeroDivisionError where the current code succeeds; a central cut with second bound 0 raises ZeroDivisionError; a missing second bound raises TypeError instead of AssertionError; dimension 1 cannot be constructed.", "quantifier": "every dimension, parallel flag, tsq > 0 and bounds (exact arithmetic)", "why_tests_cant": "continuum", "anchors": ["src/ellalgo/ell_calc.tpy:EllCalc", "src/ellalgo/ell_calc.py:EllCalc"]}
{"id": "C96", "title": "Drivers on mutable arrays: agreement with values, and what memory looks like afterwards", "statement": "With arrays as heap cells and oracles that only read their argument, cutting_plane_feas, cutting_plane_optim, cutting_plane_optim_q and BSearchAdaptor.assess_bs answer exactly what their value-level models answer. The array the search space was built from is its centre: after a run it holds the final centre (the caller's starting point is overwritten) and no other array of the caller has changed; cutting_plane_feas returns that very array. The adaptor changes no existing array and stores a new one on success. cutting_plane_optim_q with ProfitQOracle, which keeps its integer point between calls, hands out that array with a value and the centre array itself with a feasibility cut, also answers what the value-level model answers.", "quantifier": "every arithmetic, search space with an xc attribute (Ell and EllStable are), oracle, heap, and run", "why_tests_cant": "aliasing depends on the whole history of in-place updates", "anchors": ["src/ellalgo/cutting_plane.py:cutting_plane_feas", "src/ellalgo/cutting_plane.py:cutting_plane_optim", "src/ellalgo/cutting_plane.py:cutting_plane_optim_q", "src/ellalgo/cutting_plane.py:BSearchAdaptor.assess_bs", "src/ellalgo/ell.py:Ell.__init__", "src/ellalgo/ell.py:Ell.set_xc"]}
{"id": "C97", "title": "What the property-based tests assert about the cuts, in doubles", "statement": "When a cut calculation (deep, central or discrete; single or parallel) succeeds on non-negative finite offsets, rho, sigma and delta are finite and non-negative, also when the exact squared offset exceeds tsq and only the rounded one does not. A central cut and a deep cut with offset 0 give the same status, rho and delta bit for bit (hence the same centre and kappa of Ell); sigma agrees within 3 units of roundoff but not always exactly. The tests' remark that delta is below 1 is false, and for tiny gradients inside the tests' ranges the central cut succeeds with NaN in the matrix while the deep cut raises ZeroDivisionError.", "quantifier": "every dimension below 2^53, tsq in [2^-200, 2^200], all finite non-negative offsets (binary64)", "why_tests_cant": "the tests sample; the argument needs the square root of a rounded square for every double", "anchors": ["src/ellalgo/ell_calc.py:EllCalc", "src/ellalgo/ell_calc_core.py:EllCalcCore", "src/ellalgo/ell.py:Ell._update_core", "tests/test_ell_calc_property_based.py", "tests/test_ell_property_based.py:TestEllipsoidProperties.test_cut_consistency"]}
{"id": "C98", "title": "Arrays that do not fit", "statement": "A gradient of the wrong length is refused by Ell with ValueError, nothing changed. EllStable raises IndexError for a short one, after overwriting at most intermediate entries of the first row; for a long one it uses the first ndim entries in the loops and all of them in tsq, keeps the ellipsoid, and returns the status of the calculation if that has no result, else raises ValueError. With a centre of the wrong length both classes keep everything but tsq (and the scratch entries) and raise ValueError where a cut would be made. A diagonal of length one beside a longer centre moves every coordinate of the centre by the same amount.", "quantifier": "every arithmetic (reals and doubles), every state, all three update methods, all cuts", "why_tests_cant": "the tests only use fitting arrays; state after the exception for every state", "anchors": ["src/ellalgo/ell.py:Ell._update_core", "src/ellalgo/ell_stable.py:EllStable._update_core"]}
{"id": "C99", "title": "Queries at the successive centres; exceptions pass through", "statement": "In every run of the three cutting-plane drivers each oracle query is made at the centre of the search space left by the updates before it, each cut is applied exactly once and in order, and the final space is the initial one with those cuts applied: nothing else touches it. If a driver (or bsearch) raises, the exception is the very one raised by the last oracle query or by the last update, and everything before it had gone on normally.", "quantifier": "every arithmetic, search space, stateful oracle, options and start", "why_tests_cant": "ranges over all oracles and all runs, including ones that raise at any point", "anchors": ["src/ellalgo/cutting_plane.py:cutting_plane_feas", "src/ellalgo/cutting_plane.py:cutting_plane_optim", "src/ellalgo/cutting_plane.py:cutting_plane_optim_q", "src/ellalgo/cutting_plane.py:bsearch"]}
