(** Properties C71 and C72: [bsearch] over [BSearchAdaptor]. *)
From Coq Require Import Reals List ZArith Lra Lia.
From Verif Require Import Arith Vec ModelCalc ModelEll ModelStable ModelCut ModelSpaces SpecDrivers Spec SpecCut SpecEll SpecStable SpecSearch SpecConverge.
From Verif Require Import PEllEx PAdaptor PAdaptorEx.
Import ListNotations.
Local Open Scope R_scope.

(** C71: [S g] are the points the oracle may accept for the parameter [g], its
    cuts keep [T g].  From [g0] on, [T g] holds a fixed ball, and this ball lies
    within the radius of the initial ellipsoid from its centre and from every
    point that can be accepted.  Then the answer is below [g0] plus the width of
    the last bracket, and it comes with a point. *)
Theorem C71_ell_near_optimal :
  forall n p k x0 (e0 : ell RA) c r gmin (opt : options RA) (Orc : Type) (f : Orc -> vec RA -> Orc * res (option (cut RA)))
    (update : R -> Orc -> Orc) (S T : R -> (nat -> R) -> Prop) (o : Orc) tol maxit lower upper g0 ad' v j,
  ell_init (@VScalar RA k) x0 = Ok e0 -> vec_wf n x0 -> 0 < k -> 0 < r -> 0 < gmin ->
  para_oracle n S T (fun U ct x => good_cut n p U gmin OpBias ct x) f update o ->
  (forall g z, g0 <= g -> ball n c r z -> T g z) ->
  (forall z, ball n c r z -> ball n (fv x0) (sqrt k) z) ->
  (forall g x z, S g x -> ball n c r z -> ball n x (sqrt k) z) ->
  tolerance opt <= r * r * (gmin * gmin) ->
  INR n * (INR n + 1) * ln (k / (r * r)) < IZR (max_iters opt) ->
  lower <= g0 -> (0 <= maxit)%Z ->
  bsearch (assess_bs f update (ell_space RA) opt) (narrow_num (A := RA) tol) (mid_num (A := RA)) maxit (o, ell_set_parallel e0 p) lower upper = (ad', Ok (v, j)) ->
  (v = upper /\ x_best (ell_space RA) ad' = x0 \/ S v (fv (x_best (ell_space RA) ad'))) /\
  ((j < maxit)%Z -> v < g0 + 2 * tol) /\ (j = maxit -> v <= g0 + (upper - lower) / 2 ^ Z.to_nat maxit).
Proof. exact ell_adaptor. Qed.
Print Assumptions C71_ell_near_optimal.

Theorem C71_stable_near_optimal :
  forall n p k x0 (e0 : stable RA) c r gmin (opt : options RA) (Orc : Type) (f : Orc -> vec RA -> Orc * res (option (cut RA)))
    (update : R -> Orc -> Orc) (S T : R -> (nat -> R) -> Prop) (o : Orc) tol maxit lower upper g0 ad' v j,
  stable_init (@VScalar RA k) x0 = Ok e0 -> vec_wf n x0 -> 0 < k -> 0 < r -> 0 < gmin ->
  para_oracle n S T (fun U ct x => good_cut n p U gmin OpBias ct x) f update o ->
  (forall g z, g0 <= g -> ball n c r z -> T g z) ->
  (forall z, ball n c r z -> ball n (fv x0) (sqrt k) z) ->
  (forall g x z, S g x -> ball n c r z -> ball n x (sqrt k) z) ->
  tolerance opt <= r * r * (gmin * gmin) ->
  INR n * (INR n + 1) * ln (k / (r * r)) < IZR (max_iters opt) ->
  lower <= g0 -> (0 <= maxit)%Z ->
  bsearch (assess_bs f update (stable_space RA) opt) (narrow_num (A := RA) tol) (mid_num (A := RA)) maxit (o, stable_set_parallel e0 p) lower upper = (ad', Ok (v, j)) ->
  (v = upper /\ x_best (stable_space RA) ad' = x0 \/ S v (fv (x_best (stable_space RA) ad'))) /\
  ((j < maxit)%Z -> v < g0 + 2 * tol) /\ (j = maxit -> v <= g0 + (upper - lower) / 2 ^ Z.to_nat maxit).
Proof. exact stable_adaptor. Qed.
Print Assumptions C71_stable_near_optimal.

Theorem C71_ell_near_optimal_margin :
  forall n p k x0 (e0 : ell RA) c r eps (opt : options RA) (Orc : Type) (f : Orc -> vec RA -> Orc * res (option (cut RA)))
    (update : R -> Orc -> Orc) (S T : R -> (nat -> R) -> Prop) (o : Orc) tol maxit lower upper g0 ad' v j,
  ell_init (@VScalar RA k) x0 = Ok e0 -> vec_wf n x0 -> 0 < k -> 0 < r -> 0 < eps ->
  para_oracle n S T (fun U ct x => margin_cut n p U eps OpBias ct x) f update o ->
  (forall g z, g0 <= g -> ball n c r z -> T g z) ->
  (forall z, ball n c r z -> ball n (fv x0) (sqrt k) z) ->
  (forall g x z, S g x -> ball n c r z -> ball n x (sqrt k) z) ->
  tolerance opt <= eps * eps ->
  INR n * (INR n + 1) * ln (k / (r * r)) < IZR (max_iters opt) ->
  lower <= g0 -> (0 <= maxit)%Z ->
  bsearch (assess_bs f update (ell_space RA) opt) (narrow_num (A := RA) tol) (mid_num (A := RA)) maxit (o, ell_set_parallel e0 p) lower upper = (ad', Ok (v, j)) ->
  (v = upper /\ x_best (ell_space RA) ad' = x0 \/ S v (fv (x_best (ell_space RA) ad'))) /\
  ((j < maxit)%Z -> v < g0 + 2 * tol) /\ (j = maxit -> v <= g0 + (upper - lower) / 2 ^ Z.to_nat maxit).
Proof. exact ell_adaptor_m. Qed.
Print Assumptions C71_ell_near_optimal_margin.

Theorem C71_stable_near_optimal_margin :
  forall n p k x0 (e0 : stable RA) c r eps (opt : options RA) (Orc : Type) (f : Orc -> vec RA -> Orc * res (option (cut RA)))
    (update : R -> Orc -> Orc) (S T : R -> (nat -> R) -> Prop) (o : Orc) tol maxit lower upper g0 ad' v j,
  stable_init (@VScalar RA k) x0 = Ok e0 -> vec_wf n x0 -> 0 < k -> 0 < r -> 0 < eps ->
  para_oracle n S T (fun U ct x => margin_cut n p U eps OpBias ct x) f update o ->
  (forall g z, g0 <= g -> ball n c r z -> T g z) ->
  (forall z, ball n c r z -> ball n (fv x0) (sqrt k) z) ->
  (forall g x z, S g x -> ball n c r z -> ball n x (sqrt k) z) ->
  tolerance opt <= eps * eps ->
  INR n * (INR n + 1) * ln (k / (r * r)) < IZR (max_iters opt) ->
  lower <= g0 -> (0 <= maxit)%Z ->
  bsearch (assess_bs f update (stable_space RA) opt) (narrow_num (A := RA) tol) (mid_num (A := RA)) maxit (o, stable_set_parallel e0 p) lower upper = (ad', Ok (v, j)) ->
  (v = upper /\ x_best (stable_space RA) ad' = x0 \/ S v (fv (x_best (stable_space RA) ad'))) /\
  ((j < maxit)%Z -> v < g0 + 2 * tol) /\ (j = maxit -> v <= g0 + (upper - lower) / 2 ^ Z.to_nat maxit).
Proof. exact stable_adaptor_m. Qed.
Print Assumptions C71_stable_near_optimal_margin.

(** the square of side 2 cut at [z0 <= g], in the disc of radius 3; the first
    query, 1/2, is accepted at the origin *)
Example C71_case :
  ell_init (@VScalar RA 9) (@cons R 0 [0]) = Ok e9 /\ stable_init (@VScalar RA 9) (@cons R 0 [0]) = Ok s9 /\
  para_oracle 2 (fun g => inside (square g)) (fun g => inside (square g))
    (fun U ct x => good_cut 2 true U 1 OpBias ct x) (poly_feas square) poly_update 0 /\
  (forall g z, -1/2 <= g -> ball 2 (pt (-3/4) 0) (1/8) z -> inside (square g) z) /\
  (forall z, ball 2 (pt (-3/4) 0) (1/8) z -> ball 2 (fv (@cons R 0 [0])) (sqrt 9) z) /\
  (forall g x z, inside (square g) x -> ball 2 (pt (-3/4) 0) (1/8) z -> ball 2 x (sqrt 9) z) /\
  tolerance opt9 <= 1/8 * (1/8) * (1 * 1) /\
  INR 2 * (INR 2 + 1) * ln (9 / (1/8 * (1/8))) < IZR (max_iters opt9) /\
  bsearch (assess_bs (poly_feas square) poly_update (ell_space RA) opt9) (narrow_num (A := RA) (3/5)) (mid_num (A := RA)) 10
    (0, ell_set_parallel e9 true) (-1/2) (3/2) = ((1/2, ell_set_parallel e9 true), Ok (1/2, 1%Z)) /\
  bsearch (assess_bs (poly_feas square) poly_update (stable_space RA) opt9) (narrow_num (A := RA) (3/5)) (mid_num (A := RA)) 10
    (0, stable_set_parallel s9 true) (-1/2) (3/2) = ((1/2, stable_set_parallel s9 true), Ok (1/2, 1%Z)).
Proof.
  split; [exact e9_init|]. split; [exact s9_init|]. split; [apply poly_para; exact square_unit|]. split; [exact square_ball|].
  split; [exact square_start|]. split; [exact square_far|]. split; [cbn; lra|]. split; [exact count9|].
  split; [exact square_run|exact square_run_stable].
Qed.

Example C71_margin_case :
  para_oracle 2 (fun g => inside (square g)) (fun g => inside_by (1/8) (square g))
    (fun U ct x => margin_cut 2 true U (1/8) OpBias ct x) (poly_feas square) poly_update 0 /\
  (forall g z, -1/2 <= g -> ball 2 (pt (-3/4) 0) (1/8) z -> inside_by (1/8) (square g) z) /\
  tolerance opt9 <= 1/8 * (1/8).
Proof. split; [apply poly_para_m; [lra|exact square_unit]|]. split; [exact square_ball_by|cbn; lra]. Qed.

(** C72: without the condition on the accepted points the claim fails.  After an
    accepted parameter the adaptor puts an ellipsoid of the original shape about
    the accepted point, which need not cover the original one.  Here it rejects
    [g], for which the oracle's set holds a ball inside the initial ellipsoid,
    while an adaptor that was never used accepts [g]. *)
Theorem C72_recentring_refuted :
  exists k x0 (e0 : ell RA) c r gmin (opt : options RA) (Orc : Type) (f : Orc -> vec RA -> Orc * res (option (cut RA)))
    (update : R -> Orc -> Orc) (S : R -> (nat -> R) -> Prop) (o : Orc) tol maxit lower upper g0 g ad' v j,
  ell_init (@VScalar RA k) x0 = Ok e0 /\ vec_wf 2 x0 /\ 0 < k /\ 0 < r /\ 0 < gmin /\ 0 < tol /\
  para_oracle 2 S S (fun U ct x => good_cut 2 true U gmin OpBias ct x) f update o /\
  (forall g z, g0 <= g -> ball 2 c r z -> S g z) /\
  (forall z, ball 2 c r z -> ball 2 (fv x0) (sqrt k) z) /\
  tolerance opt <= r * r * (gmin * gmin) /\
  INR 2 * (INR 2 + 1) * ln (k / (r * r)) < IZR (max_iters opt) /\
  lower <= g0 /\ g0 <= g < v /\
  bsearch (assess_bs f update (ell_space RA) opt) (narrow_num (A := RA) tol) (mid_num (A := RA)) maxit (o, ell_set_parallel e0 true) lower upper = (ad', Ok (v, j)) /\
  (j < maxit)%Z /\ g0 + 2 * tol <= v /\
  (exists ad, assess_bs f update (ell_space RA) opt ad' g = (ad, Ok false)) /\
  (exists ad, assess_bs f update (ell_space RA) opt (o, ell_set_parallel e0 true) g = (ad, Ok true)).
Proof. exact recentring. Qed.
Print Assumptions C72_recentring_refuted.
