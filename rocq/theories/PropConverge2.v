(** Properties of the profit oracles inside the cutting plane driver. *)
From Coq Require Import Reals List ZArith Lra.
From Verif Require Import Arith Vec ModelCalc ModelEll ModelStable ModelCut ModelSpaces ModelProfit
  SpecDrivers Spec SpecCut SpecEll SpecSearch SpecStable SpecConverge SpecProfit
  PEllEx PStableEx PConvEx PProfit PProfit3 PProfitEx PProfit4 PProfit4Ex.
Import ListNotations.
Local Open Scope R_scope.

(** C66: with enough iterations the returned profit cannot be beaten by a margin
    throughout any ball of the given radius. *)
Theorem C66_near_optimal : forall p k x0 c r eps (opt : options RA),
  vec_wf 2 x0 -> 0 < k -> 0 < r -> 0 < eps ->
  (forall z, ball 2 c r z -> ball 2 (fv x0) (sqrt k) z) ->
  tolerance opt <= eps * eps -> 6 * ln (k / (r * r)) < IZR (max_iters opt) ->
  forall m (o : profit RA) (e0 : ell RA) g o' e' x' g' j,
  describes m o -> good_price m -> 0 <= g -> ell_init (@VScalar RA k) x0 = Ok e0 ->
  cutting_plane_optim (profit_assess_optim RT) (ell_space RA) opt o (ell_set_parallel e0 p) g
    = (o', e', Ok (x', g', j)) ->
  ~ (forall z, ball 2 c r z -> better_by m eps g' z).
Proof. exact profit_ell_near. Qed.
Print Assumptions C66_near_optimal.

Theorem C66_near_optimal_stable : forall p k x0 c r eps (opt : options RA),
  vec_wf 2 x0 -> 0 < k -> 0 < r -> 0 < eps ->
  (forall z, ball 2 c r z -> ball 2 (fv x0) (sqrt k) z) ->
  tolerance opt <= eps * eps -> 6 * ln (k / (r * r)) < IZR (max_iters opt) ->
  forall m (o : profit RA) (s0 : stable RA) g o' s' x' g' j,
  describes m o -> good_price m -> 0 <= g -> stable_init (@VScalar RA k) x0 = Ok s0 ->
  cutting_plane_optim (profit_assess_optim RT) (stable_space RA) opt o (stable_set_parallel s0 p) g
    = (o', s', Ok (x', g', j)) ->
  ~ (forall z, ball 2 c r z -> better_by m eps g' z).
Proof. exact profit_stable_near. Qed.
Print Assumptions C66_near_optimal_stable.

Theorem C66_robust_near_optimal : forall p k x0 c r eps (opt : options RA),
  vec_wf 2 x0 -> 0 < k -> 0 < r -> 0 < eps ->
  (forall z, ball 2 c r z -> ball 2 (fv x0) (sqrt k) z) ->
  tolerance opt <= eps * eps -> 6 * ln (k / (r * r)) < IZR (max_iters opt) ->
  forall m b (o : profit_rb RA) (e0 : ell RA) g o' e' x' g' j,
  describes_rb m b o -> good_price m -> 0 <= g -> ell_init (@VScalar RA k) x0 = Ok e0 ->
  cutting_plane_optim (profit_rb_assess_optim RT) (ell_space RA) opt o (ell_set_parallel e0 p) g
    = (o', e', Ok (x', g', j)) ->
  ~ (forall z, ball 2 c r z -> robust_by m b eps g' z).
Proof. exact rb_ell_near. Qed.
Print Assumptions C66_robust_near_optimal.

Theorem C66_robust_near_optimal_stable : forall p k x0 c r eps (opt : options RA),
  vec_wf 2 x0 -> 0 < k -> 0 < r -> 0 < eps ->
  (forall z, ball 2 c r z -> ball 2 (fv x0) (sqrt k) z) ->
  tolerance opt <= eps * eps -> 6 * ln (k / (r * r)) < IZR (max_iters opt) ->
  forall m b (o : profit_rb RA) (s0 : stable RA) g o' s' x' g' j,
  describes_rb m b o -> good_price m -> 0 <= g -> stable_init (@VScalar RA k) x0 = Ok s0 ->
  cutting_plane_optim (profit_rb_assess_optim RT) (stable_space RA) opt o (stable_set_parallel s0 p) g
    = (o', s', Ok (x', g', j)) ->
  ~ (forall z, ball 2 c r z -> robust_by m b eps g' z).
Proof. exact rb_stable_near. Qed.
Print Assumptions C66_robust_near_optimal_stable.

Example C66_case : describes mq0 oq0 /\ good_price mq0 /\ ell_init (@VScalar RA 4) zero2 = Ok e4 /\
  (forall z, ball 2 (fv zero2) (19/10) z -> ball 2 (fv zero2) (sqrt 4) z) /\
  tolerance opt1 <= 1/10 * (1/10) /\ 6 * ln (4 / (19/10 * (19/10))) < IZR (max_iters opt1) /\
  exists o' e' j, cutting_plane_optim (profit_assess_optim RT) (ell_space RA) opt1 oq0 (ell_set_parallel e4 true) 0
    = (o', e', Ok (Some zero2, 8, j)).
Proof.
  split; [exact oq0_d|]. split; [exact mq0_good|]. split; [exact e4_init|]. split; [exact big_ball|]. split; [cbn; lra|].
  split; [exact count_opt1|exact near_run].
Qed.
Example C66_robust_case : describes_rb mq0 bx0 orb0 /\ good_price mq0 /\
  exists o' e' v j, cutting_plane_optim (profit_rb_assess_optim RT) (ell_space RA) opt1 orb0 (ell_set_parallel e4 true) 0
    = (o', e', Ok (Some zero2, v, j)).
Proof. exact (conj orb0_d (conj mq0_good near_rb_run)). Qed.

(** C67: a point where every marginal revenue equals the price is a global
    maximum, *)
Theorem C67_stationary_is_best : forall m x,
  0 < m_price m * m_scale m -> good_price m -> stationary m x -> 0 <= profit_at m x ->
  forall z, profit_at m z <= profit_at m x.
Proof. exact stationary_optimal. Qed.
Print Assumptions C67_stationary_is_best.

(** the oracle answers there with a zero gradient, *)
Theorem C67_zero_gradient : forall m (o : profit RA) x g,
  describes m o -> length x = 2%nat -> stationary m (fv x) -> in_limit m (fv x) ->
  g <= profit_at m (fv x) -> 0 < g + cost_at m (fv x) ->
  exists o', profit_assess_optim RT o x g
    = (o', Ok ((@cons R 0 [0] : vec RA, @CSingle RA 0), Some (profit_at m (fv x) : num RA))).
Proof. exact stationary_call. Qed.
Print Assumptions C67_zero_gradient.

(** and a search that starts at the exact optimum ends in an exception, instead
    of returning it. *)
Theorem C67_optimum_raises : forall m (o : profit RA) (e : ell RA) g opt,
  describes m o -> vec_wf 2 (xc e) -> (0 < budget opt)%nat ->
  stationary m (fv (xc e)) -> in_limit m (fv (xc e)) ->
  g <= profit_at m (fv (xc e)) -> 0 < g + cost_at m (fv (xc e)) ->
  exists o' e', cutting_plane_optim (profit_assess_optim RT) (ell_space RA) opt o e g = (o', e', Err ValueError).
Proof. exact optimum_raises. Qed.
Print Assumptions C67_optimum_raises.

Theorem C67_optimum_raises_stable : forall p m (o : profit RA) (s : stable RA) g opt,
  describes m o -> stable_ok 2 p s -> (0 < budget opt)%nat ->
  stationary m (fv (s_xc s)) -> in_limit m (fv (s_xc s)) ->
  g <= profit_at m (fv (s_xc s)) -> 0 < g + cost_at m (fv (s_xc s)) ->
  exists o' s', cutting_plane_optim (profit_assess_optim RT) (stable_space RA) opt o s g = (o', s', Err ZeroDivision).
Proof. exact optimum_raises_stable. Qed.
Print Assumptions C67_optimum_raises_stable.

Example C67_case :
  profit_init (A:=RA) RT (20, 1, 5) (@cons R (1/10) [2/5]) (@cons R 2 [8]) = Ok oq5 /\
  describes mq5 oq5 /\ stationary mq5 (fv zero2) /\ in_limit mq5 (fv zero2) /\
  profit_at mq5 (fv zero2) = 10 /\ cost_at mq5 (fv zero2) = 10 /\ good_price mq5 /\
  xc e4 = zero2 /\ s_xc s4 = zero2 /\ stable_ok 2 true s4.
Proof.
  split; [exact oq5_init|]. split; [exact oq5_d|]. split; [exact stationary5|]. split; [exact limit5|]. split; [exact profit5|].
  split; [exact cost5|]. split; [split; cbn; lra|]. split; [reflexivity|]. split; [reflexivity|apply s4_agree].
Qed.
