(** Properties C48-C52: the profit oracles. *)
From Coq Require Import Reals List Arith ZArith Lra.
From Verif Require Import Arith Vec ModelCalc ModelEll ModelCut ModelSpaces ModelProfit
  SpecDrivers Spec SpecCut SpecEll SpecSearch SpecProfit.
From Verif Require Import PEll2 PEllEx PSearchEx PProfit PProfit2 PProfit3 PProfitEx PProfit5.
Import ListNotations.
Local Open Scope R_scope.

(** The constructor: succeeds exactly for [p * A > 0] and [k > 0]. *)
Theorem C48_init : forall p a k el pr,
  (forall o, profit_init (A:=RA) RT (p, a, k) el pr = Ok o -> 0 < p * a /\ 0 < k) /\
  (0 < p * a -> 0 < k -> exists o, profit_init (A:=RA) RT (p, a, k) el pr = Ok o /\
     p_logpa o = ln (p * a) /\ p_logk o = ln k /\ p_price o = pr /\ p_elast o = el /\ p_idx o = (-1)%Z) /\
  (forall e, profit_init (A:=RA) RT (p, a, k) el pr = Err e -> e = ValueError).
Proof. exact profit_init_ok. Qed.
Print Assumptions C48_init.

Theorem C48_describes : forall p a k al be v1 v2 o,
  profit_init (A:=RA) RT (p, a, k) (@cons R al [be]) (@cons R v1 [v2]) = Ok o ->
  describes (mkMarket p a k al be v1 v2) o.
Proof. exact profit_describes. Qed.
Print Assumptions C48_describes.

(** C48 *)
Theorem C48_decides_feasibility : forall m o x g o' r,
  describes m o -> length x = 2%nat -> 0 < g + cost_at m (fv x) ->
  profit_assess_feas RT o x g = (o', r) ->
  (exists a, r = Ok a) /\ (r = Ok None <-> in_limit m (fv x) /\ g <= profit_at m (fv x)) /\ describes m o'.
Proof. exact profit_feas. Qed.
Print Assumptions C48_decides_feasibility.

(** outside the domain of the logarithm: an exception unless the limit is violated *)
Theorem C48_domain : forall m o x g o' r,
  describes m o -> length x = 2%nat -> g + cost_at m (fv x) <= 0 -> in_limit m (fv x) ->
  profit_assess_feas RT o x g = (o', r) -> r = Err ValueError /\ describes m o'.
Proof. exact profit_domain. Qed.
Print Assumptions C48_domain.

Example C48_case : profit_init (A:=RA) RT (10, 1, 5) (@cons R (1/2) [1/4]) (@cons R 1 [1]) = Ok oq0 /\
  0 < 0 + cost_at mq0 (fv zero2) /\ 0 < 100 + cost_at mq0 (fv zero2) /\
  (exists o', profit_assess_feas RT oq0 zero2 0 = (o', Ok None)) /\
  (exists o' ct, profit_assess_feas RT oq0 zero2 100 = (o', Ok (Some ct))).
Proof. split; [exact oq0_init|]. rewrite cost_zero. split; [lra|]. split; [lra|]. exact feas_zero. Qed.

Example C48_domain_case : describes mq0 oq0 /\ -2 + cost_at mq0 (fv zero2) <= 0 /\ in_limit mq0 (fv zero2).
Proof. split; [exact oq0_d|]. rewrite cost_zero. split; [lra|exact limit_zero]. Qed.

(** vectors that do not fit the problem (a fresh oracle, limit met) *)
Theorem C48_mismatch : forall p a k el pr o (x0 : R) (x' : list R) g,
  profit_init (A:=RA) RT (p, a, k) el pr = Ok o -> x0 <= ln k ->
  let x := x0 :: x' in
  (length el <> length x \/ length pr <> 1%nat /\ length x <> 1%nat /\ length pr <> length x) ->
  snd (profit_assess_feas RT o x g) = Err ValueError.
Proof. exact profit_mismatch. Qed.
Print Assumptions C48_mismatch.

Example C48_mismatch_case : profit_init (A:=RA) RT (10, 1, 5) (@cons R (1/2) [1/4]) (@cons R 1 [1]) = Ok oq0 /\
  0 <= ln 5 /\ length (@cons R (1/2) [1/4]) <> length (@cons R 0 [0; 0]).
Proof.
  split; [exact oq0_init|]. split; [|discriminate]. rewrite <- ln_1. left. apply ln_increasing; lra.
Qed.

(** an empty point, a fresh oracle: the first constraint reads [x[0]] *)
Theorem C48_empty : forall p a k el pr o g,
  profit_init (A:=RA) RT (p, a, k) el pr = Ok o ->
  snd (profit_assess_feas RT o [] g) = Err IndexError.
Proof. exact profit_empty. Qed.
Print Assumptions C48_empty.

Example C48_empty_case : profit_init (A:=RA) RT (10, 1, 5) (@cons R (1/2) [1/4]) (@cons R 1 [1]) = Ok oq0.
Proof. exact oq0_init. Qed.

(** The methods called on their own: [grad2] needs an earlier [fn2], whose vector it then uses. *)
Theorem C48_methods : forall p a k el pr o, length pr = length el -> profit_init (A:=RA) RT (p, a, k) el pr = Ok o ->
  (forall x0 x, fn1 o (x0 :: x) = Ok (x0 - ln k)) /\
  forall (x : list R) g o1 v, fn2 RT o x g = (o1, Ok v) ->
    0 < g + (fv pr 0 * exp (fv x 0) + fv pr 1 * exp (fv x 1)) /\
    v = ln (g + (fv pr 0 * exp (fv x 0) + fv pr 1 * exp (fv x 1))) - (ln (p * a) + dot (length el) (fv el) (fv x)).
Proof. exact fn_alone. Qed.
Print Assumptions C48_methods.

Theorem C48_grad2 : forall p a k el pr o g, length pr = length el -> profit_init (A:=RA) RT (p, a, k) el pr = Ok o ->
  grad2 o g = Err AttributeError /\
  forall (x : list R) o1 v g1, fn2 RT o x g = (o1, Ok v) ->
    length x = length el /\ (2 <= length el)%nat /\
    (g1 + (fv pr 0 * exp (fv x 0) + fv pr 1 * exp (fv x 1)) <> 0 ->
    exists gr, grad2 o1 g1 = Ok gr /\ length gr = length el /\
    forall i, (i < length el)%nat ->
      fv gr i = fv pr i * exp (fv x i) / (g1 + (fv pr 0 * exp (fv x 0) + fv pr 1 * exp (fv x 1))) - fv el i).
Proof. exact grad2_alone. Qed.
Print Assumptions C48_grad2.

Example C48_methods_case : profit_init (A:=RA) RT (10, 1, 5) (@cons R (1/2) [1/4]) (@cons R 1 [1]) = Ok oq0 /\
  exists o1 v, fn2 RT oq0 (@cons R 0 [0]) 1 = (o1, Ok v).
Proof.
  split; [exact oq0_init|]. apply (fn2_runs _ _ _ _ _ _ _ _ _ _ _ oq0_init).
  rewrite exp_0. lra.
Qed.

(** one input only: [q[1]] does not exist *)
Theorem C48_one_input : forall (A : Arith) (T : Trans A) (o : profit A) e v x g, p_elast o = [e] -> p_price o = [v] ->
  snd (fn2 T o [x] g) = Err IndexError.
Proof. exact @one_input. Qed.
Print Assumptions C48_one_input.

Example C48_one_input_case : exists o, profit_init (A:=RA) RT (10, 1, 5) (@cons R (1/2) []) (@cons R 1 []) = Ok o /\
  p_elast o = (@cons R (1/2) []) /\ p_price o = (@cons R 1 []).
Proof.
  destruct (C48_init 10 1 5 (@cons R (1/2) []) (@cons R 1 [])) as (_ & H & _).
  destruct (H ltac:(lra) ltac:(lra)) as (o & E & _ & _ & Hp & He & _). eauto.
Qed.

(** A single input price counts for every input (numpy stretches it): the oracle
    answers as with the price written out, in any arithmetic, call after call. *)
Theorem C48_one_price : forall (A : Arith) (T : Trans A) v params el o1 o2,
  profit_init T params el [v] = Ok o1 -> profit_init T params el (repeat v (length el)) = Ok o2 -> one_price v o1 o2.
Proof. exact @one_init. Qed.
Print Assumptions C48_one_price.

Theorem C48_one_price_feas : forall (A : Arith) (T : Trans A) v o1 o2 x g o1' r,
  one_price v o1 o2 -> profit_assess_feas T o1 x g = (o1', r) ->
  exists o2', profit_assess_feas T o2 x g = (o2', r) /\ one_price v o1' o2'.
Proof. exact @one_feas. Qed.
Print Assumptions C48_one_price_feas.

Theorem C50_one_price_optim : forall (A : Arith) (T : Trans A) v o1 o2 x g o1' r,
  one_price v o1 o2 -> profit_assess_optim T o1 x g = (o1', r) ->
  exists o2', profit_assess_optim T o2 x g = (o2', r) /\ one_price v o1' o2'.
Proof. exact @one_optim. Qed.
Print Assumptions C50_one_price_optim.

Example C48_one_price_case : exists o1, profit_init (A:=RA) RT (10, 1, 5) (@cons R (1/2) [1/4]) (@cons R 1 []) = Ok o1 /\
  profit_init (A:=RA) RT (10, 1, 5) (@cons R (1/2) [1/4]) (repeat 1 2) = Ok oq0.
Proof. exact one_price_case. Qed.

(** C49 *)
Theorem C49_value_is_profit : forall m o x g o' ct v,
  describes m o -> length x = 2%nat -> profit_assess_optim RT o x g = (o', Ok (ct, Some v)) ->
  v = profit_at m (fv x) /\ g <= v /\ in_limit m (fv x) /\ describes m o'.
Proof. exact profit_value. Qed.
Print Assumptions C49_value_is_profit.

Theorem C49_reports_when_feasible : forall m o x g o' r,
  describes m o -> length x = 2%nat -> 0 < g + cost_at m (fv x) ->
  profit_assess_optim RT o x g = (o', r) ->
  (exists ct v, r = Ok (ct, v) /\ (v <> None <-> in_limit m (fv x) /\ g <= profit_at m (fv x))) /\ describes m o'.
Proof. exact profit_reports. Qed.
Print Assumptions C49_reports_when_feasible.

(** the driver with this oracle, on any search space *)
Theorem C49_run : forall (St : Type) (sp : space_ops RA St (vec RA) (cut RA)) opt m o s g o' s' x g' k,
  describes m o ->
  cutting_plane_optim (profit_assess_optim RT) sp opt o s g = (o', s', Ok (x, g', k)) ->
  g <= g' /\ (forall y, x = Some y -> length y = 2%nat /\ in_limit m (fv y) /\ g' = profit_at m (fv y)).
Proof. exact @profit_run. Qed.
Print Assumptions C49_run.

Example C49_case : describes mq0 oq0 /\
  exists o', profit_assess_optim RT oq0 zero2 0 = (o', Ok ((@cons R (-2/5) [-3/20] : vec RA, @CSingle RA 0), Some (8 : num RA))).
Proof. exact (conj oq0_d (optim_zero oq0 oq0_d)). Qed.
Example C49_run_case : exists o' e', cutting_plane_optim (profit_assess_optim RT) (ell_space RA) opt5 oq0 e4 0
  = (o', e', Ok (Some zero2, 8, 0%Z)).
Proof. exact profit_run_case. Qed.

(** C50 *)
Theorem C50_feas_cut_valid : forall m o x g o' gr be,
  describes m o -> good_price m -> 0 <= g -> length x = 2%nat ->
  profit_assess_feas RT o x g = (o', Ok (Some (gr, be))) ->
  describes m o' /\ length gr = 2%nat /\ exists ep, be = @CSingle RA ep /\ 0 < ep /\
  forall z, in_limit m z -> g <= profit_at m z -> cutval 2 (fv gr) (fv x) z + ep <= 0.
Proof. exact profit_feas_cut. Qed.
Print Assumptions C50_feas_cut_valid.

Theorem C50_optim_cut_valid : forall m o x g o' gr be v,
  describes m o -> good_price m -> 0 <= g -> length x = 2%nat ->
  profit_assess_optim RT o x g = (o', Ok ((gr, be), v)) ->
  describes m o' /\ length gr = 2%nat /\ exists ep, be = @CSingle RA ep /\
  match v with
  | None => 0 < ep /\ forall z, in_limit m z -> g <= profit_at m z -> cutval 2 (fv gr) (fv x) z + ep <= 0
  | Some v => ep = 0 /\ forall z, in_limit m z -> v <= profit_at m z -> cutval 2 (fv gr) (fv x) z + ep <= 0
  end.
Proof. exact profit_optim_cut. Qed.
Print Assumptions C50_optim_cut_valid.

(** so that C36 applies to it, and a run on [Ell] that ends with "no solution"
    has found the best profit of the initial ellipsoid *)
Theorem C50_optim_oracle : forall m o g p,
  describes m o -> good_price m -> 0 <= g -> optim_oracle 2 p (better m) (profit_assess_optim RT) o g.
Proof. exact profit_oracle_ok. Qed.
Print Assumptions C50_optim_oracle.

Theorem C50_run_optimal : forall p opt m (o : profit RA) (e : ell RA) g o' e' l u x g' k,
  describes m o -> good_price m -> 0 <= g -> psd_ell 2 p e ->
  cutting_plane_optim (logged_optim (profit_assess_optim RT)) (logged_space (ell_space RA)) opt (o, []) (e, []) g
    = ((o', l), (e', u), Ok (x, g', k)) ->
  said_nosoln u -> forall z, ell_in 2 e z -> in_limit m z -> profit_at m z <= g'.
Proof. exact profit_run_optimal. Qed.
Print Assumptions C50_run_optimal.

Example C50_case : good_price mq0 /\ describes mq0 oq0 /\ in_limit mq0 (fv zero2) /\ profit_at mq0 (fv zero2) = 8 /\
  (exists o' ct, profit_assess_feas RT oq0 zero2 100 = (o', Ok (Some ct))).
Proof. exact (conj mq0_good (conj oq0_d (conj limit_zero (conj profit_zero (proj2 feas_zero))))). Qed.
Example C50_run_case : describes mq1 oq1 /\ psd_ell 2 true e4 /\ exists o' l u e',
  cutting_plane_optim (logged_optim (profit_assess_optim RT)) (logged_space (ell_space RA)) opt5 (oq1, []) (e4, []) 0
    = ((o', l), (e', u), Ok (None, 0, 0%Z)) /\ said_nosoln u.
Proof. exact (conj oq1_d (conj (pd_psd _ _ _ e4_pd) profit_nosoln_case)). Qed.

(** C51 *)
Theorem C51_init : forall p a k al be v1 v2 e1 e2 e3 e4 e5 o, 0 < a ->
  0 <= e1 -> 0 <= e2 -> 0 <= e3 -> 0 <= e4 -> 0 <= e5 ->
  profit_rb_init (A:=RA) RT (p, a, k) (@cons R al [be]) (@cons R v1 [v2]) (e1, e2, e3, e4, e5) = Ok o ->
  describes_rb (mkMarket p a k al be v1 v2) (mkBox e1 e2 e3 e4 e5) o.
Proof. exact rb_init_ok. Qed.
Print Assumptions C51_init.

(** The value is the worst case: a lower bound that is attained. *)
Theorem C51_value_is_worst_case : forall m b o x g o' ct v,
  describes_rb m b o -> length x = 2%nat ->
  profit_rb_assess_optim RT o x g = (o', Ok (ct, Some v)) ->
  describes_rb m b o' /\ g <= v /\
  (forall m', realises m b m' -> v <= profit_at m' (fv x) /\ in_limit m' (fv x)) /\
  (exists m', realises m b m' /\ profit_at m' (fv x) = v).
Proof. exact rb_value. Qed.
Print Assumptions C51_value_is_worst_case.

Theorem C51_reports_when_robust : forall m b o x g o' r,
  describes_rb m b o -> length x = 2%nat ->
  (forall m', realises m b m' -> 0 < g + cost_at m' (fv x)) ->
  profit_rb_assess_optim RT o x g = (o', r) ->
  describes_rb m b o' /\ exists ct v, r = Ok (ct, v) /\ (v <> None <-> robust_ge m b g (fv x)).
Proof. exact rb_reports. Qed.
Print Assumptions C51_reports_when_robust.

Theorem C51_cut_valid : forall m b o x g o' gr be v,
  describes_rb m b o -> good_price m -> 0 <= g -> length x = 2%nat ->
  profit_rb_assess_optim RT o x g = (o', Ok ((gr, be), v)) ->
  describes_rb m b o' /\ length gr = 2%nat /\ exists ep, be = @CSingle RA ep /\ 0 <= ep /\
  forall z, robust_ge m b (match v with Some w => w | None => g end) z -> cutval 2 (fv gr) (fv x) z + ep <= 0.
Proof. exact rb_cut. Qed.
Print Assumptions C51_cut_valid.

Theorem C51_run : forall (St : Type) (sp : space_ops RA St (vec RA) (cut RA)) opt m b o s g o' s' x g' k,
  describes_rb m b o ->
  cutting_plane_optim (profit_rb_assess_optim RT) sp opt o s g = (o', s', Ok (x, g', k)) ->
  g <= g' /\ (forall y, x = Some y -> length y = 2%nat /\
     (forall m', realises m b m' -> g' <= profit_at m' (fv y) /\ in_limit m' (fv y)) /\
     (exists m', realises m b m' /\ profit_at m' (fv y) = g')).
Proof. exact @rb_run. Qed.
Print Assumptions C51_run.

(** With "no solution", no point of the initial ellipsoid guarantees more. *)
Theorem C51_run_optimal : forall p opt m b (o : profit_rb RA) (e : ell RA) g o' e' l u x g' k,
  describes_rb m b o -> good_price m -> 0 <= g -> psd_ell 2 p e ->
  cutting_plane_optim (logged_optim (profit_rb_assess_optim RT)) (logged_space (ell_space RA)) opt (o, []) (e, []) g
    = ((o', l), (e', u), Ok (x, g', k)) ->
  said_nosoln u -> forall z, ell_in 2 e z -> (forall m', realises m b m' -> in_limit m' z) ->
  ~ (forall m', realises m b m' -> g' < profit_at m' z).
Proof. exact rb_run_optimal. Qed.
Print Assumptions C51_run_optimal.

(** The input prices of the robust oracle: two, or one for both; anything else raises. *)
Theorem C51_one_price : forall (A : Arith) (T : Trans A) v params el vp,
  profit_rb_init T params el [v] vp = profit_rb_init T params el [v; v] vp.
Proof. exact @rb_one. Qed.
Print Assumptions C51_one_price.

Theorem C51_misfit : forall (A : Arith) (T : Trans A) pr params el vp,
  length pr <> 1%nat -> length pr <> 2%nat -> profit_rb_init T params el pr vp = Err ValueError.
Proof. exact @rb_misfit. Qed.
Print Assumptions C51_misfit.

Example C51_misfit_case : length (@cons R 1 [1; 1]) <> 1%nat /\ length (@cons R 1 [1; 1]) <> 2%nat.
Proof. split; discriminate. Qed.

Example C51_case :
  profit_rb_init (A:=RA) RT (10, 1, 5) (@cons R (1/2) [1/4]) (@cons R 1 [1]) (1/10, 1/10, 1, 1/2, 1/10) = Ok orb0 /\
  describes_rb mq0 bx0 orb0 /\ exists o' ct v, profit_rb_assess_optim RT orb0 zero2 0 = (o', Ok (ct, Some v)).
Proof. exact (conj orb0_init (conj orb0_d rb_case)). Qed.
Example C51_reports_case : forall m', realises mq0 bx0 m' -> 0 < 0 + cost_at m' (fv zero2).
Proof. intros m' H. destruct (real_zero m' H) as (_ & P & _). lra. Qed.
Example C51_run_case : exists o' e' v, cutting_plane_optim (profit_rb_assess_optim RT) (ell_space RA) opt1 orb0 e4 0
  = (o', e', Ok (Some zero2, v, 1%Z)) \/ cutting_plane_optim (profit_rb_assess_optim RT) (ell_space RA) opt1 orb0 e4 0
  = (o', e', Ok (Some zero2, v, 0%Z)).
Proof. exact rb_run_case. Qed.
Example C51_run_optimal_case : describes_rb mq2 bx0 orb1 /\ psd_ell 2 true e4 /\ exists o' l u e',
  cutting_plane_optim (logged_optim (profit_rb_assess_optim RT)) (logged_space (ell_space RA)) opt5 (orb1, []) (e4, []) 0
    = ((o', l), (e', u), Ok (None, 0, 0%Z)) /\ said_nosoln u.
Proof. exact (conj orb1_d (conj (pd_psd _ _ _ e4_pd) rb_nosoln_case)). Qed.

(** C52: the point is a nearest integer point, the value its profit. *)
Theorem C52_value_at_integer_point : forall m o x g b o' ct y v more,
  describes_q m o ->
  profit_assess_optim_q RT o x g b = (o', Ok (ct, y, Some v, more)) ->
  describes_q m o' /\ integer_point (fv y) /\ v = profit_at m (fv y) /\ g <= v /\ in_limit m (fv y) /\ more = negb b /\
  (b = false -> forall i, (i < 2)%nat -> Rabs (exp (fv y i) - exp (fv x i)) <= 1 / 2 \/
     (exp (fv y i) = 1 /\ exp (fv x i) <= 1 / 2)).
Proof. exact q_value. Qed.
Print Assumptions C52_value_at_integer_point.

Theorem C52_run : forall (St : Type) (sp : space_ops RA St (vec RA) (cut RA)) opt m o s g o' s' x g' k,
  describes_q m o ->
  cutting_plane_optim_q (profit_assess_optim_q RT) sp opt o s g = (o', s', Ok (x, g', k)) ->
  g <= g' /\ (forall y, x = Some y -> integer_point (fv y) /\ in_limit m (fv y) /\ g' = profit_at m (fv y)).
Proof. exact @q_run. Qed.
Print Assumptions C52_run.

Example C52_case :
  profit_q_init (A:=RA) RT (10, 1, 5) (@cons R (1/2) [1/4]) (@cons R 1 [1]) = Ok dq0 /\ describes_q mq0 dq0 /\
  exists o', profit_assess_optim_q RT dq0 xq0 0 false =
  (o', Ok ((@cons R (-3/10) [-1/5] : vec RA, @CSingle RA bq0), yq0, Some (15 : num RA), true)).
Proof. split; [exact dq0_init|]. split; [exact dq0_d|]. destruct run_q0 as (o' & E & _). eauto. Qed.
Example C52_run_case : exists o' e', cutting_plane_optim_q (profit_assess_optim_q RT) (ell_space RA) opt5 dq0 e4 0
  = (o', e', Ok (Some zero2, 8, 0%Z)).
Proof. exact q_run_case. Qed.

(** A retry on a fresh oracle does not look at the given point: it answers for the
    quantities (1, 1), in log space (0, 0). *)
Theorem C52_fresh_retry : forall p a k el pr d x g,
  profit_q_init (A:=RA) RT (p, a, k) el pr = Ok d ->
  profit_init (A:=RA) RT (p, a, k) el pr = Ok (pq_omega d) /\
  forall o' ct y v more, profit_assess_optim_q RT d x g true = (o', Ok (ct, y, v, more)) ->
  y = @cons R 0 [0] /\ more = false.
Proof. exact profit_q_fresh. Qed.
Print Assumptions C52_fresh_retry.

Example C52_fresh_retry_case :
  profit_q_init (A:=RA) RT (10, 1, 5) (@cons R (1/2) [1/4]) (@cons R 1 [1]) = Ok dq0 /\
  exists o' ct v, profit_assess_optim_q RT dq0 (@cons R 1 [1]) 0 true = (o', Ok (ct, @cons R 0 [0], v, false)).
Proof. split; [exact dq0_init|exact q_fresh_case]. Qed.

(** Otherwise the centre of a retry must have the length of the stored point. *)
Theorem C52_retry_misfit : forall (A : Arith) (T : Trans A) (d : profit_disc A) xc g om gr b v, length (pq_xd d) = 2%nat ->
  length xc <> 1%nat -> length xc <> 2%nat ->
  profit_assess_optim T (pq_omega d) (pq_xd d) g = (om, Ok ((gr, CSingle b), v)) ->
  profit_assess_optim_q T d xc g true = (mkProfitQ om (pq_xd d), Err ValueError).
Proof. exact @q_retry_misfit. Qed.
Print Assumptions C52_retry_misfit.

Example C52_retry_misfit_case : length (pq_xd dq0) = 2%nat /\ exists om gr b v,
  profit_assess_optim RT (pq_omega dq0) (pq_xd dq0) 0 = (om, Ok ((gr, CSingle b), v)).
Proof. exact q_misfit_case. Qed.

(** A retry given a one-entry centre stretches it. *)
Theorem C52_one_entry : forall m o (c g : R), describes_q m o ->
  profit_assess_optim_q RT o (@cons R c []) g true = profit_assess_optim_q RT o (@cons R c [c]) g true.
Proof. exact q_one_entry. Qed.
Print Assumptions C52_one_entry.

Example C52_one_entry_case : describes_q mq0 dq0.
Proof. exact dq0_d. Qed.

(** The shift to the centre has the wrong sign (profit_oracle.py:300 adds
    [g . (xd - xc)] instead of [g . (xc - xd)]): the returned cut is not the cut
    at the integer point, *)
Theorem C52_shift_refuted : exists m (o : profit_disc RA) x g o' gr be y v more om om' be0 z,
  describes_q m o /\ good_price m /\ 0 <= g /\ length x = 2%nat /\
  profit_assess_optim_q RT o x g false = (o', Ok ((gr, @CSingle RA be), y, Some v, more)) /\
  describes m om /\ profit_assess_optim RT om y g = (om', Ok ((gr, @CSingle RA be0), Some v)) /\
  cutval 2 (fv gr) (fv x) z + be <> cutval 2 (fv gr) (fv y) z + be0.
Proof. exact q_shift_wrong. Qed.
Print Assumptions C52_shift_refuted.

(** and it can cut off a strictly better integer point. *)
Theorem C52_keeps_better_points_refuted : exists m (o : profit_disc RA) x g o' gr be y v more z,
  describes_q m o /\ good_price m /\ 0 <= g /\ length x = 2%nat /\
  profit_assess_optim_q RT o x g false = (o', Ok ((gr, @CSingle RA be), y, Some v, more)) /\
  integer_point z /\ in_limit m z /\ v < profit_at m z /\ 0 < cutval 2 (fv gr) (fv x) z + be.
Proof. exact q_loses_better. Qed.
Print Assumptions C52_keeps_better_points_refuted.

(** What does hold: it is off by at most twice [g . (y - x)]; in particular it
    is valid whenever that is not positive. *)
Theorem C52_cut_error : forall m o x g b o' gr be y v more,
  describes_q m o -> good_price m -> 0 <= g -> length x = 2%nat ->
  profit_assess_optim_q RT o x g b = (o', Ok ((gr, be), y, v, more)) ->
  length gr = 2%nat /\ exists ep, be = @CSingle RA ep /\
  forall z, in_limit m z -> (match v with Some w => w | None => g end) <= profit_at m z ->
    cutval 2 (fv gr) (fv x) z + ep <= 2 * dot 2 (fv gr) (fun i => fv y i - fv x i).
Proof. exact q_cut_error. Qed.
Print Assumptions C52_cut_error.
