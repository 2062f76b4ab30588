(** The profit oracles: convergence, and what happens at the optimum. *)
From Coq Require Import Reals List Arith Lia Lra Psatz Bool ZArith.
From Verif Require Import Arith Vec ModelCalc ModelEll ModelStable ModelCut ModelSpaces ModelProfit
  SpecDrivers Spec SpecCut SpecEll SpecSearch SpecStable SpecConverge SpecProfit
  PSum PCalc PVec PEll PEll2 PEll3 PEllEx PStable5 PStableEx PSearchEx PConv3 PProfit PProfit2 PProfit3 PProfitEx.
Import ListNotations.
Local Open Scope R_scope.

Lemma by_limit m eps g z : 0 < m_limit m -> better_by m eps g z -> z 0%nat <= ln (m_limit m) - eps.
Proof.
  intros Hk (H & _). rewrite <- (exp_ln (m_limit m)) in H by exact Hk. rewrite <- exp_plus in H. apply exp_le_inv in H. lra.
Qed.
Lemma by_gap m eps g z : 0 < m_price m * m_scale m -> 0 < g + cost_at m z -> better_by m eps g z ->
  gap m g (z 0%nat) (z 1%nat) <= - eps.
Proof.
  intros Hp Hc (_ & H). rewrite revenue_exp in H by exact Hp. rewrite <- exp_plus in H. unfold cost_at in *.
  rewrite <- (exp_ln (g + cost m (exp (z 0%nat)) (exp (z 1%nat)))) in H by exact Hc. apply exp_le_inv in H. unfold gap. lra.
Qed.

Lemma slope_by m eps g x0 x1 z : 0 < m_price m * m_scale m -> 0 <= m_v1 m -> 0 <= m_v2 m -> 0 <= g ->
  0 < g + cost m (exp x0) (exp x1) -> better_by m eps g z ->
  cutval 2 (fv (slope m (g + cost m (exp x0) (exp x1)) x0 x1)) (fv (@cons R x0 [x1])) z <= - eps - gap m g x0 x1.
Proof.
  intros Hpa V1 V2 Hg Hd Hz.
  assert (P := by_gap m eps g z Hpa (cost_pos_all m g x0 x1 _ _ V1 V2 Hg Hd) Hz).
  pose proof (gap_tangent m g x0 x1 (z 0%nat) (z 1%nat) V1 V2 Hg Hd) as T. cbv zeta in T.
  unfold cutval, dot, fv, slope. cbn [sumn nth]. lra.
Qed.

Lemma gap_zero m x0 x1 : 0 < m_price m * m_scale m -> gap m (profit_of m (exp x0) (exp x1)) x0 x1 = 0.
Proof.
  intros Hpa. unfold gap. replace (profit_of m (exp x0) (exp x1) + cost m (exp x0) (exp x1)) with (revenue m (exp x0) (exp x1)) by (unfold profit_of; ring).
  rewrite revenue_exp by exact Hpa. rewrite ln_exp. ring.
Qed.

Lemma profit_margin_cut m eps o x g o' gr be v : describes m o -> good_price m -> 0 <= g -> length x = 2%nat ->
  profit_assess_optim RT o x g = (o', Ok ((gr, be), v)) ->
  describes m o' /\ length gr = 2%nat /\ exists ep, be = @CSingle RA ep /\ 0 <= ep /\ (v <> None -> ep = 0) /\
  forall z, better_by m eps (match v with Some w => w | None => g end) z -> cutval 2 (fv gr) (fv x) z <= - eps - ep.
Proof.
  intros D (V1 & V2) Hg Hx E. destruct (two_list x Hx) as (x0 & x1 & ->).
  destruct (optim_outcome m o x0 x1 g D) as (o1 & r & E1 & D1 & F). rewrite E in E1. injection E1 as <- <-.
  split; [exact D1|]. pose proof D as (Hpa & Hk & _).
  destruct F as [(F & _)|[(c & F & o2 & Ef)|(F & H1 & H2 & H3)]]; try discriminate.
  - injection F as <- ->. destruct (feas_outcome m o x0 x1 g D) as (o3 & r3 & E3 & D3 & F3). rewrite Ef in E3. injection E3 as _ <-.
    destruct F3 as [(F3 & H)|[(F3 & H)|[(F3 & H1 & H2)|(F3 & _)]]]; try discriminate; injection F3 as -> ->; (split; [reflexivity|]); eexists; (split; [reflexivity|]).
    + split; [apply Rlt_le, H|]. split; [intros N; exfalso; apply N; reflexivity|]. intros z Hz. apply by_limit in Hz; [|exact Hk]. unfold cutval, dot, fv, grad1. cbn. lra.
    + split; [apply Rlt_le, H2|]. split; [intros N; exfalso; apply N; reflexivity|]. intros z Hz. apply slope_by; assumption.
  - injection F as -> -> ->. split; [reflexivity|]. exists 0. split; [reflexivity|]. split; [lra|]. split; [reflexivity|].
    intros z Hz. set (w := profit_of m (exp x0) (exp x1)) in *.
    assert (P : 0 < w + cost m (exp x0) (exp x1)) by lra. assert (Q : 0 <= w) by lra.
    pose proof (slope_by m eps w x0 x1 z Hpa V1 V2 Q P Hz) as Sc. unfold w in Sc at 2. rewrite (gap_zero m x0 x1 Hpa) in Sc. exact Sc.
Qed.

Lemma by_mono m eps g g' z : g <= g' -> better_by m eps g' z -> better_by m eps g z.
Proof. intros H (H1 & H2). split; [exact H1|lra]. Qed.

Lemma margin_single p (S : (nat -> R) -> Prop) eps k (g x : vec RA) ep : vec_wf 2 g -> 0 <= ep -> 0 <= eps -> (k = OpCentral -> ep = 0) ->
  (forall z, S z -> cutval 2 (fv g) (fv x) z <= - eps - ep) -> k <> OpQ -> margin_cut 2 p S eps k (g, @CSingle RA ep) x.
Proof.
  intros Hg Hep Heps Hc H Hk. split; [exact Hg|]. split; [exact I|]. split; [split|].
  - intros _. right. exists ep. auto.
  - intros z Hz. specialize (H z Hz). cbn [fst snd]. unfold cut_holds. cbn [first_beta second_beta]. split; [|exact I].
    destruct k; change (num RA) with R in *; lra.
  - intros z Hz. cbn [fst]. specialize (H z Hz). lra.
Qed.

Lemma profit_margin m eps o g p : describes m o -> good_price m -> 0 <= g -> 0 <= eps ->
  margin_optim_oracle 2 p (better_by m eps) eps (profit_assess_optim RT) o g.
Proof.
  intros D GP Hg He. exists (fun o g => describes m o /\ 0 <= g). split; [auto|]. clear o g D Hg.
  intros o x g o' [gr be] v (D & Hg) E. destruct (Nat.eq_dec (length x) 2) as [L|L].
  - destruct (profit_margin_cut m eps o x g o' gr be v D GP Hg L E) as (D' & Lg & ep & -> & Hep & Hc & H).
    destruct v as [v|].
    + destruct (profit_value m o x g o' _ v D L E) as (_ & Hv & _ & _). split; [split; [exact D'|change R with (num RA); lra]|].
      split; [|intros z; apply by_mono; exact Hv]. intros _. apply margin_single; auto; [intros _; apply Hc; discriminate|discriminate].
    + split; [auto|]. intros _. apply margin_single; auto; discriminate.
  - destruct (optim_len m o x g o' (gr, be) v D E) as (D' & [L'|(-> & _)]); [contradiction|].
    split; [auto|]. intros Hx. exfalso. apply L. exact Hx.
Qed.

Lemma rb_margin m b eps o g p : describes_rb m b o -> good_price m -> 0 <= g -> 0 <= eps ->
  margin_optim_oracle 2 p (robust_by m b eps) eps (profit_rb_assess_optim RT) o g.
Proof.
  intros D GP Hg He. exists (fun o g => describes_rb m b o /\ 0 <= g). split; [auto|]. clear o g D Hg.
  intros o x g o' [gr be] v (D & Hg) E.
  destruct (rb_step m b o x g o' _ D E) as [(F & _)|(x0 & x1 & rest & om & -> & Dw & Eo & Hd)]; [discriminate|].
  assert (GW : good_price (worst m b x0 x1)) by (destruct D as ((_ & _ & _ & _ & H5) & _); destruct GP; split; cbn; lra).
  assert (W : realises m b (worst m b x0 x1)) by (apply worst_realises, D).
  destruct (Nat.eq_dec (length (x0 :: x1 :: rest)) 2) as [L|L].
  - destruct (profit_margin_cut _ eps om _ g _ gr be v Dw GW Hg L Eo) as (D' & Lg & ep & -> & Hep & Hc & H).
    destruct v as [v|].
    + destruct (profit_value _ om _ g _ _ v Dw L Eo) as (_ & Hv & _ & _). split; [split; [apply Hd, D'|change R with (num RA); lra]|].
      split; [|intros z Hz m' Hm; apply (by_mono _ _ _ v); [exact Hv|apply Hz, Hm]]. intros _. apply margin_single; auto; [intros _; apply Hc; discriminate|discriminate].
    + split; [split; [apply Hd, D'|exact Hg]|]. intros _. apply margin_single; auto; discriminate.
  - destruct (optim_len _ om _ g _ (gr, be) v Dw Eo) as (D' & [L'|(-> & _)]); [contradiction|].
    split; [split; [apply Hd, D'|exact Hg]|]. intros Hx. exfalso. apply L. exact Hx.
Qed.

Section Conv.
Variables (p : bool) (k : R) (x0 : vec RA) (c : nat -> R) (r eps : R) (opt : options RA).
Hypotheses (Hx : vec_wf 2 x0) (Hk : 0 < k) (Hr : 0 < r) (He : 0 < eps)
  (Hb : forall z, ball 2 c r z -> ball 2 (fv x0) (sqrt k) z)
  (Ht : tolerance opt <= eps * eps)
  (HI : 6 * ln (k / (r * r)) < IZR (max_iters opt)).

Lemma count_two : INR 2 * (INR 2 + 1) * ln (k / (r * r)) < IZR (max_iters opt).
Proof. cbn [INR]. lra. Qed.
Lemma ball_ell (e0 : ell RA) : ell_init (@VScalar RA k) x0 = Ok e0 -> forall z, ball 2 c r z -> ell_in 2 e0 z.
Proof. intros E z Hz. apply (scalar_in 2 k x0 e0 z E Hx). specialize (Hb z Hz). unfold ball in Hb. rewrite sqrt_sqrt in Hb by lra. exact Hb. Qed.
Lemma ball_stable (s0 : stable RA) : stable_init (@VScalar RA k) x0 = Ok s0 -> forall z, ball 2 c r z -> stable_in 2 s0 z.
Proof.
  intros E z Hz. destruct (init_both _ x0 s0 E) as (e0 & Ee). destruct (init_agree 2 _ x0 e0 Ee Hx Hk) as (s1 & E1 & Hok & Ha & _). rewrite E in E1. injection E1 as <-.
  apply (same_set 2 e0 s0); [apply (init_pd 2 _ x0 e0 Ee Hx Hk)|exact Ha|]. apply (ball_ell e0 Ee z Hz).
Qed.

Lemma profit_ell_near m (o : profit RA) (e0 : ell RA) g o' e' x' g' j : describes m o -> good_price m -> 0 <= g ->
  ell_init (@VScalar RA k) x0 = Ok e0 ->
  cutting_plane_optim (profit_assess_optim RT) (ell_space RA) opt o (ell_set_parallel e0 p) g = (o', e', Ok (x', g', j)) ->
  ~ (forall z, ball 2 c r z -> better_by m eps g' z).
Proof.
  intros D GP Hg E. apply (ell_optim_converges_m 2 p (@VScalar RA k) x0 e0 c r eps opt); try assumption; [apply (ball_ell e0 E)|apply profit_margin; try assumption; lra|].
  apply scalar_count; [assumption|assumption|apply count_two].
Qed.
Lemma profit_stable_near m (o : profit RA) (s0 : stable RA) g o' s' x' g' j : describes m o -> good_price m -> 0 <= g ->
  stable_init (@VScalar RA k) x0 = Ok s0 ->
  cutting_plane_optim (profit_assess_optim RT) (stable_space RA) opt o (stable_set_parallel s0 p) g = (o', s', Ok (x', g', j)) ->
  ~ (forall z, ball 2 c r z -> better_by m eps g' z).
Proof.
  intros D GP Hg E. apply (stable_optim_converges_m 2 p (@VScalar RA k) x0 s0 c r eps opt); try assumption; [apply (ball_stable s0 E)|apply profit_margin; try assumption; lra|].
  apply scalar_count; [assumption|assumption|apply count_two].
Qed.
Lemma rb_ell_near m b (o : profit_rb RA) (e0 : ell RA) g o' e' x' g' j : describes_rb m b o -> good_price m -> 0 <= g ->
  ell_init (@VScalar RA k) x0 = Ok e0 ->
  cutting_plane_optim (profit_rb_assess_optim RT) (ell_space RA) opt o (ell_set_parallel e0 p) g = (o', e', Ok (x', g', j)) ->
  ~ (forall z, ball 2 c r z -> robust_by m b eps g' z).
Proof.
  intros D GP Hg E. apply (ell_optim_converges_m 2 p (@VScalar RA k) x0 e0 c r eps opt); try assumption; [apply (ball_ell e0 E)|apply rb_margin; try assumption; lra|].
  apply scalar_count; [assumption|assumption|apply count_two].
Qed.
Lemma rb_stable_near m b (o : profit_rb RA) (s0 : stable RA) g o' s' x' g' j : describes_rb m b o -> good_price m -> 0 <= g ->
  stable_init (@VScalar RA k) x0 = Ok s0 ->
  cutting_plane_optim (profit_rb_assess_optim RT) (stable_space RA) opt o (stable_set_parallel s0 p) g = (o', s', Ok (x', g', j)) ->
  ~ (forall z, ball 2 c r z -> robust_by m b eps g' z).
Proof.
  intros D GP Hg E. apply (stable_optim_converges_m 2 p (@VScalar RA k) x0 s0 c r eps opt); try assumption; [apply (ball_stable s0 E)|apply rb_margin; try assumption; lra|].
  apply scalar_count; [assumption|assumption|apply count_two].
Qed.
End Conv.

(** ** At a stationary point *)
Lemma stationary_optimal m x : 0 < m_price m * m_scale m -> good_price m -> stationary m x -> 0 <= profit_at m x ->
  forall z, profit_at m z <= profit_at m x.
Proof.
  intros Hpa (V1 & V2) (S1 & S2) H0 z. apply Rnot_lt_le. intros L.
  set (rev := revenue m (exp (x 0%nat)) (exp (x 1%nat))) in *. unfold profit_at in *. set (w := profit_of m (exp (x 0%nat)) (exp (x 1%nat))) in *.
  assert (Hrev : 0 < rev) by (unfold rev; rewrite revenue_exp by exact Hpa; apply exp_pos).
  assert (Ew : w + cost m (exp (x 0%nat)) (exp (x 1%nat)) = rev) by (unfold w, profit_of, rev; ring).
  assert (P : 0 < w + cost m (exp (x 0%nat)) (exp (x 1%nat))) by lra.
  pose proof (gap_tangent m w (x 0%nat) (x 1%nat) (z 0%nat) (z 1%nat) V1 V2 H0 P) as T. cbv zeta in T. rewrite Ew in T.
  unfold w in T at 1. rewrite (gap_zero m _ _ Hpa) in T.
  replace (m_v1 m * exp (x 0%nat) / rev) with (m_alpha m) in T by (apply (Rmult_eq_reg_r rev); [rewrite S1; field; lra|lra]).
  replace (m_v2 m * exp (x 1%nat) / rev) with (m_beta m) in T by (apply (Rmult_eq_reg_r rev); [rewrite S2; field; lra|lra]).
  assert (Hz : 0 < w + cost m (exp (z 0%nat)) (exp (z 1%nat))) by (apply (cost_pos_all m w (x 0%nat) (x 1%nat)); assumption).
  assert (G : gap m w (z 0%nat) (z 1%nat) < 0); [|lra].
  unfold gap. assert (Q : w + cost m (exp (z 0%nat)) (exp (z 1%nat)) < exp (logcobb m (z 0%nat) (z 1%nat))) by (rewrite <- revenue_exp by exact Hpa; unfold profit_of in L; lra).
  apply ln_increasing in Q; [|exact Hz]. rewrite ln_exp in Q. lra.
Qed.

Lemma stationary_call m (o : profit RA) x g : describes m o -> length x = 2%nat -> stationary m (fv x) -> in_limit m (fv x) ->
  g <= profit_at m (fv x) -> 0 < g + cost_at m (fv x) ->
  exists o', profit_assess_optim RT o x g = (o', Ok ((@cons R 0 [0] : vec RA, @CSingle RA 0), Some (profit_at m (fv x) : num RA))).
Proof.
  intros D Hx S Hl Hg Hc. destruct (profit_assess_optim RT o x g) as [o' r] eqn:E.
  destruct (profit_reports m o x g o' r D Hx Hc E) as ((ct & v & -> & Hv) & D').
  destruct v as [v|]; [|exfalso; apply (proj2 Hv (conj Hl Hg)); reflexivity].
  destruct (two_list x Hx) as (x0 & x1 & ->).
  destruct (optim_outcome m o x0 x1 g D) as (o1 & r & E1 & D1 & F). rewrite E in E1. injection E1 as <- <-.
  destruct F as [(F & _)|[(c & F & _)|(F & H1 & H2 & H3)]]; try discriminate. injection F as -> ->.
  exists o'. unfold profit_at, cost_at, stationary in *. change (fv (@cons R x0 [x1]) 0) with x0 in *. change (fv (@cons R x0 [x1]) 1) with x1 in *.
  pose proof D as (Hpa & _). destruct S as (S1 & S2). set (rev := revenue m (exp x0) (exp x1)) in *.
  assert (Hrev : 0 < rev) by (unfold rev; rewrite revenue_exp by exact Hpa; apply exp_pos).
  assert (Ew : profit_of m (exp x0) (exp x1) + cost m (exp x0) (exp x1) = rev) by (unfold profit_of, rev; ring).
  rewrite Ew. unfold slope. do 5 f_equal.
  - change ((m_v1 m * exp x0 / rev - m_alpha m) = 0). rewrite <- S1. field. lra.
  - f_equal. change ((m_v2 m * exp x1 / rev - m_beta m) = 0). rewrite <- S2. field. lra.
Qed.

Lemma z00 : ~ nonzero 2 (fv (@cons R 0 [0])).
Proof. intros ([|[|i]] & Hi & H); [apply H; reflexivity|apply H; reflexivity|lia]. Qed.

Lemma optimum_raises m (o : profit RA) (e : ell RA) g opt : describes m o -> vec_wf 2 (xc e) -> (0 < budget opt)%nat ->
  stationary m (fv (xc e)) -> in_limit m (fv (xc e)) -> g <= profit_at m (fv (xc e)) -> 0 < g + cost_at m (fv (xc e)) ->
  exists o' e', cutting_plane_optim (profit_assess_optim RT) (ell_space RA) opt o e g = (o', e', Err ValueError).
Proof.
  intros D Hx Hb S Hl Hg Hc. destruct (stationary_call m o (xc e) g D Hx S Hl Hg Hc) as (o' & E).
  unfold cutting_plane_optim. destruct (budget opt) as [|b]; [lia|]. cbn [optim_loop]. change (sp_xc (ell_space RA) e) with (xc e).
  rewrite E.
  match goal with |- context [sp_central (ell_space RA) ?ct e] => change (sp_central (ell_space RA) ct e) with (ell_update OpCentral ct e) end.
  rewrite zero_gradient; [eexists; eexists; reflexivity|]. exact z00.
Qed.
Lemma optimum_raises_stable p m (o : profit RA) (s : stable RA) g opt : describes m o -> stable_ok 2 p s -> (0 < budget opt)%nat ->
  stationary m (fv (s_xc s)) -> in_limit m (fv (s_xc s)) -> g <= profit_at m (fv (s_xc s)) -> 0 < g + cost_at m (fv (s_xc s)) ->
  exists o' s', cutting_plane_optim (profit_assess_optim RT) (stable_space RA) opt o s g = (o', s', Err ZeroDivision).
Proof.
  intros D Hs Hb S Hl Hg Hc. assert (Hx : vec_wf 2 (s_xc s)) by apply Hs. destruct (stationary_call m o (s_xc s) g D Hx S Hl Hg Hc) as (o' & E).
  unfold cutting_plane_optim. destruct (budget opt) as [|b]; [lia|]. cbn [optim_loop]. change (sp_xc (stable_space RA) s) with (s_xc s).
  rewrite E.
  match goal with |- context [sp_central (stable_space RA) ?ct s] => change (sp_central (stable_space RA) ct s) with (stable_update OpCentral ct s) end.
  destruct (stable_zero_central 2 p s (@cons R 0 [0]) (0 : num RA) Hs eq_refl z00) as (s1 & E1 & _). rewrite E1. eexists; eexists; reflexivity.
Qed.
