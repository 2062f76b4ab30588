(** Runs of the drivers with the profit oracles, and concrete cases. *)
From Coq Require Import Reals List Arith ZArith Lia Lra Psatz Bool.
From Verif Require Import Arith Vec Broadcast PBroadcast ModelCalc ModelEll ModelCut ModelSpaces ModelProfit SpecDrivers Spec SpecCut SpecEll SpecSearch SpecProfit
  PCalc PCalc2 PAlg PSum PVec PCG2 PEll PEll2 PEll3 PEllEx PSearch PSearchEx PProfit PProfit2 PProfit3.
Import ListNotations.
Local Open Scope R_scope.

(** ** What is kept along a run *)
Section Runs.
Context {A : Arith} {St V C Orc G : Type} (inv : Orc -> G -> Prop) (val : V -> G -> Prop).
Definition best_ok (x : option V) (g : G) : Prop := match x with Some y => val y g | None => True end.

Lemma optim_best (f : Orc -> V -> G -> Orc * res (C * option G)) (sp : space_ops A St V C) opt :
  (forall o x g o' c v, inv o g -> f o x g = (o', Ok (c, v)) ->
     inv o' (match v with Some g' => g' | None => g end) /\ match v with Some g' => val x g' | None => True end) ->
  forall fuel k o s xb g o' s' x g' m, inv o g -> best_ok xb g ->
  optim_loop f sp opt fuel k o s xb g = (o', s', Ok (x, g', m)) -> inv o' g' /\ best_ok x g'.
Proof.
  intros HF. induction fuel as [|fuel IH]; intros k o s xb g o' s' x g' m Ho Hb H; cbn [optim_loop] in H.
  { injection H as <- _ <- <- _. auto. }
  destruct (f o (sp_xc sp s) g) as [o1 [[c v]|e]] eqn:E; [|discriminate].
  destruct (HF _ _ _ _ _ _ Ho E) as (H1 & H2).
  destruct v as [v|].
  - destruct (sp_central sp c s) as [s1 [st|e]]; [|discriminate]. destruct (stop_test _ _ _ _).
    + injection H as <- _ <- <- _. auto.
    + exact (IH _ _ _ (Some (sp_xc sp s)) _ _ _ _ _ _ H1 H2 H).
  - destruct (sp_bias sp c s) as [s1 [st|e]]; [|discriminate]. destruct (stop_test _ _ _ _).
    + injection H as <- _ <- <- _. auto.
    + exact (IH _ _ _ xb _ _ _ _ _ _ H1 Hb H).
Qed.

Lemma optim_q_best (f : Orc -> V -> G -> bool -> Orc * res (C * V * option G * bool)) (sp : space_ops A St V C) opt :
  (forall o x g b o' c y v m, inv o g -> f o x g b = (o', Ok (c, y, v, m)) ->
     inv o' (match v with Some g' => g' | None => g end) /\ match v with Some g' => val y g' | None => True end) ->
  forall fuel k o s xb g b o' s' x g' m, inv o g -> best_ok xb g ->
  optim_q_loop f sp opt fuel k o s xb g b = (o', s', Ok (x, g', m)) -> inv o' g' /\ best_ok x g'.
Proof.
  intros HF. induction fuel as [|fuel IH]; intros k o s xb g b o' s' x g' m Ho Hb H; cbn [optim_q_loop] in H.
  { injection H as <- _ <- <- _. auto. }
  destruct (f o (sp_xc sp s) g b) as [o1 [[[[c y] v] al]|e]] eqn:E; [|discriminate].
  destruct (HF _ _ _ _ _ _ _ _ _ Ho E) as (H1 & H2).
  assert (K : forall xb1 g1 bb, inv o1 g1 -> best_ok xb1 g1 -> forall s1,
    (if altb (sp_tsq sp s1) (tolerance opt) then (o1, s1, Ok (xb1, g1, k)) else optim_q_loop f sp opt fuel (k + 1) o1 s1 xb1 g1 bb)
      = (o', s', Ok (x, g', m)) -> inv o' g' /\ best_ok x g').
  { intros xb1 g1 bb I1 B1 s1 HH. destruct (altb _ _); [injection HH as <- _ <- <- _; auto|]. exact (IH _ _ _ _ _ _ _ _ _ _ _ I1 B1 HH). }
  destruct v as [v|]; destruct (sp_q sp c s) as [s1 [[| | |]|e]]; try discriminate;
    try (destruct al); try (injection H as <- _ <- <- _; auto; fail);
    (eapply K; [| |exact H]; assumption || exact H2).
Qed.
End Runs.

Lemma profit_run {St} (sp : space_ops RA St (vec RA) (cut RA)) opt m o s g o' s' x g' k : describes m o ->
  cutting_plane_optim (profit_assess_optim RT) sp opt o s g = (o', s', Ok (x, g', k)) ->
  g <= g' /\ (forall y, x = Some y -> length y = 2%nat /\ in_limit m (fv y) /\ g' = profit_at m (fv y)).
Proof.
  intros D H. unfold cutting_plane_optim, cutting_plane_optim_q in H.
  destruct (optim_best (fun o1 g1 => describes m o1 /\ g <= g1) (fun y g1 => length y = 2%nat /\ in_limit m (fv y) /\ g1 = profit_at m (fv y))
    (profit_assess_optim RT) sp opt) with (4:=H) as ((_ & H1) & H2).
  - intros q y g0 q' c v (Q1 & Q2) E. destruct (optim_len m q y g0 q' c v Q1 E) as (Q3 & Q4). destruct v as [v|].
    + destruct Q4 as [Q4|(Q4 & _)]; [|discriminate]. destruct (profit_value m q y g0 q' c v Q1 Q4 E) as (R1 & R2 & R3 & _).
      (split; [split; [assumption|change (num RA) with R in *; lra]|]). auto.
    + auto.
  - split; [exact D|lra].
  - exact I.
  - split; [exact H1|]. intros y ->. exact H2.
Qed.

Lemma profit_run_optimal p opt m (o : profit RA) (e : ell RA) g o' e' l u x g' k : describes m o -> good_price m -> 0 <= g ->
  psd_ell 2 p e ->
  cutting_plane_optim (logged_optim (profit_assess_optim RT)) (logged_space (ell_space RA)) opt (o, []) (e, []) g
    = ((o', l), (e', u), Ok (x, g', k)) ->
  said_nosoln u -> forall z, ell_in 2 e z -> in_limit m z -> profit_at m z <= g'.
Proof.
  intros D GP Hg He H Hs z Hz Hl. apply Rnot_lt_le. intros Hp.
  exact (ell_optim_optimal 2 p opt _ _ _ (better m) o e g o' e' l u x g' k He (profit_oracle_ok m o g p D GP Hg) H Hs z Hz (conj Hl Hp)).
Qed.

Lemma rb_run {St} (sp : space_ops RA St (vec RA) (cut RA)) opt m b o s g o' s' x g' k : describes_rb m b o ->
  cutting_plane_optim (profit_rb_assess_optim RT) sp opt o s g = (o', s', Ok (x, g', k)) ->
  g <= g' /\ (forall y, x = Some y -> length y = 2%nat /\
     (forall m', realises m b m' -> g' <= profit_at m' (fv y) /\ in_limit m' (fv y)) /\
     (exists m', realises m b m' /\ profit_at m' (fv y) = g')).
Proof.
  intros D H. unfold cutting_plane_optim, cutting_plane_optim_q in H.
  destruct (optim_best (fun o1 g1 => describes_rb m b o1 /\ g <= g1) (fun y g1 => length y = 2%nat /\ 
     (forall m', realises m b m' -> g1 <= profit_at m' (fv y) /\ in_limit m' (fv y)) /\
     (exists m', realises m b m' /\ profit_at m' (fv y) = g1))
    (profit_rb_assess_optim RT) sp opt) with (4:=H) as ((_ & H1) & H2).
  - intros q y g0 q' c v (Q1 & Q2) E.
    destruct (rb_step m b q y g0 q' _ Q1 E) as [(F & _)|(x0 & x1 & rest & om & -> & Dw & Eo & Hd)]; [discriminate|].
    destruct (optim_len _ om _ g0 _ c v Dw Eo) as (D' & Q4). destruct v as [v|].
    + destruct Q4 as [Q4|(Q4 & _)]; [|discriminate]. destruct (rb_value m b q _ g0 q' c v Q1 Q4 E) as (R1 & R2 & R3 & R4).
      (split; [split; [assumption|change (num RA) with R in *; lra]|]). auto.
    + auto.
  - split; [exact D|lra].
  - exact I.
  - split; [exact H1|]. intros y ->. exact H2.
Qed.

Lemma rb_run_optimal p opt m b (o : profit_rb RA) (e : ell RA) g o' e' l u x g' k : describes_rb m b o -> good_price m -> 0 <= g ->
  psd_ell 2 p e ->
  cutting_plane_optim (logged_optim (profit_rb_assess_optim RT)) (logged_space (ell_space RA)) opt (o, []) (e, []) g
    = ((o', l), (e', u), Ok (x, g', k)) ->
  said_nosoln u -> forall z, ell_in 2 e z -> (forall m', realises m b m' -> in_limit m' z) ->
  ~ (forall m', realises m b m' -> g' < profit_at m' z).
Proof.
  intros D GP Hg He H Hs z Hz Hl Hp.
  refine (ell_optim_optimal 2 p opt _ _ _ _ o e g o' e' l u x g' k He (rb_oracle_ok m b o g p D GP Hg) H Hs z Hz _).
  split; [|exact Hp]. intros m' Hm. split; [apply Hl, Hm|]. specialize (Hp m' Hm). lra.
Qed.

Lemma q_run {St} (sp : space_ops RA St (vec RA) (cut RA)) opt m o s g o' s' x g' k : describes_q m o ->
  cutting_plane_optim_q (profit_assess_optim_q RT) sp opt o s g = (o', s', Ok (x, g', k)) ->
  g <= g' /\ (forall y, x = Some y -> integer_point (fv y) /\ in_limit m (fv y) /\ g' = profit_at m (fv y)).
Proof.
  intros D H. unfold cutting_plane_optim, cutting_plane_optim_q in H.
  destruct (optim_q_best (fun o1 g1 => describes_q m o1 /\ g <= g1) (fun y g1 => integer_point (fv y) /\ in_limit m (fv y) /\ g1 = profit_at m (fv y))
    (profit_assess_optim_q RT) sp opt) with (4:=H) as ((_ & H1) & H2).
  - intros q y g0 b q' c w v mm (Q1 & Q2) E. destruct v as [v|].
    + destruct (q_value m q y g0 b q' c w v mm Q1 E) as (R1 & R2 & R3 & R4 & R5 & _). (split; [split; [assumption|change (num RA) with R in *; lra]|]). auto.
    + destruct (q_phases m q y g0 b q' _ Q1 E) as (R1 & _). auto.
  - split; [exact D|lra].
  - exact I.
  - split; [exact H1|]. intros y ->. exact H2.
Qed.

(** ** Concrete cases *)
Definition zero2 : vec RA := @cons R 0 [0].
Lemma oq0_init : profit_init (A:=RA) RT (10, 1, 5) (@cons R (1/2) [1/4]) (@cons R 1 [1]) = Ok oq0.
Proof.
  unfold profit_init. change (amul (a:=RA) 10 1) with (10 * 1). rewrite !plog_R.
  destruct (Rle_dec (10 * 1) 0); [lra|]. destruct (Rle_dec 5 0); [lra|]. reflexivity.
Qed.
Lemma mq0_good : good_price mq0.
Proof. split; cbn; lra. Qed.
Lemma cost_zero : cost_at mq0 (fv zero2) = 2.
Proof. unfold cost_at, cost. change (fv zero2 0) with 0. change (fv zero2 1) with 0. rewrite exp_0. cbn. lra. Qed.
Lemma profit_zero : profit_at mq0 (fv zero2) = 8.
Proof. unfold profit_at. change (fv zero2 0) with 0. change (fv zero2 1) with 0. rewrite exp_0, profit_q0, sqrt_1 by lra. lra. Qed.
Lemma limit_zero : in_limit mq0 (fv zero2).
Proof. unfold in_limit. change (fv zero2 0) with 0. rewrite exp_0. cbn. lra. Qed.

(** accepted at gamma 0, cut off at gamma 100 *)
Lemma feas_zero : (exists o', profit_assess_feas RT oq0 zero2 0 = (o', Ok None)) /\
  (exists o' ct, profit_assess_feas RT oq0 zero2 100 = (o', Ok (Some ct))).
Proof.
  split.
  - destruct (profit_assess_feas RT oq0 zero2 0) as [o' r] eqn:E. exists o'. f_equal.
    destruct (profit_feas mq0 oq0 zero2 0 o' r oq0_d eq_refl) with (2:=E) as (_ & I & _); [rewrite cost_zero; lra|].
    apply I. split; [exact limit_zero|rewrite profit_zero; lra].
  - destruct (profit_assess_feas RT oq0 zero2 100) as [o' r] eqn:E. 
    destruct (profit_feas mq0 oq0 zero2 100 o' r oq0_d eq_refl) with (2:=E) as ((a & ->) & I & _); [rewrite cost_zero; lra|].
    destruct a as [ct|]; [exists o', ct; reflexivity|]. destruct (proj1 I eq_refl) as (_ & F). rewrite profit_zero in F. lra.
Qed.

Lemma optim_zero om : describes mq0 om ->
  exists om', profit_assess_optim RT om zero2 0 = (om', Ok ((@cons R (-2/5) [-3/20] : vec RA, @CSingle RA 0), Some (8 : num RA))).
Proof.
  intros D. destruct (optim_outcome mq0 om 0 0 0 D) as (o1 & r & E & _ & F).
  exists o1. change (profit_assess_optim RT om zero2 0) with (profit_assess_optim RT om (@cons R 0 [0]) 0). rewrite E. f_equal.
  assert (P : profit_of mq0 (exp 0) (exp 0) = 8) by exact profit_zero.
  assert (C : cost mq0 (exp 0) (exp 0) = 2) by exact cost_zero.
  destruct F as [(_ & F)|[(ct & -> & o2 & Ef)|F]].
  - rewrite C in F. lra.
  - exfalso. destruct (profit_feas mq0 om zero2 0 o2 (Ok (Some ct)) D eq_refl) with (2:=Ef) as (_ & I & _); [rewrite cost_zero; lra|].
    assert (Q : Ok (Some ct) = @Ok (option (cut RA)) None); [|discriminate].
    apply I. split; [exact limit_zero|rewrite profit_zero; lra].
  - cbv zeta in F. destruct F as (-> & _). rewrite P, C. unfold slope. rewrite exp_0. cbn [mq0 m_v1 m_v2 m_alpha m_beta].
    replace (1 * 1 / (8 + 2) - 1 / 2) with (-2/5) by lra. replace (1 * 1 / (8 + 2) - 1 / 4) with (-3/20) by lra. reflexivity.
Qed.

Definition gz : vec RA := @cons R (-2/5) [-3/20].
Lemma gz_w : quad 2 (fm (mq e4)) (fv gz) = 73/400.
Proof. unfold quad, bil, dot, mv, dot, fm, fv, gz, e4. cbn [sumn mq nth]. lra. Qed.
Lemma gz_update k : exists e' st, ell_update k (gz, @CSingle RA 0) e4 = (e', Ok st) /\ tsq e' = 73/100.
Proof.
  assert (HT : kappa e4 * quad 2 (fm (mq e4)) (fv gz) = 73/100) by (rewrite gz_w; cbn; lra).
  rewrite (update_eq 2 e4 gz (@CSingle RA 0)); [|apply e4_pd|reflexivity|reflexivity|exists 0%nat; split; [lia|unfold fv, gz; cbn; lra]|rewrite gz_w; lra].
  rewrite HT. change (helper e4) with (calc_R true 2).
  rewrite strat_norm by (auto || lra).
  assert (S : exists s, eff_res (is_q k) (INR 2) (73/100) (norm k true (@CSingle RA 0)) = Ok s).
  { destruct k; cbn [norm is_q eff_res]; unfold single_res; rewrite ?Rleb_true by lra; repeat destruct (Rltb _ _); repeat destruct (Rleb _ _); eauto. }
  destruct S as ((st & [[[r s] d]|]) & ->).
  - eexists; eexists; split; [reflexivity|]. rewrite (new_tsq 2 e4 gz). exact HT.
  - eexists; eexists; split; [reflexivity|]. reflexivity.
Qed.

Lemma profit_run_case : exists o' e', cutting_plane_optim (profit_assess_optim RT) (ell_space RA) opt5 oq0 e4 0
  = (o', e', Ok (Some zero2, 8, 0%Z)).
Proof.
  unfold cutting_plane_optim. change (budget opt5) with 5%nat. cbn [optim_loop]. change (sp_xc (ell_space RA) e4) with zero2.
  destruct (optim_zero oq0 oq0_d) as (om' & ->). 
  destruct (gz_update OpCentral) as (e' & st & E & HT). fold gz. change (sp_central (ell_space RA) (gz, @CSingle RA 0) e4) with (ell_update OpCentral (gz, @CSingle RA 0) e4). rewrite E.
  assert (S : stop_test (ell_space RA) opt5 st e' = true).
  { unfold stop_test. change (sp_tsq (ell_space RA) e') with (tsq e'). rewrite HT. change (altb (a:=RA) (73/100) (tolerance opt5)) with (Rltb (73/100) 5).
    rewrite Rltb_true by lra. destruct st; reflexivity. }
  rewrite S. eauto.
Qed.

Definition mq1 : market := mkMarket 10 1 (exp (-3)) (1/2) (1/4) 1 1.
Definition oq1 : profit RA := @mkProfit RA (-1) None None None (ln (10 * 1)) (ln (exp (-3))) (@cons R 1 [1]) (@cons R (1/2) [1/4]).
Lemma oq1_d : describes mq1 oq1.
Proof. pose proof (exp_pos (-3)). unfold describes, mq1, oq1. cbn [m_price m_scale m_limit m_alpha m_beta m_v1 m_v2 p_logpa p_logk p_price p_elast p_idx]. repeat split; auto; lra. Qed.

Lemma optim_limit : exists o', profit_assess_optim RT oq1 (xc e4) 0 = (o', Ok (ct3, None)).
Proof.
  unfold profit_assess_optim, profit_assess_feas, profit_round. change (p_idx oq1) with (-1)%Z. change (-1 + 1)%Z with 0%Z. cbv zeta. cbn [Z.eqb].
  change (fns RT 0 (set_idx oq1 0) (xc e4) 0) with (set_idx oq1 0, fn1 (A:=RA) (set_idx oq1 0) (xc e4)).
  change (fn1 (A:=RA) (set_idx oq1 0) (xc e4)) with (@Ok R (0 - ln (exp (-3)))). rewrite ln_exp.
  replace (0 - -3) with 3 by lra.
  change (altb (a:=RA) azero 3) with (Rltb 0 3). rewrite Rltb_true by lra. cbn. eexists. reflexivity.
Qed.

Lemma profit_nosoln_case : exists o' l u e',
  cutting_plane_optim (logged_optim (profit_assess_optim RT)) (logged_space (ell_space RA)) opt5 (oq1, []) (e4, []) 0
    = ((o', l), (e', u), Ok (None, 0, 0%Z)) /\ said_nosoln u.
Proof.
  unfold cutting_plane_optim. change (budget opt5) with 5%nat. cbn [optim_loop].
  unfold logged_optim at 1. cbn [fst snd]. change (sp_xc (logged_space (ell_space RA)) (e4, [])) with (xc e4).
  destruct optim_limit as (o' & ->).
  change (sp_bias (logged_space (ell_space RA)) ct3 (e4, [])) with
    (log_upd OpBias (ell_update OpBias) (@tsq RA) ct3 (e4, [])).
  unfold log_upd. cbn [fst snd]. rewrite e4_update3. cbn [stop_test].
  do 4 eexists. split; [reflexivity|]. eexists. split; [left; reflexivity|reflexivity].
Qed.

(** robust *)
Definition bx0 : box := mkBox (1/10) (1/10) 1 (1/2) (1/10).
Definition orb0 : profit_rb RA :=
  @mkProfitRb RA (@cons R (1/2) [1/4]) (1/10, 1/10)
   (@mkProfit RA (-1) None None None (ln ((10 - 1) * 1)) (ln (5 - 1/2)) (@cons R (1 + 1/10) [1 + 1/10]) (@cons R (1/2) [1/4])).
Lemma orb0_init : profit_rb_init (A:=RA) RT (10, 1, 5) (@cons R (1/2) [1/4]) (@cons R 1 [1]) (1/10, 1/10, 1, 1/2, 1/10) = Ok orb0.
Proof.
  unfold profit_rb_init. rewrite bcast2_eq by reflexivity. cbn [bind]. unfold profit_init. change (amul (a:=RA) (asub (a:=RA) 10 1) 1) with ((10 - 1) * 1).
  change (asub (a:=RA) 5 (1/2)) with (5 - 1/2). rewrite !plog_R.
  destruct (Rle_dec ((10 - 1) * 1) 0); [lra|]. destruct (Rle_dec (5 - 1/2) 0); [lra|]. reflexivity.
Qed.
Lemma orb0_d : describes_rb mq0 bx0 orb0.
Proof. apply (rb_init_ok 10 1 5 (1/2) (1/4) 1 1 (1/10) (1/10) 1 (1/2) (1/10)); try lra. exact orb0_init. Qed.

Lemma real_zero m' : realises mq0 bx0 m' -> in_limit m' (fv zero2) /\ 0 < cost_at m' (fv zero2) /\ 6 <= profit_at m' (fv zero2).
Proof.
  intros (_ & _ & H3 & H4 & H5 & H6 & H7). cbn [mq0 bx0 m_price m_limit m_v1 m_v2 m_scale b_e3 b_e4 b_e5] in *.
  assert (P3 : 9 <= m_price m') by (revert H3; unfold Rabs; destruct (Rcase_abs _); lra).
  assert (P4 : 4 <= m_limit m') by (revert H4; unfold Rabs; destruct (Rcase_abs _); lra).
  assert (P5 : 9/10 <= m_v1 m' <= 11/10) by (revert H5; unfold Rabs; destruct (Rcase_abs _); lra).
  assert (P6 : 9/10 <= m_v2 m' <= 11/10) by (revert H6; unfold Rabs; destruct (Rcase_abs _); lra).
  unfold in_limit, cost_at, profit_at, profit_of, revenue, cost. change (fv zero2 0) with 0. change (fv zero2 1) with 0.
  rewrite exp_0, !Rpower_1_base, H7. repeat split; lra.
Qed.

Lemma rb_case : exists o' ct v, profit_rb_assess_optim RT orb0 zero2 0 = (o', Ok (ct, Some v)).
Proof.
  destruct (profit_rb_assess_optim RT orb0 zero2 0) as [o' r] eqn:E.
  destruct (rb_reports mq0 bx0 orb0 zero2 0 o' r orb0_d eq_refl) with (2:=E) as (_ & ct & v & -> & I).
  - intros m' Hm. destruct (real_zero m' Hm) as (_ & H & _). lra.
  - destruct v as [v|]; [eauto|]. exfalso. apply (proj2 I); [|reflexivity]. intros m' Hm. destruct (real_zero m' Hm) as (H1 & _ & H3). split; [exact H1|lra].
Qed.

(** the robust driver run: limit [exp (-3)] once more *)
Definition mq2 : market := mkMarket 10 1 (exp (-3) + 1/2) (1/2) (1/4) 1 1.
Definition orb1 : profit_rb RA :=
  @mkProfitRb RA (@cons R (1/2) [1/4]) (1/10, 1/10)
   (@mkProfit RA (-1) None None None (ln ((10 - 1) * 1)) (ln (exp (-3) + 1/2 - 1/2)) (@cons R (1 + 1/10) [1 + 1/10]) (@cons R (1/2) [1/4])).
Lemma orb1_d : describes_rb mq2 bx0 orb1.
Proof.
  pose proof (exp_pos (-3)). unfold describes_rb, radii_ok, mq2, bx0, orb1. cbn [m_price m_scale m_limit m_alpha m_beta m_v1 m_v2 p_logpa p_logk p_price p_elast p_idx b_e1 b_e2 b_e3 b_e4 b_e5 rb_elast rb_uie rb_omega].
  repeat split; auto; lra.
Qed.
Lemma rb_limit : exists o', profit_rb_assess_optim RT orb1 (xc e4) 0 = (o', Ok (ct3, None)).
Proof.
  unfold profit_rb_assess_optim. change (xc e4) with (@cons R 0 [0]). change (rb_elast orb1) with (@cons R (1/2) [1/4]). cbv beta iota.
  unfold profit_assess_optim, profit_assess_feas, profit_round. cbn [p_idx set_elast rb_omega orb1]. change (-1 + 1)%Z with 0%Z. cbv zeta. cbn [Z.eqb].
  match goal with |- context [fns RT 0 ?o ?x ?g] => change (fns RT 0 o x g) with (o, fn1 (A:=RA) o x) end.
  match goal with |- context [fn1 ?o ?x] => change (fn1 o x) with (@Ok R (0 - ln (exp (-3) + 1/2 - 1/2))) end.
  replace (exp (-3) + 1/2 - 1/2) with (exp (-3)) by lra. rewrite ln_exp. replace (0 - -3) with 3 by lra.
  change (altb (a:=RA) azero 3) with (Rltb 0 3). rewrite Rltb_true by lra. cbn. eexists. reflexivity.
Qed.
Lemma rb_nosoln_case : exists o' l u e',
  cutting_plane_optim (logged_optim (profit_rb_assess_optim RT)) (logged_space (ell_space RA)) opt5 (orb1, []) (e4, []) 0
    = ((o', l), (e', u), Ok (None, 0, 0%Z)) /\ said_nosoln u.
Proof.
  unfold cutting_plane_optim. change (budget opt5) with 5%nat. cbn [optim_loop].
  unfold logged_optim at 1. cbn [fst snd]. change (sp_xc (logged_space (ell_space RA)) (e4, [])) with (xc e4).
  destruct rb_limit as (o' & ->).
  change (sp_bias (logged_space (ell_space RA)) ct3 (e4, [])) with
    (log_upd OpBias (ell_update OpBias) (@tsq RA) ct3 (e4, [])).
  unfold log_upd. cbn [fst snd]. rewrite e4_update3. cbn [stop_test].
  do 4 eexists. split; [reflexivity|]. eexists. split; [left; reflexivity|reflexivity].
Qed.

(** a central cut on [e4] always succeeds *)
Lemma e4_central_ok g0 g1 : g0 <> 0 -> exists e' st, ell_update OpCentral ((@cons R g0 [g1] : vec RA), @CSingle RA 0) e4 = (e', Ok st).
Proof.
  intros H0. set (g := (@cons R g0 [g1] : vec RA)).
  assert (W : quad 2 (fm (mq e4)) (fv g) = g0 * g0 + g1 * g1).
  { unfold quad, bil, dot, mv, dot, fm, fv, g, e4. cbn [sumn mq nth]. lra. }
  assert (P : 0 < g0 * g0 + g1 * g1) by nra.
  rewrite (update_eq 2 e4 g (@CSingle RA 0)); [|apply e4_pd|reflexivity|reflexivity|exists 0%nat; split; [lia|exact H0]|rewrite W; lra].
  rewrite W. change (helper e4) with (calc_R true 2). change (kappa e4) with 4.
  rewrite strat_norm by (auto || lra). cbn [norm is_q eff_res]. unfold single_res. rewrite Rleb_true by lra. destruct (Rltb _ _); eauto.
Qed.

Definition opt1 : options RA := @mkOptions RA 1%Z 0.

Lemma rb_run_case : exists o' e' v, cutting_plane_optim (profit_rb_assess_optim RT) (ell_space RA) opt1 orb0 e4 0
  = (o', e', Ok (Some zero2, v, 1%Z)) \/ cutting_plane_optim (profit_rb_assess_optim RT) (ell_space RA) opt1 orb0 e4 0
  = (o', e', Ok (Some zero2, v, 0%Z)).
Proof.
  unfold cutting_plane_optim. change (budget opt1) with 1%nat. cbn [optim_loop]. change (sp_xc (ell_space RA) e4) with zero2.
  destruct rb_case as (o' & [gr be] & v & E). rewrite E.
  destruct (rb_step mq0 bx0 orb0 zero2 0 o' _ orb0_d E) as [(F & _)|(x0 & x1 & rest & om & Ez & Dw & Eo & Hd)]; [discriminate|].
  injection Ez as <- <- <-.
  destruct (optim_outcome (worst mq0 bx0 0 0) om 0 0 0 Dw) as (o1 & r & E1 & _ & F). change (@cons R 0 [0]) with zero2 in E1. rewrite Eo in E1. injection E1 as <- <-.
  destruct F as [(F & _)|[(c & F & _)|(F & _)]]; try discriminate. injection F as -> -> _.
  match goal with |- context [slope ?m ?d 0 0] => assert (P : d = 9) end.
  { unfold profit_of, revenue, cost, worst. cbn. rewrite exp_0, !Rpower_1_base. lra. }
  rewrite P. unfold slope.
  match goal with |- context [sp_central (ell_space RA) (@cons _ ?a [?b], @CSingle RA 0) e4] =>
    assert (N : a <> 0); [|destruct (e4_central_ok a b N) as (e' & st & E2);
     change (sp_central (ell_space RA) (@cons R a [b], @CSingle RA 0) e4) with (ell_update OpCentral ((@cons R a [b] : vec RA), @CSingle RA 0) e4); rewrite E2] end.
  { unfold worst. cbn. rewrite exp_0. unfold shift_R. destruct (Rlt_dec 0 0); lra. }
  destruct (stop_test _ _ _ _); do 3 eexists; [right|left]; reflexivity.
Qed.

Lemma disc_zero : discretise RT zero2 = zero2.
Proof.
  change (discretise RT zero2) with (@cons R (disc1 0) [disc1 0]).
  assert (H : disc1 0 = 0).
  { unfold disc1. rewrite exp_0. unfold Rround, frac_part. rewrite (Int_part_eq 1 1) by lra.
    destruct (Rlt_dec (1 - 1) (1/2)); [|lra]. destruct (Reqb_spec 1 0); [lra|]. exact ln_1. }
  rewrite H. reflexivity.
Qed.

Lemma q_zero : exists o', profit_assess_optim_q RT dq0 zero2 0 false = (o', Ok ((gz, @CSingle RA 0), zero2, Some (8 : num RA), true)).
Proof.
  destruct (profit_assess_optim_q RT dq0 zero2 0 false) as [o' r] eqn:E. exists o'. f_equal.
  destruct (q_phases mq0 dq0 zero2 0 false o' r dq0_d E) as (D' & [(_ & om & rf & Ef & _ & _ & P3)|(F & _)]); [|discriminate].
  destruct feas_zero as ((om1 & Ef1) & _). change (pq_omega dq0) with oq0 in Ef. rewrite Ef in Ef1. injection Ef1 as <- ->.
  destruct (P3 eq_refl) as (_ & D2 & _ & F). rewrite disc_zero in D2, F.
  unfold profit_q_finish in F. cbn [pq_omega pq_xd] in F. destruct (optim_zero om (proj1 D2)) as (om' & Eo). rewrite Eo in F.
  rewrite bcast2_eq in F by reflexivity. cbn [bind] in F.
  injection F as _ <-. 
  match goal with |- context [@CSingle RA ?t] => assert (Q : t = 0) end.
  { rewrite (vdot_R 2) by reflexivity. unfold dot, vsub, fv, zero2. cbn. lra. }
  rewrite Q. reflexivity.
Qed.

Lemma q_run_case : exists o' e', cutting_plane_optim_q (profit_assess_optim_q RT) (ell_space RA) opt5 dq0 e4 0
  = (o', e', Ok (Some zero2, 8, 0%Z)).
Proof.
  unfold cutting_plane_optim_q. change (budget opt5) with 5%nat. cbn [optim_q_loop]. change (sp_xc (ell_space RA) e4) with zero2.
  destruct q_zero as (o' & ->).
  assert (HT : kappa e4 * quad 2 (fm (mq e4)) (fv gz) = 73/100) by (rewrite gz_w; cbn; lra).
  assert (U : exists e', ell_update OpQ (gz, @CSingle RA 0) e4 = (e', Ok Success) /\ tsq e' = 73/100).
  { rewrite (update_eq 2 e4 gz (@CSingle RA 0)); [|apply e4_pd|reflexivity|reflexivity|exists 0%nat; split; [lia|unfold fv, gz; cbn; lra]|rewrite gz_w; lra].
    rewrite HT. change (helper e4) with (calc_R true 2). rewrite strat_norm by (auto || lra). cbn [norm is_q eff_res]. unfold single_res.
    assert (Q : 0 < sqrt (73/100)) by (apply sqrt_lt_R0; lra).
    rewrite Rltb_false by lra. rewrite Rleb_false by lra. eexists. split; [reflexivity|]. rewrite (new_tsq 2 e4 gz). exact HT. }
  destruct U as (e' & U & HU).
  change (sp_q (ell_space RA) (gz, @CSingle RA 0) e4) with (ell_update OpQ (gz, @CSingle RA 0) e4). rewrite U.
  change (sp_tsq (ell_space RA) e') with (tsq e'). rewrite HU. change (altb (a:=RA) (73/100) (tolerance opt5)) with (Rltb (73/100) 5).
  rewrite Rltb_true by lra. eauto.
Qed.

(** a retry on the fresh oracle *)
Lemma q_fresh_case : exists o' ct v,
  profit_assess_optim_q RT dq0 (@cons R 1 [1]) 0 true = (o', Ok (ct, @cons R 0 [0], v, false)).
Proof.
  unfold profit_assess_optim_q, profit_q_finish. change (pq_omega dq0) with oq0. change (pq_xd dq0) with zero2.
  destruct (optim_zero oq0 (proj1 dq0_d)) as (om' & Eo). rewrite Eo.
  rewrite bcast2_eq by reflexivity. cbn [bind]. do 3 eexists. reflexivity.
Qed.

Lemma q_misfit_case : length (pq_xd dq0) = 2%nat /\ exists om gr b v,
  profit_assess_optim RT (pq_omega dq0) (pq_xd dq0) 0 = (om, Ok ((gr, CSingle b), v)).
Proof.
  split; [reflexivity|]. change (pq_omega dq0) with oq0. change (pq_xd dq0) with zero2.
  destruct (optim_zero oq0 (proj1 dq0_d)) as (om' & Eo). rewrite Eo. do 4 eexists. reflexivity.
Qed.
