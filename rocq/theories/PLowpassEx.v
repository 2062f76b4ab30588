(** The standard case, and a two-coefficient half-band filter. *)
From Coq Require Import Reals List Arith ZArith Lia Lra Psatz Bool.
From Verif Require Import Arith Vec ModelCalc ModelEll ModelCut ModelSpaces ModelLowpass SpecDrivers Spec SpecCut SpecEll SpecSearch SpecSpectral SpecLowpass
  PCalc PCalc2 PAlg PSum PVec PCG2 PCalcEx PEll PEll2 PEll3 PEllEx PSpectral PSearch PSearchEx PLmi3 PProfitEx PLowpass PLowpass2.
Import ListNotations.
Local Open Scope R_scope.

(** ** [create_lowpass_case] *)
Lemma pow10_log x : 0 < x -> gpow10 RG (20 * (ln x / ln 10) / 20) = x.
Proof.
  intros Hx. cbn [RG gpow10]. unfold Rpower. assert (L : ln 10 <> 0) by (assert (0 < ln 10) by (rewrite <- ln_1; apply ln_increasing; lra); lra).
  replace (20 * (ln x / ln 10) / 20 * ln 10) with (ln x) by (field; exact L). apply exp_ln, Hx.
Qed.
Lemma pow10_log_neg x : 0 < x -> gpow10 RG (- (20 * (ln x / ln 10)) / 20) = / x.
Proof.
  intros Hx. cbn [RG gpow10]. unfold Rpower. assert (L : ln 10 <> 0) by (assert (0 < ln 10) by (rewrite <- ln_1; apply ln_increasing; lra); lra).
  replace (- (20 * (ln x / ln 10)) / 20 * ln 10) with (- ln x) by (field; exact L). rewrite exp_Ropp. f_equal. apply exp_ln, Hx.
Qed.

Lemma lp_case n : create_lowpass_case (A:=RA) RG n =
  lowpass_init (A:=RA) RG n (12/100) (20/100) (/ (41/40) * / (41/40)) (41/40 * (41/40)) (1/64).
Proof.
  unfold create_lowpass_case. cbv zeta. cbn [aofnat RA adiv amul aneg aadd aone glog10 RG].
  assert (I20 : INR 20 = 20) by (cbn; lra). assert (I25 : INR 25 = 25) by (cbn; lra). assert (I12 : INR 12 = 12) by (cbn; lra).
  assert (I1000 : INR 1000 = 1000) by (rewrite INR_IZR_INZ; reflexivity). assert (I125 : INR 125 = 125) by (rewrite INR_IZR_INZ; reflexivity).
  assert (I100 : INR 100 = 100) by (rewrite INR_IZR_INZ; reflexivity).
  rewrite I20, I25, I12, I1000, I125, I100.
  replace (1 + 25/1000) with (41/40) by lra. replace (125/1000) with (1/8) by lra.
  rewrite (pow10_log (41/40)), (pow10_log_neg (41/40)), (pow10_log (1/8)) by lra.
  replace (1/8 * (1/8)) with (1/64) by lra. reflexivity.
Qed.

Definition std_filter (n : nat) : filter := mkFilter n (12/100) (20/100) (1600/1681) (1681/1600).
Lemma lp_case_ok n : (1 <= n)%nat -> describes_lp (std_filter n) (create_lowpass_case (A:=RA) RG n) /\
  lw_sp (create_lowpass_case (A:=RA) RG n) = 1/64.
Proof.
  intros Hn. rewrite lp_case. replace (/ (41/40) * / (41/40)) with (1600/1681) by lra. replace (41/40 * (41/40)) with (1681/1600) by lra.
  apply lp_init; [exact Hn|lra|lra].
Qed.

(** ** [1/2 + 1/2 cos w] *)
Definition f2 : filter := mkFilter 2 0 (1/2) 1 1.
Definition o2 : lowpass RA := lowpass_init (A:=RA) RG 2 0 (1/2) 1 1 (1/2).
Definition x2 : vec RA := @cons R (1/2) [1/4].
Lemma o2_d : describes_lp f2 o2.
Proof. apply lp_init; [auto|lra|lra]. Qed.

Lemma ps2 z w : power_spectrum 2 z w = z 0%nat + 2 * (z 1%nat * cos w).
Proof. unfold power_spectrum. cbn [sumn Nat.sub]. replace (INR 1 * w) with w by (cbn; lra). ring. Qed.

Lemma sample_range F w : (1 <= f_n F)%nat -> sample F w -> 0 <= w <= PI.
Proof.
  intros Hn (i & Hi & ->). unfold freq. pose proof PI_RGT_0 as P. set (m := (15 * f_n F - 1)%nat).
  assert (H : (i <= m)%nat) by (unfold m; lia). assert (M : 0 < INR m) by (apply lt_0_INR; unfold m; lia). apply le_INR in H.
  pose proof (pos_INR i). replace (INR i * (PI / INR m)) with (PI * (INR i / INR m)) by (field; lra).
  assert (Q : 0 <= INR i / INR m <= 1). { split; [apply Rle_mult_inv_pos; lra|]. apply Rmult_le_reg_r with (INR m); [exact M|]. unfold Rdiv. rewrite Rmult_assoc, Rinv_l by lra. lra. }
  nra.
Qed.

Lemma x2_meets : meets f2 (1/2) (fv x2).
Proof.
  unfold meets. cbn [f2 f_n f_wp f_ws f_lo f_up]. unfold in_stop. cbn [f_ws f2].
  assert (S : forall w, sample f2 w -> 0 <= w <= PI) by (intros w; apply sample_range; cbn; lia).
  assert (V : forall w, power_spectrum 2 (fv x2) w = 1/2 + 1/2 * cos w) by (intros w; rewrite ps2; unfold fv, x2; cbn [nth]; lra).
  split; [|split; [|split]].
  - intros w Hw H0. apply S in Hw. rewrite V. replace w with 0 by lra. rewrite cos_0. lra.
  - intros w (Hw & Hs). apply S in Hw. rewrite V. pose proof (COS_bound w). assert (cos w <= 0) by (apply cos_le_0; lra). lra.
  - intros w _ _. rewrite V. pose proof (COS_bound w). lra.
  - unfold fv, x2. cbn. lra.
Qed.

Lemma x2_feasible : exists o', lowpass_assess_feas o2 x2 = (o', Ok None).
Proof.
  destruct (lowpass_assess_feas o2 x2) as [o' r] eqn:E. destruct (lp_decides f2 o2 x2 o' r o2_d eq_refl E) as (_ & I & _).
  exists o'. f_equal. apply I. exact x2_meets.
Qed.

Definition z2 : vec RA := @cons R 0 [0].
Lemma z2_not g : ~ meets f2 g (fv z2).
Proof.
  intros (H & _). destruct (H 0) as (H1 & _); [exists 0%nat; split; [cbn; lia|unfold freq; cbn; lra]|cbn; lra|].
  cbn [f2 f_lo f_n] in H1. rewrite ps2 in H1. unfold fv, z2 in H1. cbn [nth] in H1. lra.
Qed.
Lemma z2_infeasible : exists o' g be, lowpass_assess_feas o2 z2 = (o', Ok (Some (g, be))).
Proof.
  destruct (lowpass_assess_feas o2 z2) as [o' r] eqn:E. destruct (lp_decides f2 o2 z2 o' r o2_d eq_refl E) as ((a & ->) & I & _).
  destruct a as [[g be]|]; [eauto|]. exfalso. exact (z2_not _ (proj1 I eq_refl)).
Qed.

Lemma x2_value : exists o' gr f, lowpass_assess_optim o2 x2 (1/2) = (o', Ok ((gr, CList [Some (0 : num RA); Some (f : num RA)]), Some (f : num RA))) /\
  0 <= f /\ length gr = 2%nat /\ fv gr 0 = 1.
Proof.
  destruct (lowpass_assess_optim o2 x2 (1/2)) as [o' r] eqn:E.
  destruct (lp_optim f2 o2 x2 (1/2) o' r o2_d ltac:(cbn; lra) eq_refl E) as (_ & [(f & gr & -> & _ & _ & B & (L & w & _ & _ & R) & _)|(ct & -> & _ & M)]).
  - exists o', gr, f. split; [reflexivity|]. split; [lra|]. split; [exact L|].
    specialize (R (fun i => match i with O => 1 | S _ => 0 end)). change (f_n f2) with 2%nat in R. rewrite ps2 in R. unfold dot in R. cbn [sumn] in R. lra.
  - exfalso. exact (M x2_meets).
Qed.

(** ** Runs *)
Definition e5 : ell RA := @mkEll RA false [[1; 0]; [0; 1]] [1/2; 1/4] 4 0 (calc_R true 2).
Lemma e5_init : ell_init (A:=RA) (@VScalar RA 4) x2 = Ok e5.
Proof. unfold ell_init. cbn [length x2]. rewrite calc_init_R by auto. reflexivity. Qed.
Lemma e5_pd : pd_ell 2 true e5.
Proof. apply (init_pd 2 (@VScalar RA 4) x2); [apply e5_init|reflexivity|cbn; lra]. Qed.

Lemma lp_feas_run_case : exists o' e', cutting_plane_feas lowpass_assess_feas (ell_space RA) opt5 o2 e5 = (o', e', Ok (Some x2, 0%Z)).
Proof.
  unfold cutting_plane_feas. change (budget opt5) with 5%nat. cbn [feas_loop]. change (sp_xc (ell_space RA) e5) with x2.
  destruct x2_feasible as (o' & ->). eauto.
Qed.

Lemma lp_optim_run_case : exists o' e' f k, cutting_plane_optim lowpass_assess_optim (ell_space RA) opt1 o2 e5 (1/2) = (o', e', Ok (Some x2, f, k)).
Proof.
  unfold cutting_plane_optim. change (budget opt1) with 1%nat. cbn [optim_loop]. change (sp_xc (ell_space RA) e5) with x2.
  destruct x2_value as (o' & gr & f & -> & Hf & L & G).
  set (be := CList [Some (0 : num RA); Some (f : num RA)]).
  assert (W : quad 2 (fm (mq e5)) (fv gr) = 1 + fv gr 1 * fv gr 1).
  { rewrite <- (Rmult_1_l 1), <- G. unfold quad, bil, dot, mv, dot, fm, e5. cbn [sumn mq nth]. unfold fv. cbn [nth]. lra. }
  assert (P : 0 < 1 + fv gr 1 * fv gr 1) by nra.
  assert (U : exists e' st, ell_update OpCentral (gr, be) e5 = (e', Ok st)).
  { rewrite (update_eq 2 e5 gr be); [|apply e5_pd|reflexivity|exact L|exists 0%nat; split; [lia|rewrite G; lra]|rewrite W; lra].
    rewrite W. change (helper e5) with (calc_R true 2). change (kappa e5) with 4. rewrite strat_norm by (auto || lra).
    unfold be. cbn [norm is_q eff_res length Nat.ltb Nat.leb negb orb]. unfold par_res, single_res. rewrite (Rltb_false f 0) by lra. rewrite (Rleb_true 0 0) by lra.
    cbn [andb]. destruct (Rltb 0 f && Rleb _ _); [destruct (Rltb _ _)|]; eauto. }
  destruct U as (e' & st & U). change (sp_central (ell_space RA) (gr, be) e5) with (ell_update OpCentral (gr, be) e5). rewrite U.
  destruct (stop_test _ _ _ _); do 4 eexists; reflexivity.
Qed.

(** pass band between 100 and 101: nothing in the disc of radius 2 *)
Definition f3 : filter := mkFilter 2 0 (1/2) 100 101.
Definition o3 : lowpass RA := lowpass_init (A:=RA) RG 2 0 (1/2) 100 101 (1/2).
Lemma o3_d : describes_lp f3 o3.
Proof. apply lp_init; [auto|lra|lra]. Qed.

Lemma o3_cut g : exists o' gr, lowpass_assess_feas (set_sp o3 g) z2 = (o', Ok (Some (gr, CList [Some (100 : num RA); Some (101 : num RA)]))) /\
  length gr = 2%nat /\ fv gr 0 = -1 /\ fv gr 1 = -2.
Proof.
  pose proof o3_d as D. apply describes_split in D. destruct D as (D & _).
  assert (N : lw_nwpass o3 = 1%Z).
  { destruct D as (_ & _ & _ & _ & _ & -> & _). cbn [f3 f_wp f_n]. rewrite Rmult_0_l. unfold Int_part. rewrite <- (tech_up 0 1); cbn; lra || lia. }
  unfold lowpass_assess_feas. change (lw_nwpass (set_sp o3 g)) with (lw_nwpass o3). rewrite N. change (Z.to_nat 1) with 1%nat. cbn [scan].
  unfold pass_step. change (lw_nwpass (set_sp o3 g)) with (lw_nwpass o3). rewrite N. change (next_idx 0 1 (lw_idx1 (set_sp o3 g))) with 0%Z.
  set (o := set_idx1 (set_sp o3 g) 0). change (lw_idx1 o) with 0%Z.
  destruct (response_ok f3 o 0 z2 D) as (row & -> & L & R); [cbn; lia|reflexivity|].
  assert (V : resp f3 (fv z2) 0 = 0). { unfold resp. change (f_n f3) with 2%nat. rewrite ps2. unfold fv, z2. cbn [nth]. lra. }
  rewrite V. change (lw_up o) with 101. change (lw_lp o) with 100. 
  change (altb (a:=RA) 101 0) with (Rltb 101 0). rewrite Rltb_false by lra. change (altb (a:=RA) 0 100) with (Rltb 0 100). rewrite Rltb_true by lra.
  cbn [andthen]. exists o, (vneg row). split.
  - repeat f_equal; cbn [RA aadd aneg]; lra.
  - destruct row as [|a [|b [|c r]]]; cbn [length] in L; try discriminate.
    pose proof (R (fun i => match i with O => 1 | S _ => 0 end)) as R0. pose proof (R (fun i => match i with O => 0 | S _ => 1 end)) as R1.
    unfold resp in R0, R1. change (f_n f3) with 2%nat in R0, R1. rewrite ps2 in R0, R1. unfold dot, fv in R0, R1. cbn [sumn nth] in R0, R1.
    replace (freq 2 (Z.to_nat 0)) with 0 in R1 by (unfold freq; cbn; lra). rewrite cos_0 in R1.
    split; [reflexivity|]. unfold fv, vneg. cbn [map nth RA aneg]. split; lra.
Qed.

Lemma e4_refuse gr : length gr = 2%nat -> fv gr 0 = -1 -> fv gr 1 = -2 ->
  exists e', ell_update OpBias (gr, CList [Some (100 : num RA); Some (101 : num RA)]) e4 = (e', Ok NoSoln).
Proof.
  intros L G0 G1. set (be := CList [Some (100 : num RA); Some (101 : num RA)]).
  assert (W : quad 2 (fm (mq e4)) (fv gr) = 5).
  { replace 5 with (fv gr 0 * fv gr 0 + fv gr 1 * fv gr 1) by (rewrite G0, G1; lra). unfold quad, bil, dot, mv, dot, fm, e4. cbn [sumn mq nth]. unfold fv. cbn [nth]. lra. }
  rewrite (update_eq 2 e4 gr be); [|apply e4_pd|reflexivity|exact L|exists 0%nat; split; [lia|rewrite G0; lra]|rewrite W; lra].
  rewrite W. change (helper e4) with (calc_R true 2). change (kappa e4) with 4. rewrite strat_norm by (auto || lra).
  unfold be. cbn [norm is_q eff_res length Nat.ltb Nat.leb negb orb]. unfold par_res, single_res. rewrite (Rltb_false 101 100) by lra.
  rewrite (Rltb_true 0 101), (Rleb_true (4 * 5)) by lra. cbn [andb]. rewrite (Rleb_true 0 100) by lra.
  assert (Q : sqrt (4 * 5) < 100). { rewrite <- (sqrt_pow2 100) by lra. apply sqrt_lt_1; lra. }
  rewrite Rltb_true by exact Q. eauto.
Qed.

Lemma lp_feas_nosoln_case : exists o' l u e',
  cutting_plane_feas (logged_feas lowpass_assess_feas) (logged_space (ell_space RA)) opt5 (o3, []) (e4, [])
    = ((o', l), (e', u), Ok (None, 0%Z)) /\ said_nosoln u.
Proof.
  unfold cutting_plane_feas. change (budget opt5) with 5%nat. cbn [feas_loop].
  unfold logged_feas at 1. cbn [fst snd]. change (sp_xc (logged_space (ell_space RA)) (e4, [])) with z2.
  change o3 with (set_sp o3 (1/2)). destruct (o3_cut (1/2)) as (o' & gr & -> & L & G0 & G1).
  match goal with |- context [sp_bias (logged_space (ell_space RA)) ?c ?s] => change (sp_bias (logged_space (ell_space RA)) c s) with (log_upd OpBias (ell_update OpBias) (@tsq RA) c s) end.
  unfold log_upd. cbn [fst snd]. destruct (e4_refuse gr L G0 G1) as (e' & E). match goal with |- context [ell_update OpBias ?c ?s] => replace (ell_update OpBias c s) with (e', @Ok cut_status NoSoln) by (symmetry; exact E) end. cbn [stop_test].
  do 4 eexists. split; [reflexivity|]. eexists. split; [left; reflexivity|reflexivity].
Qed.

Lemma lp_optim_nosoln_case : exists o' l u e',
  cutting_plane_optim (logged_optim lowpass_assess_optim) (logged_space (ell_space RA)) opt5 (o3, []) (e4, []) (1/2)
    = ((o', l), (e', u), Ok (None, 1/2, 0%Z)) /\ said_nosoln u.
Proof.
  unfold cutting_plane_optim. change (budget opt5) with 5%nat. cbn [optim_loop].
  unfold logged_optim at 1. cbn [fst snd]. change (sp_xc (logged_space (ell_space RA)) (e4, [])) with z2.
  unfold lowpass_assess_optim at 1. destruct (o3_cut (1/2)) as (o' & gr & -> & L & G0 & G1).
  cbv beta iota.
  match goal with |- context [sp_bias (logged_space (ell_space RA)) ?c ?s] => change (sp_bias (logged_space (ell_space RA)) c s) with (log_upd OpBias (ell_update OpBias) (@tsq RA) c s) end.
  unfold log_upd. cbn [fst snd]. destruct (e4_refuse gr L G0 G1) as (e' & E). match goal with |- context [ell_update OpBias ?c ?s] => replace (ell_update OpBias c s) with (e', @Ok cut_status NoSoln) by (symmetry; exact E) end. cbn [stop_test].
  do 4 eexists. split; [reflexivity|]. eexists. split; [left; reflexivity|reflexivity].
Qed.
