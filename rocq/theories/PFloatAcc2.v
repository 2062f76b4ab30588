(** Accuracy of [calc_bias_cut] in double arithmetic, and the margin that keeps
    [EllStable] positive under deep cuts. *)
From Coq Require Import Reals ZArith Lia Lra Psatz Bool Floats List.
From Flocq Require Import Core.Core.
From Verif Require Import Arith Vec ModelCalc ModelEll ModelStable SpecDrivers SpecFloating SpecCut.
From Verif Require Import PCalc PCalc2 PCalc3.
From Verif Require Import PFloat PFloatSign PFloatCalc PFloatErr PFloatPar PFloatCut PFloatCut2 PFloatAcc PFloatStable3.
Import ListNotations.
Local Open Scope R_scope.

Lemma rx_b r e : Rabs r <= bpow radix2 e -> (-1074 <= e < 1024)%Z -> rx r = EFin (rnd r) /\ Rabs (rnd r) <= bpow radix2 e.
Proof.
  intros H He. apply rx_fin; [ exact H | | apply big_bound; lia ].
  apply generic_format_FLT_bpow; [ typeclasses eauto | lia ].
Qed.

Lemma op_add x y a b e : ev x = EFin a -> ev y = EFin b -> Rabs (a + b) <= bpow radix2 e -> (-1074 <= e < 1024)%Z ->
  ev (aadd (a:=FA) x y) = EFin (rnd (a + b)).
Proof. intros Hx Hy H He. cbn. rewrite ev_add, Hx, Hy. cbn. apply (proj1 (rx_b _ e H He)). Qed.
Lemma op_sub x y a b e : ev x = EFin a -> ev y = EFin b -> Rabs (a - b) <= bpow radix2 e -> (-1074 <= e < 1024)%Z ->
  ev (asub (a:=FA) x y) = EFin (rnd (a - b)).
Proof. intros Hx Hy H He. cbn. rewrite ev_sub, Hx, Hy. cbn. apply (proj1 (rx_b _ e H He)). Qed.
Lemma op_mul x y a b e : ev x = EFin a -> ev y = EFin b -> Rabs (a * b) <= bpow radix2 e -> (-1074 <= e < 1024)%Z ->
  ev (amul (a:=FA) x y) = EFin (rnd (a * b)).
Proof. intros Hx Hy H He. cbn. rewrite ev_mul, Hx, Hy. cbn. apply (proj1 (rx_b _ e H He)). Qed.
Lemma op_div x y a b e : ev x = EFin a -> ev y = EFin b -> b <> 0 -> Rabs (a / b) <= bpow radix2 e -> (-1074 <= e < 1024)%Z ->
  exists z, pdiv (A:=FA) x y = Ok z /\ ev z = EFin (rnd (a / b)).
Proof.
  intros Hx Hy Nb H He. assert (Z : eeqb (ev y) (EFin 0) = false).
  { rewrite Hy. cbn. destruct (Req_EM_T b 0); [ contradiction | reflexivity ]. }
  destruct (fpdiv x y Z) as [P1 P2]. exists (x / y)%float. split; [ exact P1 | ].
  rewrite P2, Hx, Hy. cbn. apply (proj1 (rx_b _ e H He)).
Qed.

Lemma bp_S e : bpow radix2 (e + 1) = 2 * bpow radix2 e.
Proof. rewrite bpow_plus. cbn. ring. Qed.

Section Link.
Variables (n : nat) (p : bool) (c : calc FA) (b T : num FA).
Hypothesis Hc : fcalc_for n p c.
Hypothesis Hnb : (Z.of_nat n < 2 ^ 53)%Z.
Hypothesis FT : ffinite T.
Hypothesis LT : powerRZ 2 (-400) <= fval T.
Hypothesis Fb : ffinite b.
Hypothesis Pb : 0 <= fval b.
Hypothesis Hb : fval b * fval b <= fval T.

Lemma bias_float : exists rho sigma delta : num FA,
  calc_bias_cut c b T = Ok (Success, Some (rho, sigma, delta)) /\
  ev rho = EFin (rnd (rnd (1 / (INR n + 1)) * rnd (rnd (R_sqrt.sqrt (fval T)) + rnd (INR n * fval b)))) /\
  ev sigma = EFin (sigma_f n (fval T) (fval b)) /\
  ev delta = EFin (delta_f n (fval T) (fval b)).
Proof.
  destruct (fcalc_ok n p c Hc Hnb) as (Hn & Co & _ & _).
  assert (Et := proj1 (ev_fin_iff T) FT). assert (Eb := proj1 (ev_fin_iff b) Fb).
  assert (Ft : fmt (fval T)) by exact (ev_fmt _ _ Et).
  assert (Fb' : fmt (fval b)) by exact (ev_fmt _ _ Eb).
  assert (Bt : fval T < big) by (generalize (ev_big _ _ Et) (Rle_abs (fval T)); lra).
  assert (Lt : bpow radix2 (-400) <= fval T) by (rewrite bp_powerRZ; exact LT).
  assert (T0 : 0 < fval T) by (generalize (bpow_gt_0 radix2 (-400)); lra).
  set (t := fval T) in *. set (v := fval b) in *.
  unfold calc_bias_cut.
  assert (L : aleb (a:=FA) azero b = true).
  { change (PrimFloat.leb PrimFloat.zero b = true). rewrite ev_leb, ev_zero, Eb. cbn.
    destruct (Rle_dec 0 v); [ reflexivity | contradiction ]. }
  rewrite L. clear L.
  assert (M : altb (a:=FA) T (amul b b) = false).
  { change (PrimFloat.ltb T (b * b)%float = false). rewrite ev_ltb, ev_mul, Et, Eb. cbn [emul].
    destruct (rx_fin_le (v * v) t ltac:(nra) Hb Ft Bt) as [R1 R2]. rewrite R1. cbn.
    destruct (Rlt_dec t (rnd (v * v))); [ lra | reflexivity ]. }
  rewrite M. clear M.
  rewrite fpsqrt by (rewrite Et; cbn; lra). cbn [bind].
  unfold core_bias_cut, core_bias_cut_fast.
  assert (Etau := ev_sqrt _ _ Et ltac:(lra)). set (tau' := rnd (R_sqrt.sqrt t)) in *.
  assert (Hi : R_sqrt.sqrt t <= bpow radix2 512) by (eapply tau_hi; eassumption).
  assert (N1 : near 1 tau' (R_sqrt.sqrt t)) by (eapply tau_near; eassumption).
  assert (P0 : 0 < R_sqrt.sqrt t) by (eapply tau_p; eassumption).
  destruct (near_pos 1 _ _ ltac:(lra) N1 P0) as [Pt' [Lo' Hi']].
  assert (Hi2 : tau' <= bpow radix2 513) by (replace 513%Z with (512 + 1)%Z by lia; rewrite bp_S; lra).
  assert (Lo2 : bpow radix2 (-201) <= tau').
  { generalize (tau_lo t Lt). replace (-200)%Z with (-201 + 1)%Z by lia. rewrite bp_S. lra. }
  assert (Vt : v <= R_sqrt.sqrt t) by (eapply b_tau; eassumption).
  assert (Vt' : v <= tau') by (eapply b_tau'; eassumption).
  assert (N2 : 2 <= INR n) by (apply (le_INR 2); exact Hn).
  assert (Nb : INR n <= bpow radix2 53).
  { rewrite INR_IZR_INZ, <- (IZR_Zpower radix2) by lia. apply IZR_le. change (radix2 ^ 53)%Z with (2 ^ 53)%Z. lia. }
  assert (B512 : 0 < bpow radix2 512) by apply bpow_gt_0.
  (* alpha *)
  assert (AR : 0 <= v / tau' <= 1 /\ 0 <= rnd (v / tau') <= 1) by (eapply al'_range; eassumption). destruct AR as [A1 A2].
  destruct (op_div b (PrimFloat.sqrt T) v tau' 0 Eb Etau ltac:(lra)) as (al & Eal & Eval);
    [ rewrite Rabs_pos_eq by lra; cbn; lra | lia | ].
  rewrite Eal. cbn [bind]. clear Eal.
  (* n * beta and eta *)
  assert (X1 : Rabs (INR n * v) <= bpow radix2 565).
  { rewrite Rabs_pos_eq by nra. replace 565%Z with (53 + 512)%Z by lia. rewrite bpow_plus.
    apply Rmult_le_compat; lra. }
  assert (Enb := op_mul _ _ _ _ 565 (ok_nf _ _ Co) Eb X1 ltac:(lia)).
  destruct (rx_b _ 565 X1 ltac:(lia)) as [_ X1'].
  assert (X0 : 0 <= rnd (INR n * v)) by (apply rnd_nonneg; nra).
  rewrite Rabs_pos_eq in X1' by exact X0.
  assert (B513 : bpow radix2 513 <= bpow radix2 565) by (apply bpow_le; lia).
  assert (X2 : Rabs (tau' + rnd (INR n * v)) <= bpow radix2 566).
  { rewrite Rabs_pos_eq by lra. replace 566%Z with (565 + 1)%Z by lia. rewrite bp_S. lra. }
  assert (Eeta := op_add _ _ _ _ 566 Etau Enb X2 ltac:(lia)).
  destruct (rx_b _ 566 X2 ltac:(lia)) as [_ X2'].
  set (eta := rnd (tau' + rnd (INR n * v))) in *.
  assert (Y0 : 0 <= eta) by (apply rnd_nonneg; lra).
  rewrite Rabs_pos_eq in X2' by exact Y0.
  destruct (ok_c0 _ _ Co) as (c0 & Ec0 & Dc0 & Rc0).
  destruct (ok_c2 _ _ Co) as (c2 & Ec2 & Dc2 & Rc2).
  destruct (ok_c1 _ _ Co) as (c1 & Ec1 & Rc1 & Dc1).
  set (EF := aadd (a:=FA) (PrimFloat.sqrt T) (amul (n_f (c_helper c)) b)) in *.
  (* rho *)
  assert (Erho := op_mul _ _ _ _ 566 Ec0 Eeta ltac:(rewrite Rabs_pos_eq by nra; nra) ltac:(lia)).
  (* sigma *)
  assert (X3 : Rabs (c2 * eta) <= bpow radix2 566) by (rewrite Rabs_pos_eq by nra; nra).
  assert (Ec2e := op_mul _ _ _ _ 566 Ec2 Eeta X3 ltac:(lia)).
  destruct (rx_b _ 566 X3 ltac:(lia)) as [_ X3'].
  assert (Z0 : 0 <= rnd (c2 * eta)) by (apply rnd_nonneg; nra).
  rewrite Rabs_pos_eq in X3' by exact Z0.
  assert (X4 : Rabs (tau' + v) <= bpow radix2 514).
  { rewrite Rabs_pos_eq by lra. replace 514%Z with (513 + 1)%Z by lia. rewrite bp_S. lra. }
  assert (Etb := op_add _ _ _ _ 514 Etau Eb X4 ltac:(lia)).
  assert (Ft' : fmt tau') by apply fmt_rnd.
  assert (L4 : tau' <= rnd (tau' + v)).
  { rewrite <- (rnd_fmt tau' Ft') at 1. apply rnd_le. lra. }
  set (tb := rnd (tau' + v)) in *.
  assert (X5 : Rabs (rnd (c2 * eta) / tb) <= bpow radix2 767).
  { assert (L5 : bpow radix2 (-201) <= tb) by lra.
    assert (P5 : 0 < tb) by lra.
    rewrite Rabs_pos_eq.
    - apply Rmult_le_reg_r with tb; [ exact P5 | ]. unfold Rdiv. rewrite Rmult_assoc, Rinv_l by lra.
      rewrite Rmult_1_r. apply Rle_trans with (1 := X3').
      apply Rle_trans with (bpow radix2 767 * bpow radix2 (-201)).
      + rewrite <- bpow_plus. apply bpow_le. lia.
      + apply Rmult_le_compat_l; [ apply bpow_ge_0 | exact L5 ].
    - unfold Rdiv. apply Rmult_le_pos; [ exact Z0 | ]. left. now apply Rinv_0_lt_compat. }
  destruct (op_div _ _ _ _ 767 Ec2e Etb ltac:(lra) X5 ltac:(lia)) as (sg & Esg & Evsg).
  rewrite Esg. cbn [bind]. clear Esg.
  (* delta *)
  assert (B1 : bpow radix2 1 = 2) by reflexivity. assert (B0 : bpow radix2 0 = 1) by reflexivity.
  assert (B2 : bpow radix2 2 = 4) by reflexivity.
  set (al' := rnd (v / tau')) in *.
  assert (Em := op_sub _ _ _ _ 0 ev_one Eval ltac:(rewrite B0; apply Rabs_le; lra) ltac:(lia)).
  assert (Ep := op_add _ _ _ _ 1 ev_one Eval ltac:(rewrite B1; apply Rabs_le; lra) ltac:(lia)).
  destruct (rx_b (1 - al') 0 ltac:(rewrite B0; apply Rabs_le; lra) ltac:(lia)) as [_ M1].
  destruct (rx_b (1 + al') 1 ltac:(rewrite B1; apply Rabs_le; lra) ltac:(lia)) as [_ M2].
  assert (M0 : 0 <= rnd (1 - al')) by (apply rnd_nonneg; lra).
  assert (Q0 : 0 <= rnd (1 + al')) by (apply rnd_nonneg; lra).
  rewrite Rabs_pos_eq, B0 in M1 by exact M0. rewrite Rabs_pos_eq, B1 in M2 by exact Q0.
  assert (X6 : Rabs (c1 * rnd (1 - al')) <= bpow radix2 1) by (rewrite B1, Rabs_pos_eq by nra; nra).
  assert (Ed1 := op_mul _ _ _ _ 1 Ec1 Em X6 ltac:(lia)).
  destruct (rx_b _ 1 X6 ltac:(lia)) as [_ X6'].
  assert (D0 : 0 <= rnd (c1 * rnd (1 - al'))) by (apply rnd_nonneg; nra).
  rewrite Rabs_pos_eq, B1 in X6' by exact D0.
  assert (X7 : Rabs (rnd (c1 * rnd (1 - al')) * rnd (1 + al')) <= bpow radix2 2) by (rewrite B2, Rabs_pos_eq by nra; nra).
  assert (Ed := op_mul _ _ _ _ 2 Ed1 Ep X7 ltac:(lia)).
  do 3 eexists. split; [ reflexivity | ].
  split; [ rewrite <- Dc0; exact Erho | ].
  split; [ rewrite Evsg; unfold sigma_f; rewrite <- Dc2; reflexivity | ].
  rewrite Dc1 in Ed. exact Ed.
Qed.

Lemma bias_accuracy cR : calc_for n p cR ->
  exists rho sigma delta : num FA, exists r s d : R,
  calc_bias_cut c b T = Ok (Success, Some (rho, sigma, delta)) /\
  calc_bias_cut cR (fval b) (fval T) = Ok (Success, Some (r, s, d)) /\
  ffinite rho /\ ffinite sigma /\ ffinite delta /\
  Rabs (fval rho - r) <= 8 * u53 * r /\
  Rabs (fval sigma - s) <= 16 * u53 * s /\
  Rabs (fval delta - d) <= 64 * u53.
Proof.
  intros HR. destruct bias_float as (rho & sigma & delta & E & Er & Es & Ed).
  destruct (fcalc_ok n p c Hc Hnb) as (Hn & _ & _ & _).
  assert (Et := proj1 (ev_fin_iff T) FT). assert (Eb := proj1 (ev_fin_iff b) Fb).
  assert (Fb' : fmt (fval b)) by exact (ev_fmt _ _ Eb).
  assert (Lt : bpow radix2 (-400) <= fval T) by (rewrite bp_powerRZ; exact LT).
  assert (T0 : 0 < fval T) by (generalize (bpow_gt_0 radix2 (-400)); lra).
  destruct (calc_for_R _ _ _ HR) as [_ ->].
  assert (P0 : 0 < R_sqrt.sqrt (fval T)) by (eapply tau_p; eassumption).
  assert (Vt : fval b <= R_sqrt.sqrt (fval T)) by (eapply b_tau; eassumption).
  assert (N2 : 2 <= INR n) by (apply (le_INR 2); exact Hn).
  exists rho, sigma, delta. do 3 eexists. split; [ exact E | ].
  split.
  { rewrite bias_norm by assumption. unfold single_res.
    rewrite Rleb_true by exact Pb. rewrite Rltb_false by lra. reflexivity. }
  split; [ exact (ffinite_ev _ _ Er) | ]. split; [ exact (ffinite_ev _ _ Es) | ].
  split; [ exact (ffinite_ev _ _ Ed) | ].
  rewrite (fval_ev _ _ Er), (fval_ev _ _ Es), (fval_ev _ _ Ed). rewrite uu_u53.
  generalize uu_pos. intros U0. assert (NN : 0 <= INR n * fval b) by nra.
  split; [ | split ].
  - destruct (rho_near n (fval T) (fval b) Hn Hnb Fb' Lt Pb) as [R1 R2].
    assert (0 < (R_sqrt.sqrt (fval T) + INR n * fval b) / (INR n + 1)) by (apply Rdiv_lt_0_compat; lra).
    unfold sg_rho. apply Rabs_le. nra.
  - destruct (sigma_near n (fval T) (fval b) Hn Hnb Fb' Lt Pb Hb) as [R1 R2].
    assert (0 < sigma_r n (fval T) (fval b)).
    { unfold sigma_r. apply Rdiv_lt_0_compat; nra. }
    change (sg_sigma (INR n) (R_sqrt.sqrt (fval T)) (fval b)) with (sigma_r n (fval T) (fval b)).
    apply Rabs_le. nra.
  - destruct (delta_err n (fval T) (fval b) Hn Hnb Fb' Lt Pb Hb) as [R1 _].
    replace (sg_delta (INR n) (R_sqrt.sqrt (fval T)) (fval b)) with (delta_r n (fval T) (fval b)).
    + lra.
    + unfold delta_r, sg_delta. field. split; nra.
Qed.

Lemma bias_sigma_lt1 : fval b * fval b <= fval T * (1 - powerRZ 2 (-40)) ->
  forall st rho sigma delta, calc_bias_cut c b T = Ok (st, Some (rho, sigma, delta)) ->
  fnonneg sigma /\ PrimFloat.ltb sigma PrimFloat.one = true /\ fnotneg delta.
Proof.
  intros Mg st rho0 sigma0 delta0 H. destruct bias_float as (rho & sigma & delta & E & Er & Es & Ed).
  rewrite E in H. injection H as _ _ <- <-.
  destruct (fcalc_ok n p c Hc Hnb) as (Hn & _ & _ & _).
  assert (Et := proj1 (ev_fin_iff T) FT). assert (Eb := proj1 (ev_fin_iff b) Fb).
  assert (Fb' : fmt (fval b)) by exact (ev_fmt _ _ Eb).
  assert (Lt : bpow radix2 (-400) <= fval T) by (rewrite bp_powerRZ; exact LT).
  rewrite <- bp_powerRZ in Mg.
  assert (S1 : sigma_f n (fval T) (fval b) < 1) by (eapply sigma_lt1; eassumption).
  assert (S0 := near_nn 14 _ _ ltac:(lra) (sigma_near n (fval T) (fval b) Hn Hnb Fb' Lt Pb Hb)).
  destruct (sigma_bound n (fval T) (fval b) Hn Lt Pb Hb) as [SB _].
  assert (N2 : 2 <= INR n) by (apply (le_INR 2); exact Hn).
  assert (0 < 1 / (INR n + 1)) by (apply Rdiv_lt_0_compat; lra).
  specialize (S0 ltac:(lra)).
  destruct (delta_err n (fval T) (fval b) Hn Hnb Fb' Lt Pb Hb) as [_ D0].
  split; [ | split ].
  - unfold fnonneg. rewrite ev_leb, ev_zero, Es. cbn. destruct (Rle_dec 0 _); [ reflexivity | contradiction ].
  - rewrite ev_ltb, Es. change PrimFloat.one with (aone (a:=FA)). rewrite ev_one. cbn.
    destruct (Rlt_dec _ 1); [ reflexivity | contradiction ].
  - unfold fnotneg. rewrite ev_ltb, ev_zero, Ed. cbn. destruct (Rlt_dec _ 0); [ lra | reflexivity ].
Qed.
End Link.

Lemma stable_bias_margin n p (s : stable FA) g b s1 o :
  (Z.of_nat n < 2 ^ 53)%Z -> fstable_notneg n s -> fcalc_for n p (s_helper s) -> length g = n ->
  fstable_update OpBias (g, CSingle (A:=FA) b) s = (s1, o) ->
  ffinite (s_tsq s1) -> powerRZ 2 (-400) <= fval (s_tsq s1) ->
  ffinite b -> 0 <= fval b -> fval b * fval b <= fval (s_tsq s1) * (1 - powerRZ 2 (-40)) ->
  fstable_notneg n s1 /\ s_helper s1 = s_helper s /\ o = Ok Success.
Proof.
  intros Hnb Hs Hc Hg Hu FT LT Fb Pb Mg.
  assert (T0 : 0 < fval (s_tsq s1)) by (rewrite <- bp_powerRZ in LT; generalize (bpow_gt_0 radix2 (-400)); lra).
  assert (Hb : fval b * fval b <= fval (s_tsq s1)).
  { rewrite <- bp_powerRZ in Mg. generalize (bpow_gt_0 radix2 (-40)). intros. nra. }
  destruct (fcalc_ok n p _ Hc Hnb) as (Hn & _).
  destruct (fstable_step n s OpBias g (CSingle (A:=FA) b) s1 o ltac:(lia) Hs Hg Hu) as (I1 & I2 & I3 & I4).
  { exact (bias_sigma_lt1 n p (s_helper s) b (s_tsq s1) Hc Hnb FT LT Fb Pb Hb Mg). }
  split; [ exact I1 | ]. split; [ exact I3 | ].
  destruct (bias_float n p (s_helper s) b (s_tsq s1) Hc Hnb FT LT Fb Pb Hb) as (r & sg & d & E & _).
  change (fstrat_of OpBias (s_helper s) (CSingle (A:=FA) b) (s_tsq s1)) with (calc_bias_cut (s_helper s) b (s_tsq s1)) in I4.
  rewrite E in I4. exact I4.
Qed.
