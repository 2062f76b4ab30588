(** Accuracy of the central cut and of the discrete cut in double arithmetic. *)
From Coq Require Import Reals ZArith Lia Lra Psatz Bool Floats List.
From Flocq Require Import Core.Core.
From Verif Require Import Arith Vec ModelCalc ModelEll ModelStable SpecDrivers SpecFloating SpecCut.
From Verif Require Import PCalc PCalc2 PCalc3.
From Verif Require Import PFloat PFloatSign PFloatCalc PFloatErr PFloatPar PFloatCut PFloatCut2 PFloatAcc PFloatAcc2.
Import ListNotations.
Local Open Scope R_scope.

Lemma near_abs k x y : near k x y -> Rabs (x - y) <= k * u53 * y.
Proof. intros [A B]. rewrite uu_u53. apply Rabs_le. lra. Qed.

Section Central.
Variables (n : nat) (p : bool) (c : calc FA) (T : num FA).
Hypothesis Hc : fcalc_for n p c.
Hypothesis Hnb : (Z.of_nat n < 2 ^ 53)%Z.
Hypothesis FT : ffinite T.
Hypothesis LT : powerRZ 2 (-400) <= fval T.

Lemma central_accuracy b cR b' : calc_for n p cR ->
  exists rho sigma delta : num FA, exists r s d : R,
  fstrat_of OpCentral c (CSingle (A:=FA) b) T = Ok (Success, Some (rho, sigma, delta)) /\
  strat_of OpCentral cR (CSingle (A:=RA) b') (fval T) = Ok (Success, Some (r, s, d)) /\
  ffinite rho /\ ffinite sigma /\ ffinite delta /\
  Rabs (fval rho - r) <= 5 * u53 * r /\
  Rabs (fval sigma - s) <= 1 * u53 * s /\
  Rabs (fval delta - d) <= 9 * u53 * d.
Proof.
  intros HR. destruct (fcalc_ok n p c Hc Hnb) as (Hn & Co & _ & _).
  assert (Et := proj1 (ev_fin_iff T) FT).
  assert (Bt : fval T < big) by (generalize (ev_big _ _ Et) (Rle_abs (fval T)); lra).
  assert (Lt : bpow radix2 (-400) <= fval T) by (rewrite bp_powerRZ; exact LT).
  assert (T0 : 0 < fval T) by (generalize (bpow_gt_0 radix2 (-400)); lra).
  set (t := fval T) in *.
  destruct (calc_for_R _ _ _ HR) as [_ ->].
  assert (N2 : 2 <= INR n) by (apply (le_INR 2); exact Hn).
  assert (Etau := ev_sqrt _ _ Et ltac:(lra)). set (tau' := rnd (R_sqrt.sqrt t)) in *.
  assert (Hi : R_sqrt.sqrt t <= bpow radix2 512) by (eapply tau_hi; eassumption).
  assert (Lo : bpow radix2 (-200) <= R_sqrt.sqrt t) by (eapply tau_lo; eassumption).
  assert (N1 : near 1 tau' (R_sqrt.sqrt t)) by (eapply tau_near; eassumption).
  assert (P0 : 0 < R_sqrt.sqrt t) by (eapply tau_p; eassumption).
  destruct (near_pos 1 _ _ ltac:(lra) N1 P0) as [Pt' [Lo' Hi']].
  assert (Hi2 : tau' <= bpow radix2 513) by (replace 513%Z with (512 + 1)%Z by lia; rewrite bp_S; lra).
  destruct (ok_c0 _ _ Co) as (c0 & Ec0 & Dc0 & Rc0).
  destruct (ok_c2 _ _ Co) as (c2 & Ec2 & Dc2 & Rc2).
  destruct (ok_c1 _ _ Co) as (c1 & Ec1 & Rc1 & Dc1).
  assert (Erho := op_mul _ _ _ _ 513 Ec0 Etau ltac:(rewrite Rabs_pos_eq by nra; nra) ltac:(lia)).
  exists (cst0 (c_helper c) * PrimFloat.sqrt T)%float, (cst2 (c_helper c)), (cst1 (c_helper c)).
  exists (1 / (INR n + 1) * R_sqrt.sqrt t), (2 * (1 / (INR n + 1))), (INR n * INR n / (INR n * INR n - 1)).
  split. { cbn [fstrat_of calc_single_or_parallel_central_cut]. rewrite fpsqrt by (rewrite Et; cbn; lra). reflexivity. }
  split. { cbn [strat_of calc_single_or_parallel_central_cut]. rewrite psqrt_ok by lra. reflexivity. }
  split; [ exact (ffinite_ev _ _ Erho) | ]. split; [ exact (ffinite_ev _ _ Ec2) | ]. split; [ exact (ffinite_ev _ _ Ec1) | ].
  change (PrimFloat.sqrt T) with (PrimFloat.sqrt T) in Erho.
  replace (fval (cst0 (c_helper c) * PrimFloat.sqrt T)%float) with (rnd (c0 * tau')) by (symmetry; exact (fval_ev _ _ Erho)).
  rewrite (fval_ev _ _ Ec2), (fval_ev _ _ Ec1).
  assert (C0 := c0_near n Hn Hnb). rewrite <- Dc0 in C0.
  assert (P1 : 0 < 1 / (INR n + 1)) by (apply Rdiv_lt_0_compat; lra).
  assert (L1 : bpow radix2 (-53) <= 1 / (INR n + 1)) by (rewrite <- (S_INR n); apply inv_norm; lia).
  split; [ | split ].
  - apply near_abs. replace 5 with (1 + 1 + 1 + 2) by ring.
    apply near_rnd with (c0 * tau'); [ lra | apply Rmult_le_pos; lra | apply near_mul; lra || assumption | ].
    apply err_n. rewrite Rabs_pos_eq by nra.
    destruct (near_pos 1 _ _ ltac:(lra) C0 P1) as [_ [C1 _]].
    apply Rle_trans with (bpow radix2 (-54) * bpow radix2 (-201)).
    + rewrite <- bpow_plus. apply bpow_le. lia.
    + apply Rmult_le_compat; try apply bpow_ge_0.
      * apply Rle_trans with (bpow radix2 (-53) / 2); [ | lra ].
        right. replace (-53)%Z with (-54 + 1)%Z by lia. rewrite bp_S. field.
      * apply Rle_trans with (bpow radix2 (-200) / 2); [ | lra ].
        right. replace (-200)%Z with (-201 + 1)%Z by lia. rewrite bp_S. field.
  - apply near_abs. rewrite Dc2, <- Dc0. destruct C0 as [C1 C2]. split; lra.
  - apply near_abs. rewrite Dc1. apply c1_near; assumption.
Qed.
End Central.

Lemma fcalc_nf n p c : fcalc_for n p c -> c_n_f c = n_f (c_helper c).
Proof.
  intros (c0 & H & ->). cbn [c_n_f c_helper]. unfold calc_init in H. destruct (Nat.leb 2 n); [ | discriminate ].
  destruct (core_init _) as [k|] eqn:E; [ | discriminate ]. injection H as <-. cbn [c_n_f c_helper].
  unfold core_init in E.
  repeat match type of E with bind ?t _ = _ => destruct t; cbn [bind] in E; [ | discriminate ] end.
  injection E as <-. reflexivity.
Qed.

Lemma q_is_bias n p (c : calc FA) (b T : num FA) : fcalc_for n p c -> (Z.of_nat n < 2 ^ 53)%Z ->
  ffinite T -> powerRZ 2 (-400) <= fval T -> ffinite b -> 0 <= fval b -> fval b * fval b <= fval T ->
  calc_bias_cut_q c b T = calc_bias_cut c b T.
Proof.
  intros Hc Hnb FT LT Fb Pb Hb. destruct (fcalc_ok n p c Hc Hnb) as (Hn & Co & _ & _).
  assert (Et := proj1 (ev_fin_iff T) FT). assert (Eb := proj1 (ev_fin_iff b) Fb).
  assert (Ft : fmt (fval T)) by exact (ev_fmt _ _ Et).
  assert (Fb' : fmt (fval b)) by exact (ev_fmt _ _ Eb).
  assert (Bt : fval T < big) by (generalize (ev_big _ _ Et) (Rle_abs (fval T)); lra).
  assert (Lt : bpow radix2 (-400) <= fval T) by (rewrite bp_powerRZ; exact LT).
  assert (T0 : 0 < fval T) by (generalize (bpow_gt_0 radix2 (-400)); lra).
  set (t := fval T) in *. set (v := fval b) in *.
  unfold calc_bias_cut_q, calc_bias_cut.
  assert (L : aleb (a:=FA) azero b = true).
  { change (PrimFloat.leb PrimFloat.zero b = true). rewrite ev_leb, ev_zero, Eb. cbn.
    destruct (Rle_dec 0 v); [ reflexivity | contradiction ]. }
  rewrite L. clear L.
  assert (M : altb (a:=FA) T (amul b b) = false).
  { change (PrimFloat.ltb T (b * b)%float = false). rewrite ev_ltb, ev_mul, Et, Eb. cbn [emul].
    destruct (rx_fin_le (v * v) t ltac:(nra) Hb Ft Bt) as [R1 R2]. rewrite R1. cbn.
    destruct (Rlt_dec t (rnd (v * v))); [ lra | reflexivity ]. }
  rewrite M. clear M.
  rewrite fpsqrt by (rewrite Et; cbn; lra). cbn [bind].
  assert (Etau := ev_sqrt _ _ Et ltac:(lra)). set (tau' := rnd (R_sqrt.sqrt t)) in *.
  assert (Hi : R_sqrt.sqrt t <= bpow radix2 512) by (eapply tau_hi; eassumption).
  assert (N1 : near 1 tau' (R_sqrt.sqrt t)) by (eapply tau_near; eassumption).
  assert (P0 : 0 < R_sqrt.sqrt t) by (eapply tau_p; eassumption).
  destruct (near_pos 1 _ _ ltac:(lra) N1 P0) as [Pt' [Lo' Hi']].
  assert (Hi2 : tau' <= bpow radix2 513) by (replace 513%Z with (512 + 1)%Z by lia; rewrite bp_S; lra).
  assert (Vt' : v <= tau') by (eapply b_tau'; eassumption).
  assert (Vt : v <= R_sqrt.sqrt t) by (eapply b_tau; eassumption).
  assert (M : altb (a:=FA) (PrimFloat.sqrt T) b = false).
  { change (PrimFloat.ltb (PrimFloat.sqrt T) b = false). rewrite ev_ltb, Etau, Eb. cbn.
    destruct (Rlt_dec tau' v); [ lra | reflexivity ]. }
  rewrite M. clear M. rewrite (fcalc_nf n p c Hc). unfold core_bias_cut.
  assert (N2 : 2 <= INR n) by (apply (le_INR 2); exact Hn).
  assert (Nb : INR n <= bpow radix2 53).
  { rewrite INR_IZR_INZ, <- (IZR_Zpower radix2) by lia. apply IZR_le. change (radix2 ^ 53)%Z with (2 ^ 53)%Z. lia. }
  assert (B512 : 0 < bpow radix2 512) by apply bpow_gt_0.
  assert (X1 : Rabs (INR n * v) <= bpow radix2 565).
  { rewrite Rabs_pos_eq by nra. replace 565%Z with (53 + 512)%Z by lia. rewrite bpow_plus.
    apply Rmult_le_compat; lra. }
  assert (Enb := op_mul _ _ _ _ 565 (ok_nf _ _ Co) Eb X1 ltac:(lia)).
  destruct (rx_b _ 565 X1 ltac:(lia)) as [_ X1'].
  assert (X0 : 0 <= rnd (INR n * v)) by (apply rnd_nonneg; nra).
  rewrite Rabs_pos_eq in X1' by exact X0.
  assert (B513 : bpow radix2 513 <= bpow radix2 565) by (apply bpow_le; lia).
  assert (X2 : Rabs (tau' + rnd (INR n * v)) <= bpow radix2 566).
  { rewrite Rabs_pos_eq by lra. replace 566%Z with (565 + 1)%Z by lia. rewrite bp_S. lra. }
  assert (Eeta := op_add _ _ _ _ 566 Etau Enb X2 ltac:(lia)).
  assert (Y0 : tau' <= rnd (tau' + rnd (INR n * v))).
  { rewrite <- (rnd_fmt tau' (fmt_rnd _)) at 1. apply rnd_le. lra. }
  assert (M : aleb (a:=FA) (aadd (a:=FA) (PrimFloat.sqrt T) (amul (n_f (c_helper c)) b)) azero = false).
  { etransitivity; [ exact (ev_leb _ _) | ]. rewrite Eeta. change (azero (a:=FA)) with PrimFloat.zero. rewrite ev_zero. cbn.
    destruct (Rle_dec (rnd (tau' + rnd (INR n * v))) 0); [ lra | reflexivity ]. }
  rewrite M. reflexivity.
Qed.

Lemma q_accuracy n p (c : calc FA) (b T : num FA) : fcalc_for n p c -> (Z.of_nat n < 2 ^ 53)%Z ->
  ffinite T -> powerRZ 2 (-400) <= fval T -> ffinite b -> 0 <= fval b -> fval b * fval b <= fval T ->
  forall cR, calc_for n p cR ->
  exists rho sigma delta : num FA, exists r s d : R,
  fstrat_of OpQ c (CSingle (A:=FA) b) T = Ok (Success, Some (rho, sigma, delta)) /\
  strat_of OpQ cR (CSingle (A:=RA) (fval b)) (fval T) = Ok (Success, Some (r, s, d)) /\
  ffinite rho /\ ffinite sigma /\ ffinite delta /\
  Rabs (fval rho - r) <= 8 * u53 * r /\
  Rabs (fval sigma - s) <= 16 * u53 * s /\
  Rabs (fval delta - d) <= 64 * u53.
Proof.
  intros Hc Hnb FT LT Fb Pb Hb cR HR.
  destruct (bias_accuracy n p c b T Hc Hnb FT LT Fb Pb Hb cR HR) as (rho & sigma & delta & r & s & d & E1 & E2 & H).
  exists rho, sigma, delta, r, s, d. split; [ | split; [ | exact H ] ].
  - cbn [fstrat_of calc_single_or_parallel_q]. rewrite (q_is_bias n p) by assumption. exact E1.
  - rewrite <- E2. destruct (calc_for_R _ _ _ HR) as [Hn ->].
    assert (T0 : 0 < fval T) by (generalize (powerRZ_lt 2 (-400) ltac:(lra)); lra).
    cbn [strat_of calc_single_or_parallel_q]. rewrite q_norm, bias_norm by assumption. unfold single_res.
    assert (Vt : fval b <= R_sqrt.sqrt (fval T)).
    { rewrite <- (sqrt_Rsqr (fval b)) by exact Pb. apply sqrt_le_1_alt. exact Hb. }
    assert (N2 : 2 <= INR n) by (apply (le_INR 2); exact Hn).
    assert (P0 : 0 < R_sqrt.sqrt (fval T)) by (apply sqrt_lt_R0; exact T0).
    repeat first [ rewrite Rleb_true by exact Pb | rewrite Rltb_false by lra | rewrite Rleb_false by nra ]. reflexivity.
Qed.
