(** The central cut against the deep cut with offset zero in doubles, and
    concrete cases for the assertions of the property-based tests. *)
From Coq Require Import Reals ZArith Lia Lra Psatz Bool Floats List.
From Flocq Require Import Core.Core IEEE754.BinarySingleNaN IEEE754.PrimFloat.
From Verif Require Import Arith Vec ModelCalc ModelEll ModelStable SpecDrivers SpecFloating SpecCut.
From Verif Require Import SpecFloatSigns PFloat PFloatSign PFloatCalc PFloatErr PFloatPar PFloatCut PFloatCut2 PFloatAcc PFloatAcc2 PFloatSigns PFloatEx PFloatEx2 PFloatEx3.
Import ListNotations.
Local Open Scope R_scope.

(** nonzero numbers are equal when their values are *)
Lemma ev_inj x y r : ev x = EFin r -> ev y = EFin r -> r <> 0 -> x = y.
Proof.
  intros Ex Ey N. apply ev_finite in Ex. apply ev_finite in Ey. destruct Ex as [Fx Vx]. destruct Ey as [Fy Vy].
  apply Prim2B_inj. apply B2R_inj.
  - destruct (Prim2B x); try discriminate; cbn in Vx |- *; [ exfalso; apply N; now symmetry | reflexivity ].
  - destruct (Prim2B y); try discriminate; cbn in Vy |- *; [ exfalso; apply N; now symmetry | reflexivity ].
  - now rewrite Vx, Vy.
Qed.

Lemma rnd0 : rnd 0 = 0.
Proof. apply rnd_fmt, generic_format_0. Qed.

Section CB.
Variables (n : nat) (c : core FA) (T : num FA) (t : R).
Hypothesis Hn : (2 <= n)%nat.
Hypothesis Hnb : (Z.of_nat n < 2 ^ 53)%Z.
Hypothesis Hc : core_ok n c.
Hypothesis Et : ev T = EFin t.
Hypothesis T1 : bpow radix2 (-200) <= t.
Hypothesis T2 : t <= bpow radix2 200.

Lemma c0_low : exists v, ev (cst0 c) = EFin v /\ bpow radix2 (-54) <= v <= 3 / 8.
Proof.
  destruct (ok_c0 _ _ Hc) as (v & E & Hv & B). exists v. split; [ exact E | ]. split; [ | lra ].
  rewrite Hv. apply rnd_ge; [ lia | ]. assert (Hb := n_bnd n Hn Hnb).
  assert (E54 : bpow radix2 (-54) = / (2 * bpow radix2 53)).
  { rewrite <- bp_S. apply (bpow_opp radix2 54). }
  rewrite E54. unfold Rdiv. rewrite Rmult_1_l. apply Rinv_le_contravar; [ lra | ].
  assert (1 <= bpow radix2 53) by (change 1 with (bpow radix2 0); apply bp_le; lia). lra.
Qed.

Lemma bias_zero nf p : exists sigma, 
  calc_bias_cut (mkCalc (A:=FA) p nf c) PrimFloat.zero T =
    Ok (Success, Some (amul (a:=FA) (cst0 c) (PrimFloat.sqrt T), sigma, cst1 c)) /\
  ffinite sigma /\ Rabs (fval sigma - fval (cst2 c)) <= 3 * uu * fval (cst2 c).
Proof.
  destruct (tau_bd n T t Hn Et T1 T2) as (v & Ps & Ev & Hv1 & Hv2).
  assert (P1 := bpow_gt_0 radix2 (-100)).
  assert (Fv : fmt v) by exact (ev_fmt _ _ Ev).
  assert (Ez := ev_zero).
  unfold calc_bias_cut.
  assert (L0 : aleb (a:=FA) azero PrimFloat.zero = true) by (vm_compute; reflexivity). rewrite L0.
  assert (M0 : ev (amul (a:=FA) PrimFloat.zero PrimFloat.zero) = EFin 0).
  { replace (amul (a:=FA) PrimFloat.zero PrimFloat.zero) with PrimFloat.zero by (vm_compute; reflexivity). exact Ez. }
  assert (L1 : altb (a:=FA) T (amul (a:=FA) PrimFloat.zero PrimFloat.zero) = false).
  { cbn [altb FA]. rewrite ev_ltb, M0, Et. cbn. assert (Q := bpow_gt_0 radix2 (-200)). destruct (Rlt_dec t 0); [ lra | reflexivity ]. }
  rewrite L1, Ps. cbn [bind c_helper core_bias_cut]. unfold core_bias_cut, core_bias_cut_fast.
  set (tau := PrimFloat.sqrt T) in *.
  (* adding zero changes nothing *)
  assert (Nz : ev (amul (a:=FA) (n_f c) PrimFloat.zero) = EFin 0).
  { cbn [amul FA]. rewrite ev_mul, Ez, (ok_nf _ _ Hc). cbn [emul]. rewrite Rmult_0_r.
    rewrite (proj1 (rx_bd 0 0 ltac:(change (bpow radix2 0) with 1; lra) ltac:(lia))). now rewrite rnd0. }
  assert (Vb : Rabs v <= bpow radix2 100) by (rewrite Rabs_pos_eq; lra).
  assert (Ee : aadd (a:=FA) tau (amul (n_f c) PrimFloat.zero) = tau).
  { apply (ev_inj _ _ v); [ | exact Ev | lra ].
    assert (Q := op_add tau (amul (a:=FA) (n_f c) PrimFloat.zero) v 0 100 Ev Nz ltac:(rewrite Rplus_0_r; exact Vb) ltac:(lia)).
    rewrite Rplus_0_r, (rnd_fmt _ Fv) in Q. exact Q. }
  assert (Ed : aadd (a:=FA) tau PrimFloat.zero = tau).
  { apply (ev_inj _ _ v); [ | exact Ev | lra ].
    assert (Q := op_add tau PrimFloat.zero v 0 100 Ev Ez ltac:(rewrite Rplus_0_r; exact Vb) ltac:(lia)).
    rewrite Rplus_0_r, (rnd_fmt _ Fv) in Q. exact Q. }
  rewrite Ee, Ed.
  (* alpha = 0 *)
  destruct (op_div PrimFloat.zero tau 0 v 0 Ez Ev) as (al & -> & Eal);
    [ lra | unfold Rdiv; rewrite Rmult_0_l, Rabs_R0; change (bpow radix2 0) with 1; lra | lia | ].
  replace (0 / v) with 0 in Eal by (unfold Rdiv; ring). rewrite rnd0 in Eal. cbn [bind].
  destruct (ok_c1 _ _ Hc) as (c1 & Ec1 & Hc1 & _). assert (Fc1 := ev_fmt _ _ Ec1).
  assert (Rc1 : Rabs c1 <= bpow radix2 1) by (change (bpow radix2 1) with 2; rewrite Rabs_pos_eq; lra).
  assert (F1 := fmt_1).
  assert (R1 : rx 1 = EFin 1).
  { rewrite (proj1 (rx_b 1 0 ltac:(rewrite Rabs_R1; change (bpow radix2 0) with 1; lra) ltac:(lia))). now rewrite rnd_fmt. }
  assert (Dl : amul (a:=FA) (amul (cst1 c) (asub aone al)) (aadd aone al) = cst1 c).
  { apply (ev_inj _ _ c1); [ | exact Ec1 | lra ].
    cbn [amul asub aadd FA]. rewrite !ev_mul, ev_sub, ev_add, Ec1, Eal, ev_one. cbn [esub eadd].
    rewrite Rminus_0_r, Rplus_0_r, R1. cbn [emul]. rewrite Rmult_1_r.
    rewrite (proj1 (rx_b c1 1 Rc1 ltac:(lia))), (rnd_fmt _ Fc1). cbn [emul]. rewrite Rmult_1_r.
    rewrite (proj1 (rx_b c1 1 Rc1 ltac:(lia))), (rnd_fmt _ Fc1). reflexivity. }
  (* sigma: one product and one quotient *)
  destruct (ok_c2 _ _ Hc) as (c2 & Ec2 & Hc2 & B2).
  destruct c0_low as (c0 & Ec0 & B0).
  destruct (ok_c0 _ _ Hc) as (c0' & Ec0' & Hc0 & _). rewrite Ec0 in Ec0'. injection Ec0' as <-. rewrite <- Hc0 in Hc2.
  assert (Lc2 : bpow radix2 (-53) <= c2) by (replace (-53)%Z with (-54 + 1)%Z by lia; rewrite bp_S; lra).
  assert (P53 := bpow_gt_0 radix2 (-53)).
  assert (Up : c2 * v <= bpow radix2 100) by nra.
  assert (Lp : bpow radix2 (-153) <= c2 * v).
  { replace (-153)%Z with (-53 + -100)%Z by lia. rewrite bpow_plus. apply Rmult_le_compat; lra. }
  assert (P153 := bpow_gt_0 radix2 (-153)).
  assert (Em : ev (amul (a:=FA) (cst2 c) tau) = EFin (rnd (c2 * v))).
  { apply (op_mul _ _ c2 v 100 Ec2 Ev); [ rewrite Rabs_pos_eq; lra | lia ]. }
  assert (Er1 : Rabs (rnd (c2 * v) - c2 * v) <= uu * (c2 * v)).
  { rewrite <- (Rabs_pos_eq (c2 * v)) at 3 by lra. apply err_n. rewrite Rabs_pos_eq by lra.
    apply Rle_trans with (2 := Lp). apply bp_le. lia. }
  apply Rabs_bnd in Er1 || (rewrite <- (Rabs_pos_eq (c2 * v)) in Er1 at 3 by lra; apply Rabs_bnd in Er1); [ | lra ].
  set (m := rnd (c2 * v)) in *. assert (Us := uu_small). assert (Up0 := uu_pos).
  assert (Qm : c2 * (1 - uu) <= m / v <= c2 * (1 + uu)).
  { split; apply Rmult_le_reg_r with v; try lra; unfold Rdiv; rewrite (Rmult_assoc m), Rinv_l by lra; nra. }
  assert (Qb : Rabs (m / v) <= bpow radix2 0).
  { change (bpow radix2 0) with 1. rewrite Rabs_pos_eq; nra. }
  destruct (op_div _ _ m v 0 Em Ev) as (sg & Esg & Evs); [ lra | exact Qb | lia | ].
  rewrite Esg. cbn [bind some_triple]. exists sg. split; [ now rewrite Dl | ].
  assert (Fs : ffinite sg).
  { unfold ffinite. unfold ev in Evs. destruct (Prim2SF sg) as [s|[|]| |s mm ee]; try exact I; discriminate. }
  split; [ exact Fs | ].
  assert (Vs := proj1 (ev_fin_iff sg) Fs). rewrite Evs in Vs. injection Vs as Vs. rewrite <- Vs.
  assert (Fc2 : ffinite (cst2 c)).
  { unfold ffinite. unfold ev in Ec2. destruct (Prim2SF (cst2 c)) as [s|[|]| |s mm ee]; try exact I; discriminate. }
  assert (V2 := proj1 (ev_fin_iff _) Fc2). rewrite Ec2 in V2. injection V2 as V2. rewrite <- V2.
  assert (Er2 : Rabs (rnd (m / v) - m / v) <= uu * Rabs (m / v)).
  { apply err_n. rewrite Rabs_pos_eq by nra. apply Rle_trans with (bpow radix2 (-60)); [ apply bp_le; lia | ].
    assert (bpow radix2 (-53) = 128 * bpow radix2 (-60)).
    { replace (-53)%Z with (7 + -60)%Z by lia. rewrite bpow_plus. reflexivity. }
    assert (Q := bpow_gt_0 radix2 (-60)). nra. }
  apply Rabs_bnd in Er2; [ | nra ].
  apply Rabs_le. split; nra.
Qed.

End CB.

Lemma central_bias_zero n p c T : fcalc_for n p c -> (Z.of_nat n < 2 ^ 53)%Z ->
  ffinite T -> powerRZ 2 (-200) <= fval T <= powerRZ 2 200 ->
  forall b, exists rho s1 s2 delta,
  fstrat_of OpCentral c (CSingle (A:=FA) b) T = Ok (Success, Some (rho, s1, delta)) /\
  fstrat_of OpBias c (CSingle (A:=FA) PrimFloat.zero) T = Ok (Success, Some (rho, s2, delta)) /\
  Rabs (fval s2 - fval s1) <= 3 * u53 * fval s1.
Proof.
  intros Hcf Hnb FT HT b. destruct (fcalc_ok n p c Hcf Hnb) as (Hn & Co & _ & _).
  rewrite <- !bp_powerRZ in HT. assert (Et := proj1 (ev_fin_iff T) FT). destruct HT as [T1 T2].
  destruct (bias_zero n (c_helper c) T (fval T) Hn Hnb Co Et T1 T2 (c_n_f c) (use_parallel_cut c)) as (sg & E & _ & Hs).
  destruct (tau_bd n T (fval T) Hn Et T1 T2) as (v & Ps & _).
  exists (amul (a:=FA) (cst0 (c_helper c)) (PrimFloat.sqrt T)), (cst2 (c_helper c)), sg, (cst1 (c_helper c)).
  split; [ | split ].
  - cbn [fstrat_of calc_single_or_parallel_central_cut]. rewrite Ps. reflexivity.
  - cbn [fstrat_of calc_single_or_parallel]. destruct c; exact E.
  - unfold u53. rewrite <- bp_powerRZ. exact Hs.
Qed.

(** the same on the object *)
Lemma ell_central_bias_zero n p (e : ell FA) g : fcalc_for n p (helper e) -> (Z.of_nat n < 2 ^ 53)%Z ->
  let r1 := fell_update OpCentral (g, CSingle (A:=FA) PrimFloat.zero) e in
  let r2 := fell_update OpBias (g, CSingle (A:=FA) PrimFloat.zero) e in
  ffinite (tsq (fst r1)) -> powerRZ 2 (-200) <= fval (tsq (fst r1)) <= powerRZ 2 200 ->
  snd r1 = snd r2 /\ xc (fst r1) = xc (fst r2) /\ kappa (fst r1) = kappa (fst r2) /\ tsq (fst r1) = tsq (fst r2).
Proof.
  intros Hcf Hnb. cbn [fell_update]. unfold ell_update_central_cut, ell_update_bias_cut, ell_update_core.
  destruct (forallb _ g); [ cbn; auto | ]. destruct (negb _); [ cbn; auto | ].
  destruct (aeqb (a:=FA) _ azero); [ cbn; auto | ].
  set (om := vdot g (mvmul (mq e) g)). cbn [tsq set_tsq].
  set (T := amul (a:=FA) (kappa e) om).
  intros F HT.
  assert (X : ffinite T /\ powerRZ 2 (-200) <= fval T <= powerRZ 2 200).
  { revert F HT. destruct (calc_single_or_parallel_central_cut _ _ _) as [[st [[[a b] d]|]]|]; cbn [tsq set_tsq fst];
      try (destruct (Broadcast.isub _ _); cbn [tsq set_tsq fst]; [ | auto ]; destruct (no_defer_trick e); cbn; auto); auto. }
  destruct X as [F1 F2].
  destruct (central_bias_zero n p (helper e) T Hcf Hnb F1 F2 PrimFloat.zero) as (rho & s1 & s2 & delta & E1 & E2 & _).
  cbn [fstrat_of] in E1, E2. rewrite E1, E2.
  destruct (Broadcast.isub _ _); [ | cbn; auto ]. destruct (no_defer_trick e); cbn; auto.
Qed.

(** ** Concrete cases *)

Lemma p200 : powerRZ 2 (-200) <= 1 <= powerRZ 2 200.
Proof. rewrite <- !bp_powerRZ. change 1 with (bpow radix2 0). split; apply bpow_le; lia. Qed.

Lemma fin_nn_half : fin_nonneg 0.5%float.
Proof. split; [ exact fin_half | rewrite fval_half; lra ]. Qed.
Lemma fin_nn_1 : fin_nonneg 1%float.
Proof. split; [ exact fin_1 | rewrite fval_1; lra ]. Qed.

(** an offset whose exact square exceeds the limit although the rounded one does not *)
Definition b_edge : num FA := 0x1.4d8637f95ce28p-1%float.
Definition t_edge : num FA := 0x1.b28673fd60ef9p-2%float.

Lemma ex_edge : exists (c : calc FA) (b T : num FA) r,
  fcalc_for 2 true c /\ ffinite T /\ powerRZ 2 (-200) <= fval T <= powerRZ 2 200 /\ cut_nonneg (CSingle (A:=FA) b) /\
  fval T < fval b * fval b /\ fstrat_of OpBias c (CSingle (A:=FA) b) T = Ok (Success, Some (r, 1%float, 0%float)).
Proof.
  assert (Eb : fval b_edge = IZR 5867421388099112 * bpow radix2 (-53)).
  { rewrite (fval_SF _ false 5867421388099112 (-53)) by (vm_compute; reflexivity). ring. }
  assert (Et : fval t_edge = IZR 7644248288923385 * bpow radix2 (-54)).
  { rewrite (fval_SF _ false 7644248288923385 (-54)) by (vm_compute; reflexivity). ring. }
  exists c2f, b_edge, t_edge. eexists. split; [ exact c2f_ok | ]. split; [ vm_compute; exact I | ].
  assert (P : bpow radix2 (-53) = bpow radix2 (-54) * 2) by (replace (-53)%Z with (-54 + 1)%Z by lia; rewrite bp_S; ring).
  assert (P54 := bpow_gt_0 radix2 (-54)).
  assert (E52 : bpow radix2 (-54) * IZR 18014398509481984 = 1).
  { change (IZR 18014398509481984) with (bpow radix2 54). rewrite <- bpow_plus. reflexivity. }
  split; [ | split; [ | split ] ].
  - rewrite Et, <- !bp_powerRZ. split.
    + apply Rle_trans with (bpow radix2 (-54)); [ apply bpow_le; lia | nra ].
    + apply Rle_trans with 1; [ | change 1 with (bpow radix2 0); apply bpow_le; lia ]. nra.
  - split; [ vm_compute; exact I | ]. rewrite Eb. assert (Q := bpow_gt_0 radix2 (-53)). nra.
  - rewrite Eb, Et, P. set (u := bpow radix2 (-54)) in *.
    replace (IZR 5867421388099112 * (u * 2) * (IZR 5867421388099112 * (u * 2)))
      with (u * (u * IZR (5867421388099112 * 5867421388099112 * 4))) by (rewrite !mult_IZR; ring).
    rewrite (Rmult_comm (IZR 7644248288923385) u). apply Rmult_lt_compat_l; [ exact P54 | ].
    apply Rmult_lt_reg_r with (IZR 18014398509481984); [ apply IZR_lt; lia | ].
    rewrite (Rmult_comm u), Rmult_assoc, E52, Rmult_1_r, <- mult_IZR. apply IZR_lt. vm_compute. reflexivity.
  - vm_compute. reflexivity.
Qed.

Lemma ex_signs : exists (c : calc FA) (T : num FA) r1 r2 r3,
  fcalc_for 2 true c /\ ffinite T /\ powerRZ 2 (-200) <= fval T <= powerRZ 2 200 /\
  cut_nonneg (CList (A:=FA) [Some 0.5%float; Some 0.75%float]) /\
  fstrat_of OpBias c (CList (A:=FA) [Some 0.5%float; Some 0.75%float]) T = Ok (Success, Some r1) /\
  fstrat_of OpCentral c (CList (A:=FA) [Some 0.5%float; Some 0.75%float]) T = Ok (Success, Some r2) /\
  fstrat_of OpQ c (CList (A:=FA) [Some 0.5%float; Some 0.75%float]) T = Ok (Success, Some r3).
Proof.
  exists c2f, 1%float. do 3 eexists. split; [ exact c2f_ok | ]. split; [ exact fin_1 | ].
  split; [ rewrite fval_1; exact p200 | ].
  assert (F75 : fin_nonneg 0.75%float).
  { split; [ vm_compute; exact I | ]. rewrite (fval_SF _ false 6755399441055744 (-53)) by (vm_compute; reflexivity).
    assert (Q := bpow_gt_0 radix2 (-53)). nra. }
  split; [ | repeat split; vm_compute; reflexivity ].
  intros b [H|[H|[]]]; injection H as <-; [ exact fin_nn_half | exact F75 ].
Qed.

Lemma fval_4_3 : 1 < fval 0x1.5555555555555p+0%float.
Proof.
  rewrite (fval_SF _ false 6004799503160661 (-52)) by (vm_compute; reflexivity).
  assert (E52 : bpow radix2 (-52) * IZR 4503599627370496 = 1).
  { change (IZR 4503599627370496) with (bpow radix2 52). rewrite <- bpow_plus. reflexivity. }
  assert (P := bpow_gt_0 radix2 (-52)). nra.
Qed.

Lemma ex_delta : exists (c : calc FA) (T : num FA) rho sigma delta,
  fcalc_for 2 true c /\ ffinite T /\ powerRZ 2 (-200) <= fval T <= powerRZ 2 200 /\
  fstrat_of OpCentral c (CSingle (A:=FA) PrimFloat.zero) T = Ok (Success, Some (rho, sigma, delta)) /\ 1 < fval delta.
Proof.
  exists c2f, 1%float, 0x1.5555555555555p-2%float, 0x1.5555555555555p-1%float, 0x1.5555555555555p+0%float.
  split; [ exact c2f_ok | ]. split; [ exact fin_1 | ]. split; [ rewrite fval_1; exact p200 | ].
  split; [ vm_compute; reflexivity | exact fval_4_3 ].
Qed.

Lemma ex_sigma : exists (c : calc FA) (T : num FA) rho s1 s2 delta,
  fcalc_for 2 true c /\ ffinite T /\ powerRZ 2 (-200) <= fval T <= powerRZ 2 200 /\
  fstrat_of OpCentral c (CSingle (A:=FA) PrimFloat.zero) T = Ok (Success, Some (rho, s1, delta)) /\
  fstrat_of OpBias c (CSingle (A:=FA) PrimFloat.zero) T = Ok (Success, Some (rho, s2, delta)) /\
  PrimFloat.eqb s1 s2 = false.
Proof.
  exists c2f, 36.25%float. do 4 eexists. split; [ exact c2f_ok | ]. split; [ vm_compute; exact I | ].
  split.
  - rewrite (fval_SF _ false 5101733952880640 (-47)) by (vm_compute; reflexivity). rewrite <- !bp_powerRZ.
    assert (E : bpow radix2 (-47) * IZR 140737488355328 = 1).
    { change (IZR 140737488355328) with (bpow radix2 47). rewrite <- bpow_plus. reflexivity. }
    assert (P := bpow_gt_0 radix2 (-47)). split.
    + apply Rle_trans with (bpow radix2 (-47)); [ apply bpow_le; lia | nra ].
    + apply Rle_trans with (bpow radix2 6); [ | apply bpow_le; lia ]. change (bpow radix2 6) with 64. nra.
  - split; [ vm_compute; reflexivity | ]. split; vm_compute; reflexivity.
Qed.

(** a gradient so small that [kappa * omega] underflows *)
Definition e3 : ell FA :=
  match ell_init (A:=FA) (VScalar (A:=FA) 0x1p-9%float) [0; 0; 0]%float with Ok e => e
  | Err _ => mkEll (A:=FA) false [] [] 0%float 0%float (mkCalc (A:=FA) false 0%float (mkCore (A:=FA) 0 0 0 0 0 0 0 0 0)%float) end.
Lemma e3_ok : ell_init (A:=FA) (VScalar (A:=FA) 0x1p-9%float) [0; 0; 0]%float = Ok e3.
Proof.
  unfold e3. assert (H : is_ok (ell_init (A:=FA) (VScalar (A:=FA) 0x1p-9%float) [0; 0; 0]%float) = true) by (vm_compute; reflexivity).
  destruct (ell_init (A:=FA) (VScalar (A:=FA) 0x1p-9%float) [0; 0; 0]%float); [ reflexivity | discriminate ].
Qed.

Lemma ex_consistency : exists (k : num FA) (e e1 : ell FA) (g : vec FA),
  1 / 1000 <= fval k <= 10 /\ ell_init (VScalar (A:=FA) k) [0%float; 0%float; 0%float] = Ok e /\
  length g = 3%nat /\ (forall i, (i < 3)%nat -> ffinite (vget g i) /\ 0 <= fval (vget g i) <= 10) /\ 0 < fval (vget g 0) /\
  fell_update OpCentral (g, CSingle (A:=FA) PrimFloat.zero) e = (e1, Ok Success) /\
  PrimFloat.is_nan (mget (mq e1) 0 1) = true /\
  snd (fell_update OpBias (g, CSingle (A:=FA) PrimFloat.zero) e) = Err ZeroDivision.
Proof.
  exists 0x1p-9%float, e3, (fst (fell_update OpCentral ([0x1p-537; 0; 0]%float, CSingle (A:=FA) PrimFloat.zero) e3)), [0x1p-537; 0; 0]%float.
  assert (Ek : fval 0x1p-9%float = / 512).
  { rewrite (fval_SF _ false 4503599627370496 (-61)) by (vm_compute; reflexivity).
    assert (E : bpow radix2 (-61) * IZR 4503599627370496 = / 512).
    { change (IZR 4503599627370496) with (bpow radix2 52). rewrite <- bpow_plus. reflexivity. }
    lra. }
  assert (Eg : fval 0x1p-537%float = bpow radix2 (-537)).
  { rewrite (fval_SF _ false 4503599627370496 (-589)) by (vm_compute; reflexivity).
    assert (E : IZR 4503599627370496 * bpow radix2 (-589) = bpow radix2 (-537)).
    { change (IZR 4503599627370496) with (bpow radix2 52). rewrite <- bpow_plus. reflexivity. }
    rewrite <- E. ring. }
  split; [ rewrite Ek; lra | ]. split; [ exact e3_ok | ]. split; [ reflexivity | ].
  assert (Pg := bpow_gt_0 radix2 (-537)).
  split.
  { intros i Hi. destruct i as [|[|[|i]]]; [ | | | lia ].
    - split; [ vm_compute; exact I | ]. change (vget (A:=FA) [0x1p-537; 0; 0]%float 0) with 0x1p-537%float. rewrite Eg.
      assert (bpow radix2 (-537) <= bpow radix2 0) by (apply bpow_le; lia). change (bpow radix2 0) with 1 in *. lra.
    - split; [ vm_compute; exact I | ]. change (vget (A:=FA) [0x1p-537; 0; 0]%float 1) with 0%float. rewrite fval_0. lra.
    - split; [ vm_compute; exact I | ]. change (vget (A:=FA) [0x1p-537; 0; 0]%float 2) with 0%float. rewrite fval_0. lra. }
  split; [ change (vget (A:=FA) [0x1p-537; 0; 0]%float 0) with 0x1p-537%float; rewrite Eg; exact Pg | ].
  split.
  { assert (Q : snd (fell_update OpCentral ([0x1p-537; 0; 0]%float, CSingle (A:=FA) PrimFloat.zero) e3) = Ok Success) by (vm_compute; reflexivity).
    rewrite <- Q. apply surjective_pairing. }
  split; vm_compute; reflexivity.
Qed.

Lemma ex_same_step : exists e, ell_init (A:=FA) (VScalar (A:=FA) 1%float) [0%float; 0%float] = Ok e /\
  fcalc_for 2 true (helper e) /\
  tsq (fst (fell_update OpCentral ([1%float; 0%float], CSingle (A:=FA) PrimFloat.zero) e)) = 1%float /\
  powerRZ 2 (-200) <= fval 1%float <= powerRZ 2 200.
Proof.
  exists e0. split; [ exact e0_ok | ]. split; [ | split; [ vm_compute; reflexivity | rewrite fval_1; exact p200 ] ].
  exact c2f_ok.
Qed.
