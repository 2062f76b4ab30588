(** Accuracy of the deep-cut formulas in double arithmetic. *)
From Coq Require Import Reals ZArith Lia Lra Psatz Bool Floats List.
From Flocq Require Import Core.Core Relative.
From Verif Require Import Arith Vec ModelCalc ModelEll SpecDrivers SpecFloating SpecCut.
From Verif Require Import PFloat PFloatSign PFloatCalc PFloatErr PFloatPar PFloatCut PFloatCut2.
Import ListNotations.
Local Open Scope R_scope.

(** [x] equals [y] up to [k] units of relative error *)
Definition near (k x y : R) : Prop := y * (1 - k * uu) <= x <= y * (1 + k * uu).

Lemma near_refl x : 0 <= x -> near 0 x x.
Proof. unfold near. intros. lra. Qed.

Lemma near_nn k x y : k <= 100 -> near k x y -> 0 <= y -> 0 <= x.
Proof.
  intros Hk [H _] P. generalize uu_pos uu_small. intros. apply Rle_trans with (2 := H).
  apply Rmult_le_pos; [ exact P | ]. nra.
Qed.

Lemma near_pos k x y : k <= 100 -> near k x y -> 0 < y -> 0 < x /\ y / 2 <= x <= 2 * y.
Proof.
  intros Hk [H1 H2] P. generalize uu_pos uu_small. intros U0 U1.
  assert (k * uu <= / 2) by nra. split; [ nra | ]. split; nra.
Qed.

Lemma near_mul j k x y x' y' : 0 <= j <= 100 -> 0 <= k <= 100 -> 0 <= y -> 0 <= y' ->
  near j x y -> near k x' y' -> near (j + k + 1) (x * x') (y * y').
Proof.
  intros Hj Hk Py Py' [A1 A2] [B1 B2]. generalize uu_pos uu_small. intros U0 U1.
  assert (J : 0 <= j * uu <= / 1000000000) by nra. assert (K : 0 <= k * uu <= / 1000000000) by nra.
  assert (JK : j * uu * (k * uu) <= uu).
  { assert (j * k <= 10000) by nra. replace (j * uu * (k * uu)) with (j * k * uu * uu) by ring. nra. }
  assert (Z : 0 <= y * y') by nra.
  assert (X0 : 0 <= y * (1 - j * uu)) by (apply Rmult_le_pos; lra).
  assert (X1 : 0 <= y' * (1 - k * uu)) by (apply Rmult_le_pos; lra).
  split.
  - apply Rle_trans with (y * (1 - j * uu) * (y' * (1 - k * uu))); [ | apply Rmult_le_compat; lra ].
    replace (y * (1 - j * uu) * (y' * (1 - k * uu))) with (y * y' * ((1 - j * uu) * (1 - k * uu))) by ring.
    apply Rmult_le_compat_l; [ exact Z | nra ].
  - apply Rle_trans with (y * (1 + j * uu) * (y' * (1 + k * uu))); [ apply Rmult_le_compat; lra | ].
    replace (y * (1 + j * uu) * (y' * (1 + k * uu))) with (y * y' * ((1 + j * uu) * (1 + k * uu))) by ring.
    apply Rmult_le_compat_l; [ exact Z | nra ].
Qed.

Lemma near_inv k x y : 0 <= k <= 100 -> 0 < y -> near k x y -> near (k + 1) (/ x) (/ y).
Proof.
  intros Hk P N. destruct (near_pos k x y ltac:(lra) N P) as [Px _]. destruct N as [A1 A2].
  generalize uu_pos uu_small. intros U0 U1.
  assert (K : 0 <= k * uu <= / 1000000000) by nra.
  assert (KK : k * uu * (k * uu) <= uu * / 2).
  { assert (k * k <= 10000) by nra. replace (k * uu * (k * uu)) with (k * k * uu * uu) by ring. nra. }
  split; apply Rmult_le_reg_r with (x * y); try nra.
  - replace (/ y * (1 - (k + 1) * uu) * (x * y)) with (x * (1 - (k + 1) * uu)) by (field; lra).
    replace (/ x * (x * y)) with y by (field; lra).
    apply Rle_trans with (y * (1 + k * uu) * (1 - (k + 1) * uu)).
    + apply Rmult_le_compat_r; lra.
    + nra.
  - replace (/ y * (1 + (k + 1) * uu) * (x * y)) with (x * (1 + (k + 1) * uu)) by (field; lra).
    replace (/ x * (x * y)) with y by (field; lra).
    apply Rle_trans with (y * (1 - k * uu) * (1 + (k + 1) * uu)).
    + assert (1 <= (1 - k * uu) * (1 + (k + 1) * uu)) by nra. nra.
    + apply Rmult_le_compat_r; lra.
Qed.

Lemma near_div j k x y x' y' : 0 <= j <= 99 -> 0 <= k <= 99 -> 0 <= y -> 0 < y' ->
  near j x y -> near k x' y' -> near (j + k + 2) (x / x') (y / y').
Proof.
  intros Hj Hk Py Py' A B. unfold Rdiv. replace (j + k + 2) with (j + (k + 1) + 1) by ring.
  apply near_mul; try lra; [ left; now apply Rinv_0_lt_compat | exact A | ].
  apply near_inv; [ lra | exact Py' | exact B ].
Qed.

Lemma near_add k x y x' y' : near k x y -> near k x' y' -> near k (x + x') (y + y').
Proof. unfold near. intros. lra. Qed.

Lemma near_rnd k r x y : 0 <= k <= 100 -> 0 <= y -> near k x y ->
  Rabs (r - x) <= uu * Rabs x -> near (k + 2) r y.
Proof.
  intros Hk Py N E. assert (Px := near_nn k x y ltac:(lra) N Py).
  apply Rabs_bnd in E; [ | exact Px ]. destruct N as [A1 A2].
  generalize uu_pos uu_small. intros U0 U1.
  assert (K : 0 <= k * uu <= / 1000000000) by nra.
  split.
  - apply Rle_trans with (y * (1 - k * uu) * (1 - uu)); [ | nra ].
    rewrite Rmult_assoc. apply Rmult_le_compat_l; [ exact Py | nra ].
  - apply Rle_trans with (y * (1 + k * uu) * (1 + uu)); [ nra | ].
    rewrite Rmult_assoc. apply Rmult_le_compat_l; [ exact Py | nra ].
Qed.

Lemma near_1 r x : 0 <= x -> Rabs (r - x) <= uu * Rabs x -> near 1 r x.
Proof. intros P E. apply Rabs_bnd in E; [ | exact P ]. unfold near. lra. Qed.

Lemma near_weak j k x y : j <= k -> 0 <= y -> near j x y -> near k x y.
Proof.
  intros H P [A B]. generalize uu_pos. intros U. assert (K : j * uu <= k * uu) by nra.
  assert (y * (j * uu) <= y * (k * uu)) by (apply Rmult_le_compat_l; assumption). split; lra.
Qed.

(** an integer multiple of a representable number *)
Lemma err_int n b : fmt b -> Rabs (rnd (INR n * b) - INR n * b) <= uu * Rabs (INR n * b).
Proof.
  intros F. apply (FLT_format_generic radix2 (-1074) 53) in F. destruct F as [[m e] E1 _ E3].
  cbn in E3.
  assert (X : INR n * b = F2R (Float radix2 (Z.of_nat n * (m * 2 ^ (e + 1074))) (-1074))).
  { rewrite E1. unfold F2R. cbn [Fnum Fexp]. rewrite !mult_IZR, <- INR_IZR_INZ.
    change (2 ^ (e + 1074))%Z with (radix2 ^ (e + 1074))%Z. rewrite IZR_Zpower by lia.
    rewrite !Rmult_assoc, <- bpow_plus. do 3 f_equal. lia. }
  rewrite X. rewrite <- uu_half. apply (relative_error_N_FLT_F2R_emin radix2 (-1074) 53). lia.
Qed.

Lemma uu_u53 : u53 = uu.
Proof. unfold u53, uu. now rewrite bp_powerRZ. Qed.

Lemma inv_norm n : (1 <= n)%nat -> (Z.of_nat n <= 2 ^ 53)%Z -> bpow radix2 (-53) <= 1 / INR n.
Proof.
  intros H B. change (-53)%Z with (- (53))%Z. rewrite bpow_opp. unfold Rdiv. rewrite Rmult_1_l.
  assert (1 <= INR n) by (apply (le_INR 1); exact H).
  apply Rinv_le; [ lra | ]. rewrite <- (IZR_Zpower radix2) by lia. rewrite INR_IZR_INZ. apply IZR_le. exact B.
Qed.

Lemma c0_near n : (2 <= n)%nat -> (Z.of_nat n < 2 ^ 53)%Z -> near 1 (rnd (1 / (INR n + 1))) (1 / (INR n + 1)).
Proof.
  intros Hn Hb. assert (N2 : 2 <= INR n) by (apply (le_INR 2); exact Hn).
  assert (P : 0 < 1 / (INR n + 1)) by (apply Rdiv_lt_0_compat; lra).
  apply near_1; [ lra | ]. apply err_n. rewrite Rabs_pos_eq by lra.
  rewrite <- (S_INR n). apply Rle_trans with (bpow radix2 (-53)); [ apply bpow_le; lia | ].
  apply inv_norm; lia.
Qed.

Lemma c1_near n : (2 <= n)%nat -> (Z.of_nat n < 2 ^ 53)%Z ->
  near 9 (rnd (rnd (INR n * INR n) / rnd (rnd (INR n * INR n) - 1))) (INR n * INR n / (INR n * INR n - 1)).
Proof.
  intros Hn Hb. assert (N2 : 2 <= INR n) by (apply (le_INR 2); exact Hn).
  generalize uu_pos uu_small. intros U0 U1.
  set (s := INR n * INR n). assert (S4 : 4 <= s) by (unfold s; nra).
  assert (Q : near 1 (rnd s) s).
  { apply near_1; [ lra | ]. apply err_n. rewrite Rabs_pos_eq by lra.
    apply Rle_trans with (bpow radix2 0); [ apply bpow_le; lia | cbn; lra ]. }
  assert (Fs : fmt (rnd s)) by apply fmt_rnd.
  assert (D : near 2 (rnd s - 1) (s - 1)).
  { destruct Q as [Q1 Q2]. split; nra. }
  assert (D' : near 4 (rnd (rnd s - 1)) (s - 1)).
  { replace 4 with (2 + 2) by ring. apply near_rnd with (rnd s - 1); [ lra | lra | exact D | ].
    apply err_minus; [ exact Fs | exact fmt_1 ]. }
  assert (V : near 7 (rnd s / rnd (rnd s - 1)) (s / (s - 1))).
  { replace 7 with (1 + 4 + 2) by ring. apply near_div; try lra; assumption. }
  replace 9 with (7 + 2) by ring. apply near_rnd with (rnd s / rnd (rnd s - 1)); [ lra | | exact V | ].
  - apply Rlt_le, Rdiv_lt_0_compat; lra.
  - apply err_n.
    assert (P : 1 <= s / (s - 1)).
    { apply Rmult_le_reg_r with (s - 1); [ lra | ]. unfold Rdiv. rewrite Rmult_assoc, Rinv_l; lra. }
    destruct (near_pos 7 _ _ ltac:(lra) V ltac:(lra)) as [V1 [V2 _]].
    rewrite Rabs_pos_eq by lra. apply Rle_trans with (bpow radix2 (-1)); [ apply bpow_le; lia | cbn; lra ].
Qed.

Section Bias.
Variables (n : nat) (t b : R).
Hypothesis Hn : (2 <= n)%nat.
Hypothesis Hnb : (Z.of_nat n < 2 ^ 53)%Z.
Hypothesis Ft : fmt t.
Hypothesis Fb : fmt b.
Hypothesis Lt : bpow radix2 (-400) <= t.
Hypothesis Bt : t < big.
Hypothesis Pb : 0 <= b.
Hypothesis Hb : b * b <= t.
Let tau := R_sqrt.sqrt t.
Let tau' := rnd tau.
Let c0 := rnd (1 / (INR n + 1)).
Let eta' := rnd (tau' + rnd (INR n * b)).
Let tb' := rnd (tau' + b).

Lemma tau_lo : bpow radix2 (-200) <= tau.
Proof.
  unfold tau. rewrite <- (sqrt_Rsqr (bpow radix2 (-200))) by apply bpow_ge_0. apply sqrt_le_1_alt. unfold Rsqr.
  rewrite <- bpow_plus. exact Lt.
Qed.
Lemma tau_hi : tau <= bpow radix2 512.
Proof.
  unfold tau. rewrite <- (sqrt_Rsqr (bpow radix2 512)) by apply bpow_ge_0. apply sqrt_le_1_alt. unfold Rsqr.
  rewrite <- bpow_plus. apply Rlt_le. exact Bt.
Qed.
Lemma tau_p : 0 < tau.
Proof. generalize tau_lo (bpow_gt_0 radix2 (-200)). lra. Qed.
Lemma b_tau : b <= tau.
Proof. unfold tau. rewrite <- (sqrt_Rsqr b Pb). apply sqrt_le_1_alt. exact Hb. Qed.
Lemma b_tau' : b <= tau'.
Proof. unfold tau'. rewrite <- (rnd_fmt b Fb). apply rnd_le, b_tau. Qed.

Lemma tau_near : near 1 tau' tau.
Proof.
  generalize tau_p tau_lo. intros P L. apply near_1; [ lra | ]. apply err_n. rewrite Rabs_pos_eq by lra.
  apply Rle_trans with (2 := L). apply bpow_le. lia.
Qed.

Lemma n2 : 2 <= INR n.
Proof. apply (le_INR 2). exact Hn. Qed.

Lemma eta_near : near 3 eta' (tau + INR n * b).
Proof.
  generalize tau_p n2. intros P N. assert (0 <= INR n * b) by nra.
  replace 3 with (1 + 2) by ring. apply near_rnd with (tau' + rnd (INR n * b)); [ lra | lra | | ].
  - apply near_add; [ exact tau_near | ]. apply near_1; [ lra | ]. now apply err_int.
  - apply err_plus; apply fmt_rnd.
Qed.

Lemma tb_near : near 3 tb' (tau + b).
Proof.
  generalize tau_p n2. intros P N.
  replace 3 with (1 + 2) by ring. apply near_rnd with (tau' + b); [ lra | lra | | ].
  - apply near_add; [ exact tau_near | ]. apply near_weak with 0; [ lra | lra | now apply near_refl ].
  - apply err_plus; [ apply fmt_rnd | exact Fb ].
Qed.

Lemma c0_lo : bpow radix2 (-53) <= 1 / (INR n + 1).
Proof. rewrite <- (S_INR n). apply inv_norm; lia. Qed.

(** a value between 2^-1022 and 2^1000 *)
Lemma norm_ge x : bpow radix2 (-1022) <= x -> bpow radix2 (-1022) <= Rabs x.
Proof. intros H. rewrite Rabs_pos_eq; [ exact H | ]. generalize (bpow_gt_0 radix2 (-1022)). lra. Qed.

Lemma eta_lo : bpow radix2 (-201) <= eta'.
Proof.
  generalize tau_p n2 tau_lo. intros P N L. assert (0 <= INR n * b) by nra.
  destruct (near_pos 3 _ _ ltac:(lra) eta_near ltac:(lra)) as [_ [E _]].
  apply Rle_trans with (bpow radix2 (-200) / 2); [ | lra ].
  right. replace (-200)%Z with (-201 + 1)%Z by lia. rewrite bpow_plus. cbn [bpow]. cbn. field.
Qed.

Lemma rho_near : near 7 (rnd (c0 * eta')) ((tau + INR n * b) / (INR n + 1)).
Proof.
  generalize tau_p n2 (c0_near n Hn Hnb) eta_near c0_lo eta_lo. intros P N C E L1 L2.
  assert (0 <= INR n * b) by nra.
  assert (P0 : 0 < 1 / (INR n + 1)) by (apply Rdiv_lt_0_compat; lra).
  replace ((tau + INR n * b) / (INR n + 1)) with (1 / (INR n + 1) * (tau + INR n * b)) by (field; lra).
  replace 7 with (1 + 3 + 1 + 2) by ring.
  apply near_rnd with (c0 * eta'); [ lra | apply Rmult_le_pos; lra | apply near_mul; lra || assumption | ].
  apply err_n, norm_ge.
  destruct (near_pos 1 _ _ ltac:(lra) C P0) as [_ [C1 _]]. fold c0 in C1.
  apply Rle_trans with (bpow radix2 (-54) * bpow radix2 (-201)).
  - rewrite <- bpow_plus. apply bpow_le. lia.
  - apply Rmult_le_compat; try apply bpow_ge_0; [ | exact L2 ].
    apply Rle_trans with (bpow radix2 (-53) / 2); [ | lra ].
    right. replace (-53)%Z with (-54 + 1)%Z by lia. rewrite bpow_plus. cbn [bpow]. cbn. field.
Qed.

Definition sigma_r : R := 2 * (tau + INR n * b) / ((INR n + 1) * (tau + b)).
Definition sigma_f : R := rnd (rnd (2 * c0 * eta') / tb').

Lemma c2e_near : near 7 (rnd (2 * c0 * eta')) (2 * ((tau + INR n * b) / (INR n + 1))).
Proof.
  generalize tau_p n2 (c0_near n Hn Hnb) eta_near c0_lo eta_lo. intros P N C E L1 L2.
  assert (0 <= INR n * b) by nra.
  assert (P0 : 0 < 1 / (INR n + 1)) by (apply Rdiv_lt_0_compat; lra).
  replace (2 * ((tau + INR n * b) / (INR n + 1))) with (2 * (1 / (INR n + 1)) * (tau + INR n * b)) by (field; lra).
  replace 7 with (1 + 3 + 1 + 2) by ring.
  assert (C2 : near 1 (2 * c0) (2 * (1 / (INR n + 1)))) by (unfold near in *; fold c0 in C; lra).
  apply near_rnd with (2 * c0 * eta'); [ lra | apply Rmult_le_pos; lra | apply near_mul; lra || assumption | ].
  apply err_n, norm_ge.
  destruct (near_pos 1 _ _ ltac:(lra) C P0) as [_ [C1 _]]. fold c0 in C1.
  apply Rle_trans with (bpow radix2 (-53) * bpow radix2 (-201)).
  - rewrite <- bpow_plus. apply bpow_le. lia.
  - apply Rmult_le_compat; try apply bpow_ge_0; [ lra | exact L2 ].
Qed.

Lemma sigma_bound : 1 / (INR n + 1) <= sigma_r <= 2.
Proof.
  generalize tau_p n2 b_tau. intros P N L. unfold sigma_r.
  assert (D : 0 < (INR n + 1) * (tau + b)) by nra.
  split.
  - apply Rmult_le_reg_r with ((INR n + 1) * (tau + b)); [ exact D | ].
    replace (1 / (INR n + 1) * ((INR n + 1) * (tau + b))) with (tau + b) by (field; lra).
    replace (2 * (tau + INR n * b) / ((INR n + 1) * (tau + b)) * ((INR n + 1) * (tau + b)))
      with (2 * (tau + INR n * b)) by (field; lra). nra.
  - apply Rmult_le_reg_r with ((INR n + 1) * (tau + b)); [ exact D | ].
    replace (2 * (tau + INR n * b) / ((INR n + 1) * (tau + b)) * ((INR n + 1) * (tau + b)))
      with (2 * (tau + INR n * b)) by (field; lra). nra.
Qed.

Lemma sigma_near : near 14 sigma_f sigma_r.
Proof.
  generalize tau_p n2 c2e_near tb_near c0_lo sigma_bound. intros P N C E L1 [S1 S2].
  assert (0 <= INR n * b) by nra.
  assert (V : near 12 (rnd (2 * c0 * eta') / tb') sigma_r).
  { replace sigma_r with (2 * ((tau + INR n * b) / (INR n + 1)) / (tau + b)) by (unfold sigma_r; field; lra).
    replace 12 with (7 + 3 + 2) by ring. apply near_div; try lra; try assumption.
    apply Rmult_le_pos; [ lra | ]. apply Rlt_le, Rdiv_lt_0_compat; lra. }
  replace 14 with (12 + 2) by ring.
  assert (S0 : 0 < sigma_r) by (generalize (bpow_gt_0 radix2 (-53)); lra).
  apply near_rnd with (rnd (2 * c0 * eta') / tb'); [ lra | lra | exact V | ].
  apply err_n, norm_ge. destruct (near_pos 12 _ _ ltac:(lra) V S0) as [_ [V1 _]].
  apply Rle_trans with (bpow radix2 (-53) / 2); [ | lra ].
  apply Rle_trans with (bpow radix2 (-54)); [ apply bpow_le; lia | ].
  right. replace (-53)%Z with (-54 + 1)%Z by lia. rewrite bpow_plus. cbn [bpow]. cbn. field.
Qed.

(** ** delta *)
Let al := b / tau.
Let al' := rnd (b / tau').
Let m' := rnd (1 - al').
Let p' := rnd (1 + al').
Let k1 := INR n * INR n / (INR n * INR n - 1).
Let k1' := rnd (rnd (INR n * INR n) / rnd (rnd (INR n * INR n) - 1)).
Definition delta_r : R := k1 * (1 - al) * (1 + al).
Definition delta_f : R := rnd (rnd (k1' * m') * p').

Lemma al_range : 0 <= al <= 1.
Proof.
  generalize tau_p b_tau. intros P L. unfold al. split.
  - unfold Rdiv. apply Rmult_le_pos; [ exact Pb | ]. left. now apply Rinv_0_lt_compat.
  - apply Rmult_le_reg_r with tau; [ exact P | ]. unfold Rdiv. rewrite Rmult_assoc, Rinv_l; lra.
Qed.

Lemma tau'_p : 0 < tau'.
Proof. destruct (near_pos 1 _ _ ltac:(lra) tau_near tau_p) as [H _]. exact H. Qed.

Lemma al'_range : 0 <= b / tau' <= 1 /\ 0 <= al' <= 1.
Proof.
  generalize tau'_p b_tau'. intros P L.
  assert (R : 0 <= b / tau' <= 1).
  { split.
    - unfold Rdiv. apply Rmult_le_pos; [ exact Pb | ]. left. now apply Rinv_0_lt_compat.
    - apply Rmult_le_reg_r with tau'; [ exact P | ]. unfold Rdiv. rewrite Rmult_assoc, Rinv_l; lra. }
  split; [ exact R | ]. unfold al'. split; [ apply rnd_nonneg; lra | ].
  rewrite <- (rnd_fmt 1 fmt_1). apply rnd_le. lra.
Qed.

Lemma eta0_u : eta0 <= uu * uu.
Proof. unfold eta0, uu. rewrite <- bpow_plus. apply bpow_le. lia. Qed.

Lemma al_err : Rabs (al' - al) <= 5 * uu.
Proof.
  generalize uu_pos uu_small tau_p al_range al'_range eta0_u. intros U0 U1 P A [A' _] E0.
  assert (V : near 3 (b / tau') al).
  { unfold al. replace 3 with (0 + 1 + 2) by ring. apply near_div; try lra; [ now apply near_refl | exact tau_near ]. }
  assert (E := err_any (b / tau')). fold al' in E. rewrite (Rabs_pos_eq (b / tau')) in E by lra.
  apply Rabs_le_inv in E. destruct V as [V1 V2]. apply Rabs_le. nra.
Qed.

Lemma m_err : Rabs (m' - (1 - al)) <= 6 * uu /\ 0 <= m' <= 1.
Proof.
  generalize uu_pos uu_small al_err al_range al'_range. intros U0 U1 A R [_ R'].
  assert (E := err_minus 1 al' fmt_1 (fmt_rnd _)). fold m' in E. rewrite (Rabs_pos_eq (1 - al')) in E by lra.
  apply Rabs_le_inv in E, A. split; [ apply Rabs_le; nra | ].
  split; [ apply rnd_nonneg; lra | ]. unfold m'. rewrite <- (rnd_fmt 1 fmt_1) at 2. apply rnd_le. lra.
Qed.

Lemma p_err : Rabs (p' - (1 + al)) <= 7 * uu /\ 1 <= p' <= 2.
Proof.
  generalize uu_pos uu_small al_err al_range al'_range. intros U0 U1 A R [_ R'].
  assert (E := err_plus 1 al' fmt_1 (fmt_rnd _)). fold p' in E. rewrite (Rabs_pos_eq (1 + al')) in E by lra.
  apply Rabs_le_inv in E, A. split; [ apply Rabs_le; nra | ].
  split; unfold p'; [ rewrite <- (rnd_fmt 1 fmt_1) at 1 | rewrite <- (rnd_fmt 2 (fmt_int 2 ltac:(lia))) ]; apply rnd_le; lra.
Qed.

Lemma k1_range : 1 <= k1 <= 4 / 3.
Proof.
  generalize n2. intros N. assert (4 <= INR n * INR n) by nra. unfold k1.
  split; apply Rmult_le_reg_r with (INR n * INR n - 1); try lra;
    unfold Rdiv at 1; try (rewrite Rmult_assoc, Rinv_l by lra); try lra.
Qed.

Lemma delta_err : Rabs (delta_f - delta_r) <= 60 * uu /\ 0 <= delta_f.
Proof.
  generalize uu_pos uu_small al_range m_err p_err k1_range (c1_near n Hn Hnb) eta0_u.
  intros U0 U1 A [M1 M2] [P1 P2] K1 K2 E0. fold k1 k1' in K2.
  set (m := 1 - al) in *. set (p := 1 + al) in *.
  assert (Mr : 0 <= m <= 1) by (unfold m; lra). assert (Pr : 1 <= p <= 2) by (unfold p; lra).
  assert (K3 : Rabs (k1' - k1) <= 12 * uu).
  { destruct K2 as [K2 K4]. apply Rabs_le. nra. }
  assert (K0 : 0 <= k1' <= 2).
  { destruct K2 as [K2 K4]. split; nra. }
  assert (X1 : Rabs (k1' * m' - k1 * m) <= 20 * uu).
  { replace (k1' * m' - k1 * m) with ((k1' - k1) * m' + k1 * (m' - m)) by ring.
    apply Rle_trans with (1 := Rabs_triang _ _). rewrite !Rabs_mult, (Rabs_pos_eq m'), (Rabs_pos_eq k1) by lra.
    assert (Rabs (k1' - k1) * m' <= 12 * uu * 1) by (apply Rmult_le_compat; lra || apply Rabs_pos).
    assert (k1 * Rabs (m' - m) <= 4 / 3 * (6 * uu)) by (apply Rmult_le_compat; lra || apply Rabs_pos). lra. }
  assert (E1 := err_any (k1' * m')). rewrite (Rabs_pos_eq (k1' * m')) in E1 by nra.
  assert (X2 : Rabs (rnd (k1' * m') - k1 * m) <= 23 * uu).
  { replace (rnd (k1' * m') - k1 * m) with ((rnd (k1' * m') - k1' * m') + (k1' * m' - k1 * m)) by ring.
    apply Rle_trans with (1 := Rabs_triang _ _). assert (k1' * m' <= 2) by nra. nra. }
  set (d1 := rnd (k1' * m')) in *.
  assert (D1 : 0 <= d1) by (apply rnd_nonneg; nra).
  assert (D2 : d1 <= 2) by (apply Rabs_le_inv in X2; nra).
  assert (X3 : Rabs (d1 * p' - k1 * m * p) <= 56 * uu).
  { replace (d1 * p' - k1 * m * p) with ((d1 - k1 * m) * p' + k1 * m * (p' - p)) by ring.
    apply Rle_trans with (1 := Rabs_triang _ _). rewrite (Rabs_mult (d1 - k1 * m)), (Rabs_mult (k1 * m)).
    rewrite (Rabs_pos_eq p'), (Rabs_pos_eq (k1 * m)) by nra.
    assert (Rabs (d1 - k1 * m) * p' <= 23 * uu * 2) by (apply Rmult_le_compat; lra || apply Rabs_pos).
    assert (k1 * m <= 4 / 3) by nra.
    assert (k1 * m * Rabs (p' - p) <= 4 / 3 * (7 * uu)) by (apply Rmult_le_compat; nra || apply Rabs_pos). lra. }
  assert (E2 := err_any (d1 * p')). rewrite (Rabs_pos_eq (d1 * p')) in E2 by nra.
  change (rnd (d1 * p')) with delta_f in E2.
  assert (Dv : d1 * p' <= 2).
  { apply Rabs_le_inv in X3. assert (m * p <= 1) by (unfold m, p; nra).
    assert (k1 * m * p <= 4 / 3) by nra. lra. }
  split; [ | change (0 <= rnd (d1 * p')); apply rnd_nonneg, Rmult_le_pos; lra ].
  unfold delta_r. fold m p.
  replace (delta_f - k1 * m * p) with ((delta_f - d1 * p') + (d1 * p' - k1 * m * p)) by ring.
  apply Rle_trans with (1 := Rabs_triang _ _). nra.
Qed.

(** the margin that keeps sigma below one *)
Lemma sigma_lt1 : b * b <= t * (1 - bpow radix2 (-40)) -> sigma_f < 1.
Proof.
  intros M. generalize uu_pos uu_small tau_p n2 b_tau sigma_near sigma_bound. intros U0 U1 P N L [_ S] [_ S2].
  assert (T2 : tau * tau = t) by (apply sqrt_sqrt; generalize (bpow_gt_0 radix2 (-400)); lra).
  set (e := bpow radix2 (-40)) in *.
  assert (Ee : e = uu * 8192).
  { unfold e, uu. replace (-40)%Z with (-53 + 13)%Z by lia. rewrite bpow_plus. f_equal. }
  assert (E1 : b <= tau * (1 - e / 2)).
  { apply Rsqr_incr_0; [ | exact Pb | apply Rmult_le_pos; lra ]. unfold Rsqr.
    replace (tau * (1 - e / 2) * (tau * (1 - e / 2))) with (tau * tau * ((1 - e / 2) * (1 - e / 2))) by ring.
    rewrite T2. apply Rle_trans with (1 := M). apply Rmult_le_compat_l; [ nra | nra ]. }
  assert (D : 0 < (INR n + 1) * (tau + b)) by nra.
  assert (Sb : sigma_r <= 1 - e / 12).
  { unfold sigma_r. apply Rmult_le_reg_r with ((INR n + 1) * (tau + b)); [ exact D | ].
    replace (2 * (tau + INR n * b) / ((INR n + 1) * (tau + b)) * ((INR n + 1) * (tau + b)))
      with (2 * (tau + INR n * b)) by (field; lra).
    assert (X : (INR n + 1) * (tau + b) - 2 * (tau + INR n * b) = (INR n - 1) * (tau - b)) by ring.
    assert (Y : (INR n + 1) * (tau + b) * (e / 12) <= (INR n - 1) * (tau - b)); [ | lra ].
    assert (e / 2 * tau <= tau - b) by lra.
    assert ((INR n + 1) <= 3 * (INR n - 1)) by lra.
    assert ((INR n + 1) * (tau + b) <= 3 * (INR n - 1) * (2 * tau)) by (apply Rmult_le_compat; lra).
    apply Rle_trans with (3 * (INR n - 1) * (2 * tau) * (e / 12)); [ apply Rmult_le_compat_r; lra | ].
    apply Rle_trans with ((INR n - 1) * (e / 2 * tau)); [ right; field | ]. apply Rmult_le_compat_l; lra. }
  nra.
Qed.
End Bias.
