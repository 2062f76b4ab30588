(** Accuracy of the parallel central cut in double arithmetic. *)
From Coq Require Import Reals ZArith Lia Lra Psatz Bool Floats List.
From Flocq Require Import Core.Core.
From Verif Require Import Arith Vec ModelCalc ModelEll ModelStable SpecDrivers SpecFloating SpecCut.
From Verif Require Import PCalc PCalc2 PCalc3.
From Verif Require Import PFloat PFloatSign PFloatCalc PFloatErr PFloatPar PFloatCut PFloatCut2 PFloatAcc PFloatAcc2 PFloatAcc3.
Import ListNotations.
Local Open Scope R_scope.

Lemma near_sqrt k x y : 0 <= k <= 50 -> 0 <= y -> near (2 * k) x y ->
  near (k + 1) (R_sqrt.sqrt x) (R_sqrt.sqrt y).
Proof.
  intros Hk Py [A B]. generalize uu_pos uu_small. intros U0 U1.
  assert (K : 0 <= k * uu <= / 1000000000) by nra.
  assert (KK : k * uu * (k * uu) <= uu * / 2).
  { assert (k * k <= 2500) by nra. replace (k * uu * (k * uu)) with (k * k * uu * uu) by ring. nra. }
  assert (S0 := sqrt_pos y). assert (S2 := sqrt_sqrt y Py). set (s := R_sqrt.sqrt y) in *.
  split.
  - apply Rle_trans with (R_sqrt.sqrt (Rsqr (s * (1 - (k + 1) * uu)))).
    + rewrite sqrt_Rsqr; [ lra | apply Rmult_le_pos; [ exact S0 | nra ] ].
    + apply sqrt_le_1_alt. apply Rle_trans with (2 := A). unfold Rsqr.
      replace (s * (1 - (k + 1) * uu) * (s * (1 - (k + 1) * uu))) with (y * ((1 - (k + 1) * uu) * (1 - (k + 1) * uu)))
        by (rewrite <- S2; ring).
      apply Rmult_le_compat_l; [ exact Py | ]. nra.
  - apply Rle_trans with (R_sqrt.sqrt (Rsqr (s * (1 + (k + 1) * uu)))).
    + apply sqrt_le_1_alt. apply Rle_trans with (1 := B). unfold Rsqr.
      replace (s * (1 + (k + 1) * uu) * (s * (1 + (k + 1) * uu))) with (y * ((1 + (k + 1) * uu) * (1 + (k + 1) * uu)))
        by (rewrite <- S2; ring).
      apply Rmult_le_compat_l; [ exact Py | ]. nra.
    + rewrite sqrt_Rsqr; [ lra | apply Rmult_le_pos; [ exact S0 | nra ] ].
Qed.

Lemma bnd x y e : Rabs (x - y) <= e -> y - e <= x <= y + e.
Proof. intros H. apply Rabs_le_inv in H. lra. Qed.

Section Real.
Variables (n : nat) (t b : R).
Hypothesis Hn : (2 <= n)%nat.
Hypothesis Hnb : (Z.of_nat n < 2 ^ 53)%Z.
Hypothesis Ft : fmt t.
Hypothesis Fb : fmt b.
Hypothesis Lt : bpow radix2 (-400) <= t.
Hypothesis Bt : t < big.
Hypothesis Pb : 0 <= b.
Hypothesis Hb : b * b <= t.
Let N := INR n.
Let a := b * b / t.
Let k := N / 2 * a.
Let s := R_sqrt.sqrt (1 - a + k * k).
Let r := k + s.
Let q' := rnd (b * b).
Let a' := rnd (q' / t).
Let k' := rnd (N / 2 * a').
Let m' := rnd (1 - a').
Let kk' := rnd (k' * k').
Let rad' := rnd (m' + kk').
Let s' := rnd (R_sqrt.sqrt rad').
Let r' := rnd (k' + s').
Let e := bpow radix2 (-600).

Lemma pc_t0 : 0 < t.
Proof. generalize (bpow_gt_0 radix2 (-400)). lra. Qed.
Lemma pc_N : 2 <= N.
Proof. apply (le_INR 2). exact Hn. Qed.
Lemma pc_Nb : N <= bpow radix2 53.
Proof. unfold N. rewrite INR_IZR_INZ, <- (IZR_Zpower radix2) by lia. apply IZR_le. change (radix2 ^ 53)%Z with (2 ^ 53)%Z. lia. Qed.
Lemma pc_a : 0 <= a <= 1.
Proof.
  generalize pc_t0. intros P. assert (I := Rinv_0_lt_compat _ P). unfold a, Rdiv. split.
  - apply Rmult_le_pos; nra.
  - apply Rmult_le_reg_r with t; [ exact P | ]. rewrite Rmult_assoc, Rinv_l; lra.
Qed.
Lemma pc_k : a <= k.
Proof. generalize pc_a pc_N. intros. unfold k. nra. Qed.
Lemma pc_rad : 3 / 4 <= 1 - a + k * k.
Proof.
  generalize pc_a pc_k. intros A K. assert (a * a <= k * k) by (apply Rmult_le_compat; lra).
  assert (Q := Rle_0_sqr (a - 1 / 2)). unfold Rsqr in Q. lra.
Qed.
Lemma pc_r1 : 1 <= r.
Proof.
  generalize pc_a pc_k pc_rad. intros A K Rd.
  assert (1 - a <= s); [ | unfold r; lra ].
  apply Rle_trans with (R_sqrt.sqrt (Rsqr (1 - a))); [ rewrite sqrt_Rsqr; lra | ]. unfold s. apply sqrt_le_1_alt. unfold Rsqr.
  assert (a * a <= k * k) by (apply Rmult_le_compat; lra). lra.
Qed.

Lemma pc_q' : 0 <= q' <= t.
Proof.
  split; [ apply rnd_nonneg; nra | ]. rewrite <- (rnd_fmt t Ft). now apply rnd_le.
Qed.
Lemma pc_a' : 0 <= a' <= 1.
Proof.
  generalize pc_t0 pc_q'. intros P Q. assert (I := Rinv_0_lt_compat _ P). split.
  - apply rnd_nonneg. unfold Rdiv. apply Rmult_le_pos; lra.
  - rewrite <- (rnd_fmt 1 fmt_1). apply rnd_le. apply Rmult_le_reg_r with t; [ exact P | ].
    unfold Rdiv. rewrite Rmult_assoc, Rinv_l; lra.
Qed.

Lemma pc_ea : Rabs (a' - a) <= 3 * uu * a + 2 * bpow radix2 (-675).
Proof.
  generalize pc_t0 pc_a pc_q' uu_pos uu_small. intros P A Q U0 U1.
  assert (E1 := err_any (b * b)). fold q' in E1. rewrite (Rabs_pos_eq (b * b)) in E1 by nra.
  assert (I := Rinv_0_lt_compat _ P).
  assert (It : / t <= bpow radix2 400).
  { replace 400%Z with (- (-400))%Z by lia. rewrite bpow_opp. apply Rinv_le; [ apply bpow_gt_0 | exact Lt ]. }
  assert (E2 : Rabs (q' / t - a) <= uu * a + bpow radix2 (-675)).
  { unfold a. replace (q' / t - b * b / t) with ((q' - b * b) * / t) by (field; lra).
    rewrite Rabs_mult, (Rabs_pos_eq (/ t)) by lra.
    apply Rle_trans with ((uu * (b * b) + eta0) * / t); [ apply Rmult_le_compat_r; lra | ].
    replace (uu * (b * b / t)) with (uu * (b * b) * / t) by (field; lra).
    rewrite Rmult_plus_distr_r. apply Rplus_le_compat_l.
    replace (bpow radix2 (-675)) with (eta0 * bpow radix2 400) by (unfold eta0; rewrite <- bpow_plus; f_equal; lia).
    apply Rmult_le_compat_l; [ generalize eta0_pos; lra | exact It ]. }
  assert (E3 := err_any (q' / t)). fold a' in E3.
  assert (X0 : 0 <= q' / t) by (unfold Rdiv; apply Rmult_le_pos; lra).
  rewrite (Rabs_pos_eq (q' / t)) in E3 by exact X0.
  assert (Z : eta0 <= bpow radix2 (-675) * / 2).
  { apply Rle_trans with (bpow radix2 (-676)); [ apply bpow_le; lia | ].
    right. replace (-675)%Z with (-676 + 1)%Z by lia. rewrite bp_S. field. }
  assert (G := bpow_gt_0 radix2 (-675)). set (g := bpow radix2 (-675)) in *.
  apply bnd in E2. apply bnd in E3. apply Rabs_le.
  assert (uu * (q' / t) <= uu * (2 * a + g)) by (apply Rmult_le_compat_l; nra).
  split; nra.
Qed.

Lemma pc_ek : Rabs (k' - k) <= 5 * uu * k + uu * uu.
Proof.
  generalize pc_a pc_a' pc_ea pc_k pc_N pc_Nb uu_pos uu_small. intros A A' E K N2 Nb U0 U1.
  assert (E3 := err_any (N / 2 * a')). fold k' in E3.
  rewrite (Rabs_pos_eq (N / 2 * a')) in E3 by nra.
  assert (G := bpow_gt_0 radix2 (-675)).
  assert (Z : N / 2 * (2 * bpow radix2 (-675)) <= uu * uu / 4).
  { apply Rle_trans with (bpow radix2 53 * bpow radix2 (-675)); [ nra | ].
    apply Rle_trans with (bpow radix2 (-108)).
    - rewrite <- bpow_plus. apply bpow_le. lia.
    - right. unfold uu. rewrite <- bpow_plus. replace (-53 + -53)%Z with (-108 + 1 + 1)%Z by lia. rewrite !bp_S. field. }
  assert (Z2 : eta0 <= uu * uu / 4).
  { apply Rle_trans with (bpow radix2 (-108)).
    - apply bpow_le. lia.
    - right. unfold uu. rewrite <- bpow_plus. replace (-53 + -53)%Z with (-108 + 1 + 1)%Z by lia. rewrite !bp_S. field. }
  set (g := bpow radix2 (-675)) in *.
  assert (E4 : Rabs (N / 2 * a' - k) <= 3 * uu * k + uu * uu / 4).
  { unfold k. replace (N / 2 * a' - N / 2 * a) with (N / 2 * (a' - a)) by ring.
    rewrite Rabs_mult, (Rabs_pos_eq (N / 2)) by lra.
    apply Rle_trans with (N / 2 * (3 * uu * a + 2 * g)); [ apply Rmult_le_compat_l; lra | lra ]. }
  apply bnd in E4. apply bnd in E3. apply Rabs_le.
  assert (k0 : 0 <= k) by lra.
  assert (uu * (N / 2 * a') <= uu * (3 / 2 * k + uu * uu / 4)) by (apply Rmult_le_compat_l; nra).
  assert (uu * uu * uu <= uu * uu * / 10) by nra.
  split; nra.
Qed.

Lemma pc_k'0 : 0 <= k'.
Proof. generalize pc_a' pc_N. intros. apply rnd_nonneg. nra. Qed.

Lemma pc_ekk : Rabs (kk' - k * k) <= 14 * uu * (k * k) + 4 * (uu * uu).
Proof.
  generalize pc_a pc_k pc_ek pc_k'0 uu_pos uu_small. intros A K E K' U0 U1.
  assert (E3 := err_any (k' * k')). fold kk' in E3.
  rewrite (Rabs_pos_eq (k' * k')) in E3 by nra.
  assert (k0 : 0 <= k) by lra.
  assert (Z2 : eta0 <= uu * uu / 4).
  { apply Rle_trans with (bpow radix2 (-108)).
    - apply bpow_le. lia.
    - right. unfold uu. rewrite <- bpow_plus. replace (-53 + -53)%Z with (-108 + 1 + 1)%Z by lia. rewrite !bp_S. field. }
  set (d := k' - k) in *.
  assert (D : Rabs d <= 5 * uu * k + uu * uu) by exact E.
  replace k' with (k + d) in * by (unfold d; ring). clear E.
  assert (D0 := Rabs_pos d).
  assert (Q : Rabs ((k + d) * (k + d) - k * k) <= 12 * uu * (k * k) + 3 * (uu * uu)).
  { replace ((k + d) * (k + d) - k * k) with (d * (2 * k + d)) by ring. rewrite Rabs_mult.
    apply Rle_trans with ((5 * uu * k + uu * uu) * (2 * k + (5 * uu * k + uu * uu))).
    - apply Rmult_le_compat; try apply Rabs_pos; [ exact D | ].
      apply Rle_trans with (1 := Rabs_triang _ _). rewrite (Rabs_pos_eq (2 * k)) by lra. lra.
    - replace ((5 * uu * k + uu * uu) * (2 * k + (5 * uu * k + uu * uu)))
        with (10 * uu * (k * k) + 25 * uu * uu * (k * k) + 2 * (uu * uu) * k + 10 * (uu * uu) * (uu * k) + (uu * uu) * (uu * uu)) by ring.
      assert (k <= (1 + k * k) / 2) by (assert (Q := Rle_0_sqr (k - 1)); unfold Rsqr in Q; lra).
      assert (V : 0 <= uu * uu <= uu * / 1000) by nra.
      assert (KK : 0 <= k * k) by nra.
      assert (2 * (uu * uu) * k <= (uu * uu) * (1 + k * k)) by nra.
      assert (10 * (uu * uu) * (uu * k) <= (uu * uu) * (1 + k * k)).
      { replace (10 * (uu * uu) * (uu * k)) with ((uu * uu) * (10 * uu * k)) by ring. apply Rmult_le_compat_l; nra. }
      assert ((uu * uu) * (uu * uu) <= uu * uu * 1) by (apply Rmult_le_compat_l; nra).
      assert (uu * uu * (k * k) <= uu * / 1000 * (k * k)) by (apply Rmult_le_compat_r; lra).
      nra. }
  apply bnd in Q. apply bnd in E3. apply Rabs_le.
  assert (KK : 0 <= k * k) by nra.
  assert (W : uu * ((k + d) * (k + d)) <= uu * (3 / 2 * (k * k) + 3 * (uu * uu))).
  { apply Rmult_le_compat_l; [ lra | ]. assert (12 * uu * (k * k) <= / 2 * (k * k)) by (apply Rmult_le_compat_r; lra). lra. }
  assert (uu * (3 * (uu * uu)) <= / 10 * (uu * uu)) by nra.
  assert (0 <= uu * (k * k)) by (apply Rmult_le_pos; lra). assert (0 <= uu * uu) by nra.
  split; lra.
Qed.

Lemma pc_em : Rabs (m' - (1 - a)) <= 5 * uu.
Proof.
  generalize pc_a pc_a' pc_ea uu_pos uu_small. intros A A' E U0 U1.
  assert (E3 := err_minus 1 a' fmt_1 (fmt_rnd _)). fold m' in E3.
  rewrite (Rabs_pos_eq (1 - a')) in E3 by lra.
  assert (Z : 2 * bpow radix2 (-675) <= uu).
  { rewrite <- bp_S. apply bpow_le. lia. }
  apply bnd in E3. apply bnd in E. apply Rabs_le. split; nra.
Qed.

Lemma pc_near_rad : near 24 rad' (1 - a + k * k).
Proof.
  generalize pc_a pc_rad pc_em pc_ekk uu_pos uu_small. intros A Rd M K U0 U1.
  apply bnd in M. apply bnd in K.
  replace 24 with (22 + 2) by ring. apply near_rnd with (m' + kk'); [ lra | lra | | apply err_plus; apply fmt_rnd ].
  assert (KK : 0 <= k * k) by nra. assert (4 * (uu * uu) <= uu) by nra.
  assert (k * k <= 1 - a + k * k) by lra.
  assert (14 * uu * (k * k) <= 14 * uu * (1 - a + k * k)) by (apply Rmult_le_compat_l; lra).
  assert (6 * uu <= 8 * uu * (1 - a + k * k)) by nra.
  split; lra.
Qed.

Lemma pc_near_s : near 15 s' s.
Proof.
  generalize pc_rad pc_near_rad. intros Rd M.
  assert (S0 : 1 / 2 <= s).
  { unfold s. rewrite <- (sqrt_Rsqr (1 / 2)) by lra. apply sqrt_le_1_alt. unfold Rsqr. lra. }
  assert (X : near 13 (R_sqrt.sqrt rad') s).
  { replace 13 with (12 + 1) by ring. apply near_sqrt; [ lra | lra | ]. now replace (2 * 12) with 24 by ring. }
  replace 15 with (13 + 2) by ring. apply near_rnd with (R_sqrt.sqrt rad'); [ lra | lra | exact X | ].
  apply err_n. destruct (near_pos 13 _ _ ltac:(lra) X ltac:(lra)) as [V1 [V2 _]].
  rewrite Rabs_pos_eq by lra. apply Rle_trans with (bpow radix2 (-2)); [ apply bpow_le; lia | cbn; lra ].
Qed.

Lemma pc_near_r : near 18 r' r.
Proof.
  generalize pc_a pc_k pc_ek pc_near_s pc_r1 uu_pos uu_small. intros A K E [S1 S2] R1 U0 U1.
  apply bnd in E.
  replace 18 with (16 + 2) by ring. apply near_rnd with (k' + s'); [ lra | lra | | apply err_plus; apply fmt_rnd ].
  assert (uu * uu <= uu * r) by nra. assert (S0 : 0 <= s) by apply sqrt_pos.
  assert (0 <= uu * k) by nra. assert (0 <= uu * s) by nra.
  unfold r in *. split; lra.
Qed.

Lemma pc_near_r1 : near 20 (rnd (r' + 1)) (r + 1).
Proof.
  generalize pc_near_r pc_r1 uu_pos uu_small. intros X R1 U0 U1.
  replace 20 with (18 + 2) by ring. apply near_rnd with (r' + 1); [ lra | lra | | apply err_plus; [ apply fmt_rnd | exact fmt_1 ] ].
  destruct X as [X1 X2]. split; lra.
Qed.

Lemma pc_near_sigma : near 24 (rnd (2 / rnd (r' + 1))) (2 / (r + 1)).
Proof.
  generalize pc_near_r1 pc_r1 pc_a pc_k pc_Nb. intros X R1 A K Nb.
  assert (V : near 22 (2 / rnd (r' + 1)) (2 / (r + 1))).
  { replace 22 with (0 + 20 + 2) by ring. apply near_div; try lra; [ apply near_refl; lra | exact X ]. }
  assert (P : 0 < 2 / (r + 1)) by (apply Rdiv_lt_0_compat; lra).
  replace 24 with (22 + 2) by ring. apply near_rnd with (2 / rnd (r' + 1)); [ lra | lra | exact V | ].
  apply err_n, norm_ge. destruct (near_pos 22 _ _ ltac:(lra) V P) as [_ [V2 _]].
  apply Rle_trans with (2 := V2).
  assert (K1 : k <= bpow radix2 53) by (generalize pc_N; intros; unfold k; nra).
  assert (B1 : 1 <= bpow radix2 53) by (apply (bpow_le radix2 0 53); lia).
  assert (S1 : s <= 1 + k).
  { unfold s. rewrite <- (sqrt_Rsqr (1 + k)) by lra. apply sqrt_le_1_alt. unfold Rsqr. nra. }
  assert (R2 : r + 1 <= bpow radix2 55).
  { replace 55%Z with (53 + 1 + 1)%Z by lia. rewrite !bp_S. unfold r. lra. }
  replace (2 / (r + 1) / 2) with (/ (r + 1)) by (field; lra).
  apply Rle_trans with (/ bpow radix2 55).
  - rewrite <- bpow_opp. apply bpow_le. lia.
  - apply Rinv_le; lra.
Qed.

Lemma pc_rho : Rabs (rnd (b / rnd (r' + 1)) - b / (r + 1)) <= 24 * uu * (b / (r + 1)) + eta0.
Proof.
  generalize pc_near_r1 pc_r1 uu_pos uu_small. intros X R1 U0 U1.
  assert (V : near 22 (b / rnd (r' + 1)) (b / (r + 1))).
  { replace 22 with (0 + 20 + 2) by ring. apply near_div; try lra; [ apply near_refl; lra | exact X ]. }
  assert (P : 0 <= b / (r + 1)) by (unfold Rdiv; apply Rmult_le_pos; [ exact Pb | left; apply Rinv_0_lt_compat; lra ]).
  assert (P' := near_nn 22 _ _ ltac:(lra) V P).
  assert (E := err_any (b / rnd (r' + 1))). rewrite (Rabs_pos_eq (b / rnd (r' + 1))) in E by exact P'.
  apply bnd in E. destruct V as [V1 V2]. apply Rabs_le.
  set (x := b / rnd (r' + 1)) in *. set (y := b / (r + 1)) in *.
  assert (uu * x <= uu * (2 * y)) by (apply Rmult_le_compat_l; nra).
  split; lra.
Qed.

Lemma pc_near_inv : near 1 (rnd (1 / N)) (1 / N).
Proof.
  generalize pc_N. intros N2. assert (P : 0 < 1 / N) by (apply Rdiv_lt_0_compat; lra).
  apply near_1; [ lra | ]. apply err_n, norm_ge.
  apply Rle_trans with (bpow radix2 (-53)); [ apply bpow_le; lia | ]. apply inv_norm; lia.
Qed.

Lemma pc_near_delta : near 61 (rnd (r' / rnd (r' - rnd (1 / N)))) (r / (r - 1 / N)).
Proof.
  generalize pc_near_r pc_near_inv pc_r1 pc_N uu_pos uu_small. intros X I R1 N2 U0 U1.
  assert (P : 0 < 1 / N <= 1 / 2).
  { split; [ apply Rdiv_lt_0_compat; lra | ]. unfold Rdiv. rewrite !Rmult_1_l. apply Rinv_le; lra. }
  assert (D : near 37 (r' - rnd (1 / N)) (r - 1 / N)).
  { destruct X as [X1 X2], I as [I1 I2]. split; nra. }
  assert (D2 : near 39 (rnd (r' - rnd (1 / N))) (r - 1 / N)).
  { replace 39 with (37 + 2) by ring. apply near_rnd with (r' - rnd (1 / N)); [ lra | lra | exact D | ].
    apply err_minus; apply fmt_rnd. }
  assert (V : near 59 (r' / rnd (r' - rnd (1 / N))) (r / (r - 1 / N))).
  { replace 59 with (18 + 39 + 2) by ring. apply near_div; try lra; assumption. }
  assert (Q : 1 <= r / (r - 1 / N)).
  { apply Rmult_le_reg_r with (r - 1 / N); [ lra | ]. unfold Rdiv at 2. rewrite Rmult_assoc, Rinv_l; lra. }
  replace 61 with (59 + 2) by ring. apply near_rnd with (r' / rnd (r' - rnd (1 / N))); [ lra | lra | exact V | ].
  apply err_n, norm_ge. destruct (near_pos 59 _ _ ltac:(lra) V ltac:(lra)) as [_ [V2 _]].
  apply Rle_trans with (2 := V2). apply Rle_trans with (bpow radix2 (-1)); [ apply bpow_le; lia | cbn; lra ].
Qed.
End Real.


Lemma near_trans j k x y z : 0 <= j <= 100 -> 0 <= k <= 100 -> 0 <= z -> near j x y -> near k y z -> near (j + k + 1) x z.
Proof.
  intros Hj Hk Pz [A1 A2] [B1 B2]. generalize uu_pos uu_small. intros U0 U1.
  assert (J : 0 <= j * uu <= / 1000000000) by nra. assert (K : 0 <= k * uu <= / 1000000000) by nra.
  assert (JK : 0 <= j * uu * (k * uu) <= uu).
  { assert (0 <= j * k <= 10000) by nra. replace (j * uu * (k * uu)) with (j * k * uu * uu) by ring. split; [ | nra ].
    repeat apply Rmult_le_pos; lra. }
  split.
  - apply Rle_trans with (z * (1 - k * uu) * (1 - j * uu)).
    + rewrite Rmult_assoc. apply Rmult_le_compat_l; [ exact Pz | nra ].
    + apply Rle_trans with (2 := A1). apply Rmult_le_compat_r; lra.
  - apply Rle_trans with (z * (1 + k * uu) * (1 + j * uu)).
    + apply Rle_trans with (1 := A2). apply Rmult_le_compat_r; lra.
    + rewrite Rmult_assoc. apply Rmult_le_compat_l; [ exact Pz | nra ].
Qed.

(** the largest offsets, whose square rounds to [tsq]: the doubles take the central cut *)
Section Edge.
Variables (n : nat) (t b : R).
Hypothesis Hn : (2 <= n)%nat.
Hypothesis Hnb : (Z.of_nat n < 2 ^ 53)%Z.
Hypothesis Lt : bpow radix2 (-400) <= t.
Hypothesis Pb : 0 <= b.
Hypothesis Hb : b * b <= t.
Hypothesis Eq : rnd (b * b) = t.
Let N := INR n.
Let a := b * b / t.
Let k := N / 2 * a.
Let s := R_sqrt.sqrt (1 - a + k * k).
Let r := k + s.

Lemma ed_t : near 3 t (b * b).
Proof.
  generalize (pc_t0 t Lt) uu_pos uu_small. intros P U0 U1.
  assert (E := err_any (b * b)). rewrite Eq, (Rabs_pos_eq (b * b)) in E by nra. apply bnd in E.
  assert (Z : eta0 <= uu * t / 2).
  { apply Rle_trans with (bpow radix2 (-454)); [ apply bpow_le; lia | ].
    apply Rle_trans with (uu * bpow radix2 (-400) / 2).
    - right. unfold uu. rewrite <- bpow_plus. replace (-53 + -400)%Z with (-454 + 1)%Z by lia. rewrite bp_S. field.
    - nra. }
  split; nra.
Qed.

Lemma ed_a : 1 - 2 * uu <= a <= 1.
Proof.
  generalize (pc_t0 t Lt) uu_pos uu_small (pc_a t b Lt Hb). intros P U0 U1 A. fold a in A. split; [ | lra ].
  assert (E := err_any (b * b)). rewrite Eq, (Rabs_pos_eq (b * b)) in E by nra. apply bnd in E.
  assert (Z : eta0 <= uu * t / 2).
  { apply Rle_trans with (bpow radix2 (-454)); [ apply bpow_le; lia | ].
    apply Rle_trans with (uu * bpow radix2 (-400) / 2).
    - right. unfold uu. rewrite <- bpow_plus. replace (-53 + -400)%Z with (-454 + 1)%Z by lia. rewrite bp_S. field.
    - nra. }
  apply Rmult_le_reg_r with t; [ exact P | ]. unfold a, Rdiv. rewrite Rmult_assoc, Rinv_l by lra. nra.
Qed.

Lemma ed_r : N * (1 - 2 * uu) <= r <= N * (1 + uu).
Proof.
  generalize ed_a uu_pos uu_small (pc_N n Hn). intros A U0 U1 N2. fold N in N2.
  assert (K : N / 2 * (1 - 2 * uu) <= k <= N / 2) by (unfold k; split; nra).
  assert (K0 : 0 <= k) by nra.
  assert (S1 : k <= s).
  { unfold s. apply Rle_trans with (R_sqrt.sqrt (Rsqr k)); [ rewrite sqrt_Rsqr; lra | ].
    apply sqrt_le_1_alt. unfold Rsqr. lra. }
  assert (S2 : s <= N / 2 * (1 + 2 * uu)).
  { unfold s. rewrite <- (sqrt_Rsqr (N / 2 * (1 + 2 * uu))) by nra. apply sqrt_le_1_alt. unfold Rsqr.
    assert (k * k <= N / 2 * (N / 2)) by (apply Rmult_le_compat; lra).
    assert (NN : 4 <= N * N) by nra.
    assert (0 <= N * N * (uu * uu)) by (apply Rmult_le_pos; nra).
    assert (4 * uu <= N * N * uu) by nra.
    replace (N / 2 * (1 + 2 * uu) * (N / 2 * (1 + 2 * uu))) with (N / 2 * (N / 2) + N * N * uu + N * N * (uu * uu)) by field.
    lra. }
  unfold r. split; lra.
Qed.

Lemma ed_N : near 3 N r.
Proof. generalize ed_r uu_pos uu_small (pc_N n Hn). intros A U0 U1 N2. fold N in N2. split; nra. Qed.

Lemma ed_r1 : 1 <= r.
Proof. generalize ed_r uu_pos uu_small (pc_N n Hn). intros A U0 U1 N2. fold N in N2. nra. Qed.

Lemma ed_N1 : near 3 (N + 1) (r + 1).
Proof. generalize ed_N ed_r1 uu_pos. intros [A B] R1 U. split; nra. Qed.

Lemma ed_inv : near 5 (1 / (N + 1)) (1 / (r + 1)).
Proof.
  replace 5 with (0 + 3 + 2) by ring. generalize ed_r1. intros.
  apply near_div; try lra; [ apply near_refl; lra | exact ed_N1 ].
Qed.

Lemma ed_sigma c0 : near 1 c0 (1 / (N + 1)) -> near 7 (2 * c0) (2 / (r + 1)).
Proof.
  intros C. generalize ed_r1. intros R1. assert (P : 0 < 1 / (r + 1)) by (apply Rdiv_lt_0_compat; lra).
  assert (X : near 7 c0 (1 / (r + 1))).
  { replace 7 with (1 + 5 + 1) by ring. apply near_trans with (1 / (N + 1)); try lra; [ exact C | exact ed_inv ]. }
  replace (2 / (r + 1)) with (2 * (1 / (r + 1))) by (field; lra). destruct X. split; lra.
Qed.

Lemma ed_tau : near 3 (R_sqrt.sqrt t) b.
Proof.
  assert (X : near 4 t (b * b)) by (apply near_weak with 3; [ lra | nra | exact ed_t ]).
  rewrite <- (sqrt_Rsqr b Pb) at 1. replace 3 with (2 + 1) by ring. apply near_sqrt; [ lra | apply Rle_0_sqr | ].
  unfold Rsqr. now replace (2 * 2) with 4 by ring.
Qed.

Lemma ed_rho x : near 5 x (1 / (N + 1) * R_sqrt.sqrt t) -> near 15 x (b / (r + 1)).
Proof.
  intros C. generalize ed_r1. intros R1. assert (P : 0 < 1 / (r + 1)) by (apply Rdiv_lt_0_compat; lra).
  replace (b / (r + 1)) with (1 / (r + 1) * b) by (field; lra).
  replace 15 with (5 + (5 + 3 + 1) + 1) by ring.
  apply near_trans with (1 / (N + 1) * R_sqrt.sqrt t); try lra; [ apply Rmult_le_pos; lra | exact C | ].
  apply near_mul; try lra; [ exact ed_inv | exact ed_tau ].
Qed.

Lemma ed_delta x : near 9 x (N * N / (N * N - 1)) -> near 21 x (r / (r - 1 / N)).
Proof.
  intros C. generalize ed_r1 ed_N uu_pos uu_small (pc_N n Hn). intros R1 [M1 M2] U0 U1 N2. fold N in N2.
  assert (I : 0 < 1 / N <= 1 / 2).
  { split; [ apply Rdiv_lt_0_compat; lra | ]. unfold Rdiv. rewrite !Rmult_1_l. apply Rinv_le; lra. }
  assert (Q : 0 < r / (r - 1 / N)) by (apply Rdiv_lt_0_compat; lra).
  replace 21 with (9 + (3 + 6 + 2) + 1) by ring.
  apply near_trans with (N * N / (N * N - 1)); try lra; [ exact C | ].
  replace (N * N / (N * N - 1)) with (N / (N - 1 / N)) by (field; repeat split; nra).
  apply near_div; try lra; [ split; assumption | ].
  split; nra.
Qed.
End Edge.

Section Link.
Variables (n : nat) (c : calc FA) (b T : num FA).
Hypothesis Hc : fcalc_for n true c.
Hypothesis Hnb : (Z.of_nat n < 2 ^ 53)%Z.
Hypothesis FT : ffinite T.
Hypothesis LT : powerRZ 2 (-400) <= fval T.
Hypothesis Fb : ffinite b.
Hypothesis Pb : 0 <= fval b.
Hypothesis Hb : fval b * fval b < fval T.

Let v := fval b.
Let t := fval T.
Let N := INR n.
Let a := v * v / t.
Let k := N / 2 * a.
Let s := R_sqrt.sqrt (1 - a + k * k).
Let r := k + s.

Lemma pcl_exact : (2 <= n)%nat -> core_parallel_central_cut (A:=RA) (c_helper (calc_R true n)) v t =
  Ok (v / (r + 1), 2 / (r + 1), r / (r - 1 / N)).
Proof.
  intros Hn. assert (N2 : 2 <= N) by (apply (le_INR 2); exact Hn).
  assert (T0 : 0 < t).
  { generalize (bpow_gt_0 radix2 (-400)). rewrite bp_powerRZ. unfold t. lra. }
  assert (Hb' : v * v <= t) by (unfold v, t; lra).
  assert (Lt : bpow radix2 (-400) <= t) by (rewrite bp_powerRZ; exact LT).
  assert (Rd := pc_rad n t v Hn Lt Hb'). assert (R1 := pc_r1 n t v Hn Lt Hb').
  fold N in Rd, R1. fold a in Rd, R1. fold k in Rd, R1. fold s in R1. fold r in R1.
  assert (I : 0 < 1 / N <= 1 / 2).
  { split; [ apply Rdiv_lt_0_compat; lra | ]. unfold Rdiv. rewrite !Rmult_1_l. apply Rinv_le; lra. }
  unfold core_parallel_central_cut, calc_R, core_R. cbn [c_helper half_n inv_n]. unfold atwo. rn. rewrite !INR_2.
  rewrite pdiv_ok by lra. cbn [bind].
  fold N. fold a. fold k. rewrite psqrt_ok by lra. cbn [bind]. fold s. fold r.
  rewrite !pdiv_ok by lra. reflexivity.
Qed.

Let a' := rnd (rnd (v * v) / t).
Let k' := rnd (N / 2 * a').
Let s' := rnd (R_sqrt.sqrt (rnd (rnd (1 - a') + rnd (k' * k')))).
Let r' := rnd (k' + s').

Lemma pcl_float : exists rho sigma delta : num FA,
  core_parallel_central_cut (c_helper c) b T = Ok (rho, sigma, delta) /\
  ev rho = EFin (rnd (v / rnd (r' + 1))) /\
  ev sigma = EFin (rnd (2 / rnd (r' + 1))) /\
  ev delta = EFin (rnd (r' / rnd (r' - rnd (1 / N)))).
Proof.
  destruct (fcalc_ok n true c Hc Hnb) as (Hn & Co & _ & _).
  assert (Et := proj1 (ev_fin_iff T) FT). assert (Eb := proj1 (ev_fin_iff b) Fb). fold t in Et. fold v in Eb.
  assert (Ft : fmt t) by exact (ev_fmt _ _ Et).
  assert (Fb' : fmt v) by exact (ev_fmt _ _ Eb).
  assert (Bt : t < big) by (generalize (ev_big _ _ Et) (Rle_abs t); lra).
  assert (Lt : bpow radix2 (-400) <= t) by (rewrite bp_powerRZ; exact LT).
  assert (Hb' : v * v <= t) by (unfold v, t; lra).
  assert (T0 := pc_t0 t Lt). assert (N2 := pc_N n Hn). assert (Nb := pc_Nb n Hn Hnb). fold N in N2, Nb.
  assert (A := pc_a' t v Ft Lt Hb'). fold a' in A.
  assert (NR := pc_near_r n t v Hn Hnb Ft Lt Hb').
  assert (R1 := pc_r1 n t v Hn Lt Hb').
  assert (NR1 := pc_near_r1 n t v Hn Hnb Ft Lt Hb').
  assert (NS := pc_near_s n t v Hn Hnb Ft Lt Hb').
  assert (K0 := pc_k'0 n t v Hn Ft Lt Hb').
  fold N in NR, R1, NR1, NS, K0. fold a' in NR, NR1, NS, K0. fold k' in NR, NR1, NS, K0. fold s' in NR, NR1, NS. fold r' in NR, NR1.
  fold a in NR, R1, NR1, NS. fold k in NR, R1, NR1, NS. fold s in NR, R1, NR1, NS. fold r in NR, R1, NR1.
  assert (Aa := pc_a t v Lt Hb'). fold a in Aa. assert (Ka := pc_k n t v Hn Lt Hb'). fold N a k in Ka.
  assert (Kb : k <= bpow radix2 52).
  { unfold k. replace 53%Z with (52 + 1)%Z in Nb by lia. rewrite bp_S in Nb. nra. }
  assert (Kb' : N / 2 * a' <= bpow radix2 52).
  { replace 53%Z with (52 + 1)%Z in Nb by lia. rewrite bp_S in Nb. nra. }
  assert (B1 : 1 <= bpow radix2 52) by (apply (bpow_le radix2 0 52); lia).
  assert (Rd := pc_rad n t v Hn Lt Hb'). fold N a k in Rd.
  assert (S1 : s <= 1 + k).
  { unfold s. rewrite <- (sqrt_Rsqr (1 + k)) by lra. apply sqrt_le_1_alt. unfold Rsqr. nra. }
  assert (S0 : 0 < s) by (apply sqrt_lt_R0; lra).
  assert (Rb : r <= bpow radix2 54).
  { replace 54%Z with (52 + 1 + 1)%Z by lia. rewrite !bp_S. unfold r. lra. }
  destruct (near_pos 18 _ _ ltac:(lra) NR ltac:(lra)) as [Pr' [Rl' Rh']].
  destruct (near_pos 20 _ _ ltac:(lra) NR1 ltac:(lra)) as [Pr1 [Rl1 Rh1]].
  destruct (near_pos 15 _ _ ltac:(lra) NS S0) as [Ps' [_ Sh']].
  destruct (ok_half _ _ Co) as (hn & Eh & Hh). fold N in Hh. subst hn.
  destruct (ok_inv _ _ Co) as (vi & Ei & Di & Hi). fold N in Di.
  unfold core_parallel_central_cut.
  (* a1sq *)
  assert (Bbig : big = bpow radix2 1024) by reflexivity.
  assert (Eq : ev (amul (a:=FA) b b) = EFin (rnd (v * v))).
  { change (ev (b * b)%float = EFin (rnd (v * v))). rewrite ev_mul, Eb. cbn [emul].
    exact (proj1 (rx_fin_le (v * v) t ltac:(nra) Hb' Ft Bt)). }
  assert (Q := pc_q' t v Ft Hb').
  destruct (op_div _ _ _ _ 0 Eq Et ltac:(lra)) as (A1 & -> & Ea); [ | lia | ].
  { assert (I := Rinv_0_lt_compat _ T0). rewrite Rabs_pos_eq by (unfold Rdiv; apply Rmult_le_pos; lra).
    change (bpow radix2 0) with 1. apply Rmult_le_reg_r with t; [ exact T0 | ].
    unfold Rdiv. rewrite Rmult_assoc, Rinv_l; lra. }
  cbn [bind]. fold a' in Ea.
  (* k *)
  assert (Xk : Rabs (N / 2 * a') <= bpow radix2 52) by (rewrite Rabs_pos_eq by nra; exact Kb').
  assert (Ek := op_mul _ _ _ _ 52 Eh Ea Xk ltac:(lia)).
  destruct (rx_b _ 52 Xk ltac:(lia)) as [_ Xk']. fold k' in Ek, Xk'. rewrite Rabs_pos_eq in Xk' by exact K0.
  (* radicand *)
  assert (Em := op_sub _ _ _ _ 0 ev_one Ea ltac:(change (bpow radix2 0) with 1; apply Rabs_le; lra) ltac:(lia)).
  destruct (rx_b (1 - a') 0 ltac:(change (bpow radix2 0) with 1; apply Rabs_le; lra) ltac:(lia)) as [_ M1].
  assert (M0 : 0 <= rnd (1 - a')) by (apply rnd_nonneg; lra).
  rewrite Rabs_pos_eq in M1 by exact M0. change (bpow radix2 0) with 1 in M1.
  assert (Xkk : Rabs (k' * k') <= bpow radix2 104).
  { rewrite Rabs_pos_eq by nra. replace 104%Z with (52 + 52)%Z by lia. rewrite bpow_plus. apply Rmult_le_compat; lra. }
  assert (Ekk := op_mul _ _ _ _ 104 Ek Ek Xkk ltac:(lia)).
  destruct (rx_b _ 104 Xkk ltac:(lia)) as [_ Xkk'].
  assert (KK0 : 0 <= rnd (k' * k')) by (apply rnd_nonneg; nra).
  rewrite Rabs_pos_eq in Xkk' by exact KK0.
  assert (B104 : 1 <= bpow radix2 104) by (apply (bpow_le radix2 0 104); lia).
  assert (Erad := op_add _ _ _ _ 105 Em Ekk ltac:(rewrite Rabs_pos_eq by lra; replace 105%Z with (104 + 1)%Z by lia; rewrite bp_S; lra) ltac:(lia)).
  set (RAD := aadd (a:=FA) (asub (a:=FA) aone A1) (amul (a:=FA) (amul (a:=FA) (half_n (c_helper c)) A1) (amul (a:=FA) (half_n (c_helper c)) A1))) in *.
  assert (Rad0 : 0 <= rnd (rnd (1 - a') + rnd (k' * k'))) by (apply rnd_nonneg; lra).
  rewrite fpsqrt by (rewrite Erad; cbn; lra). cbn [bind].
  assert (Es := ev_sqrt _ _ Erad Rad0). fold s' in Es.
  assert (Er := op_add _ _ _ _ 55 Ek Es).
  assert (Xr : Rabs (k' + s') <= bpow radix2 55).
  { rewrite Rabs_pos_eq by lra. replace 55%Z with (52 + 1 + 1 + 1)%Z by lia. rewrite !bp_S. lra. }
  specialize (Er Xr ltac:(lia)). fold r' in Er.
  set (RR := aadd (a:=FA) (amul (a:=FA) (half_n (c_helper c)) A1) (PrimFloat.sqrt RAD)) in *.
  assert (Er1 := op_add _ _ _ _ 56 Er ev_one ltac:(rewrite Rabs_pos_eq by lra; replace 56%Z with (54 + 1 + 1)%Z by lia; rewrite !bp_S; lra) ltac:(lia)).
  (* rho *)
  assert (I1 : 0 < / rnd (r' + 1) <= 1).
  { split; [ now apply Rinv_0_lt_compat | ]. apply Rle_trans with (/ 1); [ apply Rinv_le; lra | rewrite Rinv_1; lra ]. }
  assert (Vb : v <= bpow radix2 512).
  { apply Rle_trans with (R_sqrt.sqrt t); [ eapply b_tau; eassumption | eapply tau_hi; eassumption ]. }
  destruct (op_div _ _ _ _ 512 Eb Er1 ltac:(lra)) as (rho & -> & Erho); [ | lia | ].
  { rewrite Rabs_pos_eq by (unfold Rdiv; apply Rmult_le_pos; [ exact Pb | lra ]).
    unfold Rdiv. apply Rle_trans with (v * 1); [ apply Rmult_le_compat_l; [ exact Pb | lra ] | lra ]. }
  cbn [bind].
  destruct (op_div _ _ _ _ 1 ev_two Er1 ltac:(lra)) as (sg & -> & Esg); [ | lia | ].
  { rewrite Rabs_pos_eq by (unfold Rdiv; apply Rmult_le_pos; lra). change (bpow radix2 1) with 2. unfold Rdiv. nra. }
  cbn [bind].
  (* delta *)
  assert (NI := pc_near_inv n Hn Hnb). fold N in NI.
  assert (I : 0 < 1 / N <= 1 / 2).
  { split; [ apply Rdiv_lt_0_compat; lra | ]. unfold Rdiv. rewrite !Rmult_1_l. apply Rinv_le; lra. }
  generalize uu_pos uu_small. intros U0 U1.
  assert (Rv : r / 4 <= r' - vi).
  { destruct NR as [X1 X2], NI as [I2 I3]. rewrite Di. nra. }
  assert (Ed := op_sub _ _ _ _ 55 Er Ei ltac:(rewrite Rabs_pos_eq by lra; replace 55%Z with (54 + 1)%Z by lia; rewrite !bp_S; lra) ltac:(lia)).
  assert (Fr : near 1 (rnd (r' - vi)) (r' - vi)).
  { apply near_1; [ lra | ]. apply err_minus; [ apply fmt_rnd | ]. rewrite Di. apply fmt_rnd. }
  destruct (near_pos 1 _ _ ltac:(lra) Fr ltac:(lra)) as [F0 [F1 F2]].
  destruct (op_div _ _ _ _ 4 Er Ed ltac:(lra)) as (dl & -> & Edl); [ | lia | ].
  { rewrite Rabs_pos_eq by (apply Rlt_le, Rdiv_lt_0_compat; lra).
    change (bpow radix2 4) with 16. apply Rmult_le_reg_r with (rnd (r' - vi)); [ exact F0 | ].
    unfold Rdiv. rewrite Rmult_assoc, Rinv_l by lra. nra. }
  cbn [bind]. exists rho, sg, dl. rewrite Di in Edl. repeat split; assumption.
Qed.
End Link.

Lemma abs_near k x y : Rabs (x - y) <= k * u53 * y -> near k x y.
Proof. rewrite uu_u53. intros H. apply bnd in H. split; lra. Qed.

Lemma eta0_tiny : eta0 <= tiny.
Proof. unfold eta0, tiny. rewrite <- bp_powerRZ. apply bpow_le. lia. Qed.

Lemma par_central_accuracy n (c : calc FA) (b T : num FA) :
  fcalc_for n true c -> (Z.of_nat n < 2 ^ 53)%Z ->
  ffinite T -> powerRZ 2 (-400) <= fval T -> ffinite b -> 0 <= fval b ->
  fval b * fval b < fval T ->
  forall (b0 : option (num FA)) (tl : list (option (num FA))) (cR : calc RA) (b0' : option R) (tl' : list (option R)),
  calc_for n true cR ->
  exists rho sigma delta : num FA, exists r s d : R,
  fstrat_of OpCentral c (CList (A:=FA) (b0 :: Some b :: tl)) T = Ok (Success, Some (rho, sigma, delta)) /\
  strat_of OpCentral cR (CList (A:=RA) (b0' :: Some (fval b) :: tl')) (fval T) = Ok (Success, Some (r, s, d)) /\
  ffinite rho /\ ffinite sigma /\ ffinite delta /\
  Rabs (fval rho - r) <= 24 * u53 * r + tiny /\
  Rabs (fval sigma - s) <= 24 * u53 * s /\
  Rabs (fval delta - d) <= 61 * u53 * d.
Proof.
  intros Hc Hnb FT LT Fb Pb Hb b0 tl cR b0' tl' HR.
  destruct (fcalc_ok n true c Hc Hnb) as (Hn & Co & _ & Upc).
  destruct (calc_for_R _ _ _ HR) as [_ ->].
  assert (Et := proj1 (ev_fin_iff T) FT). assert (Eb := proj1 (ev_fin_iff b) Fb).
  assert (Ft : fmt (fval T)) by exact (ev_fmt _ _ Et).
  assert (Bt : fval T < big) by (generalize (ev_big _ _ Et) (Rle_abs (fval T)); lra).
  assert (Lt : bpow radix2 (-400) <= fval T) by (rewrite bp_powerRZ; exact LT).
  assert (T0 := pc_t0 _ Lt). assert (Hb' : fval b * fval b <= fval T) by lra.
  assert (Ex := pcl_exact n b T LT Hb Hn). cbv zeta in Ex.
  assert (XR : strat_of OpCentral (calc_R true n) (CList (A:=RA) (b0' :: Some (fval b) :: tl')) (fval T) =
               some_triple (core_parallel_central_cut (A:=RA) (c_helper (calc_R true n)) (fval b) (fval T))).
  { cbn [strat_of calc_single_or_parallel_central_cut length Nat.ltb Nat.leb orb use_parallel_cut calc_R negb].
    rn. rewrite Rltb_false by exact Pb. rewrite Rleb_false by exact Hb. reflexivity. }
  assert (S1 : altb (a:=FA) b azero = false).
  { etransitivity; [ exact (ev_ltb _ _) | ]. change (azero (a:=FA)) with PrimFloat.zero. rewrite ev_zero, Eb. cbn.
    destruct (Rlt_dec (fval b) 0); [ lra | reflexivity ]. }
  assert (Eq : ev (amul (a:=FA) b b) = EFin (rnd (fval b * fval b))).
  { change (ev (b * b)%float = EFin (rnd (fval b * fval b))). rewrite ev_mul, Eb. cbn [emul].
    exact (proj1 (rx_fin_le (fval b * fval b) (fval T) ltac:(nra) Hb' Ft Bt)). }
  assert (S2 : aleb (a:=FA) T (amul b b) = if Rle_dec (fval T) (rnd (fval b * fval b)) then true else false).
  { etransitivity; [ exact (ev_leb _ _) | ]. rewrite Eq, Et. reflexivity. }
  assert (Q := pc_q' _ _ Ft Hb').
  rewrite Ex in XR.
  destruct (Rle_dec (fval T) (rnd (fval b * fval b))) as [G|G].
  - (* central *)
    destruct (central_accuracy n true c T Hc Hnb FT LT b (calc_R true n) 0 HR)
      as (rho & sg & dl & r & s & d & E1 & E2 & F1 & F2 & F3 & A1 & A2 & A3).
    cbn [strat_of calc_single_or_parallel_central_cut] in E2. rewrite psqrt_ok in E2 by lra.
    cbn [bind] in E2. injection E2 as <- <- <-.
    do 6 eexists. split; [ | split; [ exact XR | ] ].
    { cbn [fstrat_of calc_single_or_parallel_central_cut length Nat.ltb Nat.leb orb]. rewrite Upc. cbn [negb].
      rewrite S1, S2. exact E1. }
    split; [ exact F1 | split; [ exact F2 | split; [ exact F3 | ] ] ].
    apply abs_near in A1. apply abs_near in A2. apply abs_near in A3.
    assert (Eq' : rnd (fval b * fval b) = fval T) by lra.
    split; [ | split ].
    + assert (X := ed_rho n (fval T) (fval b) Hn Lt Pb Hb' Eq' (fval rho) A1).
      apply near_weak with (k := 24) in X; [ | lra | apply Rmult_le_pos; [ exact Pb | left; apply Rinv_0_lt_compat ];
        generalize (ed_r1 n (fval T) (fval b) Hn Lt Hb' Eq'); lra ].
      apply near_abs in X. generalize eta0_tiny eta0_pos. lra.
    + assert (X := ed_sigma n (fval T) (fval b) Hn Lt Hb' Eq' (fval sg / 2)).
      apply near_abs. apply near_weak with 7; [ lra | | ].
      * apply Rlt_le, Rdiv_lt_0_compat; generalize (ed_r1 n (fval T) (fval b) Hn Lt Hb' Eq'); lra.
      * replace (fval sg) with (2 * (fval sg / 2)) by field. apply X.
        assert (A2' : near 1 (fval sg) (2 * (1 / (INR n + 1)))) by exact A2. destruct A2'. split; lra.
    + assert (X := ed_delta n (fval T) (fval b) Hn Lt Hb' Eq' (fval dl) A3).
      apply near_abs. apply near_weak with 21; [ lra | | exact X ].
      assert (R1 := ed_r1 n (fval T) (fval b) Hn Lt Hb' Eq').
      assert (N2 := pc_N n Hn).
      assert (1 / INR n <= 1 / 2) by (unfold Rdiv; rewrite !Rmult_1_l; apply Rinv_le; lra).
      apply Rlt_le, Rdiv_lt_0_compat; lra.
  - destruct (pcl_float n c b T Hc Hnb FT LT Fb Pb Hb) as (rho & sg & dl & E1 & E2 & E3 & E4).
    do 6 eexists. split; [ | split; [ exact XR | ] ].
    { cbn [fstrat_of calc_single_or_parallel_central_cut length Nat.ltb Nat.leb orb]. rewrite Upc. cbn [negb].
      rewrite S1, S2, E1. reflexivity. }
    split; [ exact (ffinite_ev _ _ E2) | split; [ exact (ffinite_ev _ _ E3) | split; [ exact (ffinite_ev _ _ E4) | ] ] ].
    rewrite (fval_ev _ _ E2), (fval_ev _ _ E3), (fval_ev _ _ E4).
    split; [ | split ].
    + eapply Rle_trans; [ exact (pc_rho n (fval T) (fval b) Hn Hnb Ft Lt Pb Hb') | ]. rewrite uu_u53.
      apply Rplus_le_compat_l, eta0_tiny.
    + apply near_abs. exact (pc_near_sigma n (fval T) (fval b) Hn Hnb Ft Lt Hb').
    + apply near_abs. exact (pc_near_delta n (fval T) (fval b) Hn Hnb Ft Lt Hb').
Qed.
