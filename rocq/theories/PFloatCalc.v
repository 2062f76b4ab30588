(** The constants of the calculator in double arithmetic. *)
From Coq Require Import Reals ZArith Lia Lra Bool Floats Uint63 List.
From Flocq Require Import Core.Core Plus_error Mult_error IEEE754.BinarySingleNaN IEEE754.PrimFloat.
From Verif Require Import Arith Vec ModelCalc SpecFloating PFloat PFloatSign.
Import ListNotations.
Local Open Scope R_scope.

Lemma fmt_F2R z e : (Z.abs z < 2 ^ 53)%Z -> (-1074 <= e)%Z -> fmt (IZR z * bpow radix2 e).
Proof.
  intros H K. apply generic_format_FLT. exists (Float radix2 z e).
  - reflexivity.
  - exact H.
  - exact K.
Qed.

Lemma fmt_int z : (Z.abs z <= 2 ^ 53)%Z -> fmt (IZR z).
Proof.
  intros H.
  destruct (Z.eq_dec (Z.abs z) (2 ^ 53)) as [E|E].
  - destruct (Z.abs_eq_or_opp z) as [E2|E2]; rewrite E2 in E.
    + replace (IZR z) with (IZR 1 * bpow radix2 53); [ apply fmt_F2R; lia | ].
      rewrite E. cbn. ring.
    + replace (IZR z) with (IZR (-1) * bpow radix2 53); [ apply fmt_F2R; lia | ].
      replace z with (- 2 ^ 53)%Z by lia. cbn. ring.
  - replace (IZR z) with (IZR z * bpow radix2 0); [ apply fmt_F2R; lia | ]. cbn. ring.
Qed.

Lemma fmt_half z : (Z.abs z < 2 ^ 53)%Z -> fmt (IZR z / 2).
Proof.
  intros H. replace (IZR z / 2) with (IZR z * bpow radix2 (-1)); [ apply fmt_F2R; lia | ].
  cbn. field.
Qed.

Lemma int_big z : (Z.abs z <= 2 ^ 53)%Z -> Rabs (IZR z) < big.
Proof.
  intros H. rewrite <- abs_IZR. apply Rle_lt_trans with (IZR (2 ^ 53)); [ now apply IZR_le | ].
  change (IZR (2 ^ 53)) with (IZR (Zpower radix2 53)). rewrite IZR_Zpower by lia.
  unfold big. apply bpow_lt. lia.
Qed.

Lemma ev_ofint z : (0 <= z <= 2 ^ 53)%Z -> ev (of_uint63 (of_Z z)) = EFin (IZR z).
Proof.
  intros H. apply ev_finite.
  assert (Hz : to_Z (of_Z z) = z).
  { rewrite of_Z_spec. apply Z.mod_small. change wB with (2 ^ 63)%Z. lia. }
  generalize (of_int63_equiv (of_Z z)).
  rewrite Hz. intros ->.
  generalize (binary_normalize_correct prec emax Hprec Hmax mode_NE z 0 false).
  cbv zeta. change (round radix2 (SpecFloat.fexp prec emax) (round_mode mode_NE)) with rnd.
  change (bpow radix2 emax) with big.
  replace (F2R (Float radix2 z 0)) with (IZR z) by (unfold F2R; cbn; ring).
  rewrite (rnd_fmt (IZR z)) by (apply fmt_int; lia).
  rewrite Rlt_bool_true by (apply int_big; lia).
  tauto.
Qed.

Lemma ev_ofnat n : (Z.of_nat n <= 2 ^ 53)%Z -> ev (aofnat (a:=FA) n) = EFin (INR n).
Proof.
  intros H. cbn [aofnat FA]. rewrite ev_ofint by lia. now rewrite <- INR_IZR_INZ.
Qed.

Lemma ev_one : ev (aone (a:=FA)) = EFin 1.
Proof. change (aone (a:=FA)) with (of_uint63 (of_Z 1)). apply (ev_ofint 1). lia. Qed.

Lemma ev_two : ev (atwo (A:=FA)) = EFin 2.
Proof. unfold atwo. rewrite ev_ofnat by (cbn; lia). reflexivity. Qed.

Lemma fmt_1 : fmt 1.
Proof. exact (fmt_int 1 ltac:(lia)). Qed.

(** rounding of a positive sum of representable numbers is positive *)
Lemma rnd_plus_pos a b : fmt a -> fmt b -> 0 < a + b -> 0 < rnd (a + b).
Proof.
  intros Fa Fb H. destruct (rnd_nonneg (a + b) ltac:(lra)) as [L|L]; [ exact L | exfalso ].
  apply (round_plus_neq_0 radix2 (FLT_exp (-1074) 53) ZnearestE a b Fa Fb); [ lra | ].
  now symmetry.
Qed.

Lemma rnd_minus_pos a b : fmt a -> fmt b -> b < a -> 0 < rnd (a - b).
Proof.
  intros Fa Fb H. unfold Rminus. apply rnd_plus_pos; [ exact Fa | | lra ].
  now apply generic_format_opp.
Qed.

(** finite result when the rounded value is within the range *)
Lemma rx_fin r s : Rabs r <= s -> fmt s -> s < big -> rx r = EFin (rnd r) /\ Rabs (rnd r) <= s.
Proof.
  intros K F B. assert (L : Rabs (rnd r) <= s).
  { apply Rabs_le. apply Rabs_le_inv in K.
    rewrite <- (rnd_fmt s F), <- rnd_opp. split; apply rnd_le; lra. }
  split; [ | exact L ]. unfold rx. destruct (Rlt_dec (Rabs (rnd r)) big) as [|N]; [ reflexivity | lra ].
Qed.

(** the constants of a calculator of dimension [n] *)
Record core_ok (n : nat) (c : core FA) : Prop := {
  ok_nf : ev (n_f c) = EFin (INR n);
  ok_half : exists h, ev (half_n c) = EFin h /\ h = INR n / 2;
  ok_inv : exists v, ev (inv_n c) = EFin v /\ v = rnd (1 / INR n) /\ 0 < v <= 1 / 2;
  ok_c0 : exists v, ev (cst0 c) = EFin v /\ v = rnd (1 / (INR n + 1)) /\ 0 < v <= 3 / 8;
  ok_c1 : exists v, ev (cst1 c) = EFin v /\ 1 <= v <= 2 /\
            v = rnd (rnd (INR n * INR n) / rnd (rnd (INR n * INR n) - 1));
  ok_c2 : exists v, ev (cst2 c) = EFin v /\ v = 2 * rnd (1 / (INR n + 1)) /\ 0 < v <= 3 / 4
}.

Lemma fmt_double r : fmt r -> fmt (2 * r).
Proof.
  intros H. replace (2 * r) with (r * bpow radix2 1) by (cbn; ring).
  apply mult_bpow_pos_exact_FLT; [ exact H | lia ].
Qed.

(** halving is exact away from the subnormal range *)
Lemma fmt_halve r : fmt r -> bpow radix2 (-1021) <= Rabs r -> fmt (r / 2).
Proof.
  intros H K. replace (r / 2) with (r * bpow radix2 (-1)) by (cbn; field).
  apply mult_bpow_exact_FLT; [ exact H | ].
  assert ((-1020 <= mag radix2 r)%Z); [ | lia ].
  replace (-1020)%Z with (-1021 + 1)%Z by lia. apply mag_ge_bpow.
  now replace (-1021 + 1 - 1)%Z with (-1021)%Z by lia.
Qed.

Lemma big_bound e : (e < 1024)%Z -> bpow radix2 e < big.
Proof. intros. unfold big. now apply bpow_lt. Qed.

Lemma bp_106 : bpow radix2 106 = IZR (2 ^ 53) * IZR (2 ^ 53).
Proof.
  change 106%Z with (53 + 53)%Z. rewrite bpow_plus.
  change (2 ^ 53)%Z with (Zpower radix2 53). now rewrite IZR_Zpower by lia.
Qed.

Lemma core_init_ok n : (2 <= n)%nat -> (Z.of_nat n < 2 ^ 53)%Z ->
  exists c, core_init (A:=FA) (aofnat n) = Ok c /\ core_ok n c.
Proof.
  intros Hn Hb.
  assert (En : ev (aofnat (a:=FA) n) = EFin (INR n)) by (apply ev_ofnat; lia).
  assert (N2 : 2 <= INR n) by (apply (le_INR 2); exact Hn).
  assert (Nb : INR n <= IZR (2 ^ 53)) by (rewrite INR_IZR_INZ; apply IZR_le; lia).
  unfold core_init. set (nf := aofnat (a:=FA) n) in *.
  cbn [adiv aadd amul asub FA].
  (* half_n *)
  assert (Eh : ev (nf / atwo (A:=FA))%float = EFin (INR n / 2)).
  { rewrite ev_div by (rewrite ev_two; cbn; destruct (Req_EM_T 2 0); [ lra | reflexivity ]).
    rewrite En, ev_two. cbn [ediv]. apply rx_fmt.
    - rewrite INR_IZR_INZ. apply fmt_half. lia.
    - rewrite Rabs_pos_eq by lra. apply Rle_lt_trans with (IZR (2 ^ 53)); [ lra | ].
      rewrite <- (Rabs_pos_eq (IZR (2 ^ 53))) by (apply IZR_le; lia). apply int_big. lia. }
  (* n + 1 *)
  assert (Ep : ev (nf + aone (a:=FA))%float = EFin (INR n + 1)).
  { rewrite ev_add, En, ev_one. cbn [eadd]. rewrite INR_IZR_INZ, <- plus_IZR.
    apply rx_fmt; [ apply fmt_int | apply int_big ]; lia. }
  set (np := (nf + aone (a:=FA))%float) in *.
  (* 1 / n *)
  destruct (fpdiv (aone (a:=FA)) nf) as [D1 V1].
  { rewrite En. cbn. destruct (Req_EM_T (INR n) 0); [ lra | reflexivity ]. }
  rewrite D1. cbn [bind]. rewrite En, ev_one in V1. cbn [ediv] in V1.
  assert (I1 : rx (1 / INR n) = EFin (rnd (1 / INR n)) /\ 0 <= rnd (1 / INR n) <= 1 / 2).
  { apply rx_fin_le.
    - apply Rlt_le, Rdiv_lt_0_compat; lra.
    - apply Rmult_le_reg_r with (INR n); [ lra | ]. unfold Rdiv. rewrite Rmult_assoc, Rinv_l; lra.
    - apply (fmt_half 1). lia.
    - apply Rlt_trans with 1; [ lra | ]. generalize (int_big 1 ltac:(lia)). rewrite Rabs_R1. tauto. }
  assert (P1 : 0 < rnd (1 / INR n)).
  { apply Rlt_le_trans with (bpow radix2 (-53)); [ apply bpow_gt_0 | ].
    rewrite <- (rnd_fmt (bpow radix2 (-53))) by (apply generic_format_FLT_bpow; [ typeclasses eauto | lia ]).
    apply rnd_le. change (-53)%Z with (- (53))%Z. rewrite bpow_opp. unfold Rdiv. rewrite Rmult_1_l.
    apply Rinv_le; [ lra | ]. rewrite <- (IZR_Zpower radix2) by lia. exact Nb. }
  (* 1 / (n + 1) *)
  destruct (fpdiv (aone (a:=FA)) np) as [D2 V2].
  { rewrite Ep. cbn. destruct (Req_EM_T (INR n + 1) 0); [ lra | reflexivity ]. }
  rewrite D2. cbn [bind]. rewrite Ep, ev_one in V2. cbn [ediv] in V2.
  assert (I2 : rx (1 / (INR n + 1)) = EFin (rnd (1 / (INR n + 1))) /\ 0 <= rnd (1 / (INR n + 1)) <= 3 / 8).
  { apply rx_fin_le.
    - apply Rlt_le, Rdiv_lt_0_compat; lra.
    - apply Rmult_le_reg_r with (INR n + 1); [ lra | ]. unfold Rdiv. rewrite Rmult_assoc, Rinv_l; lra.
    - replace (3 / 8) with (IZR 3 * bpow radix2 (-3)) by (cbn; field). apply fmt_F2R; lia.
    - apply Rlt_trans with 1; [ lra | ]. generalize (int_big 1 ltac:(lia)). rewrite Rabs_R1. tauto. }
  assert (P2 : 0 < rnd (1 / (INR n + 1))).
  { apply Rlt_le_trans with (bpow radix2 (-54)); [ apply bpow_gt_0 | ].
    rewrite <- (rnd_fmt (bpow radix2 (-54))) by (apply generic_format_FLT_bpow; [ typeclasses eauto | lia ]).
    apply rnd_le. change (-54)%Z with (- (54))%Z. rewrite bpow_opp. unfold Rdiv. rewrite Rmult_1_l.
    apply Rinv_le; [ lra | ]. rewrite <- (IZR_Zpower radix2) by lia.
    apply Rle_trans with (IZR (2 ^ 53) + 1); [ lra | ]. rewrite <- plus_IZR. apply IZR_le. cbn. lia. }
  (* n * n *)
  assert (I3 : rx (INR n * INR n) = EFin (rnd (INR n * INR n)) /\ 0 <= rnd (INR n * INR n) <= bpow radix2 106).
  { apply rx_fin_le.
    - nra.
    - rewrite bp_106. apply Rmult_le_compat; lra.
    - apply generic_format_FLT_bpow; [ typeclasses eauto | lia ].
    - apply big_bound. lia. }
  set (q := rnd (INR n * INR n)) in *.
  assert (Q4 : 4 <= q).
  { unfold q. rewrite <- (rnd_fmt 4) by (apply (fmt_int 4); lia). apply rnd_le. nra. }
  assert (Fq : fmt q) by apply fmt_rnd.
  assert (Eq : ev (nf * nf)%float = EFin q) by (rewrite ev_mul, En; cbn [emul]; apply I3).
  set (sq := (nf * nf)%float) in *.
  assert (I4 : rx (q - 1) = EFin (rnd (q - 1)) /\ 0 <= rnd (q - 1) <= bpow radix2 106).
  { apply rx_fin_le; [ lra | lra | apply generic_format_FLT_bpow; [ typeclasses eauto | lia ] | apply big_bound; lia ]. }
  assert (E4 : ev (sq - aone (a:=FA))%float = EFin (rnd (q - 1))) by (rewrite ev_sub, Eq, ev_one; apply I4).
  assert (Q5 : q / 2 <= rnd (q - 1) <= q).
  { split.
    - rewrite <- (rnd_fmt (q / 2)); [ apply rnd_le; lra | ].
      apply fmt_halve; [ exact Fq | ]. rewrite Rabs_pos_eq by lra.
      apply Rle_trans with (bpow radix2 0); [ apply bpow_le; lia | cbn; lra ].
    - rewrite <- (rnd_fmt q Fq) at 2. apply rnd_le. lra. }
  destruct (fpdiv sq (sq - aone (a:=FA))%float) as [D3 V3].
  { rewrite E4. cbn. destruct (Req_EM_T (rnd (q - 1)) 0); [ lra | reflexivity ]. }
  rewrite D3. cbn [bind]. rewrite E4, Eq in V3. cbn [ediv] in V3.
  assert (B3 : 1 <= q / rnd (q - 1) <= 2).
  { split; apply Rmult_le_reg_r with (rnd (q - 1)); try lra;
      unfold Rdiv; rewrite Rmult_assoc, Rinv_l; lra. }
  assert (I5 : rx (q / rnd (q - 1)) = EFin (rnd (q / rnd (q - 1))) /\ 0 <= rnd (q / rnd (q - 1)) <= 2).
  { apply rx_fin_le; [ lra | lra | exact (fmt_int 2 ltac:(lia)) | ].
    generalize (int_big 2 ltac:(lia)). rewrite Rabs_pos_eq; lra. }
  assert (I6 : 1 <= rnd (q / rnd (q - 1))).
  { rewrite <- (rnd_fmt 1 fmt_1) at 1. apply rnd_le. lra. }
  eexists. split; [ reflexivity | ]. split; cbn [n_f half_n inv_n cst0 cst1 cst2].
  - exact En.
  - eexists. split; [ exact Eh | reflexivity ].
  - eexists. split; [ rewrite V1; apply I1 | ]. split; [ reflexivity | lra ].
  - eexists. split; [ rewrite V2; apply I2 | ]. split; [ reflexivity | lra ].
  - eexists. split; [ rewrite V3; apply I5 | ]. split; [ lra | reflexivity ].
  - exists (2 * rnd (1 / (INR n + 1))). split; [ | split; [ reflexivity | lra ] ].
    rewrite ev_mul, ev_two, V2. destruct I2 as [-> I2]. cbn [emul]. apply rx_fmt.
    + apply fmt_double, fmt_rnd.
    + rewrite Rabs_pos_eq by lra. apply Rlt_trans with 1; [ lra | ].
      generalize (int_big 1 ltac:(lia)). rewrite Rabs_R1. tauto.
Qed.

Lemma calc_init_ok n : (2 <= n)%nat -> (Z.of_nat n < 2 ^ 53)%Z ->
  exists c, calc_init (A:=FA) n = Ok c /\ c_n_f c = aofnat n /\ use_parallel_cut c = true /\
    core_ok n (c_helper c).
Proof.
  intros Hn Hb. unfold calc_init. apply Nat.leb_le in Hn as Hn'. rewrite Hn'.
  destruct (core_init_ok n Hn Hb) as (c & -> & Hc). cbn [bind].
  eexists. split; [ reflexivity | ]. split; [ reflexivity | ]. split; [ reflexivity | exact Hc ].
Qed.
