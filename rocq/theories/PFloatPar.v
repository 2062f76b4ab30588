(** The discriminant of a parallel cut in double arithmetic. *)
From Coq Require Import Reals ZArith Lia Lra Psatz.
From Flocq Require Import Core.Core.
From Verif Require Import SpecFloating PFloat PFloatSign PFloatCalc PFloatErr.
Local Open Scope R_scope.

Lemma par_real u a1 a2 a3 hh zz rad eta : 0 < u <= / 1000000000000 ->
  0 < a1 -> 0 <= a2 -> 0 <= a3 -> (a2 <= 400 * a1 \/ a2 <= 2 * a3) ->
  (a1 + a2 + a3) * (a1 + a2 + a3) * (1 - u) * (1 - u) * (1 - u) <= hh ->
  zz <= a1 * (a2 + a3) * (1 + u) * (1 + u) * (1 + u) + eta -> eta <= u * (a1 * a1) ->
  (hh - zz) * (1 - u) <= rad ->
  a2 * (1 + u) * (a2 * (1 + u)) < rad * (1 - u) * (1 - u).
Proof.
  intros Hu H1 H2 H3 Hc Hh Hz He Hr.
  set (d := a1 + a2 + a3) in *. set (p := a1 * (a2 + a3)) in *.
  set (N := d * d - p).
  assert (Pp : 0 <= p) by (unfold p; nra).
  assert (Dp : p <= d * d / 4).
  { unfold p, d. generalize (Rle_0_sqr (a1 - (a2 + a3))). unfold Rsqr. nra. }
  assert (A1 : a1 * a1 <= d * d) by (unfold d; nra).
  assert (Dn : d * d <= 4 / 3 * N) by (unfold N; lra).
  assert (C1 : 1 - 3 * u <= (1 - u) * (1 - u) * (1 - u)) by nra.
  assert (C2 : (1 + u) * (1 + u) * (1 + u) <= 1 + 4 * u) by nra.
  assert (Nn : N * (1 - 11 * u) <= hh - zz).
  { assert (d * d * (1 - 3 * u) <= hh) by nra.
    assert (zz <= p * (1 + 4 * u) + u * (d * d)) by nra.
    unfold N. nra. }
  assert (N0 : a1 * a1 <= N).
  { unfold N, p, d. nra. }
  assert (Np : 0 < N) by nra.
  assert (Nr : N * (1 - 14 * u) <= rad * (1 - u) * (1 - u)).
  { assert (N * (1 - 11 * u) * (1 - u) <= rad) by nra.
    assert (0 <= (1 - u) * (1 - u)) by nra.
    assert (N * (1 - 11 * u) * (1 - u) * ((1 - u) * (1 - u)) <= rad * ((1 - u) * (1 - u))) by (apply Rmult_le_compat_r; assumption).
    assert (1 - 14 * u <= (1 - 11 * u) * (1 - 3 * u)) by nra.
    assert ((1 - 11 * u) * (1 - 3 * u) <= (1 - 11 * u) * ((1 - u) * (1 - u) * (1 - u))) by (apply Rmult_le_compat_l; lra).
    nra. }
  assert (Na : a2 * a2 * (1 + / 400) <= N).
  { unfold N, p, d. destruct Hc as [Hc|Hc].
    - assert (a2 * a2 <= 400 * (a1 * a2)) by nra. nra.
    - assert (a2 * a2 <= 2 * (a2 * a3)) by nra. nra. }
  destruct (Req_dec a2 0) as [->|Hn].
  { nra. }
  assert (0 < a2 * a2) by nra.
  assert ((1 + u) * (1 + u) <= 1 + 3 * u) by nra.
  assert (a2 * a2 * (1 + 3 * u) < a2 * a2 * (1 + / 400) * (1 - 14 * u)).
  { rewrite (Rmult_assoc (a2 * a2)). apply Rmult_lt_compat_l; [ lra | ].
    assert (3 * u + 14 * u + 14 * u < / 400) by lra. nra. }
  assert (a2 * a2 * (1 + / 400) * (1 - 14 * u) <= N * (1 - 14 * u)) by (apply Rmult_le_compat_r; lra).
  nra.
Qed.

Lemma par_le u a1 a2 a3 hh zz eta : 0 < u <= / 1000000000000 ->
  0 < a1 -> 0 <= a2 -> 0 <= a3 ->
  (a1 + a2 + a3) * (a1 + a2 + a3) * (1 - u) * (1 - u) * (1 - u) <= hh ->
  zz <= a1 * (a2 + a3) * (1 + u) * (1 + u) * (1 + u) + eta -> eta <= u * (a1 * a1) ->
  zz <= hh.
Proof.
  intros Hu H1 H2 H3 Hh Hz He.
  set (d := a1 + a2 + a3) in *. set (p := a1 * (a2 + a3)) in *.
  assert (Pp : 0 <= p) by (unfold p; nra).
  assert (Dp : p <= d * d / 4).
  { unfold p, d. generalize (Rle_0_sqr (a1 - (a2 + a3))). unfold Rsqr. nra. }
  assert (A1 : a1 * a1 <= d * d) by (unfold d; nra).
  assert (C1 : 1 - 3 * u <= (1 - u) * (1 - u) * (1 - u)) by nra.
  assert (C2 : (1 + u) * (1 + u) * (1 + u) <= 1 + 4 * u) by nra.
  assert (d * d * (1 - 3 * u) <= hh) by nra.
  assert (zz <= p * (1 + 4 * u) + u * (d * d)) by nra.
  assert (p * (1 + 4 * u) <= d * d / 4 * (1 + 4 * u)) by (apply Rmult_le_compat_r; lra).
  nra.
Qed.

Section Par.
Variables t b B hn : R.
Hypothesis Ft : fmt t.
Hypothesis Pb : 0 < b.
Hypothesis PB : 0 < B.
Hypothesis Hn : 1 <= hn.
Hypothesis Lt : bpow radix2 (-400) <= t.
Let q0 := rnd (B * B).
Let q1 := rnd (b * b).
Let P := rnd (B * b).
Hypothesis H1 : q1 < t.
Hypothesis HP : t <= P.
Let z0 := rnd (t - q0).
Let z1 := rnd (t - q1).
Let h := rnd (hn * rnd (q0 - q1)).

Lemma par_Bb : b < B.
Proof.
  destruct (Rlt_le_dec b B) as [L|L]; [ exact L | exfalso ].
  assert (P <= q1); [ | lra ]. unfold P, q1. apply rnd_le. nra.
Qed.

Lemma bp_le x y : (x <= y)%Z -> bpow radix2 x <= bpow radix2 y.
Proof. apply bpow_le. Qed.

Lemma bp_mul x y z : (x + y = z)%Z -> bpow radix2 x * bpow radix2 y = bpow radix2 z.
Proof. intros <-. symmetry. apply bpow_plus. Qed.

(** a rounded value of at least 2^-400 comes from a normal number *)
Lemma rnd_norm x : bpow radix2 (-400) <= rnd x -> bpow radix2 (-1022) <= Rabs x.
Proof.
  intros H. destruct (Rle_lt_dec (bpow radix2 (-1022)) (Rabs x)) as [L|L]; [ exact L | exfalso ].
  assert (x <= bpow radix2 (-1022)) by (generalize (Rle_abs x); lra).
  assert (rnd x <= bpow radix2 (-1022)).
  { rewrite <- (rnd_fmt (bpow radix2 (-1022))) by (apply generic_format_FLT_bpow; [ typeclasses eauto | lia ]).
    now apply rnd_le. }
  generalize (bpow_lt radix2 (-1022) (-400) ltac:(lia)). lra.
Qed.

Lemma par_gt : rnd (P - t) < rnd (R_sqrt.sqrt (rnd (rnd (z0 * z1) + rnd (h * h)))).
Proof.
  generalize par_Bb uu_pos uu_small eta0_pos. intros Lb U0 U1 E0.
  assert (T0 : 0 < t) by (generalize (bpow_gt_0 radix2 (-400)); lra).
  assert (Q0 : P <= q0) by (unfold P, q0; apply rnd_le; nra).
  assert (B2 : bpow radix2 (-400) <= q0) by lra.
  assert (Fq0 : fmt q0) by apply fmt_rnd. assert (Fq1 : fmt q1) by apply fmt_rnd.
  assert (FP : fmt P) by apply fmt_rnd.
  assert (Et : eta0 <= uu * (uu * t / 2 * (uu * t / 2))).
  { apply Rle_trans with (uu * uu * uu * bpow radix2 (-400) * bpow radix2 (-400) * bpow radix2 (-2)).
    - unfold uu, eta0. rewrite !(bp_mul _ _ _ eq_refl). apply bp_le. lia.
    - assert (0 < uu * uu * uu) by (repeat apply Rmult_lt_0_compat; exact U0).
      generalize (bpow_gt_0 radix2 (-400)). intros G. change (bpow radix2 (-2)) with (/ 4).
      assert (K : bpow radix2 (-400) * bpow radix2 (-400) <= t * t) by (apply Rmult_le_compat; lra).
      replace (uu * (uu * t / 2 * (uu * t / 2))) with (uu * uu * uu * (t * t) * / 4) by field.
      rewrite !(Rmult_assoc (uu * uu * uu)). apply Rmult_le_compat_l; lra. }
  assert (Et1 : eta0 <= uu * t).
  { apply Rle_trans with (uu * bpow radix2 (-400)).
    - unfold uu, eta0. rewrite (bp_mul _ _ _ eq_refl). apply bp_le. lia.
    - apply Rmult_le_compat_l; lra. }
  (* errors of the three products *)
  assert (N0 := err_n (B * B) (rnd_norm _ B2)). fold q0 in N0. rewrite (Rabs_pos_eq (B * B)) in N0 by nra.
  assert (NP := err_n (B * b) (rnd_norm _ (Rle_trans _ _ _ Lt HP))). fold P in NP.
  rewrite (Rabs_pos_eq (B * b)) in NP by nra.
  assert (N1 := err_any (b * b)). fold q1 in N1. rewrite (Rabs_pos_eq (b * b)) in N1 by nra.
  apply Rabs_le_inv in N0, NP, N1.
  set (E := 2 * uu * q0).
  assert (BB : uu * (B * B) <= E).
  { unfold E. assert (B * B * (1 - uu) <= q0) by lra. nra. }
  assert (e1 : uu * (b * b) + eta0 <= 2 * E).
  { assert (uu * (b * b) <= uu * (B * B)) by (apply Rmult_le_compat_l; nra).
    assert (uu * t <= uu * q0) by (apply Rmult_le_compat_l; lra). unfold E in *. lra. }
  assert (e2 : uu * (B * b) <= E).
  { assert (uu * (B * b) <= uu * (B * B)) by (apply Rmult_le_compat_l; nra). lra. }
  set (a1 := t - q1). set (a2 := P - t). set (a3 := q0 - P).
  assert (P1 : 0 < a1) by (unfold a1; lra). assert (P2 : 0 <= a2) by (unfold a2; lra).
  assert (P3 : 0 <= a3) by (unfold a3; lra).
  assert (S13 : a1 + a2 <= a3 + 5 * E).
  { unfold a1, a2, a3. assert (B * b - b * b <= B * B - B * b) by nra. lra. }
  assert (G1 : uu * t / 2 <= a1).
  { apply fmt_gap; [ exact Fq1 | exact Ft | exact H1 | ].
    apply Rle_trans with (2 := Lt). apply bp_le. lia. }
  assert (Q1 : 0 <= q1) by (apply rnd_nonneg; nra).
  assert (Hc : a2 <= 400 * a1 \/ a2 <= 2 * a3).
  { destruct (Rle_lt_dec q0 (8 * t)) as [L|L].
    - assert (E <= 32 * a1).
      { unfold E. apply Rle_trans with (2 * uu * (8 * t)); [ apply Rmult_le_compat_l; lra | lra ]. }
      destruct (Rle_lt_dec a2 (400 * a1)); [ now left | ]. right. lra.
    - right. assert (q0 <= 2 * (a1 + a2 + a3)) by (unfold a1, a2, a3; lra).
      assert (5 * E <= / 4 * (a1 + a2 + a3)); [ | lra ].
      unfold E. apply Rle_trans with (10 * uu * (2 * (a1 + a2 + a3))); [ nra | ].
      assert (20 * uu <= / 4) by lra. nra. }
  (* the differences *)
  assert (D1 := err_minus q0 q1 Fq0 Fq1). assert (D2 := err_minus t q1 Ft Fq1).
  assert (D3 := err_minus q0 t Fq0 Ft). assert (D4 := err_minus P t FP Ft).
  apply Rabs_bnd in D1; [ | lra ]. apply Rabs_bnd in D2; [ | lra ].
  apply Rabs_bnd in D3; [ | lra ]. apply Rabs_bnd in D4; [ | lra ].
  fold z1 in D2. fold a1 in D2. fold a2 in D4.
  assert (Z0 : z0 = - rnd (q0 - t)).
  { unfold z0. rewrite <- rnd_opp. f_equal. ring. }
  set (y0 := rnd (q0 - t)) in *.
  replace (q0 - t) with (a2 + a3) in D3 by (unfold a2, a3; ring).
  set (dd := rnd (q0 - q1)) in *.
  replace (q0 - q1) with (a1 + a2 + a3) in D1 by (unfold a1, a2, a3; ring).
  assert (Fdd : fmt dd) by apply fmt_rnd.
  assert (Pd : 0 < dd).
  { apply Rlt_le_trans with ((a1 + a2 + a3) * (1 - uu)); [ | lra ]. apply Rmult_lt_0_compat; lra. }
  assert (Hh : dd <= h).
  { unfold h. rewrite <- (rnd_fmt dd Fdd) at 1. apply rnd_le. nra. }
  assert (Dl : uu * t / 4 <= dd).
  { apply Rle_trans with ((a1 + a2 + a3) * (1 - uu)); [ | lra ]. nra. }
  assert (Dn : bpow radix2 (-1022) <= Rabs (dd * dd)).
  { rewrite Rabs_pos_eq by nra. apply Rle_trans with (uu * t / 4 * (uu * t / 4)).
    - apply Rle_trans with (uu * uu * bpow radix2 (-400) * bpow radix2 (-400) * bpow radix2 (-4)).
      + unfold uu. rewrite !(bp_mul _ _ _ eq_refl). apply bp_le. lia.
      + change (bpow radix2 (-4)) with (/ 16). generalize (bpow_gt_0 radix2 (-400)). intros G.
        assert (bpow radix2 (-400) * bpow radix2 (-400) <= t * t) by (apply Rmult_le_compat; lra).
        assert (0 < uu * uu) by nra. nra.
    - apply Rmult_le_compat; nra. }
  assert (Hd := err_n _ Dn). apply Rabs_bnd in Hd; [ | nra ].
  assert (Hhh : (a1 + a2 + a3) * (a1 + a2 + a3) * (1 - uu) * (1 - uu) * (1 - uu) <= rnd (h * h)).
  { apply Rle_trans with (rnd (dd * dd)); [ | apply rnd_le; nra ].
    apply Rle_trans with (dd * dd * (1 - uu)); [ | lra ].
    apply Rmult_le_compat_r; [ lra | ].
    replace ((a1 + a2 + a3) * (a1 + a2 + a3) * (1 - uu) * (1 - uu))
      with ((a1 + a2 + a3) * (1 - uu) * ((a1 + a2 + a3) * (1 - uu))) by ring.
    apply Rmult_le_compat; nra. }
  assert (Y0 : 0 <= y0) by (apply rnd_nonneg; lra).
  assert (Z1 : 0 <= z1) by (apply rnd_nonneg; lra).
  assert (Ez := err_any (y0 * z1)). rewrite (Rabs_pos_eq (y0 * z1)) in Ez by nra. apply Rabs_le_inv in Ez.
  assert (Hz : rnd (y0 * z1) <= a1 * (a2 + a3) * (1 + uu) * (1 + uu) * (1 + uu) + eta0).
  { apply Rle_trans with (y0 * z1 * (1 + uu) + eta0); [ lra | ]. apply Rplus_le_compat_r.
    apply Rmult_le_compat_r; [ lra | ].
    replace (a1 * (a2 + a3) * (1 + uu) * (1 + uu)) with ((a2 + a3) * (1 + uu) * (a1 * (1 + uu))) by ring.
    apply Rmult_le_compat; lra. }
  assert (He : eta0 <= uu * (a1 * a1)).
  { apply Rle_trans with (1 := Et).
    assert (uu * t / 2 * (uu * t / 2) <= a1 * a1) by (apply Rmult_le_compat; nra).
    assert (uu * (uu * t / 2 * (uu * t / 2)) <= uu * (a1 * a1)) by (apply Rmult_le_compat_l; lra).
    lra. }
  set (rad := rnd (rnd (z0 * z1) + rnd (h * h))).
  assert (Zz : rnd (z0 * z1) = - rnd (y0 * z1)).
  { rewrite Z0, <- rnd_opp. f_equal. ring. }
  assert (Er := err_plus _ _ (fmt_rnd (z0 * z1)) (fmt_rnd (h * h))). fold rad in Er.
  rewrite Zz in Er.
  assert (Zp : rnd (y0 * z1) <= rnd (h * h)).
  { exact (par_le uu a1 a2 a3 _ _ eta0 (conj U0 U1) P1 P2 P3 Hhh Hz He). }
  apply Rabs_bnd in Er; [ | lra ].
  assert (M := par_real uu a1 a2 a3 (rnd (h * h)) (rnd (y0 * z1)) rad eta0 (conj U0 U1) P1 P2 P3 Hc Hhh Hz He ltac:(lra)).
  assert (Fr : fmt rad) by apply fmt_rnd.
  assert (Rp : 0 < rad).
  { destruct (Rle_lt_dec rad 0) as [L|L]; [ exfalso | exact L ].
    assert (K1 := Rle_0_sqr (a2 * (1 + uu))). unfold Rsqr in K1.
    assert (K2 : rad * (1 - uu) * (1 - uu) <= 0); [ | lra ].
    assert (K3 : 0 <= 1 - uu) by lra. clear - K3 L.
    assert (rad * (1 - uu) <= 0) by nra. nra. }
  assert (Sn : bpow radix2 (-537) <= R_sqrt.sqrt rad).
  { rewrite <- (sqrt_Rsqr (bpow radix2 (-537))) by apply bpow_ge_0. apply sqrt_le_1_alt. unfold Rsqr.
    rewrite (bp_mul (-537) (-537) (-1074) eq_refl). now apply fmt_tiny. }
  assert (Sx := err_n (R_sqrt.sqrt rad)). rewrite Rabs_pos_eq in Sx by apply sqrt_pos.
  assert (Sy : bpow radix2 (-1022) <= R_sqrt.sqrt rad) by (apply Rle_trans with (2 := Sn); apply bp_le; lia).
  specialize (Sx Sy). apply Rabs_le_inv in Sx.
  apply Rle_lt_trans with (a2 * (1 + uu)); [ lra | ].
  apply Rlt_le_trans with (R_sqrt.sqrt rad * (1 - uu)); [ | lra ].
  apply Rsqr_incrst_0; [ | apply Rmult_le_pos; lra | apply Rmult_le_pos; [ apply sqrt_pos | lra ] ].
  unfold Rsqr. replace (R_sqrt.sqrt rad * (1 - uu) * (R_sqrt.sqrt rad * (1 - uu)))
    with (R_sqrt.sqrt rad * R_sqrt.sqrt rad * (1 - uu) * (1 - uu)) by ring.
  rewrite sqrt_sqrt by lra. exact M.
Qed.
End Par.
