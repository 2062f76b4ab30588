(** Accuracy of the parallel deep cut in double arithmetic. *)
From Coq Require Import Reals ZArith Lia Lra Psatz Bool Floats List.
From Flocq Require Import Core.Core.
From Verif Require Import Arith Vec ModelCalc ModelEll ModelStable SpecDrivers SpecFloating SpecCut.
From Verif Require Import PAlg PCalc PCalc2 PCalc3.
From Verif Require Import PFloat PFloatSign PFloatCalc PFloatErr PFloatPar PFloatCut PFloatCut2 PFloatAcc PFloatAcc2 PFloatAcc3 PFloatAcc4 PFloatSigns2.
Import ListNotations.
Local Open Scope R_scope.

Lemma sqrt_abs g x X : 0 <= g -> 0 <= x -> 0 <= X -> Rabs (X - x * x) <= 13 * (g * x) + 14 * (g * g) ->
  Rabs (R_sqrt.sqrt X - x) <= 14 * g.
Proof.
  intros G X0 X1 E. apply bnd in E. assert (GX : 0 <= g * x) by nra. assert (GG : 0 <= g * g) by nra.
  apply Rabs_le. split.
  - destruct (Rle_lt_dec x (14 * g)) as [L|L]; [ generalize (sqrt_pos X); lra | ].
    assert (x - 14 * g <= R_sqrt.sqrt X); [ | lra ].
    apply Rle_trans with (R_sqrt.sqrt (Rsqr (x - 14 * g))); [ rewrite sqrt_Rsqr; lra | ].
    apply sqrt_le_1_alt. unfold Rsqr. assert (14 * g * g <= g * x) by nra. nra.
  - assert (R_sqrt.sqrt X <= x + 14 * g); [ | lra ].
    apply Rle_trans with (R_sqrt.sqrt (Rsqr (x + 14 * g))); [ | rewrite sqrt_Rsqr; lra ].
    apply sqrt_le_1_alt. unfold Rsqr. nra.
Qed.

Section Real.
Variables (n : nat) (t A B : R).
Hypothesis Hn : (2 <= n)%nat.
Hypothesis Hnb : (Z.of_nat n < 2 ^ 53)%Z.
Hypothesis Ft : fmt t.
Hypothesis FA' : fmt A.
Hypothesis FB : fmt B.
Hypothesis Lt : bpow radix2 (-400) <= t.
Hypothesis PA : 0 <= A.
Hypothesis AB : A <= B.
Hypothesis HB : B * B <= t.
Let N := INR n.
Let H := N * (B * B).
Let D := t + H.
Let g := uu * D.
Let q0 := rnd (A * A).
Let q1 := rnd (B * B).
Let z0' := rnd (t - q0).
Let z1' := rnd (t - q1).
Let d' := rnd (q1 - q0).
Let h' := rnd (N / 2 * d').
Let z0 := t - A * A.
Let z1 := t - B * B.
Let h := N / 2 * (B * B - A * A).
Let xi := R_sqrt.sqrt (z0 * z1 + h * h).
Let X' := rnd (rnd (z0' * z1') + rnd (h' * h')).
Let xi' := rnd (R_sqrt.sqrt X').

Lemma pd_t0 : 0 < t.
Proof. generalize (bpow_gt_0 radix2 (-400)). lra. Qed.
Lemma pd_N : 2 <= N.
Proof. apply (le_INR 2). exact Hn. Qed.
Lemma pd_Nb : N <= bpow radix2 53.
Proof. apply pc_Nb; assumption. Qed.
Lemma pd_Neta : N * eta0 <= uu * uu * t / 100.
Proof.
  generalize pd_Nb eta0_pos uu_pos pd_t0. intros Nb E U T.
  apply Rle_trans with (bpow radix2 53 * eta0); [ apply Rmult_le_compat_r; lra | ].
  apply Rle_trans with (uu * uu * bpow radix2 (-400) * bpow radix2 (-7)).
  - unfold eta0, uu. rewrite !(bp_mul _ _ _ eq_refl). apply bp_le. lia.
  - assert (K : bpow radix2 (-7) <= / 100) by (cbn; lra).
    apply Rle_trans with (uu * uu * t * / 100); [ | lra ].
    apply Rmult_le_compat; try lra; [ | apply bpow_ge_0 | apply Rmult_le_compat_l; nra ].
    apply Rmult_le_pos; [ nra | apply bpow_ge_0 ].
Qed.
Lemma pd_eta1 : eta0 <= uu * uu * t / 100.
Proof. generalize pd_Neta pd_N eta0_pos. nra. Qed.
Lemma pd_eta2 : eta0 <= uu * uu * (t * t) / 100.
Proof.
  generalize uu_pos pd_t0. intros U T.
  apply Rle_trans with (uu * uu * (bpow radix2 (-400) * bpow radix2 (-400)) * bpow radix2 (-7)).
  - unfold eta0, uu. rewrite !(bp_mul _ _ _ eq_refl). apply bp_le. lia.
  - assert (K : bpow radix2 (-7) <= / 100) by (cbn; lra).
    assert (G0 := bpow_ge_0 radix2 (-400)).
    apply Rle_trans with (uu * uu * (t * t) * / 100); [ | lra ].
    apply Rmult_le_compat; try lra; [ | apply bpow_ge_0 | ].
    + apply Rmult_le_pos; nra.
    + apply Rmult_le_compat_l; [ nra | ]. apply Rmult_le_compat; lra.
Qed.

Lemma pd_AA : 0 <= A * A <= B * B.
Proof. split; nra. Qed.
Lemma pd_H : 2 * (B * B) <= H.
Proof. generalize pd_N pd_AA. intros. unfold H. apply Rmult_le_compat_r; lra. Qed.
Lemma pd_g : 0 < uu * t <= g /\ uu * H <= g.
Proof.
  generalize uu_pos pd_t0 pd_H pd_AA. intros U T K Q. unfold g, D.
  assert (0 < uu * t) by nra. assert (0 <= uu * H) by (apply Rmult_le_pos; lra). lra.
Qed.

Lemma pd_q x : 0 <= x -> x * x <= t -> 0 <= rnd (x * x) <= t.
Proof. intros P Q. split; [ apply rnd_nonneg; nra | ]. rewrite <- (rnd_fmt t Ft). now apply rnd_le. Qed.

Lemma pd_z x : 0 <= x -> x * x <= t ->
  0 <= rnd (t - rnd (x * x)) <= t /\ Rabs (rnd (t - rnd (x * x)) - (t - x * x)) <= 2 * (uu * t).
Proof.
  intros P Q. generalize (pd_q x P Q) uu_pos uu_small pd_t0 pd_eta1 eta0_pos. intros Qq U0 U1 T E1 E0. split.
  - split; [ apply rnd_nonneg; lra | ]. rewrite <- (rnd_fmt t Ft) at 2. apply rnd_le. lra.
  - assert (X0 : 0 <= x * x) by nra.
    assert (E := err_any (x * x)). rewrite (Rabs_pos_eq (x * x)) in E by exact X0. apply bnd in E.
    assert (F := err_minus t (rnd (x * x)) Ft (fmt_rnd _)). rewrite (Rabs_pos_eq (t - _)) in F by lra. apply bnd in F.
    set (q := rnd (x * x)) in *. set (z := rnd (t - q)) in *.
    assert (K1 : uu * (t - q) <= uu * (t - x * x + uu * (x * x) + eta0)) by (apply Rmult_le_compat_l; lra).
    assert (K2 : uu * (uu * (x * x)) <= uu * t / 100) by nra.
    assert (K3 : uu * eta0 <= eta0) by nra.
    assert (K4 : uu * uu * t <= uu * t) by nra. assert (0 <= uu * (x * x)) by nra.
    apply Rabs_le. split; lra.
Qed.

Lemma pd_h : Rabs (h' - h) <= 3 * g.
Proof.
  generalize uu_pos uu_small pd_t0 pd_eta1 pd_Neta eta0_pos pd_N pd_AA pd_H pd_g. intros U0 U1 T E1 E2 E0 N2 Q HH [G1 G2].
  assert (Ea := err_any (A * A)). rewrite (Rabs_pos_eq (A * A)) in Ea by lra. apply bnd in Ea. fold q0 in Ea.
  assert (Eb := err_any (B * B)). rewrite (Rabs_pos_eq (B * B)) in Eb by lra. apply bnd in Eb. fold q1 in Eb.
  assert (QQ : q0 <= q1) by (unfold q0, q1; apply rnd_le; lra).
  assert (F := err_minus q1 q0 (fmt_rnd _) (fmt_rnd _)). fold d' in F. rewrite (Rabs_pos_eq (q1 - q0)) in F by lra. apply bnd in F.
  assert (UB : 0 <= uu * (A * A) <= uu * (B * B)) by (split; [ apply Rmult_le_pos; lra | apply Rmult_le_compat_l; lra ]).
  assert (UUB : uu * (uu * (B * B)) <= uu * (B * B) / 100) by nra.
  assert (UE : uu * eta0 <= eta0 / 100) by nra.
  assert (K1 : uu * (q1 - q0) <= uu * (B * B + 2 * (uu * (B * B)) + 2 * eta0)) by (apply Rmult_le_compat_l; lra).
  assert (Ed : Rabs (d' - (B * B - A * A)) <= 33 / 10 * (uu * (B * B)) + 3 * eta0) by (apply Rabs_le; lra).
  assert (Dp : 0 <= d') by (apply rnd_nonneg; lra).
  assert (E3 := err_any (N / 2 * d')). fold h' in E3.
  rewrite (Rabs_pos_eq (N / 2 * d')) in E3 by (apply Rmult_le_pos; lra). apply bnd in E3.
  assert (E4 : Rabs (N / 2 * d' - h) <= 17 / 10 * (uu * H) + 2 * (N * eta0)).
  { unfold h. replace (N / 2 * d' - N / 2 * (B * B - A * A)) with (N / 2 * (d' - (B * B - A * A))) by ring.
    rewrite Rabs_mult, (Rabs_pos_eq (N / 2)) by lra.
    apply Rle_trans with (N / 2 * (33 / 10 * (uu * (B * B)) + 3 * eta0)); [ apply Rmult_le_compat_l; lra | ].
    assert (0 <= N * (uu * (B * B))) by (apply Rmult_le_pos; lra).
    replace (uu * H) with (N * (uu * (B * B))) by (unfold H; ring).
    assert (0 <= N * eta0) by nra. lra. }
  apply bnd in E4.
  assert (Hh : h <= H / 2) by (unfold h, H; assert (N * (B * B - A * A) <= N * (B * B)) by (apply Rmult_le_compat_l; lra); lra).
  assert (H0 : 0 <= H) by lra.
  assert (UH : 0 <= uu * H) by (apply Rmult_le_pos; lra).
  assert (UUH : uu * (uu * H) <= uu * H / 100) by nra.
  assert (NE0 : 0 <= N * eta0) by nra.
  assert (UNE : uu * (N * eta0) <= N * eta0 / 100) by nra.
  assert (K2 : uu * (N / 2 * d') <= uu * (H / 2 + 17 / 10 * (uu * H) + 2 * (N * eta0))) by (apply Rmult_le_compat_l; lra).
  assert (N1 : eta0 <= N * eta0) by nra.
  assert (K4 : uu * uu * t <= uu * t) by nra.
  apply Rabs_le. split; lra.
Qed.

Lemma pd_h0 : 0 <= h <= H / 2.
Proof.
  generalize pd_N pd_AA. intros N2 Q. unfold h, H. split; [ apply Rmult_le_pos; lra | ].
  assert (N * (B * B - A * A) <= N * (B * B)) by (apply Rmult_le_compat_l; lra). lra.
Qed.
Lemma pd_zz : 0 <= z1 <= z0 /\ z0 <= t.
Proof. generalize pd_AA. intros Q. unfold z0, z1. lra. Qed.

Lemma pd_rad0 : 0 <= z0 * z1 + h * h.
Proof. generalize pd_zz pd_h0. intros [Z Z'] Q. assert (0 <= z0 * z1) by (apply Rmult_le_pos; lra). nra. Qed.
Lemma pd_xisq : xi * xi = z0 * z1 + h * h.
Proof. apply sqrt_sqrt, pd_rad0. Qed.
Lemma pd_xi_h : h <= xi.
Proof.
  generalize pd_zz pd_h0. intros [Z Z'] Q. unfold xi. apply Rle_trans with (R_sqrt.sqrt (Rsqr h)); [ rewrite sqrt_Rsqr; lra | ].
  apply sqrt_le_1_alt. unfold Rsqr. assert (0 <= z0 * z1) by (apply Rmult_le_pos; lra). lra.
Qed.
Lemma pd_xi_z : (z0 + z1) / 2 <= xi.
Proof.
  generalize pd_zz pd_h0 pd_N. intros [Z Z'] Q N2. unfold xi.
  apply Rle_trans with (R_sqrt.sqrt (Rsqr ((z0 + z1) / 2))); [ rewrite sqrt_Rsqr; lra | ].
  apply sqrt_le_1_alt. unfold Rsqr.
  assert (E : h = N / 2 * (z0 - z1)) by (unfold h, z0, z1; ring).
  assert (K : z0 - z1 <= h) by (rewrite E; nra).
  assert ((z0 - z1) * (z0 - z1) <= h * h) by (apply Rmult_le_compat; lra).
  assert (S := Rle_0_sqr (z0 - z1)). unfold Rsqr in S. lra.
Qed.
Lemma pd_xi_D : 0 <= xi <= D.
Proof.
  generalize pd_zz pd_h0 pd_t0. intros [Z Z'] Q T. split; [ apply sqrt_pos | ].
  unfold xi. rewrite <- (sqrt_Rsqr D) by (unfold D; lra). apply sqrt_le_1_alt. unfold Rsqr, D.
  assert (z0 * z1 <= t * t) by (apply Rmult_le_compat; lra).
  assert (h * h <= H * H) by (apply Rmult_le_compat; lra).
  assert (0 <= t * H) by (apply Rmult_le_pos; lra). lra.
Qed.

Lemma pd_xi : Rabs (xi' - xi) <= 16 * g.
Proof.
  generalize uu_pos uu_small pd_t0 pd_eta2 eta0_pos pd_zz pd_h0 pd_h pd_xi_h pd_xi_z pd_xi_D pd_xisq pd_g.
  intros U0 U1 T E2 E0 [Z Z'] Hq Eh X1 X2 [X3 X4] X5 [[G0 G1] G2].
  destruct (pd_z A PA ltac:(generalize pd_AA; lra)) as [ZA EA]. fold q0 in ZA, EA. fold z0' in ZA, EA. fold z0 in EA.
  destruct (pd_z B ltac:(lra) HB) as [ZB EB]. fold q1 in ZB, EB. fold z1' in ZB, EB. fold z1 in EB.
  assert (G : 0 < g) by lra.
  assert (EA' : Rabs (z0' - z0) <= 2 * g) by lra. assert (EB' : Rabs (z1' - z1) <= 2 * g) by lra. clear EA EB.
  assert (H'0 : 0 <= h').
  { assert (QQ : q0 <= q1) by (unfold q0, q1; apply rnd_le; generalize pd_AA; lra).
    apply rnd_nonneg. apply Rmult_le_pos; [ generalize pd_N; lra | ]. apply rnd_nonneg. lra. }
  apply bnd in EA'. apply bnd in EB'. apply bnd in Eh.
  assert (GX : 0 <= g * xi) by (apply Rmult_le_pos; lra).
  assert (GG : 0 <= g * g) by (apply Rmult_le_pos; lra).
  (* products *)
  assert (V0 : Rabs (z0' * z1' - z0 * z1) <= 4 * (g * xi) + 4 * (g * g)).
  { set (a := z0' - z0). set (b := z1' - z1).
    replace (z0' * z1' - z0 * z1) with (a * z1 + b * z0 + a * b) by (unfold a, b; ring).
    assert (Ha : Rabs a <= 2 * g) by (apply Rabs_le; unfold a; lra).
    assert (Hb : Rabs b <= 2 * g) by (apply Rabs_le; unfold b; lra).
    apply Rle_trans with (Rabs a * z1 + Rabs b * z0 + Rabs a * Rabs b).
    - apply Rle_trans with (1 := Rabs_triang _ _). rewrite Rabs_mult. apply Rplus_le_compat_r.
      apply Rle_trans with (1 := Rabs_triang _ _). rewrite !Rabs_mult, (Rabs_pos_eq z1), (Rabs_pos_eq z0) by lra. lra.
    - assert (Rabs a * z1 <= 2 * g * z1) by (apply Rmult_le_compat_r; lra).
      assert (Rabs b * z0 <= 2 * g * z0) by (apply Rmult_le_compat_r; lra).
      assert (Rabs a * Rabs b <= 2 * g * (2 * g)) by (apply Rmult_le_compat; try apply Rabs_pos; assumption).
      assert (2 * g * (z0 + z1) <= 2 * g * (2 * xi)) by (apply Rmult_le_compat_l; lra). lra. }
  assert (V1 : Rabs (h' * h' - h * h) <= 6 * (g * xi) + 9 * (g * g)).
  { set (a := h' - h). replace (h' * h' - h * h) with (a * (2 * h) + a * a) by (unfold a; ring).
    assert (Ha : Rabs a <= 3 * g) by (apply Rabs_le; unfold a; lra).
    apply Rle_trans with (1 := Rabs_triang _ _). rewrite !Rabs_mult, (Rabs_pos_eq (2)), (Rabs_pos_eq h) by lra.
    assert (Rabs a * (2 * h) <= 3 * g * (2 * xi)) by (apply Rmult_le_compat; try apply Rabs_pos; lra).
    assert (Rabs a * Rabs a <= 3 * g * (3 * g)) by (apply Rmult_le_compat; try apply Rabs_pos; assumption). lra. }
  apply bnd in V0. apply bnd in V1.
  assert (P0 : 0 <= z0' * z1') by (apply Rmult_le_pos; lra).
  assert (P1 : 0 <= h' * h') by (apply Rmult_le_pos; lra).
  assert (R0 := err_any (z0' * z1')). rewrite (Rabs_pos_eq (z0' * z1')) in R0 by exact P0. apply bnd in R0.
  assert (R1 := err_any (h' * h')). rewrite (Rabs_pos_eq (h' * h')) in R1 by exact P1. apply bnd in R1.
  set (y0 := rnd (z0' * z1')) in *. set (y1 := rnd (h' * h')) in *.
  assert (Y0 : 0 <= y0) by (apply rnd_nonneg; exact P0). assert (Y1 : 0 <= y1) by (apply rnd_nonneg; exact P1).
  assert (R2 := err_plus y0 y1 (fmt_rnd _) (fmt_rnd _)). rewrite (Rabs_pos_eq (y0 + y1)) in R2 by lra. apply bnd in R2.
  change (rnd (y0 + y1)) with X' in R2.
  assert (UX : uu * (xi * xi) <= g * xi).
  { unfold g. rewrite Rmult_assoc. apply Rmult_le_compat_l; [ lra | ]. apply Rmult_le_compat_r; lra. }
  assert (UGX : uu * (g * xi) <= g * xi / 1000) by nra.
  assert (UGG : uu * (g * g) <= g * g / 1000) by nra.
  assert (EG : eta0 <= g * g / 100).
  { assert (uu * t * (uu * t) <= g * g) by (apply Rmult_le_compat; lra). lra. }
  assert (UE : uu * eta0 <= eta0) by nra.
  set (V := z0' * z1' + h' * h').
  assert (UV : uu * V <= uu * (xi * xi + 10 * (g * xi) + 13 * (g * g))) by (apply Rmult_le_compat_l; unfold V; lra).
  assert (UV0 : 0 <= uu * V) by (apply Rmult_le_pos; unfold V; lra).
  assert (UUV : uu * (uu * V) <= uu * V / 1000) by nra.
  assert (UY : uu * (y0 + y1) <= uu * (V + uu * V + 2 * eta0)) by (apply Rmult_le_compat_l; unfold V; lra).
  assert (Fin : Rabs (X' - xi * xi) <= 13 * (g * xi) + 14 * (g * g)).
  { apply Rabs_le. unfold V in *. split; lra. }
  assert (X'0 : 0 <= X') by (apply rnd_nonneg; lra).
  assert (S := sqrt_abs g xi X' ltac:(lra) X3 X'0 Fin).
  assert (R3 := err_any (R_sqrt.sqrt X')). fold xi' in R3. rewrite (Rabs_pos_eq (R_sqrt.sqrt X')) in R3 by apply sqrt_pos.
  apply bnd in R3. apply bnd in S.
  assert (uu * R_sqrt.sqrt X' <= uu * (D + 14 * g)) by (apply Rmult_le_compat_l; lra).
  assert (uu * g <= g / 1000) by nra.
  assert (EG1 : eta0 <= g / 100).
  { generalize pd_eta1. intros K. assert (uu * uu * t <= uu * t) by nra. lra. }
  assert (Dg : uu * D = g) by reflexivity.
  apply Rabs_le. split; lra.
Qed.

(** denominator and numerator of sigma *)
Let bs := A + B.
Let bs' := rnd (A + B).
Let p' := rnd (A * B).
Let C := N / 2 * (bs * bs).
Let C' := rnd (N / 2 * rnd (bs' * bs')).
Let S := t + A * B + C.
Let S' := rnd (rnd (t + p') + C').
Let den := S + xi.
Let den' := rnd (S' + xi').
Let eta := t + N * (A * B).
Let eta' := rnd (t + rnd (N * p')).

Lemma pd_bs : near 1 bs' bs.
Proof.
  apply near_1; [ unfold bs; lra | ]. apply err_plus; assumption.
Qed.

Lemma pd_C : 0 <= C /\ Rabs (C' - C) <= 6 * (uu * C) + uu * t / 10.
Proof.
  generalize uu_pos uu_small pd_t0 pd_Neta pd_eta1 eta0_pos pd_N pd_bs. intros U0 U1 T E1 E1' E0 N2 Nb.
  assert (B0 : 0 <= bs) by (unfold bs; lra).
  assert (C0 : 0 <= C) by (unfold C; apply Rmult_le_pos; [ lra | nra ]). split; [ exact C0 | ].
  assert (Nq : near 3 (bs' * bs') (bs * bs)).
  { replace 3 with (1 + 1 + 1) by ring. apply near_mul; try lra; assumption. }
  assert (B0' : 0 <= bs') by (apply rnd_nonneg; lra).
  assert (E := err_any (bs' * bs')). rewrite (Rabs_pos_eq (bs' * bs')) in E by nra. apply bnd in E.
  set (w := bs' * bs') in *. set (w' := rnd w) in *.
  assert (NC : C * (1 - 3 * uu) <= N / 2 * w <= C * (1 + 3 * uu)).
  { destruct Nq as [Q1 Q2]. unfold C. split.
    - replace (N / 2 * (bs * bs) * (1 - 3 * uu)) with (N / 2 * (bs * bs * (1 - 3 * uu))) by ring. apply Rmult_le_compat_l; lra.
    - replace (N / 2 * (bs * bs) * (1 + 3 * uu)) with (N / 2 * (bs * bs * (1 + 3 * uu))) by ring. apply Rmult_le_compat_l; lra. }
  assert (W0 : 0 <= w) by (unfold w; nra). assert (W0' : 0 <= w') by (apply rnd_nonneg; exact W0).
  assert (NE : N / 2 * (w - (uu * w + eta0)) <= N / 2 * w' <= N / 2 * (w + (uu * w + eta0))).
  { split; apply Rmult_le_compat_l; lra. }
  set (c := N / 2 * w) in *.
  assert (NE' : c - uu * c - N * eta0 / 2 <= N / 2 * w' <= c + uu * c + N * eta0 / 2).
  { unfold c. lra. }
  clear NE.
  assert (E2 := err_any (N / 2 * w')). rewrite (Rabs_pos_eq (N / 2 * w')) in E2 by (apply Rmult_le_pos; lra). apply bnd in E2.
  fold C' in E2. change (rnd (N / 2 * w')) with C' in E2.
  set (v := N / 2 * w') in *.
  assert (UC : 0 <= uu * C) by (apply Rmult_le_pos; lra).
  assert (UUC : uu * (uu * C) <= uu * C / 1000) by nra.
  assert (Uc : uu * c <= uu * (C * (1 + 3 * uu))) by (apply Rmult_le_compat_l; lra).
  assert (Uv : uu * v <= uu * (c + uu * c + N * eta0 / 2)) by (apply Rmult_le_compat_l; lra).
  assert (UUc : uu * (uu * c) <= uu * c / 1000).
  { assert (0 <= uu * c) by (apply Rmult_le_pos; [ lra | unfold c; apply Rmult_le_pos; lra ]). nra. }
  assert (NE0 : 0 <= N * eta0) by nra. assert (UNE : uu * (N * eta0) <= N * eta0) by nra.
  assert (Ut : uu * uu * t <= uu * t) by nra.
  apply Rabs_le. split; lra.
Qed.

Lemma pd_S : t <= S /\ D <= 2 * S /\ Rabs (S' - S) <= 8 * (uu * S).
Proof.
  generalize uu_pos uu_small pd_t0 pd_eta1 eta0_pos pd_N pd_C. intros U0 U1 T E1 E0 N2 [C0 EC].
  assert (Q0 : 0 <= A * B) by nra.
  split; [ unfold S; lra | ].
  split.
  { unfold D, S, H. assert (N * (B * B) <= 2 * C); [ | lra ]. unfold C.
    replace (2 * (N / 2 * (bs * bs))) with (N * (bs * bs)) by field. apply Rmult_le_compat_l; [ lra | unfold bs; nra ]. }
  assert (Ep := err_any (A * B)). fold p' in Ep. rewrite (Rabs_pos_eq (A * B)) in Ep by exact Q0. apply bnd in Ep.
  assert (P0 : 0 <= p') by (apply rnd_nonneg; exact Q0).
  assert (E2 := err_plus t p' Ft (fmt_rnd _)). rewrite (Rabs_pos_eq (t + p')) in E2 by lra. apply bnd in E2.
  set (s1 := rnd (t + p')) in *.
  assert (S10 : 0 <= s1) by (apply rnd_nonneg; lra).
  assert (C'0 : 0 <= C').
  { apply rnd_nonneg. apply Rmult_le_pos; [ lra | ]. apply rnd_nonneg. nra. }
  assert (E3 := err_plus s1 C' (fmt_rnd _) (fmt_rnd _)). rewrite (Rabs_pos_eq (s1 + C')) in E3 by lra. apply bnd in E3.
  change (rnd (s1 + C')) with S' in E3. apply bnd in EC.
  set (m := uu * (A * B)) in *. assert (M0 : 0 <= m) by (apply Rmult_le_pos; lra).
  assert (Um : uu * m <= m / 1000) by nra.
  set (k := uu * C) in *. assert (K0 : 0 <= k) by (apply Rmult_le_pos; lra). assert (Uk : uu * k <= k / 1000) by nra.
  set (y := uu * t) in *. assert (Y0 : 0 < y) by (apply Rmult_lt_0_compat; lra). assert (Uy : uu * y <= y / 1000) by nra.
  assert (Ey : eta0 <= y / 1000).
  { replace (uu * uu * t) with (uu * y) in E1 by (unfold y; ring). lra. }
  assert (U2 : uu * (t + p') <= y + m + uu * (m + eta0)).
  { replace (y + m + uu * (m + eta0)) with (uu * (t + (A * B + (m + eta0)))) by (unfold y, m; ring). apply Rmult_le_compat_l; lra. }
  assert (Ue : uu * eta0 <= eta0) by nra.
  assert (F1 : Rabs (s1 - (t + A * B)) <= 11 / 10 * y + 21 / 10 * m) by (apply Rabs_le; lra).
  apply bnd in F1.
  assert (U3 : uu * (s1 + C') <= y + m + k + uu * (2 * y + 3 * m + 6 * k)).
  { replace (y + m + k + uu * (2 * y + 3 * m + 6 * k)) with (uu * (t + A * B + C + (2 * y + 3 * m + 6 * k))) by (unfold y, m, k; ring).
    apply Rmult_le_compat_l; [ lra | ]. lra. }
  replace (uu * S) with (y + m + k) by (unfold S, y, m, k; ring).
  apply Rabs_le. unfold S. split; lra.
Qed.

Lemma pd_den : near 42 den' den.
Proof.
  generalize uu_pos uu_small pd_t0 pd_S pd_xi pd_xi_D. intros U0 U1 T (S1 & S2 & S3) X [X0 X1].
  replace 42 with (40 + 2) by ring.
  assert (F : fmt S') by apply fmt_rnd. assert (F2 : fmt xi') by apply fmt_rnd.
  apply near_rnd with (S' + xi'); [ lra | unfold den; lra | | apply err_plus; assumption ].
  apply bnd in S3. apply bnd in X.
  assert (g <= 2 * (uu * S)).
  { unfold g. replace (2 * (uu * S)) with (uu * (2 * S)) by ring. apply Rmult_le_compat_l; lra. }
  assert (0 <= uu * xi) by (apply Rmult_le_pos; lra).
  unfold den. split; lra.
Qed.

Lemma pd_eta : near 5 eta' eta.
Proof.
  generalize uu_pos uu_small pd_t0 pd_Neta pd_eta1 eta0_pos pd_N. intros U0 U1 T E1 E1' E0 N2.
  assert (Q0 : 0 <= A * B) by nra.
  assert (Ep := err_any (A * B)). fold p' in Ep. rewrite (Rabs_pos_eq (A * B)) in Ep by exact Q0. apply bnd in Ep.
  assert (P0 : 0 <= p') by (apply rnd_nonneg; exact Q0).
  assert (NP0 : 0 <= N * p') by (apply Rmult_le_pos; lra).
  assert (E2 := err_int n p' (fmt_rnd _)). fold N in E2. rewrite (Rabs_pos_eq (N * p')) in E2 by exact NP0. apply bnd in E2.
  assert (E3 : N * (A * B) - (uu * (N * (A * B)) + N * eta0) <= N * p' <= N * (A * B) + (uu * (N * (A * B)) + N * eta0)).
  { replace (N * (A * B) - (uu * (N * (A * B)) + N * eta0)) with (N * (A * B - (uu * (A * B) + eta0))) by ring.
    replace (N * (A * B) + (uu * (N * (A * B)) + N * eta0)) with (N * (A * B + (uu * (A * B) + eta0))) by ring.
    split; apply Rmult_le_compat_l; lra. }
  set (m := N * (A * B)) in *. assert (M0 : 0 <= m) by (apply Rmult_le_pos; lra).
  assert (UM : 0 <= uu * m) by (apply Rmult_le_pos; lra). assert (UUM : uu * (uu * m) <= uu * m / 1000) by nra.
  assert (U2 : uu * (N * p') <= uu * (m + (uu * m + N * eta0))) by (apply Rmult_le_compat_l; lra).
  assert (NE0 : 0 <= N * eta0) by nra. assert (UNE : uu * (N * eta0) <= N * eta0) by nra.
  assert (Ut : uu * uu * t <= uu * t) by nra. assert (Ut0 : 0 <= uu * t) by nra.
  replace 5 with (3 + 2) by ring.
  apply near_rnd with (t + rnd (N * p')); [ lra | unfold eta; fold m; lra | | apply err_plus; [ exact Ft | apply fmt_rnd ] ].
  unfold eta. fold m. split; lra.
Qed.

Lemma pd_eta_t : t <= eta.
Proof. generalize pd_N. intros. assert (0 <= A * B) by nra. unfold eta. assert (0 <= N * (A * B)) by (apply Rmult_le_pos; lra). lra. Qed.

Lemma pd_den_hi : den <= t * bpow radix2 57.
Proof.
  generalize pd_N pd_Nb pd_t0 pd_S pd_xi_D pd_AA. intros N2 Nb T (S1 & S2 & _) [X0 X1] Q.
  assert (A * B <= B * B) by nra.
  assert (bs * bs <= 4 * t) by (unfold bs; nra).
  assert (C <= 2 * (N * t)) by (unfold C; nra).
  assert (H <= N * t) by (unfold H; apply Rmult_le_compat_l; lra).
  assert (N * t <= bpow radix2 53 * t) by (apply Rmult_le_compat_r; lra).
  assert (1 <= bpow radix2 53) by (apply (bpow_le radix2 0 53); lia).
  assert (t <= bpow radix2 53 * t) by nra.
  replace 57%Z with (53 + 1 + 1 + 1 + 1)%Z by lia. rewrite !bp_S. unfold den, S, D in *. lra.
Qed.

Lemma pd_sigma : near 51 (rnd (2 * eta' / den')) (2 * eta / den).
Proof.
  generalize pd_den pd_eta pd_eta_t pd_t0 pd_S pd_xi_D pd_den_hi. intros Dn En Et T (S1 & _) [X0 _] Dh.
  assert (D0 : 0 < den) by (unfold den; lra).
  assert (V : near 49 (2 * eta' / den') (2 * eta / den)).
  { replace 49 with (5 + 42 + 2) by ring. apply near_div; try lra; [ destruct En; split; lra | exact Dn ]. }
  assert (P : 0 < 2 * eta / den) by (apply Rdiv_lt_0_compat; lra).
  replace 51 with (49 + 2) by ring. apply near_rnd with (2 * eta' / den'); [ lra | lra | exact V | ].
  apply err_n, norm_ge. destruct (near_pos 49 _ _ ltac:(lra) V P) as [_ [V2 _]].
  apply Rle_trans with (2 := V2). apply Rle_trans with (/ bpow radix2 57).
  - rewrite <- bpow_opp. apply bpow_le. lia.
  - replace (2 * eta / den / 2) with (eta / den) by (field; lra).
    assert (B0 := bpow_gt_0 radix2 57).
    apply Rmult_le_reg_r with (den * bpow radix2 57); [ nra | ].
    replace (/ bpow radix2 57 * (den * bpow radix2 57)) with den by (field; lra).
    replace (eta / den * (den * bpow radix2 57)) with (eta * bpow radix2 57) by (field; lra). nra.
Qed.

Lemma pd_rho sg' sg : 0 <= sg -> near 51 sg' sg ->
  Rabs (rnd (rnd (sg' * bs') / 2) - sg * bs / 2) <= 58 * (uu * (sg * bs / 2)) + 2 * eta0.
Proof.
  intros S0 Ns. generalize uu_pos uu_small pd_bs eta0_pos. intros U0 U1 Nb E0.
  assert (B0 : 0 <= bs) by (unfold bs; lra).
  assert (V : near 53 (sg' * bs') (sg * bs)).
  { replace 53 with (51 + 1 + 1) by ring. apply near_mul; try lra; assumption. }
  assert (R0 : 0 <= sg * bs) by nra.
  assert (W0 := near_nn 53 _ _ ltac:(lra) V R0).
  assert (E := err_any (sg' * bs')). rewrite (Rabs_pos_eq (sg' * bs')) in E by exact W0. apply bnd in E.
  set (w := sg' * bs') in *. set (m := rnd w) in *. set (r := sg * bs) in *.
  assert (M0 : 0 <= m) by (apply rnd_nonneg; exact W0).
  assert (E2 := err_any (m / 2)). rewrite (Rabs_pos_eq (m / 2)) in E2 by lra. apply bnd in E2.
  destruct V as [V1 V2].
  assert (UR : 0 <= uu * r) by nra. assert (UUR : uu * (uu * r) <= uu * r / 1000) by nra.
  assert (Uw : uu * w <= uu * (r * (1 + 53 * uu))) by (apply Rmult_le_compat_l; lra).
  assert (UUw : uu * (uu * w) <= uu * w / 1000) by (assert (0 <= uu * w) by nra; nra).
  assert (Um : uu * (m / 2) <= uu * ((w + (uu * w + eta0)) / 2)) by (apply Rmult_le_compat_l; lra).
  assert (UE : uu * eta0 <= eta0 / 1000) by nra.
  apply Rabs_le. split; lra.
Qed.

(** delta *)
Let W := (z0 + z1) / 2 + xi / N.
Let W' := rnd (rnd (rnd (z0' + z1') / 2) + rnd (xi' / N)).

Lemma pd_W : 0 <= W <= 5 / 2 * t /\ 0 <= W' /\ Rabs (W' - W) <= 36 * (uu * t).
Proof.
  generalize uu_pos uu_small pd_t0 pd_eta1 eta0_pos pd_zz pd_xi_D pd_xi pd_N pd_AA.
  intros U0 U1 T E1 E0 [Z Z'] [X0 X1] EX N2 Q.
  destruct (pd_z A PA ltac:(lra)) as [ZA EA]. fold q0 in ZA, EA. fold z0' in ZA, EA. fold z0 in EA.
  destruct (pd_z B ltac:(lra) HB) as [ZB EB]. fold q1 in ZB, EB. fold z1' in ZB, EB. fold z1 in EB.
  set (y := uu * t) in *. assert (Y0 : 0 < y) by (apply Rmult_lt_0_compat; lra). assert (Uy : uu * y <= y / 1000) by nra.
  assert (Ey : eta0 <= y / 1000).
  { replace (uu * uu * t) with (uu * y) in E1 by (unfold y; ring). lra. }
  assert (IN : 0 < / N <= / 2) by (split; [ apply Rinv_0_lt_compat; lra | apply Rinv_le; lra ]).
  assert (DN : D * / N <= 3 / 2 * t).
  { unfold D, H. rewrite Rmult_plus_distr_r. replace (N * (B * B) * / N) with (B * B) by (field; lra).
    assert (t * / N <= t * / 2) by (apply Rmult_le_compat_l; lra). lra. }
  assert (XN : 0 <= xi / N <= 3 / 2 * t).
  { unfold Rdiv. split; [ apply Rmult_le_pos; lra | ]. apply Rle_trans with (2 := DN). apply Rmult_le_compat_r; lra. }
  assert (XE : Rabs (xi' / N - xi / N) <= 24 * y).
  { replace (xi' / N - xi / N) with ((xi' - xi) * / N) by (field; lra). rewrite Rabs_mult, (Rabs_pos_eq (/ N)) by lra.
    apply Rle_trans with (16 * g * / N); [ apply Rmult_le_compat_r; lra | ].
    replace (16 * g * / N) with (16 * (uu * (D * / N))) by (unfold g; ring).
    assert (uu * (D * / N) <= uu * (3 / 2 * t)) by (apply Rmult_le_compat_l; lra). unfold y. lra. }
  assert (X'0 : 0 <= xi') by (apply rnd_nonneg, sqrt_pos).
  assert (XN' : 0 <= xi' / N) by (unfold Rdiv; apply Rmult_le_pos; lra).
  apply bnd in EA. apply bnd in EB. apply bnd in XE.
  split; [ unfold W; lra | ].
  assert (F1 := err_plus z0' z1' (fmt_rnd _) (fmt_rnd _)). rewrite (Rabs_pos_eq (z0' + z1')) in F1 by lra. apply bnd in F1.
  set (a := rnd (z0' + z1')) in *. assert (A0 : 0 <= a) by (apply rnd_nonneg; lra).
  assert (K1 : uu * (z0' + z1') <= 2 * y) by (unfold y; replace (2 * (uu * t)) with (uu * (2 * t)) by ring; apply Rmult_le_compat_l; lra).
  assert (F2 := err_any (a / 2)). rewrite (Rabs_pos_eq (a / 2)) in F2 by lra. apply bnd in F2.
  set (a2 := rnd (a / 2)) in *. assert (A20 : 0 <= a2) by (apply rnd_nonneg; lra).
  assert (K2 : uu * (a / 2) <= y + uu * y).
  { replace (y + uu * y) with (uu * (t + y)) by (unfold y; ring). apply Rmult_le_compat_l; lra. }
  assert (F3 := err_any (xi' / N)). rewrite (Rabs_pos_eq (xi' / N)) in F3 by exact XN'. apply bnd in F3.
  set (x := rnd (xi' / N)) in *. assert (Xx0 : 0 <= x) by (apply rnd_nonneg; exact XN').
  assert (K3 : uu * (xi' / N) <= 3 / 2 * y + 24 * (uu * y)).
  { replace (3 / 2 * y + 24 * (uu * y)) with (uu * (3 / 2 * t + 24 * y)) by (unfold y; ring). apply Rmult_le_compat_l; lra. }
  assert (F4 := err_plus a2 x (fmt_rnd _) (fmt_rnd _)). rewrite (Rabs_pos_eq (a2 + x)) in F4 by lra. apply bnd in F4.
  change (rnd (a2 + x)) with W' in F4.
  assert (K4 : uu * (a2 + x) <= 5 / 2 * y + 40 * (uu * y)).
  { replace (5 / 2 * y + 40 * (uu * y)) with (uu * (5 / 2 * t + 40 * y)) by (unfold y; ring). apply Rmult_le_compat_l; lra. }
  split; [ apply rnd_nonneg; lra | ].
  apply Rabs_le. unfold W. split; lra.
Qed.

Lemma pd_delta c1' c1 : 1 <= c1 <= 4 / 3 -> near 9 c1' c1 ->
  Rabs (rnd (rnd (c1' * W') / t) - c1 * W / t) <= 96 * uu.
Proof.
  intros Hc Nc. generalize uu_pos uu_small pd_t0 pd_eta1 eta0_pos pd_W. intros U0 U1 T E1 E0 (W0 & W1 & EW).
  set (y := uu * t) in *. assert (Y0 : 0 < y) by (apply Rmult_lt_0_compat; lra). assert (Uy : uu * y <= y / 1000) by nra.
  assert (Ey : eta0 <= y / 1000).
  { replace (uu * uu * t) with (uu * y) in E1 by (unfold y; ring). lra. }
  apply bnd in EW. destruct Nc as [N1 N2].
  assert (C0 : 0 <= c1') by nra.
  assert (W2 : W' <= 3 * t) by (assert (36 * y <= t / 1000) by (unfold y; nra); lra).
  assert (M1 : Rabs (c1' * W' - c1 * W) <= 84 * y).
  { replace (c1' * W' - c1 * W) with ((c1' - c1) * W' + c1 * (W' - W)) by ring.
    apply Rle_trans with (1 := Rabs_triang _ _). rewrite !Rabs_mult, (Rabs_pos_eq W'), (Rabs_pos_eq c1) by lra.
    assert (Rabs (c1' - c1) <= 12 * uu) by (apply Rabs_le; nra).
    assert (Rabs (W' - W) <= 36 * y) by (apply Rabs_le; lra).
    assert (Rabs (c1' - c1) * W' <= 12 * uu * W') by (apply Rmult_le_compat_r; lra).
    assert (12 * uu * W' <= 12 * uu * (5 / 2 * t + 36 * y)) by (apply Rmult_le_compat_l; lra).
    assert (c1 * Rabs (W' - W) <= 4 / 3 * (36 * y)) by (apply Rmult_le_compat; try apply Rabs_pos; lra).
    assert (EQ : 12 * uu * (5 / 2 * t + 36 * y) = 30 * y + 432 * (uu * y)) by (unfold y; field). lra. }
  apply bnd in M1.
  assert (P0 : 0 <= c1' * W') by (apply Rmult_le_pos; lra).
  assert (M2 : c1 * W <= 10 / 3 * t) by nra.
  assert (F1 := err_any (c1' * W')). rewrite (Rabs_pos_eq (c1' * W')) in F1 by exact P0. apply bnd in F1.
  set (m := rnd (c1' * W')) in *. assert (M0 : 0 <= m) by (apply rnd_nonneg; exact P0).
  assert (K1 : uu * (c1' * W') <= 10 / 3 * y + 84 * (uu * y)).
  { replace (10 / 3 * y + 84 * (uu * y)) with (uu * (10 / 3 * t + 84 * y)) by (unfold y; ring). apply Rmult_le_compat_l; lra. }
  assert (M3 : c1 * W - 88 * y <= m <= c1 * W + 88 * y) by lra.
  assert (IT := Rinv_0_lt_compat _ T).
  assert (Q0 : 0 <= m / t) by (unfold Rdiv; apply Rmult_le_pos; lra).
  assert (F2 := err_any (m / t)). rewrite (Rabs_pos_eq (m / t)) in F2 by exact Q0. apply bnd in F2.
  assert (M4 : c1 * W / t - 88 * uu <= m / t <= c1 * W / t + 88 * uu).
  { replace (c1 * W / t - 88 * uu) with ((c1 * W - 88 * y) * / t) by (unfold y; field; lra).
    replace (c1 * W / t + 88 * uu) with ((c1 * W + 88 * y) * / t) by (unfold y; field; lra).
    unfold Rdiv. split; apply Rmult_le_compat_r; lra. }
  assert (M5 : c1 * W / t <= 10 / 3).
  { apply Rmult_le_reg_r with t; [ exact T | ]. unfold Rdiv at 1. rewrite Rmult_assoc, Rinv_l by lra. lra. }
  assert (K2 : uu * (m / t) <= uu * 4) by (apply Rmult_le_compat_l; lra).
  assert (K3 : eta0 <= uu) by (apply bpow_le; lia).
  apply Rabs_le. split; lra.
Qed.

Lemma pd_bq : bs * bs <= 4 * t /\ 2 * (A * B) <= bs * bs /\ 0 <= A * B <= t /\ 0 <= bs.
Proof.
  generalize PA AB HB. clear. intros PA AB HB. unfold bs.
  assert (0 <= A * B) by (apply Rmult_le_pos; lra).
  assert (A * B <= B * B) by (apply Rmult_le_compat_r; lra).
  assert (A * A <= A * B) by (apply Rmult_le_compat_l; lra).
  assert (0 <= A * A) by (apply Rmult_le_pos; lra). repeat split; lra.
Qed.
Lemma pd_ut : 36 * (uu * t) <= t / 2 /\ uu * D <= D / 1000.
Proof.
  generalize uu_pos uu_small pd_t0 pd_H pd_AA. intros U0 U1 T0 HH Q. split.
  - assert (uu * t <= / 1000000000000 * t) by (apply Rmult_le_compat_r; lra). lra.
  - assert (uu * D <= / 1000000000000 * D) by (apply Rmult_le_compat_r; unfold D; lra). unfold D in *. lra.
Qed.
Lemma pd_Bx : t <= bpow radix2 400 -> B <= bpow radix2 400.
Proof.
  intros Ht. destruct (Rle_lt_dec B 1) as [L|L]; [ apply Rle_trans with 1; [ exact L | apply (bpow_le radix2 0 400); lia ] | ].
  assert (B * 1 <= B * B) by (apply Rmult_le_compat_l; lra). lra.
Qed.
Lemma mul2 c w : 0 <= c <= 2 -> 0 <= w -> c * w <= 2 * w.
Proof. intros. apply Rmult_le_compat_r; lra. Qed.

(** the doubles compute these values *)
Hypothesis Ht : t <= bpow radix2 400.

Lemma pd_float (c : core FA) (b0 b1 T : num FA) : core_ok n c -> ev b0 = EFin A -> ev b1 = EFin B -> ev T = EFin t ->
  exists rho sigma delta : num FA,
  core_parallel_bias_cut c b0 b1 T = Ok (rho, sigma, delta) /\
  ev rho = EFin (rnd (rnd (rnd (2 * eta' / den') * bs') / 2)) /\
  ev sigma = EFin (rnd (2 * eta' / den')) /\
  ev delta = EFin (rnd (rnd (rnd (rnd (INR n * INR n) / rnd (rnd (INR n * INR n) - 1)) * W') / t)) /\
  0 < eta' /\ ev (aadd (a:=FA) T (amul (a:=FA) (n_f c) (amul (a:=FA) b0 b1))) = EFin eta'.
Proof.
  intros Co E0 E1 Et.
  generalize uu_pos uu_small pd_t0 pd_eta1 eta0_pos pd_N pd_Nb pd_AA pd_zz pd_h0 pd_h pd_xi_D pd_xi pd_g.
  intros U0 U1 T0 Ee Ee0 N2 Nb Q [Z Z'] Hq Eh [X0 X1] EX [[G0 G1] G2].
  generalize pd_C pd_S pd_den pd_eta pd_eta_t pd_den_hi pd_sigma pd_bs pd_W. intros [C0 EC] (S1 & S2 & ES) Nd Ne Tn Dh Ns Nbs (Wp & Wp' & EW).
  destruct (pd_z A PA ltac:(lra)) as [ZA _]. fold q0 in ZA. fold z0' in ZA.
  destruct (pd_z B ltac:(lra) HB) as [ZB _]. fold q1 in ZB. fold z1' in ZB.
  assert (P400 := bpow_gt_0 radix2 400). assert (P53 := bpow_gt_0 radix2 53).
  assert (B453 : bpow radix2 453 = bpow radix2 53 * bpow radix2 400) by (rewrite <- bpow_plus; reflexivity).
  assert (Le : bpow radix2 400 <= bpow radix2 453) by (apply bpow_le; lia).
  assert (HH : H <= bpow radix2 453).
  { rewrite B453. unfold H. apply Rmult_le_compat; lra. }
  assert (HD : D <= 2 * bpow radix2 453) by (unfold D; lra).
  assert (Dp : 0 < D) by (generalize pd_H; unfold D; lra).
  destruct pd_ut as [Ut36 Hg]. fold g in Hg.
  destruct pd_bq as (Bq & AB2 & Qab & Bs0).
  apply bnd in Eh. apply bnd in EX.
  assert (QA := pd_q A PA ltac:(lra)). assert (QB := pd_q B ltac:(lra) HB). fold q0 in QA. fold q1 in QB.
  assert (QQ : q0 <= q1) by (unfold q0, q1; apply rnd_le; lra).
  (* squares *)
  assert (M0 := op_mul b0 b0 A A 400 E0 E0 ltac:(rewrite Rabs_pos_eq; lra) ltac:(lia)). fold q0 in M0.
  assert (M1 := op_mul b1 b1 B B 400 E1 E1 ltac:(rewrite Rabs_pos_eq; lra) ltac:(lia)). fold q1 in M1.
  assert (Z0e := op_sub _ _ _ _ 400 Et M0 ltac:(rewrite Rabs_pos_eq; lra) ltac:(lia)). fold z0' in Z0e.
  assert (Z1e := op_sub _ _ _ _ 400 Et M1 ltac:(rewrite Rabs_pos_eq; lra) ltac:(lia)). fold z1' in Z1e.
  assert (De := op_sub _ _ _ _ 400 M1 M0 ltac:(rewrite Rabs_pos_eq; lra) ltac:(lia)). fold d' in De.
  assert (Dq : 0 <= d' <= t).
  { unfold d'. split; [ apply rnd_nonneg; lra | ]. rewrite <- (rnd_fmt t Ft). apply rnd_le. lra. }
  destruct (ok_half _ _ Co) as (hn & Ehn & Hh). fold N in Hh. subst hn.
  assert (He := op_mul _ _ _ _ 453 Ehn De ltac:(rewrite Rabs_pos_eq, B453 by (apply Rmult_le_pos; lra); apply Rmult_le_compat; lra) ltac:(lia)).
  fold h' in He.
  assert (H'0 : 0 <= h') by (apply rnd_nonneg, Rmult_le_pos; lra).
  assert (H'1 : h' <= bpow radix2 453) by lra.
  assert (P453 := bpow_gt_0 radix2 453).
  (* radicand *)
  assert (B906 : bpow radix2 906 = bpow radix2 453 * bpow radix2 453) by (rewrite <- bpow_plus; reflexivity).
  assert (ZZe := op_mul _ _ _ _ 906 Z0e Z1e ltac:(rewrite Rabs_pos_eq, B906 by (apply Rmult_le_pos; lra); apply Rmult_le_compat; lra) ltac:(lia)).
  assert (X9 : Rabs (h' * h') <= bpow radix2 906) by (rewrite Rabs_pos_eq, B906 by (apply Rmult_le_pos; lra); apply Rmult_le_compat; lra).
  assert (X8 : Rabs (z0' * z1') <= bpow radix2 906) by (rewrite Rabs_pos_eq, B906 by (apply Rmult_le_pos; lra); apply Rmult_le_compat; lra).
  assert (HHe := op_mul _ _ _ _ 906 He He X9 ltac:(lia)).
  destruct (rx_b _ 906 X9 ltac:(lia)) as [_ Y9]. destruct (rx_b _ 906 X8 ltac:(lia)) as [_ Y8].
  assert (V9 : 0 <= rnd (h' * h')) by (apply rnd_nonneg, Rmult_le_pos; lra).
  assert (V8 : 0 <= rnd (z0' * z1')) by (apply rnd_nonneg, Rmult_le_pos; lra).
  rewrite Rabs_pos_eq in Y9, Y8 by assumption.
  assert (Xe := op_add _ _ _ _ 907 ZZe HHe ltac:(rewrite Rabs_pos_eq by lra; replace 907%Z with (906 + 1)%Z by lia; rewrite bp_S; lra) ltac:(lia)).
  fold X' in Xe.
  assert (X'0 : 0 <= X') by (apply rnd_nonneg; lra).
  assert (Xie := ev_sqrt _ _ Xe X'0). fold xi' in Xie.
  assert (Xi0 : 0 <= xi') by (apply rnd_nonneg, sqrt_pos).
  (* sums *)
  assert (Pe := op_mul _ _ _ _ 400 E0 E1 ltac:(rewrite Rabs_pos_eq; lra) ltac:(lia)). fold p' in Pe.
  assert (P'0 : 0 <= p' <= t).
  { unfold p'. split; [ apply rnd_nonneg; lra | ]. rewrite <- (rnd_fmt t Ft). apply rnd_le. lra. }
  assert (NPx : Rabs (N * p') <= bpow radix2 453) by (rewrite Rabs_pos_eq, B453 by (apply Rmult_le_pos; lra); apply Rmult_le_compat; lra).
  assert (NPe := op_mul _ _ _ _ 453 (ok_nf _ _ Co) Pe NPx ltac:(lia)). fold N in NPe.
  destruct (rx_b _ 453 NPx ltac:(lia)) as [_ NPy].
  assert (NP0 : 0 <= rnd (N * p')) by (apply rnd_nonneg, Rmult_le_pos; lra).
  rewrite Rabs_pos_eq in NPy by exact NP0.
  assert (Ete := op_add _ _ _ _ 454 Et NPe ltac:(rewrite Rabs_pos_eq by lra; replace 454%Z with (453 + 1)%Z by lia; rewrite bp_S; lra) ltac:(lia)).
  fold eta' in Ete.
  destruct (near_pos 5 _ _ ltac:(lra) Ne ltac:(lra)) as [Ep' [_ Eh']].
  assert (Hta : eta <= 2 * bpow radix2 453).
  { unfold eta. assert (N * (A * B) <= bpow radix2 53 * bpow radix2 400) by (apply Rmult_le_compat; lra). lra. }
  assert (E2e : ev (amul (a:=FA) atwo (aadd (a:=FA) T (amul (a:=FA) (n_f c) (amul (a:=FA) b0 b1)))) = EFin (2 * eta')).
  { rewrite <- (rnd_fmt (2 * eta')) by (apply fmt_double, fmt_rnd).
    refine (op_mul _ _ _ _ 456 ev_two Ete _ _); [ | lia ].
    rewrite Rabs_pos_eq by lra. replace 456%Z with (453 + 1 + 1 + 1)%Z by lia. rewrite !bp_S. lra. }
  (* denominator *)
  assert (Bx := pd_Bx Ht).
  assert (Be := op_add _ _ _ _ 401 E0 E1 ltac:(rewrite Rabs_pos_eq by lra; replace 401%Z with (400 + 1)%Z by lia; rewrite bp_S; lra) ltac:(lia)).
  fold bs' in Be.
  assert (Nq : near 3 (bs' * bs') (bs * bs)).
  { replace 3 with (1 + 1 + 1) by ring. apply near_mul; try lra; assumption. }
  assert (Bs'0 : 0 <= bs') by (apply rnd_nonneg; unfold bs in *; lra).
  assert (Bq' : Rabs (bs' * bs') <= bpow radix2 403).
  { rewrite Rabs_pos_eq by (apply Rmult_le_pos; lra). destruct Nq as [_ K]. replace 403%Z with (400 + 1 + 1 + 1)%Z by lia. rewrite !bp_S.
    assert (bs * bs * (3 * uu) <= bs * bs * 1) by (apply Rmult_le_compat_l; [ apply Rmult_le_pos; lra | lra ]). lra. }
  assert (Bqe := op_mul _ _ _ _ 403 Be Be Bq' ltac:(lia)).
  destruct (rx_b _ 403 Bq' ltac:(lia)) as [_ Bq2].
  assert (Bq0 : 0 <= rnd (bs' * bs')) by (apply rnd_nonneg, Rmult_le_pos; lra).
  rewrite Rabs_pos_eq in Bq2 by exact Bq0.
  assert (Cx : Rabs (N / 2 * rnd (bs' * bs')) <= bpow radix2 456).
  { rewrite Rabs_pos_eq by (apply Rmult_le_pos; lra). replace 456%Z with (53 + 403)%Z by lia. rewrite bpow_plus.
    apply Rmult_le_compat; lra. }
  assert (Ce := op_mul _ _ _ _ 456 Ehn Bqe Cx ltac:(lia)). fold C' in Ce.
  destruct (rx_b _ 456 Cx ltac:(lia)) as [_ Cy]. fold C' in Cy.
  assert (C'0 : 0 <= C') by (apply rnd_nonneg, Rmult_le_pos; lra).
  rewrite Rabs_pos_eq in Cy by exact C'0.
  assert (Tx : Rabs (t + p') <= bpow radix2 401) by (rewrite Rabs_pos_eq by lra; replace 401%Z with (400 + 1)%Z by lia; rewrite bp_S; lra).
  assert (Te := op_add _ _ _ _ 401 Et Pe Tx ltac:(lia)).
  destruct (rx_b _ 401 Tx ltac:(lia)) as [_ Ty].
  assert (T'0 : 0 <= rnd (t + p')) by (apply rnd_nonneg; lra).
  rewrite Rabs_pos_eq in Ty by exact T'0.
  assert (L1 : bpow radix2 401 <= bpow radix2 456) by (apply bpow_le; lia).
  assert (L2 : 8 * bpow radix2 453 = bpow radix2 456) by (replace 456%Z with (453 + 1 + 1 + 1)%Z by lia; rewrite !bp_S; ring).
  assert (Sx : Rabs (rnd (t + p') + C') <= bpow radix2 457) by (rewrite Rabs_pos_eq by lra; replace 457%Z with (456 + 1)%Z by lia; rewrite bp_S; lra).
  assert (Se := op_add _ _ _ _ 457 Te Ce Sx ltac:(lia)). fold S' in Se.
  destruct (rx_b _ 457 Sx ltac:(lia)) as [_ Sy]. fold S' in Sy.
  assert (S'0 : 0 <= S') by (apply rnd_nonneg; lra).
  rewrite Rabs_pos_eq in Sy by exact S'0.
  assert (L3 : bpow radix2 457 = 2 * bpow radix2 456) by (replace 457%Z with (456 + 1)%Z by lia; rewrite bp_S; ring).
  assert (Dne := op_add _ _ _ _ 458 Se Xie ltac:(rewrite Rabs_pos_eq by lra; replace 458%Z with (457 + 1)%Z by lia; rewrite bp_S; lra) ltac:(lia)).
  fold den' in Dne.
  assert (Dn0 : 0 < den) by (unfold den; lra).
  destruct (near_pos 42 _ _ ltac:(lra) Nd Dn0) as [Dp' [Dl' Dr']].
  (* sigma *)
  assert (Sg1 : 2 * eta / den <= bpow radix2 1).
  { change (bpow radix2 1) with 2. apply Rmult_le_reg_r with den; [ exact Dn0 | ]. unfold Rdiv. rewrite Rmult_assoc, Rinv_l by lra.
    assert (eta <= S); [ | unfold den; lra ]. unfold eta, S, C.
    assert (N / 2 * (2 * (A * B)) <= N / 2 * (bs * bs)) by (apply Rmult_le_compat_l; lra). lra. }
  assert (Sgp : 0 < 2 * eta / den) by (apply Rdiv_lt_0_compat; lra).
  assert (V : near 49 (2 * eta' / den') (2 * eta / den)).
  { replace 49 with (5 + 42 + 2) by ring. apply near_div; try lra; [ destruct Ne; split; lra | exact Nd ]. }
  destruct (near_pos 49 _ _ ltac:(lra) V Sgp) as [Sq0 [_ Sq1]].
  assert (Sgx : Rabs (2 * eta' / den') <= bpow radix2 2).
  { rewrite Rabs_pos_eq by lra. change (bpow radix2 1) with 2 in Sg1. change (bpow radix2 2) with 4. lra. }
  destruct (op_div _ _ _ _ 2 E2e Dne ltac:(lra) Sgx ltac:(lia)) as (sg & Dsg & Esg).
  destruct (rx_b _ 2 Sgx ltac:(lia)) as [_ Sgy].
  set (sg' := rnd (2 * eta' / den')) in *.
  assert (Sg0 : 0 <= sg') by (apply rnd_nonneg; lra).
  rewrite Rabs_pos_eq in Sgy by exact Sg0. change (bpow radix2 2) with 4 in Sgy.
  (* rho *)
  assert (Bs1 : bs' <= bpow radix2 402).
  { destruct Nbs as [_ K]. replace 402%Z with (400 + 1 + 1)%Z by lia. rewrite !bp_S.
    assert (bs * (1 * uu) <= bs * 1) by (apply Rmult_le_compat_l; lra). unfold bs in *. lra. }
  assert (P402 := bpow_gt_0 radix2 402).
  assert (Rx : Rabs (sg' * bs') <= bpow radix2 404).
  { rewrite Rabs_pos_eq by (apply Rmult_le_pos; lra). replace 404%Z with (2 + 402)%Z by lia. rewrite bpow_plus.
    change (bpow radix2 2) with 4. apply Rmult_le_compat; lra. }
  assert (Re := op_mul _ _ _ _ 404 Esg Be Rx ltac:(lia)).
  destruct (rx_b _ 404 Rx ltac:(lia)) as [_ Ry].
  assert (R0 : 0 <= rnd (sg' * bs')) by (apply rnd_nonneg, Rmult_le_pos; lra).
  rewrite Rabs_pos_eq in Ry by exact R0.
  assert (P404 := bpow_gt_0 radix2 404).
  assert (op_half : forall x a, ev x = EFin a -> 0 <= a <= bpow radix2 500 -> ev (adiv (a:=FA) x (atwo (A:=FA))) = EFin (rnd (a / 2))).
  { intros x a Ex Ha. change (ev (x / atwo (A:=FA))%float = EFin (rnd (a / 2))).
    rewrite ev_div by (rewrite ev_two; cbn; destruct (Req_EM_T 2 0); [ lra | reflexivity ]).
    rewrite Ex, ev_two. cbn [ediv]. refine (proj1 (rx_b _ 500 _ _)); [ | lia ]. rewrite Rabs_pos_eq; lra. }
  assert (L404 : bpow radix2 404 <= bpow radix2 500) by (apply bpow_le; lia).
  assert (L453 : bpow radix2 453 <= bpow radix2 500) by (apply bpow_le; lia).
  assert (Rhe := op_half _ _ Re ltac:(lra)).
  (* delta *)
  assert (Zx : Rabs (z0' + z1') <= bpow radix2 401) by (rewrite Rabs_pos_eq by lra; replace 401%Z with (400 + 1)%Z by lia; rewrite bp_S; lra).
  assert (Ze := op_add _ _ _ _ 401 Z0e Z1e Zx ltac:(lia)).
  destruct (rx_b _ 401 Zx ltac:(lia)) as [_ Zy].
  assert (Zy0 : 0 <= rnd (z0' + z1')) by (apply rnd_nonneg; lra).
  rewrite Rabs_pos_eq in Zy by exact Zy0.
  assert (L401 : bpow radix2 401 <= bpow radix2 404) by (apply bpow_le; lia).
  assert (Zhe := op_half _ _ Ze ltac:(lra)).
  assert (Zh : Rabs (rnd (z0' + z1') / 2) <= bpow radix2 453) by (rewrite Rabs_pos_eq by lra; generalize (bpow_le radix2 401 453 ltac:(lia)); lra).
  destruct (rx_b _ 453 Zh ltac:(lia)) as [_ Zh'].
  assert (Zh0 : 0 <= rnd (rnd (z0' + z1') / 2)) by (apply rnd_nonneg; lra).
  rewrite Rabs_pos_eq in Zh' by exact Zh0.
  assert (IN : 0 < / N <= / 2) by (split; [ apply Rinv_0_lt_compat; lra | apply Rinv_le; lra ]).
  assert (XN0 : 0 <= xi' / N) by (unfold Rdiv; apply Rmult_le_pos; lra).
  assert (XNx : Rabs (xi' / N) <= bpow radix2 456).
  { rewrite Rabs_pos_eq by exact XN0. apply Rle_trans with (xi' * / 2); [ unfold Rdiv; apply Rmult_le_compat_l; lra | lra ]. }
  destruct (op_div _ _ _ _ 456 Xie (ok_nf _ _ Co) ltac:(fold N; lra) XNx ltac:(lia)) as (qq & Dqq & Eqq). fold N in Eqq.
  destruct (rx_b _ 456 XNx ltac:(lia)) as [_ XNy].
  assert (XN1 : 0 <= rnd (xi' / N)) by (apply rnd_nonneg; exact XN0).
  rewrite Rabs_pos_eq in XNy by exact XN1.
  assert (We := op_add _ _ _ _ 457 Zhe Eqq ltac:(rewrite Rabs_pos_eq by lra; lra) ltac:(lia)). fold W' in We.
  destruct (ok_c1 _ _ Co) as (c1 & Ec1 & Rc1 & Dc1).
  apply bnd in EW.
  assert (Wt : W' <= 3 * t) by lra. assert (CW2 := mul2 c1 W' ltac:(lra) Wp').
  assert (CWx : Rabs (c1 * W') <= bpow radix2 403).
  { rewrite Rabs_pos_eq by (apply Rmult_le_pos; lra). replace 403%Z with (400 + 1 + 1 + 1)%Z by lia. rewrite !bp_S. lra. }
  assert (CWe := op_mul _ _ _ _ 403 Ec1 We CWx ltac:(lia)).
  assert (CW0 : 0 <= rnd (c1 * W')) by (apply rnd_nonneg, Rmult_le_pos; lra).
  assert (F8 : rnd (c1 * W') <= 8 * t).
  { rewrite <- (rnd_fmt (8 * t)).
    - apply rnd_le. lra.
    - replace (8 * t) with (2 * (2 * (2 * t))) by ring. now repeat apply fmt_double. }
  destruct (op_div _ _ _ _ 3 CWe Et ltac:(lra)) as (dl & Ddl & Edl); [ | lia | ].
  { assert (IT := Rinv_0_lt_compat _ T0). rewrite Rabs_pos_eq by (unfold Rdiv; apply Rmult_le_pos; lra).
    change (bpow radix2 3) with 8. apply Rmult_le_reg_r with t; [ exact T0 | ]. unfold Rdiv. rewrite Rmult_assoc, Rinv_l; lra. }
  exists (adiv (a:=FA) (amul (a:=FA) sg (aadd (a:=FA) b0 b1)) (atwo (A:=FA))), sg, dl.
  split.
  { unfold core_parallel_bias_cut, core_parallel_bias_cut_fast. cbv zeta.
    rewrite fpsqrt by (rewrite Xe; cbn; lra). cbn [bind].
    etransitivity; [ rewrite Dsg; reflexivity | ]. cbn [bind]. rewrite Dqq. cbn [bind]. rewrite Ddl. reflexivity. }
  split; [ exact Rhe | ]. split; [ exact Esg | ]. split; [ rewrite Dc1 in Edl; exact Edl | ]. split; [ lra | exact Ete ].
Qed.
End Real.

Lemma tiny_2eta : 2 * eta0 = tiny.
Proof. unfold eta0, tiny. rewrite <- bp_powerRZ. replace (-1074)%Z with (-1075 + 1)%Z by lia. rewrite bp_S. ring. Qed.

Lemma par_deep_accuracy k n (c : calc FA) (b0 b1 T : num FA) : k = OpBias \/ k = OpQ ->
  fcalc_for n true c -> (Z.of_nat n < 2 ^ 53)%Z ->
  ffinite T -> powerRZ 2 (-400) <= fval T <= powerRZ 2 400 -> ffinite b0 -> ffinite b1 ->
  0 <= fval b0 <= fval b1 -> fval b1 * fval b1 <= (1 - 2 * u53) * fval T ->
  forall (tl : list (option (num FA))) (cR : calc RA) (tl' : list (option R)),
  calc_for n true cR ->
  exists rho sigma delta : num FA, exists r s d : R,
  fstrat_of k c (CList (A:=FA) (Some b0 :: Some b1 :: tl)) T = Ok (Success, Some (rho, sigma, delta)) /\
  strat_of k cR (CList (A:=RA) (Some (fval b0) :: Some (fval b1) :: tl')) (fval T) = Ok (Success, Some (r, s, d)) /\
  ffinite rho /\ ffinite sigma /\ ffinite delta /\
  Rabs (fval rho - r) <= 58 * u53 * r + tiny /\
  Rabs (fval sigma - s) <= 51 * u53 * s /\
  Rabs (fval delta - d) <= 96 * u53.
Proof.
  intros Hk Hc Hnb FT [LT GT] F0 F1 [P0 P1] Hb tl cR tl' HR.
  destruct (fcalc_ok n true c Hc Hnb) as (Hn & Co & Nf & Upc).
  destruct (calc_for_R _ _ _ HR) as [_ ->].
  assert (Et := proj1 (ev_fin_iff T) FT). assert (E0 := proj1 (ev_fin_iff b0) F0). assert (E1 := proj1 (ev_fin_iff b1) F1).
  assert (Ft : fmt (fval T)) by exact (ev_fmt _ _ Et). assert (Ff0 := ev_fmt _ _ E0). assert (Ff1 := ev_fmt _ _ E1).
  assert (Lt : bpow radix2 (-400) <= fval T) by (rewrite bp_powerRZ; exact LT).
  assert (Gt : fval T <= bpow radix2 400) by (rewrite bp_powerRZ; exact GT).
  set (t := fval T) in *. set (A := fval b0) in *. set (B := fval b1) in *.
  assert (T0 := pd_t0 t Lt). rewrite uu_u53 in *.
  generalize uu_pos uu_small. intros U0 U1.
  assert (UT : 0 < uu * t) by (apply Rmult_lt_0_compat; lra).
  assert (HB : B * B <= t) by lra.
  assert (BB : 0 <= B * B) by (apply Rmult_le_pos; lra).
  destruct (pd_float n t A B Hn Hnb Ft Ff0 Ff1 Lt P0 P1 HB Gt (c_helper c) b0 b1 T Co E0 E1 Et)
    as (rho & sg & dl & Ec & Er & Es & Ed & Ep & Ee).
  (* branches of the doubles *)
  assert (S1 : altb (a:=FA) b1 b0 = false).
  { etransitivity; [ exact (ev_ltb _ _) | ]. rewrite E0, E1. cbn. destruct (Rlt_dec B A); [ lra | reflexivity ]. }
  assert (Bt : t < big) by (generalize (ev_big _ _ Et) (Rle_abs t); lra).
  assert (Eq : ev (amul (a:=FA) b1 b1) = EFin (rnd (B * B))).
  { change (ev (b1 * b1)%float = EFin (rnd (B * B))). rewrite ev_mul, E1. cbn [emul].
    exact (proj1 (rx_fin_le (B * B) t BB HB Ft Bt)). }
  assert (Lq : rnd (B * B) < t).
  { assert (K := err_any (B * B)). rewrite (Rabs_pos_eq _ BB) in K. apply bnd in K.
    assert (K1 := pd_eta1 n t Hn Hnb Lt).
    assert (uu * (B * B) <= uu * ((1 - 2 * uu) * t)) by (apply Rmult_le_compat_l; lra).
    assert (uu * (uu * t) <= / 1000 * (uu * t)) by (apply Rmult_le_compat_r; lra).
    destruct K as [_ K]. eapply Rle_lt_trans; [ exact K | ].
    replace (uu * ((1 - 2 * uu) * t)) with (uu * t - 2 * (uu * (uu * t))) in * by ring.
    replace (uu * uu * t / 100) with (uu * (uu * t) / 100) in K1 by field.
    replace ((1 - 2 * uu) * t) with (t - 2 * (uu * t)) in Hb by ring.
    assert (0 < uu * (uu * t)) by (apply Rmult_lt_0_compat; lra). lra. }
  assert (S2 : aleb (a:=FA) T (amul b1 b1) = false).
  { etransitivity; [ exact (ev_leb _ _) | ]. rewrite Eq, Et. cbn. destruct (Rle_dec t (rnd (B * B))); [ lra | reflexivity ]. }
  assert (S3 : aleb (a:=FA) (aadd (a:=FA) T (amul (a:=FA) (n_f (c_helper c)) (amul (a:=FA) b0 b1))) azero = false).
  { etransitivity; [ exact (ev_leb _ _) | ]. change (azero (a:=FA)) with PrimFloat.zero. rewrite Ee, ev_zero.
    unfold eleb. match goal with |- context [Rle_dec ?x 0] => destruct (Rle_dec x 0); [ lra | reflexivity ] end. }
  assert (N2 : 2 <= INR n) by exact (pd_N n Hn).
  assert (LB : B * B < t) by lra.
  assert (NF : c_n_f c = n_f (c_helper c)) by (apply (ev_inj _ _ (INR n)); [ exact Nf | exact (ok_nf _ _ Co) | lra ]).
  assert (XR : strat_of k (calc_R true n) (CList (A:=RA) (Some A :: Some B :: tl')) t =
               Ok (Success, Some (q_rho (INR n) t A B, q_sigma (INR n) t A B, q_delta (INR n) t A B))).
  { assert (PR := par_fast_R (INR n) N2 A B t T0 P1 (or_intror LB)).
    destruct Hk as [-> | ->];
    cbn [strat_of calc_single_or_parallel calc_single_or_parallel_q length Nat.ltb Nat.leb orb use_parallel_cut calc_R negb beta_at0 bind];
    unfold calc_parallel, calc_parallel_q; cbn [c_helper c_n_f calc_R]; rn; rewrite Rltb_false by exact P1;
    rewrite (Rleb_false t (B * B)) by exact LB; rewrite andb_false_r.
    - unfold core_parallel_bias_cut. etransitivity; [ apply f_equal; exact PR | reflexivity ].
    - assert (0 <= A * B) by (apply Rmult_le_pos; lra).
      assert (0 <= INR n * (A * B)) by (apply Rmult_le_pos; lra).
      rewrite Rleb_false by lra. etransitivity; [ apply f_equal; exact PR | reflexivity ]. }
  exists rho, sg, dl. do 3 eexists. split; [ | split; [ exact XR | ] ].
  { destruct Hk as [-> | ->];
    cbn [fstrat_of calc_single_or_parallel calc_single_or_parallel_q length Nat.ltb Nat.leb orb]; rewrite Upc; cbn [negb beta_at0 bind];
    unfold calc_parallel, calc_parallel_q; rewrite S1; cbv zeta; rewrite S2, andb_false_r.
    - rewrite Ec. reflexivity.
    - rewrite NF, S3. unfold core_parallel_bias_cut in Ec. cbv zeta in Ec. rewrite Ec. reflexivity. }
  split; [ exact (ffinite_ev _ _ Er) | split; [ exact (ffinite_ev _ _ Es) | split; [ exact (ffinite_ev _ _ Ed) | ] ] ].
  rewrite (fval_ev _ _ Er), (fval_ev _ _ Es), (fval_ev _ _ Ed).
  assert (Ns := pd_sigma n t A B Hn Hnb Ft Ff0 Ff1 Lt P0 P1 HB).
  split; [ | split ].
  - assert (Sp : 0 <= q_sigma (INR n) t A B).
    { unfold q_sigma. apply Rlt_le, Rdiv_lt_0_compat; [ | exact (PAlg.den_pos (INR n) t A B N2 T0 P1 (or_intror LB)) ].
      unfold q_eta. assert (0 <= A * B) by (apply Rmult_le_pos; lra).
      assert (0 <= INR n * (A * B)) by (apply Rmult_le_pos; lra). lra. }
    rewrite <- tiny_2eta, Rmult_assoc. exact (pd_rho A B Ff0 Ff1 P0 P1 _ _ Sp Ns).
  - rewrite <- uu_u53. apply near_abs. exact Ns.
  - assert (NN : 4 <= INR n * INR n) by (replace 4 with (2 * 2) by ring; apply Rmult_le_compat; lra).
    refine (pd_delta n t A B Hn Hnb Ft Lt P0 P1 HB _ _ _ (c1_near n Hn Hnb)).
    assert (I : 0 < / (INR n * INR n - 1) <= / 3) by (split; [ apply Rinv_0_lt_compat; lra | apply Rinv_le; lra ]).
    replace (INR n * INR n / (INR n * INR n - 1)) with (1 + / (INR n * INR n - 1)) by (field; lra). lra.
Qed.
