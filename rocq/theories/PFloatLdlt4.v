(** [LDLTMgr.factor] in doubles: what acceptance and rejection mean. *)
From Coq Require Import Reals ZArith List Arith Lia Lra Psatz Bool Floats.
From Flocq Require Import Core.Core.
From Verif Require Import Arith Vec ModelLdlt Spec SpecStable SpecLdlt PSum PStable PLdlt2 PLdlt3.
From Verif Require Import SpecFloating SpecFloatLdlt PFloat PFloatErr PFloatAcc PFloatBs PFloatLdlt PFloatLdlt2 PFloatLdlt3.
Import ListNotations.
Local Open Scope R_scope.

Definition lamb : R := bpow radix2 (-1021).
Definition kap (N : nat) : R := th ^ (S N) - 1.

Section Num.
Variable N : nat.
Hypothesis HN : INR N <= 1000000.

Lemma om_pow m : 1 - INR m * uu <= (1 - uu) ^ m.
Proof.
  induction m as [|m IH]; [cbn; lra|]. rewrite S_INR. cbn [pow].
  pose proof uu_pos. pose proof uu_small. pose proof (pos_INR m).
  assert (0 <= INR m * uu * uu) by (repeat apply Rmult_le_pos; lra).
  assert ((1 - uu) * (1 - INR m * uu) <= (1 - uu) * (1 - uu) ^ m) by (apply Rmult_le_compat_l; lra). lra.
Qed.

Lemma kap_up : kap N <= (INR N + 1) * uu * (1 + / 1000) /\ kap N <= / 100000.
Proof.
  unfold kap. set (x := (INR N + 1) * uu).
  pose proof uu_pos as U. pose proof uu_small as Us. pose proof (pos_INR N) as Hp.
  assert (Hx : 0 <= x <= / 500000) by (unfold x; split; [apply Rmult_le_pos; lra|]; nra).
  assert (Ht : th ^ (S N) <= / (1 - x)).
  { unfold th. rewrite pow_inv. apply Rinv_le_contravar; [lra|].
    pose proof (om_pow (S N)) as H. rewrite S_INR in H. exact H. }
  assert (Hi : / (1 - x) <= 1 + x * (1 + / 1000)).
  { apply Rmult_le_reg_l with (1 - x); [lra|]. rewrite Rinv_r by lra. nra. }
  split; [lra|]. nra.
Qed.

Lemma kap_lo : uu <= kap N.
Proof. unfold kap. pose proof (thp_le 1 (S N) ltac:(lia)) as H. rewrite pow_1 in H. pose proof th_uu. lra. Qed.

Lemma lamb_uu : uu * lamb = 2 * eta0.
Proof.
  unfold uu, lamb, eta0. rewrite <- bpow_plus. replace (-53 + -1021)%Z with (1 + -1075)%Z by lia.
  rewrite bpow_plus. reflexivity.
Qed.
Lemma tiny_eta : tiny = 2 * eta0.
Proof.
  rewrite tiny_bp. unfold eta0. replace (-1074)%Z with (1 + -1075)%Z by lia. rewrite bpow_plus. reflexivity.
Qed.
Lemma lamb_small : 0 < lamb <= / 1000000000000.
Proof.
  split; [apply bpow_gt_0|]. apply Rle_trans with uu; [apply bpow_le; lia|apply uu_small].
Qed.

Lemma kap_eta : (1 + kap N) * eta0 <= kap N * lamb.
Proof.
  destruct kap_up as [_ H]. pose proof kap_lo as L. pose proof eta0_pos as E. pose proof lamb_small.
  apply Rle_trans with (uu * lamb); [rewrite lamb_uu; apply Rmult_le_compat_r; lra|]. apply Rmult_le_compat_r; lra.
Qed.
End Num.

Section Rows.
Variables (g : nat -> nat -> num FA) (m : mat FA) (N : nat).
Hypothesis HN : INR N <= 1000000.
Hypothesis Hr : rows_done (A:=FA) g m N.
Hypothesis Hpf : forall k, (k < N)%nat -> ffinite (mget m k k).
Let M (i j : nat) : R := fval (mget m i j).

Lemma all_fin i j : (i < N)%nat -> (j < N)%nat -> ffinite (mget m i j).
Proof.
  assert (G : forall i, (i < N)%nat -> forall k, (k < i)%nat -> ffinite (mget m i k) /\ ffinite (mget m k i)).
  { intros i0 Hi. destruct (Hr i0 Hi) as [H _]. specialize (H i0 ltac:(lia)).
    pose proof (proj1 (ev_fin_iff _) (Hpf i0 Hi)) as E. rewrite H in E. apply (gdiag_err g m i0 i0 _ E). }
  intros Hi Hj. destruct (Nat.lt_trichotomy i j) as [H|[->|H]]; [apply (G j Hj i H)|apply Hpf, Hj|apply (G i Hi j H)].
Qed.

Variables (P : nat) (D w : nat -> R) (A : nat -> nat -> R).
Hypothesis HP : (P <= N)%nat.
Hypothesis HD : forall k, (k < P)%nat -> 0 < M k k /\ D k = M k k /\ w k = M k k.
Hypothesis Hw : forall k, (k < N)%nat -> 0 <= w k.
Hypothesis HA : forall i j, (j <= i < N)%nat -> A i j = fval (g i j).
Let p (i k : nat) : R := Rabs (lowf M i k) + lamb.
Let e0 : R := INR N * (1 + kap N) * eta0.

Lemma thp_kap c : (c < N)%nat -> th ^ (S (S c)) <= 1 + kap N.
Proof. intros Hc. unfold kap. pose proof (thp_le (S (S c)) (S N) ltac:(lia)). lra. Qed.

Lemma lam_ge0 : 0 < lamb. Proof. apply lamb_small. Qed.

(** the weighted sum dominates everything [stored_off] speaks of *)
Lemma dom_lt i c : (c <= i < N)%nat -> (c <= P)%nat ->
  sumn c (fun k => Rabs (M i k) * (M k k * Rabs (M c k))) + lamb * sumn c (fun k => Rabs (M i k) * M k k)
  <= sumn c (fun k => p i k * w k * p c k).
Proof.
  intros Hc HcP. rewrite <- sumn_scal, <- sumn_plus. apply sumn_le. intros k Hk.
  destruct (HD k ltac:(lia)) as (d0 & _ & ->). unfold p. rewrite !lowf_lt by lia.
  pose proof (Rabs_pos (M i k)). pose proof (Rabs_pos (M c k)). pose proof lam_ge0.
  assert (0 <= lamb * M k k * (Rabs (M c k) + lamb)) by (repeat apply Rmult_le_pos; lra). nra.
Qed.

Lemma pwp_ge0 i c k : (k < N)%nat -> 0 <= p i k * w k * p c k.
Proof.
  intros Hk. unfold p. pose proof (Rabs_pos (lowf M i k)). pose proof (Rabs_pos (lowf M c k)). pose proof lam_ge0.
  repeat apply Rmult_le_pos; try lra. apply Hw, Hk.
Qed.

Lemma sum_more i c j : (j <= N)%nat -> sumn j (fun k => p i k * w k * p c k) <= sumn N (fun k => p i k * w k * p c k).
Proof.
  intros Hj. replace N with (j + (N - j))%nat by lia. rewrite sumn_split.
  assert (0 <= sumn (N - j) (fun i0 => p i (j + i0)%nat * w (j + i0)%nat * p c (j + i0)%nat)) by (apply sumn_ge_0; intros; apply pwp_ge0; lia).
  lra.
Qed.

Lemma exact_sum i c : (c <= i < N)%nat -> (c <= P)%nat ->
  sumn N (fun k => D k * lowf M i k * lowf M c k) = sumn c (fun k => M i k * (M k k * M c k)) + D c * lowf M i c.
Proof.
  intros Hc HcP. rewrite (sumn_cut N (S c)); [|lia|intros k Hk; rewrite (lowf_gt M c k) by lia; ring].
  cbn [sumn]. rewrite lowf_eq. f_equal; [|ring]. apply sumn_ext. intros k Hk.
  destruct (HD k ltac:(lia)) as (_ & -> & _). rewrite !lowf_lt by lia. ring.
Qed.

Lemma sums_ge0 i c : (c <= P)%nat ->
  0 <= sumn c (fun k => Rabs (M i k) * (M k k * Rabs (M c k))) /\ 0 <= sumn c (fun k => Rabs (M i k) * M k k).
Proof.
  intros Hc. split; apply sumn_ge_0; intros k Hk; destruct (HD k ltac:(lia)) as (H & _ & _);
    repeat apply Rmult_le_pos; try apply Rabs_pos; lra.
Qed.

(** from the bounds of [PFloatLdlt2] to the form used by [PFloatLdlt3] *)
Lemma to_form t c S0 T0 Q dd : (c < N)%nat -> 0 <= t <= 1 + kap N -> t <= kap N + 1 -> 0 <= S0 -> 0 <= T0 -> 0 <= dd ->
  S0 + lamb * T0 + dd <= Q ->
  (t - 1) * S0 + t * eta0 * (INR c + T0) + kap N * dd <= kap N * Q + e0.
Proof.
  intros Hc Ht Ht' HS HT Hdd HQ. pose proof (kap_eta N HN) as K. pose proof (kap_lo N) as L. pose proof uu_pos as U.
  pose proof eta0_pos as E. pose proof (pos_INR c) as Pc. pose proof (lt_INR c N Hc) as LN.
  assert (K0 : t * eta0 <= (1 + kap N) * eta0) by (apply Rmult_le_compat_r; lra).
  assert (K1 : (t - 1) * S0 <= kap N * S0) by (apply Rmult_le_compat_r; lra).
  assert (K2 : t * eta0 * T0 <= kap N * lamb * T0) by (apply Rmult_le_compat_r; lra).
  assert (K3 : t * eta0 * INR c <= e0).
  { unfold e0. replace (INR N * (1 + kap N) * eta0) with ((1 + kap N) * eta0 * INR N) by ring.
    apply Rmult_le_compat; try lra. apply Rmult_le_pos; lra. }
  assert (K4 : kap N * (S0 + lamb * T0 + dd) <= kap N * Q) by (apply Rmult_le_compat_l; lra).
  lra.
Qed.

Lemma he_off i c : (c < i < N)%nat -> (c < P)%nat ->
  Rabs (A i c - sumn N (fun k => D k * lowf M i k * lowf M c k)) <= kap N * sumn N (fun k => p i k * w k * p c k) + e0.
Proof.
  intros Hc HcP. rewrite HA by lia. rewrite exact_sum by lia.
  destruct (HD c HcP) as (d0 & -> & Ew). rewrite lowf_lt by lia. rewrite (Rmult_comm (M c c)).
  assert (H0 : Rabs (fval (g i c) - (sumn c (fun k => M i k * (M k k * M c k)) + M i c * M c c)) <=
    (th ^ (S (S c)) - 1) * (sumn c (fun k => Rabs (M i k) * (M k k * Rabs (M c k))) + Rabs (M i c) * M c c) +
    th ^ (S (S c)) * eta0 * (INR c + sumn c (fun k => Rabs (M i k) * M k k) + M c c)).
  { apply (stored_off g m N Hr all_fin c i); [lia|]. intros k Hk. apply HD. lia. }
  eapply Rle_trans; [exact H0|]. clear H0. destruct (sums_ge0 i c ltac:(lia)) as [S0 T0].
  pose proof (dom_lt i c ltac:(lia) ltac:(lia)) as Q. pose proof (sum_more i c (S c) ltac:(lia)) as Q2. cbn [sumn] in Q2.
  set (Sm := sumn c (fun k => Rabs (M i k) * (M k k * Rabs (M c k)))) in *.
  set (Tm := sumn c (fun k => Rabs (M i k) * M k k)) in *.
  pose proof (thp_kap c ltac:(lia)) as Ht. pose proof (thp_1 (S (S c))) as Ht1.
  pose proof lam_ge0 as Lp. pose proof (Rabs_pos (M i c)) as Ra.
  pose proof (to_form (th ^ S (S c)) c (Sm + Rabs (M i c) * M c c) (Tm + M c c) (sumn N (fun k => p i k * w k * p c k)) 0) as F.
  apply Rle_trans with ((th ^ S (S c) - 1) * (Sm + Rabs (M i c) * M c c) + th ^ S (S c) * eta0 * (INR c + (Tm + M c c)) + kap N * 0); [right; ring|].
  apply F; try lra; try lia.
  - assert (0 <= Rabs (M i c) * M c c) by (apply Rmult_le_pos; lra). lra.
  - eapply Rle_trans; [|exact Q2]. rewrite Ew. unfold p. rewrite lowf_lt, lowf_eq by lia. rewrite Rabs_R1.
    assert (0 <= lamb * M c c * (Rabs (M i c) + lamb)) by (repeat apply Rmult_le_pos; lra). unfold p in Q. nra.
Qed.

Lemma he_diag i : (i < N)%nat -> (i < P)%nat ->
  Rabs (A i i - sumn N (fun k => D k * lowf M i k * lowf M i k)) <= kap N * sumn N (fun k => p i k * w k * p i k) + e0.
Proof.
  intros Hi HiP. rewrite HA by lia. rewrite exact_sum by lia.
  destruct (HD i HiP) as (d0 & -> & Ew). rewrite lowf_eq, Rmult_1_r.
  destruct (stored_exact g m N Hr all_fin i i ltac:(lia)) as (X & H1 & _ & H3); [intros k Hk; apply HD; lia|].
  change (fval (mget m i i)) with (M i i) in H1.
  destruct (sums_ge0 i i ltac:(lia)) as [S0 T0].
  pose proof (dom_lt i i ltac:(lia) ltac:(lia)) as Q. pose proof (sum_more i i (S i) ltac:(lia)) as Q2. cbn [sumn] in Q2.
  change (Rabs (fval (g i i) - sumn i (fun k => M i k * (M k k * M i k)) - X) <=
    (th ^ S (S i) - 1) * sumn i (fun k => Rabs (M i k) * (M k k * Rabs (M i k))) +
    th ^ S (S i) * eta0 * (INR i + sumn i (fun k => Rabs (M i k) * M k k))) in H3.
  set (Sm := sumn i (fun k => Rabs (M i k) * (M k k * Rabs (M i k)))) in *.
  set (Tm := sumn i (fun k => Rabs (M i k) * M k k)) in *.
  set (Ex := sumn i (fun k => M i k * (M k k * M i k))) in *.
  pose proof (thp_kap i ltac:(lia)) as Ht. pose proof (thp_1 (S (S i))) as Ht1. pose proof lam_ge0 as Lp.
  assert (G : Rabs (X - M i i) <= kap N * M i i).
  { pose proof th_eq as Te. pose proof th_1. pose proof uu_pos. pose proof uu_small.
    assert (HXa : Rabs X <= M i i + Rabs (X - M i i)).
    { replace X with (M i i + (X - M i i)) at 1 by ring. eapply Rle_trans; [apply Rabs_triang|]. rewrite (Rabs_pos_eq (M i i)) by lra. lra. }
    set (e := Rabs (X - M i i)) in *.
    assert (E1 : (1 - uu) * e <= uu * M i i) by nra.
    assert (E2 : th * ((1 - uu) * e) <= th * (uu * M i i)) by (apply Rmult_le_compat_l; lra).
    assert (Ee : e = th * ((1 - uu) * e)) by (unfold th; field; lra).
    assert (Hk : th - 1 <= kap N) by (unfold kap; pose proof (thp_le 1 (S N) ltac:(lia)) as Hq; rewrite pow_1 in Hq; lra).
    assert (Hq : (th - 1) * M i i <= kap N * M i i) by (apply Rmult_le_compat_r; lra). rewrite Te in Hq. lra. }
  replace (fval (g i i) - (Ex + M i i)) with ((fval (g i i) - Ex - X) + (X - M i i)) by ring.
  eapply Rle_trans; [apply Rabs_triang|].
  eapply Rle_trans; [apply Rplus_le_compat; [exact H3|exact G]|].
  apply (to_form (th ^ S (S i)) i Sm Tm (sumn N (fun k => p i k * w k * p i k)) (M i i)); try lra; try lia.
  eapply Rle_trans; [|exact Q2]. rewrite Ew. unfold p. rewrite lowf_eq, Rabs_R1.
  assert (0 <= M i i * (2 * lamb + lamb * lamb)) by (apply Rmult_le_pos; nra). unfold p in Q. nra.
Qed.
End Rows.
