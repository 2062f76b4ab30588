(** Explicit real values of the cut calculators. *)
From Coq Require Import Reals Lra Psatz List Bool.
From Verif Require Import Arith ModelCalc PAlg.
Import ListNotations.
Local Open Scope R_scope.

Ltac rn := cbn [num azero aone aadd asub amul adiv aneg asqrt altb aleb aeqb aofnat RA].
Ltac rn_in H := cbn [num azero aone aadd asub amul adiv aneg asqrt altb aleb aeqb aofnat RA] in H.

Lemma INR_2 : INR 2 = 2.
Proof. simpl. lra. Qed.

Lemma Rltb_spec x y : reflect (x < y) (Rltb x y).
Proof. unfold Rltb. destruct (Rlt_dec x y); constructor; assumption. Qed.
Lemma Rleb_spec x y : reflect (x <= y) (Rleb x y).
Proof. unfold Rleb. destruct (Rle_dec x y); constructor; assumption. Qed.
Lemma Reqb_spec x y : reflect (x = y) (Reqb x y).
Proof. unfold Reqb. destruct (Req_EM_T x y); constructor; assumption. Qed.

Lemma Rltb_true x y : x < y -> Rltb x y = true.
Proof. intros. destruct (Rltb_spec x y); [reflexivity|contradiction]. Qed.
Lemma Rltb_false x y : y <= x -> Rltb x y = false.
Proof. intros. destruct (Rltb_spec x y); [lra|reflexivity]. Qed.
Lemma Rleb_true x y : x <= y -> Rleb x y = true.
Proof. intros. destruct (Rleb_spec x y); [reflexivity|contradiction]. Qed.
Lemma Rleb_false x y : y < x -> Rleb x y = false.
Proof. intros. destruct (Rleb_spec x y); [lra|reflexivity]. Qed.
Lemma Reqb_true x y : x = y -> Reqb x y = true.
Proof. intros. destruct (Reqb_spec x y); [reflexivity|contradiction]. Qed.
Lemma Reqb_false x y : x <> y -> Reqb x y = false.
Proof. intros. destruct (Reqb_spec x y); [contradiction|reflexivity]. Qed.

Lemma pdiv_ok (x y : R) : y <> 0 -> @pdiv RA x y = Ok (x / y).
Proof. intros H. unfold pdiv. rn. rewrite Reqb_false by exact H. reflexivity. Qed.
Lemma pdiv_zero (x : R) : @pdiv RA x 0 = Err ZeroDivision.
Proof. unfold pdiv. rn. rewrite Reqb_true by reflexivity. reflexivity. Qed.
Lemma psqrt_ok (x : R) : 0 <= x -> @psqrt RA x = Ok (sqrt x).
Proof. intros H. unfold psqrt. rn. rewrite Rltb_false by exact H. reflexivity. Qed.
Lemma psqrt_neg (x : R) : x < 0 -> @psqrt RA x = Err ValueError.
Proof. intros H. unfold psqrt. rn. rewrite Rltb_true by exact H. reflexivity. Qed.

Definition core_R (N : R) : core RA :=
  @mkCore RA N (N / 2) (N + 1) (1 / N) (N * N) (1 / (N + 1)) (N * N / (N * N - 1))
         (2 * (1 / (N + 1))) (N * (1 / (N + 1))).

Definition calc_R (p : bool) (n : nat) : calc RA := @mkCalc RA p (INR n) (core_R (INR n)).

Lemma INR_ge_2 n : (2 <= n)%nat -> 2 <= INR n.
Proof. intros H. apply le_INR in H. rewrite INR_2 in H. exact H. Qed.

Lemma core_init_R N : 2 <= N -> @core_init RA N = Ok (core_R N).
Proof.
  intros HN. unfold core_init, atwo. rn.
  rewrite pdiv_ok by lra. cbn [bind].
  rewrite pdiv_ok by lra. cbn [bind].
  rewrite pdiv_ok by nra. cbn [bind].
  rewrite INR_2. reflexivity.
Qed.

Lemma calc_init_R n : (2 <= n)%nat -> @calc_init RA n = Ok (calc_R true n).
Proof.
  intros Hn. unfold calc_init.
  destruct (Nat.leb_spec 2 n) as [_|H]; [|exfalso; lia].
  rn. rewrite core_init_R by (apply INR_ge_2; exact Hn). reflexivity.
Qed.

Lemma calc_init_small n : (n < 2)%nat -> @calc_init RA n = Err AssertionError.
Proof.
  intros Hn. unfold calc_init.
  destruct (Nat.leb_spec 2 n) as [H|_]; [exfalso; lia|reflexivity].
Qed.

Lemma triple_eq (a b c a' b' c' : R) : a = a' -> b = b' -> c = c' ->
  @Ok (triple RA) (a, b, c) = Ok (a', b', c').
Proof. intros; subst; reflexivity. Qed.

Section F.
Variable N : R.
Hypothesis HN : 2 <= N.
Let core := core_R N.

Lemma central_R (tau : R) :
  core_central_cut core tau = (tau / (N + 1), 2 / (N + 1), N * N / (N * N - 1)) :> triple RA.
Proof.
  unfold core_central_cut, core, core_R; cbn [cst0 cst1 cst2]. rn.
  assert (N + 1 <> 0) by lra. assert (N * N - 1 <> 0) by nra.
  assert (E : forall a b c a' : R, a = a' -> forall b', b = b' -> (a, b, c) = (a', b', c))
    by (intros; subst; reflexivity).
  apply E; field; assumption.
Qed.

Lemma bias_fast_R (beta tau eta : R) : tau <> 0 -> tau + beta <> 0 ->
  core_bias_cut_fast core beta tau eta =
  Ok (eta / (N + 1), 2 * eta / ((N + 1) * (tau + beta)),
      N * N / (N * N - 1) * (1 - beta / tau * (beta / tau))).
Proof.
  intros Ht Hb. unfold core_bias_cut_fast, core, core_R. cbn [cst0 cst1 cst2]. rn.
  rewrite pdiv_ok by exact Ht. cbn [bind]. rn.
  rewrite pdiv_ok by exact Hb. cbn [bind]. rn.
  apply triple_eq; field; repeat split; try lra; nra.
Qed.

Lemma bias_R (beta tau : R) : tau <> 0 -> tau + beta <> 0 ->
  core_bias_cut core beta tau =
  Ok ((tau + N * beta) / (N + 1), 2 * (tau + N * beta) / ((N + 1) * (tau + beta)),
      N * N / (N * N - 1) * (1 - beta / tau * (beta / tau))).
Proof. intros Ht Hb. unfold core_bias_cut. apply bias_fast_R; assumption. Qed.

Lemma par_fast_R (a b T : R) : 0 < T -> a <= b -> reach T b ->
  core_parallel_bias_cut_fast core a b T (a * b) (T + N * (a * b)) =
  Ok (q_rho N T a b, q_sigma N T a b, q_delta N T a b).
Proof.
  intros HT Hab Hr. unfold core_parallel_bias_cut_fast, core, core_R.
  cbn [half_n cst0 cst1 cst2 n_f]. unfold atwo. rn. rewrite !INR_2.
  pose proof (rad_ge_0 N T a b HN) as Hrad. unfold q_rad in Hrad.
  rewrite psqrt_ok by exact Hrad. cbn [bind].
  pose proof (den_pos N T a b HN HT Hab Hr) as Hd.
  unfold q_A, q_s, q_xi, q_rad in Hd.
  rewrite pdiv_ok by lra. cbn [bind]. rewrite pdiv_ok by lra. cbn [bind].
  rewrite pdiv_ok by lra. cbn [bind]. reflexivity.
Qed.

Lemma par_R (a b T : R) : 0 < T -> a <= b -> reach T b ->
  core_parallel_bias_cut core a b T =
  Ok (q_rho N T a b, q_sigma N T a b, q_delta N T a b).
Proof. intros. unfold core_parallel_bias_cut. apply par_fast_R; assumption. Qed.

(** parallel central cut is the parallel cut with a = 0 *)
Lemma par_central_R (b T : R) : 0 < T -> 0 <= b -> b * b < T ->
  core_parallel_central_cut core b T =
  Ok (q_rho N T 0 b, q_sigma N T 0 b, q_delta N T 0 b).
Proof.
  intros HT Hb HbT. unfold core_parallel_central_cut, core, core_R.
  cbn [half_n inv_n]. unfold atwo. rn. rewrite !INR_2.
  rewrite pdiv_ok by lra. cbn [bind].
  set (al := b * b / T).
  assert (Hal : 0 <= al < 1).
  { unfold al. split.
    - apply Rmult_le_pos; [nra|apply Rlt_le, Rinv_0_lt_compat, HT].
    - apply (Rmult_lt_reg_r T); [exact HT|]. unfold Rdiv. rewrite Rmult_assoc, Rinv_l; lra. }
  assert (HbaT : b * b = al * T) by (unfold al; field; lra).
  set (k := N / 2 * al).
  assert (Hrad : 0 < 1 - al + k * k) by nra.
  rewrite psqrt_ok by lra. cbn [bind].
  set (w := sqrt (1 - al + k * k)).
  assert (Hw : w * w = 1 - al + k * k) by (apply sqrt_sqrt; lra).
  assert (Hw0 : 0 < w) by (apply sqrt_lt_R0; exact Hrad).
  assert (Hk0 : 0 <= k) by (unfold k; nra).
  assert (Hkw : 1 <= k + w).
  { destruct (Rle_dec 1 k); [lra|]. assert (1 - k <= w); [|lra].
    apply Rsqr_incr_0_var; [|lra]. unfold Rsqr. rewrite Hw.
    assert (al <= 2 * k) by (unfold k; nra). nra. }
  assert (HiN : 1 / N <= 1 / 2).
  { unfold Rdiv. rewrite !Rmult_1_l. apply Rinv_le_contravar; lra. }
  rewrite pdiv_ok by lra. cbn [bind]. rewrite pdiv_ok by lra. cbn [bind].
  rewrite pdiv_ok by lra. cbn [bind].
  (* relate to the general formulas *)
  assert (Hxi : q_xi N T 0 b = T * w).
  { unfold q_xi. replace (q_rad N T 0 b) with ((T * w) * (T * w)).
    - rewrite sqrt_square; [reflexivity|]. nra.
    - replace (T * w * (T * w)) with (T * T * (w * w)) by ring. rewrite Hw.
      unfold q_rad, k. rewrite HbaT. field. }
  assert (HA : q_A N T 0 b = T * (1 + k)).
  { unfold q_A, q_s, k. replace ((0 + b) * (0 + b)) with (b * b) by ring. rewrite HbaT. field. }
  assert (He : q_eta N T 0 b = T) by (unfold q_eta; ring).
  assert (Hsg : q_sigma N T 0 b = 2 / (k + w + 1)).
  { unfold q_sigma. rewrite HA, He, Hxi. field. split; nra. }
  apply triple_eq.
  - unfold q_rho. rewrite Hsg. field. lra.
  - rewrite Hsg. reflexivity.
  - unfold q_delta. rewrite Hxi, HbaT.
    apply (Rmult_eq_reg_r (k + w - 1 / N)); [|lra].
    unfold Rdiv at 1. rewrite Rmult_assoc, Rinv_l by lra.
    transitivity (N * N / (N * N - 1) * ((2 - al) / 2 + w / N) * (k + w - 1 / N));
      [|field; repeat split; nra].
    apply (Rmult_eq_reg_r ((N * N - 1) / (N * N))).
    2: { unfold Rdiv. apply Rmult_integral_contrapositive. split; [nra|apply Rinv_neq_0_compat; nra]. }
    transitivity (((2 - al) / 2 + w / N) * (k + w - 1 / N)); [|field; split; nra].
    replace (((2 - al) / 2 + w / N) * (k + w - 1 / N))
      with ((2 - al) / 2 * (k + w - 1 / N) + (w * k + w * w - w / N) / N) by (field; lra).
    rewrite Hw. unfold k. field. lra.
Qed.

End F.
