(** Real algebra behind the cut formulas.  [N] is the dimension, [T] is tsq,
    [a] and [b] the two offsets. *)
From Coq Require Import Reals Lra Psatz.
Local Open Scope R_scope.

Section Alg.
Variables N T a b : R.
Hypothesis HN : 2 <= N.
Hypothesis HT : 0 < T.
Hypothesis Hab : a <= b.

Definition q_s := a + b.
Definition q_rad := (T - a * a) * (T - b * b) + (N / 2 * (b * b - a * a)) * (N / 2 * (b * b - a * a)).
Definition q_xi := sqrt q_rad.
Definition q_A := T + a * b + N / 2 * (q_s * q_s).
Definition q_eta := T + N * (a * b).
Definition q_sigma := 2 * q_eta / (q_A + q_xi).
Definition q_rho := q_sigma * (a + b) / 2.
Definition q_delta := N * N / (N * N - 1) * ((T - a * a + (T - b * b)) / 2 + q_xi / N) / T.

Lemma rad_ge_0 : 0 <= q_rad.
Proof.
  unfold q_rad. set (u := T - a * a). set (v := T - b * b).
  replace (b * b - a * a) with (u - v) by (unfold u, v; ring).
  assert (H4 : 4 <= N * N) by nra.
  assert (0 <= (N * N / 4 - 1) * ((u - v) * (u - v))).
  { apply Rmult_le_pos; [lra|]. apply Rle_0_sqr. }
  assert (0 <= u * v + (u - v) * (u - v)) by nra.
  nra.
Qed.

Lemma xi_ge_0 : 0 <= q_xi.
Proof. apply sqrt_pos. Qed.

Lemma xi_sq : q_xi * q_xi = q_rad.
Proof. apply sqrt_sqrt, rad_ge_0. Qed.

Lemma A2_xi2 : q_A * q_A - q_xi * q_xi = (N + 1) * (q_s * q_s) * q_eta.
Proof. rewrite xi_sq. unfold q_A, q_rad, q_s, q_eta. field. Qed.

Lemma eta2_xi2 :
  q_xi * q_xi - (2 * q_eta - q_A) * (2 * q_eta - q_A) = (N - 1) * ((b - a) * (b - a)) * q_eta.
Proof. rewrite xi_sq. unfold q_A, q_rad, q_s, q_eta. field. Qed.

Lemma zeta2_xi2 :
  N * N * ((T - a * a + (T - b * b)) / 2 * ((T - a * a + (T - b * b)) / 2)) - q_xi * q_xi
  = (N * N - 1) * ((T - a * a) * (T - b * b)).
Proof. rewrite xi_sq. unfold q_rad. field. Qed.

(** conditions under which the code reaches the formula *)
Definition reach : Prop := b <= 0 \/ b * b < T.

Hypothesis Hr : reach.

Lemma A_pos_eta : 0 <= q_eta -> 0 < q_A.
Proof.
  intros He. unfold q_A. assert (0 <= N / 2 * (q_s * q_s)).
  { apply Rmult_le_pos; [lra|apply Rle_0_sqr]. }
  unfold q_eta in He. destruct (Rle_dec 0 (a * b)) as [Hp|Hp]; [lra|].
  assert (0 < T + a * b); [|lra]. nra.
Qed.

Lemma den_pos : 0 < q_A + q_xi.
Proof.
  pose proof xi_ge_0 as Hx.
  destruct (Rle_dec 0 q_eta) as [He|He]; [pose proof (A_pos_eta He); lra|].
  assert (He' : q_eta < 0) by lra.
  pose proof A2_xi2 as E.
  destruct (Req_dec q_s 0) as [Hs|Hs].
  - assert (Ha : a = - b) by (unfold q_s in Hs; lra).
    unfold q_A. rewrite Hs.
    assert (0 < T + a * b); [|lra]. rewrite Ha.
    destruct Hr as [H|H]; [|nra].
    assert (b = 0) by lra. subst. rewrite H0 in *. nra.
  - assert (0 < q_s * q_s) by (apply Rsqr_pos_lt in Hs; exact Hs).
    assert (q_A * q_A < q_xi * q_xi).
    { assert ((N + 1) * (q_s * q_s) * q_eta < 0); [|lra].
      assert (0 < (N + 1) * (q_s * q_s)) by nra. nra. }
    nra.
Qed.

Definition q_k := (q_A + q_xi) / 2.

Lemma k_pos : 0 < q_k.
Proof. unfold q_k. pose proof den_pos. lra. Qed.

Lemma sigma_k : q_sigma * q_k = q_eta.
Proof. unfold q_sigma, q_k. pose proof den_pos. field. lra. Qed.

Lemma k_lin : q_k = q_A - (N + 1) * (q_s * q_s) * q_sigma / 4.
Proof.
  pose proof k_pos as Hk. pose proof sigma_k as Hs. pose proof A2_xi2 as E.
  apply (Rmult_eq_reg_r q_k); [|lra].
  replace ((q_A - (N + 1) * (q_s * q_s) * q_sigma / 4) * q_k)
    with (q_A * q_k - (N + 1) * (q_s * q_s) * (q_sigma * q_k) / 4) by field.
  rewrite Hs. unfold q_k. nra.
Qed.

(** the quadratic equation solved by sigma *)
Lemma sigma_quadratic :
  q_A * q_sigma - (N + 1) * (q_s * q_s) * (q_sigma * q_sigma) / 4 = q_eta.
Proof. rewrite <- sigma_k. rewrite k_lin at 1. field. Qed.

(** the relation between sigma and delta *)
Lemma delta_identity :
  (1 - q_sigma) * (q_delta * T - T) = q_sigma * (q_sigma * (q_s * q_s) / 4 - a * b).
Proof.
  pose proof sigma_quadratic as Hq. pose proof sigma_k as Hsk.
  assert (Hxi : q_xi = 2 * q_k - q_A) by (unfold q_k; field).
  assert (HN1 : N * N - 1 <> 0) by nra.
  assert (HdT : q_delta * T =
    N * N / (N * N - 1) * ((T - a * a + (T - b * b)) / 2 + (2 * q_k - q_A) / N)).
  { unfold q_delta. rewrite Hxi. field. repeat split; lra. }
  rewrite HdT.
  replace ((1 - q_sigma) *
    (N * N / (N * N - 1) * ((T - a * a + (T - b * b)) / 2 + (2 * q_k - q_A) / N) - T))
  with (N * N / (N * N - 1) * ((1 - q_sigma) * ((T - a * a + (T - b * b)) / 2 - q_A / N)
          + 2 * (q_k - q_sigma * q_k) / N) - T * (1 - q_sigma)) by (field; repeat split; lra).
  rewrite Hsk, k_lin.
  assert (HE : N * N / (N * N - 1) * ((1 - q_sigma) * ((T - a * a + (T - b * b)) / 2 - q_A / N)
          + 2 * (q_A - (N + 1) * (q_s * q_s) * q_sigma / 4 - q_eta) / N) - T * (1 - q_sigma)
      - q_sigma * (q_sigma * (q_s * q_s) / 4 - a * b)
      = (q_A * q_sigma - (N + 1) * (q_s * q_s) * (q_sigma * q_sigma) / 4 - q_eta) / (N + 1)).
  { unfold q_A, q_eta, q_s. field. repeat split; nra. }
  rewrite Hq in HE.
  assert ((q_eta - q_eta) / (N + 1) = 0) by (unfold Rdiv; ring). lra.
Qed.

Lemma xi_abs_eta : 0 <= q_eta -> Rabs (2 * q_eta - q_A) <= q_xi.
Proof.
  intros He. pose proof eta2_xi2 as E. pose proof xi_ge_0 as Hx.
  assert (0 <= (N - 1) * ((b - a) * (b - a)) * q_eta).
  { apply Rmult_le_pos; [apply Rmult_le_pos; [lra|apply Rle_0_sqr]|exact He]. }
  apply Rsqr_incr_0_var; [|exact Hx]. rewrite <- Rsqr_abs. unfold Rsqr. lra.
Qed.

Lemma sigma_pos : 0 < q_eta -> 0 < q_sigma.
Proof. intros He. unfold q_sigma. pose proof den_pos. apply Rdiv_lt_0_compat; lra. Qed.

Lemma sigma_nonneg : 0 <= q_eta -> 0 <= q_sigma.
Proof.
  intros He. pose proof den_pos as H. unfold q_sigma, Rdiv.
  apply Rmult_le_pos; [lra|]. apply Rlt_le, Rinv_0_lt_compat, H.
Qed.

Lemma sigma_neg : q_eta < 0 -> q_sigma < 0.
Proof.
  intros He. pose proof den_pos as H. unfold q_sigma, Rdiv.
  apply Rinv_0_lt_compat in H. nra.
Qed.

Lemma sigma_le_1 : 0 <= q_eta -> q_sigma <= 1.
Proof.
  intros He. pose proof (xi_abs_eta He) as H. pose proof den_pos as Hd.
  pose proof (Rle_abs (2 * q_eta - q_A)).
  unfold q_sigma. apply (Rmult_le_reg_r (q_A + q_xi)); [exact Hd|].
  unfold Rdiv. rewrite Rmult_assoc, Rinv_l by lra. lra.
Qed.

Lemma sigma_lt_1 : 0 <= q_eta -> a < b -> q_sigma < 1.
Proof.
  intros He Hlt. pose proof den_pos as Hd.
  destruct (Req_dec q_eta 0) as [H0|H0].
  { unfold q_sigma. rewrite H0. unfold Rdiv. rewrite Rmult_0_r, Rmult_0_l. lra. }
  pose proof eta2_xi2 as E. pose proof xi_ge_0 as Hx.
  assert (0 < (N - 1) * ((b - a) * (b - a)) * q_eta).
  { apply Rmult_lt_0_compat; [apply Rmult_lt_0_compat; [lra|nra]|lra]. }
  assert (2 * q_eta - q_A < q_xi).
  { destruct (Rle_dec (2 * q_eta - q_A) 0); [|nra].
    destruct (Req_dec q_xi 0) as [Hz|Hz]; [|lra]. rewrite Hz in E.
    pose proof (Rle_0_sqr (2 * q_eta - q_A)) as Hq. unfold Rsqr in Hq. lra. }
  unfold q_sigma. apply (Rmult_lt_reg_r (q_A + q_xi)); [exact Hd|].
  unfold Rdiv. rewrite Rmult_assoc, Rinv_l by lra. lra.
Qed.

(** coinciding hyperplanes *)
Lemma flat_xi : a = b -> b * b <= T -> q_xi = T - b * b.
Proof.
  intros Heq Hb. pose proof xi_ge_0 as Hx. pose proof xi_sq as E.
  apply Rsqr_inj; [exact Hx|lra|]. unfold Rsqr. rewrite E. unfold q_rad. rewrite Heq. field.
Qed.

Lemma sigma_flat : a = b -> b * b <= T -> q_sigma = 1.
Proof.
  intros Heq Hb. pose proof den_pos as Hd. unfold q_sigma.
  replace (2 * q_eta) with (q_A + q_xi); [field; lra|].
  rewrite flat_xi by assumption. unfold q_eta, q_A, q_s. rewrite Heq. field.
Qed.

Lemma delta_flat : a = b -> b * b <= T -> q_delta = N / (N - 1) * (1 - b * b / T).
Proof.
  intros Heq Hb. unfold q_delta. rewrite flat_xi by assumption. rewrite Heq.
  field. repeat split; nra.
Qed.


Lemma delta_sign :
  0 < T - b * b -> 0 < q_delta.
Proof.
  intros Hb. unfold q_delta. pose proof zeta2_xi2 as E. pose proof xi_ge_0 as Hx.
  set (m := (T - a * a + (T - b * b)) / 2) in *.
  assert (0 < m + q_xi / N).
  { assert (HiN : 0 < / N) by (apply Rinv_0_lt_compat; lra).
    assert (0 <= q_xi / N) by (unfold Rdiv; apply Rmult_le_pos; lra).
    destruct (Rlt_dec 0 m) as [Hm|Hm]; [lra|].
    assert (Ha : T - a * a < 0) by (unfold m in Hm; lra).
    assert (N * N * (m * m) < q_xi * q_xi).
    { assert ((N * N - 1) * ((T - a * a) * (T - b * b)) < 0); [|lra].
      assert (0 < N * N - 1) by nra.
      assert ((T - a * a) * (T - b * b) < 0) by nra. nra. }
    assert (- (N * m) < q_xi).
    { apply Rsqr_incrst_0; [unfold Rsqr; nra|nra|exact Hx]. }
    assert (q_xi / N > - m); [|lra].
    apply (Rmult_lt_reg_r N); [lra|]. unfold Rdiv. rewrite Rmult_assoc, Rinv_l by lra. lra. }
  assert (0 < N * N - 1) by nra.
  apply Rdiv_lt_0_compat; [|exact HT]. apply Rmult_lt_0_compat; [|exact H].
  apply Rdiv_lt_0_compat; nra.
Qed.

(** the slab misses the interval: both offsets beyond [- tau] *)
Lemma delta_miss : T - a * a < 0 -> T - b * b < 0 -> q_delta < 0.
Proof.
  intros Ha Hb. unfold q_delta. pose proof zeta2_xi2 as E. pose proof xi_ge_0 as Hx.
  set (m := (T - a * a + (T - b * b)) / 2) in *.
  assert (Hm : m < 0) by (unfold m; lra).
  assert (q_xi < - (N * m)).
  { apply Rsqr_incrst_0; [|exact Hx|nra]. unfold Rsqr.
    assert (0 < (N * N - 1) * ((T - a * a) * (T - b * b))).
    { apply Rmult_lt_0_compat; nra. } nra. }
  assert (m + q_xi / N < 0).
  { assert (q_xi / N < - m); [|lra].
    apply (Rmult_lt_reg_r N); [lra|]. unfold Rdiv. rewrite Rmult_assoc, Rinv_l by lra. lra. }
  assert (0 < N * N - 1) by nra.
  assert (Hc : 0 < N * N / (N * N - 1)) by (apply Rdiv_lt_0_compat; nra).
  assert (Hi : 0 < / T) by (apply Rinv_0_lt_compat, HT).
  assert (HP : N * N / (N * N - 1) * (m + q_xi / N) < 0) by nra.
  change (N * N / (N * N - 1) * (m + q_xi / N) * / T < 0). nra.
Qed.

Lemma delta_touch : T = b * b -> T <= a * a -> q_delta = 0.
Proof.
  intros Hb Ha. unfold q_delta. pose proof zeta2_xi2 as E. pose proof xi_ge_0 as Hx.
  replace (T - b * b) with 0 in * by lra. rewrite Rplus_0_r in *. rewrite !Rmult_0_r in E.
  assert (q_xi = - (N * ((T - a * a) / 2))).
  { apply Rsqr_inj; [exact Hx|nra|]. unfold Rsqr. nra. }
  rewrite H. field. repeat split; nra.
Qed.

(** the new centre stays inside the slab *)
Lemma rho_ge_a : 0 <= q_eta -> 0 <= a -> a * a <= T -> a <= q_rho.
Proof.
  intros He Ha HaT. pose proof den_pos as Hd. pose proof xi_ge_0 as Hx.
  assert (Hs : 0 <= a + b) by lra.
  assert (H1 : 0 <= q_eta * q_s - a * q_A).
  { replace (q_eta * q_s - a * q_A) with (b * (T - a * a) + N / 2 * (a * q_s * (b - a)))
      by (unfold q_eta, q_A, q_s; field).
    apply Rplus_le_le_0_compat; [nra|].
    unfold q_s. assert (0 <= a * (a + b)) by nra. assert (0 <= a * (a + b) * (b - a)) by nra. nra. }
  assert (H2 : a * q_xi <= q_eta * q_s - a * q_A).
  { apply Rsqr_incr_0_var; [|exact H1]. unfold Rsqr.
    assert (E : (q_eta * q_s - a * q_A) * (q_eta * q_s - a * q_A) - a * q_xi * (a * q_xi)
            = q_eta * q_s * ((b - a) * (T - a * a))).
    { replace (a * q_xi * (a * q_xi)) with (a * a * (q_xi * q_xi)) by ring.
      replace (q_xi * q_xi) with (q_A * q_A - (N + 1) * (q_s * q_s) * q_eta)
        by (pose proof A2_xi2; lra).
      unfold q_A, q_eta, q_s. field. }
    assert (0 <= q_eta * q_s * ((b - a) * (T - a * a))).
    { apply Rmult_le_pos; [apply Rmult_le_pos; [exact He|exact Hs]|nra]. }
    lra. }
  unfold q_rho, q_sigma.
  replace (2 * q_eta / (q_A + q_xi) * (a + b) / 2) with (q_eta * q_s / (q_A + q_xi))
    by (unfold q_s; field; lra).
  apply (Rmult_le_reg_r (q_A + q_xi)); [exact Hd|].
  unfold Rdiv. rewrite Rmult_assoc, Rinv_l by lra. lra.
Qed.

Lemma rho_le_b : 0 <= q_eta -> b <= 0 -> b * b <= T -> q_rho <= b.
Proof.
  intros He Hb HbT. pose proof den_pos as Hd. pose proof xi_ge_0 as Hx.
  assert (Hs : a + b <= 0) by lra.
  assert (H1 : 0 <= b * q_A - q_eta * q_s).
  { replace (b * q_A - q_eta * q_s) with (- a * (T - b * b) + N / 2 * (b * q_s * (b - a)))
      by (unfold q_eta, q_A, q_s; field).
    apply Rplus_le_le_0_compat; [nra|].
    unfold q_s. assert (0 <= b * (a + b)) by nra. assert (0 <= b * (a + b) * (b - a)) by nra. nra. }
  assert (H2 : - b * q_xi <= b * q_A - q_eta * q_s).
  { apply Rsqr_incr_0_var; [|exact H1]. unfold Rsqr.
    assert (E : (b * q_A - q_eta * q_s) * (b * q_A - q_eta * q_s) - - b * q_xi * (- b * q_xi)
            = q_eta * (- q_s) * ((b - a) * (T - b * b))).
    { replace (- b * q_xi * (- b * q_xi)) with (b * b * (q_xi * q_xi)) by ring.
      replace (q_xi * q_xi) with (q_A * q_A - (N + 1) * (q_s * q_s) * q_eta)
        by (pose proof A2_xi2; lra).
      unfold q_A, q_eta, q_s. field. }
    assert (0 <= q_eta * (- q_s) * ((b - a) * (T - b * b))).
    { apply Rmult_le_pos; [apply Rmult_le_pos; [exact He|unfold q_s; lra]|nra]. }
    lra. }
  unfold q_rho, q_sigma.
  replace (2 * q_eta / (q_A + q_xi) * (a + b) / 2) with (q_eta * q_s / (q_A + q_xi))
    by (unfold q_s; field; lra).
  apply (Rmult_le_reg_r (q_A + q_xi)); [exact Hd|].
  unfold Rdiv. rewrite Rmult_assoc, Rinv_l by lra. lra.
Qed.

Lemma rho_in_slab t : 0 <= q_eta -> t * t <= T -> - b <= t <= - a -> a <= q_rho <= b.
Proof.
  intros He Ht Htab. pose proof (sigma_nonneg He) as Hs0. pose proof (sigma_le_1 He) as Hs1.
  split.
  - destruct (Rle_dec 0 a) as [Ha|Ha].
    + apply rho_ge_a; [exact He|exact Ha|nra].
    + unfold q_rho. destruct (Rle_dec 0 (a + b)); nra.
  - destruct (Rle_dec b 0) as [Hb|Hb].
    + apply rho_le_b; [exact He|exact Hb|nra].
    + unfold q_rho. destruct (Rle_dec 0 (a + b)); nra.
Qed.

(** the other way of writing sigma *)
Lemma sigma_alt : q_s <> 0 -> q_sigma = 2 * (q_A - q_xi) / ((N + 1) * (q_s * q_s)).
Proof.
  intros Hs. pose proof k_lin as Hk. unfold q_k in Hk.
  assert (0 < q_s * q_s) by (apply Rsqr_pos_lt in Hs; exact Hs).
  apply (Rmult_eq_reg_r ((N + 1) * (q_s * q_s))); [|nra].
  unfold Rdiv at 1. rewrite Rmult_assoc, Rinv_l by nra. lra.
Qed.

End Alg.

(** the formulas at [b = tau] *)
Section Tau.
Variables N tau beta : R.
Hypothesis HN : 2 <= N.
Hypothesis Ht : 0 < tau.
Hypothesis Hb : - tau < beta <= tau.

Lemma tau_xi : q_xi N (tau * tau) beta tau = N / 2 * (tau * tau - beta * beta).
Proof.
  unfold q_xi, q_rad.
  replace ((tau * tau - beta * beta) * (tau * tau - tau * tau) +
           N / 2 * (tau * tau - beta * beta) * (N / 2 * (tau * tau - beta * beta)))
    with (N / 2 * (tau * tau - beta * beta) * (N / 2 * (tau * tau - beta * beta))) by ring.
  apply sqrt_square. assert (0 <= (tau - beta) * (tau + beta)) by (apply Rmult_le_pos; lra). nra.
Qed.

Lemma tau_den : q_A N (tau * tau) beta tau + q_xi N (tau * tau) beta tau
  = (N + 1) * tau * (tau + beta).
Proof. rewrite tau_xi. unfold q_A, q_s. field. Qed.

Lemma tau_sigma : q_sigma N (tau * tau) beta tau = 2 * (tau + N * beta) / ((N + 1) * (tau + beta)).
Proof.
  unfold q_sigma. rewrite tau_den. unfold q_eta. field. repeat split; lra.
Qed.

Lemma tau_rho : q_rho N (tau * tau) beta tau = (tau + N * beta) / (N + 1).
Proof. unfold q_rho. rewrite tau_sigma. field. split; lra. Qed.

Lemma tau_delta : q_delta N (tau * tau) beta tau
  = N * N / (N * N - 1) * (1 - beta / tau * (beta / tau)).
Proof.
  assert (N * N - 1 <> 0) by nra.
  unfold q_delta. rewrite tau_xi. field. repeat split; lra.
Qed.
End Tau.
