(** The volume factor: the sigma chosen by the formulas minimises it. *)
From Coq Require Import Reals Lra Psatz List Bool.
From Verif Require Import PAlg.
Local Open Scope R_scope.

Lemma ln_le_sub1 x : 0 < x -> ln x <= x - 1.
Proof.
  intros Hx. destruct (Req_dec x 1) as [->|H1]; [rewrite ln_1; lra|].
  assert (ln x <> 0).
  { intros E. apply H1. rewrite <- (exp_ln x Hx), E. apply exp_0. }
  pose proof (exp_ineq1 (ln x) H) as E. rewrite exp_ln in E by exact Hx. lra.
Qed.

Section V.
Variables N T a b : R.
Hypothesis HN : 2 <= N.
Hypothesis HT : 0 < T.
Hypothesis Ha : 0 <= a.
Hypothesis Hab : a <= b.
Hypothesis HbT : b * b <= T.
Hypothesis HabT : a * b < T.
Let q := (a + b) * (a + b) / 4.
Let m := a * b.

(** [(1 - x) * delta(x) * T] *)
Let P (x : R) := q * (x * x) - (T + m) * x + T.
Let f (x : R) := N * ln (P x) - (N - 1) * ln (1 - x).
Let p (x : R) := (N + 1) * q * (x * x) - (T + m + 2 * N * q) * x + (T + N * m).
Let f' (x : R) := - p x / (P x * (1 - x)).

Lemma qm : 0 <= q - m <= T / 4.
Proof. unfold q, m. nra. Qed.

Lemma P_pos x : 0 <= x < 1 -> 0 < P x.
Proof.
  intros Hx. pose proof qm as [Hq1 _].
  replace (P x) with ((1 - x) * (T - x * m) + x * x * (q - m)) by (unfold P; ring).
  assert (0 <= x * x * (q - m)) by (apply Rmult_le_pos; [nra|exact Hq1]).
  assert (0 <= m) by (unfold m; nra).
  assert (0 < T - x * m) by (unfold m in *; nra).
  assert (0 < (1 - x) * (T - x * m)) by (apply Rmult_lt_0_compat; lra). lra.
Qed.

Lemma f_deriv x : 0 <= x < 1 -> derivable_pt_lim f x (f' x).
Proof.
  intros Hx. pose proof (P_pos x Hx) as HP.
  assert (HdP : derivable_pt_lim P x (2 * q * x - (T + m))).
  { assert (E : forall l1 l2 l3, derivable_pt_lim (fun y => q * (y * y)) x l1 ->
              derivable_pt_lim (fun y => (T + m) * y) x l2 ->
              derivable_pt_lim (fun _ => T) x l3 ->
              derivable_pt_lim P x (l1 - l2 + l3)).
    { intros l1 l2 l3 H1 H2 H3.
      apply (derivable_pt_lim_plus (fun y => q * (y * y) - (T + m) * y) (fun _ => T)); [|exact H3].
      apply (derivable_pt_lim_minus (fun y => q * (y * y)) (fun y => (T + m) * y)); assumption. }
    replace (2 * q * x - (T + m)) with (q * (1 * x + x * 1) - (T + m) * 1 + 0) by ring.
    apply E.
    - apply (derivable_pt_lim_scal (fun y => y * y)).
      apply (derivable_pt_lim_mult (fun y => y) (fun y => y)); apply derivable_pt_lim_id.
    - apply (derivable_pt_lim_scal (fun y => y)). apply derivable_pt_lim_id.
    - apply derivable_pt_lim_const. }
  assert (Hd1 : derivable_pt_lim (fun y => ln (P y)) x (/ P x * (2 * q * x - (T + m)))).
  { apply (derivable_pt_lim_comp P ln); [exact HdP|]. apply derivable_pt_lim_ln, HP. }
  assert (Hd2 : derivable_pt_lim (fun y => ln (1 - y)) x (/ (1 - x) * (0 - 1))).
  { apply (derivable_pt_lim_comp (fun y => 1 - y) ln).
    - apply (derivable_pt_lim_minus (fun _ => 1) (fun y => y)).
      + apply derivable_pt_lim_const.
      + apply derivable_pt_lim_id.
    - apply derivable_pt_lim_ln. lra. }
  replace (f' x) with (N * (/ P x * (2 * q * x - (T + m))) - (N - 1) * (/ (1 - x) * (0 - 1))).
  - apply (derivable_pt_lim_minus (fun y => N * ln (P y)) (fun y => (N - 1) * ln (1 - y))).
    + apply (derivable_pt_lim_scal (fun y => ln (P y))). exact Hd1.
    + apply (derivable_pt_lim_scal (fun y => ln (1 - y))). exact Hd2.
  - unfold f'. apply (Rmult_eq_reg_r (P x * (1 - x))); [|apply Rmult_integral_contrapositive; split; lra].
    transitivity (- p x); [|field; split; lra].
    transitivity (N * (2 * q * x - (T + m)) * (1 - x) + (N - 1) * P x).
    + field. split; lra.
    + unfold P, p. ring.
Qed.

Variable sg : R.
Hypothesis Hsg : 0 <= sg < 1.
Hypothesis Hp : p sg = 0.

Lemma p_factor x : p x = (x - sg) * ((N + 1) * q * (x + sg) - (T + m + 2 * N * q)).
Proof. transitivity (p x - p sg); [rewrite Hp; ring|]. unfold p. ring. Qed.

Lemma p_bracket x : x < 1 -> (N + 1) * q * (x + sg) - (T + m + 2 * N * q) <= 0.
Proof.
  intros Hx. pose proof qm as [Hq _]. assert (Hq0 : 0 <= q) by (unfold q; nra).
  assert (H1 : (N + 1) * q * (1 + sg) - (T + m + 2 * N * q) <= 0).
  { pose proof (p_factor 1) as E.
    assert (p 1 <= 0) by (unfold p; nra). rewrite E in H. nra. }
  assert ((N + 1) * q * (x + sg) <= (N + 1) * q * (1 + sg)); [|lra].
  apply Rmult_le_compat_l; nra.
Qed.

Lemma f_min x : 0 <= x < 1 -> f sg <= f x.
Proof.
  intros Hx. destruct (Rtotal_order sg x) as [H|[H|H]].
  - destruct (MVT_cor2 f f' sg x H) as (c & Hc & Hc1 & Hc2).
    { intros c Hc. apply f_deriv. lra. }
    assert (0 <= f' c); [|nra].
    unfold f'. rewrite p_factor. pose proof (p_bracket c ltac:(lra)).
    pose proof (P_pos c ltac:(lra)). unfold Rdiv. apply Rmult_le_pos; [nra|].
    apply Rlt_le, Rinv_0_lt_compat. nra.
  - rewrite H. apply Rle_refl.
  - destruct (MVT_cor2 f f' x sg H) as (c & Hc & Hc1 & Hc2).
    { intros c Hc. apply f_deriv. lra. }
    assert (0 <= - f' c); [|nra].
    pose proof (p_bracket c ltac:(lra)) as Hbr. pose proof (P_pos c ltac:(lra)) as HPc.
    replace (- f' c) with (p c * / (P c * (1 - c))) by (unfold f'; field; split; lra).
    rewrite p_factor.
    apply Rmult_le_pos; [nra|]. apply Rlt_le, Rinv_0_lt_compat. nra.
Qed.

Variable delta : R.
Hypothesis Hd : (1 - sg) * (delta * T - T) = sg * (sg * ((a + b) * (a + b)) / 4 - a * b).

Lemma delta_P : (1 - sg) * (delta * T) = P sg.
Proof. unfold P, q, m. lra. Qed.

Lemma vol_log : N * ln delta + ln (1 - sg) <= - / (N + 1).
Proof.
  pose proof delta_P as HdP. pose proof (P_pos sg Hsg) as HP.
  assert (Hs1 : 0 < 1 - sg) by lra.
  assert (Hdl : 0 < delta).
  { rewrite <- HdP in HP. apply (Rmult_lt_reg_r T); [exact HT|].
    apply (Rmult_lt_reg_l (1 - sg)); [exact Hs1|]. lra. }
  assert (HdT : delta = P sg / ((1 - sg) * T)).
  { rewrite <- HdP. field. split; lra. }
  assert (E1 : N * ln delta + ln (1 - sg) = f sg - N * ln T).
  { rewrite HdT. unfold f, Rdiv.
    rewrite ln_mult; [|exact HP|apply Rinv_0_lt_compat, Rmult_lt_0_compat; assumption].
    rewrite ln_Rinv by (apply Rmult_lt_0_compat; assumption).
    rewrite ln_mult by assumption. ring. }
  rewrite E1.
  set (sc := 2 / (N + 1)).
  assert (Hsc : 0 < sc < 1).
  { unfold sc. split; [apply Rdiv_lt_0_compat; lra|].
    apply (Rmult_lt_reg_r (N + 1)); [lra|]. unfold Rdiv. rewrite Rmult_assoc, Rinv_l; lra. }
  pose proof (f_min sc ltac:(lra)) as Hm.
  assert (HPc : P sc <= T * (N * N / ((N + 1) * (N + 1)))).
  { pose proof qm as [Hq1 Hq2]. assert (0 <= m) by (unfold m; nra).
    replace (P sc) with (T * (1 - sc) + sc * (sc * (q - m) - (1 - sc) * m)) by (unfold P; ring).
    assert (sc * (q - m) - (1 - sc) * m <= sc * (T / 4)) by nra.
    apply Rle_trans with (T * (1 - sc) + sc * (sc * (T / 4))); [nra|].
    right. unfold sc. field. lra. }
  pose proof (P_pos sc ltac:(lra)) as HPc0.
  assert (Hf : f sc <= N * (ln T + ln (N * N / ((N + 1) * (N + 1)))) - (N - 1) * ln (1 - sc)).
  { unfold f. apply Rplus_le_compat_r. apply Rmult_le_compat_l; [lra|].
    rewrite <- ln_mult; [|exact HT|apply Rdiv_lt_0_compat; nra].
    destruct HPc as [H|H]; [apply Rlt_le, ln_increasing; assumption|rewrite H; lra]. }
  assert (E2 : N * ln (N * N / ((N + 1) * (N + 1))) - (N - 1) * ln (1 - sc) <= - / (N + 1)).
  { assert (HN1 : N * N - 1 <> 0) by nra. assert (HN2 : N + 1 <> 0) by lra.
    assert (H1 : ln (N / (N + 1)) <= - / (N + 1)).
    { eapply Rle_trans; [apply ln_le_sub1, Rdiv_lt_0_compat; lra|]. right. field. lra. }
    assert (H2 : ln (N * N / (N * N - 1)) <= / (N * N - 1)).
    { eapply Rle_trans; [apply ln_le_sub1, Rdiv_lt_0_compat; nra|]. right. field. nra. }
    replace (N * N / ((N + 1) * (N + 1))) with (N / (N + 1) * (N / (N + 1))) by (field; lra).
    assert (H0 : 0 < N / (N + 1)) by (apply Rdiv_lt_0_compat; lra).
    assert (H0' : 0 < N * N / (N * N - 1)) by (apply Rdiv_lt_0_compat; nra).
    rewrite ln_mult by assumption.
    assert (E : ln (N / (N + 1)) + ln (N / (N + 1)) = ln (N * N / (N * N - 1)) + ln (1 - sc)).
    { rewrite <- !ln_mult; try assumption; [|lra]. f_equal. unfold sc. field. split; assumption. }
    apply Rle_trans with (2 * ln (N / (N + 1)) + (N - 1) * ln (N * N / (N * N - 1))).
    - right. replace (ln (1 - sc)) with (2 * ln (N / (N + 1)) - ln (N * N / (N * N - 1))) by lra. ring.
    - apply Rle_trans with (2 * (- / (N + 1)) + (N - 1) * / (N * N - 1)).
      + apply Rplus_le_compat; [lra|]. apply Rmult_le_compat_l; lra.
      + right. field. split; assumption. }
  lra.
Qed.

End V.
