(** Alternative formulations, special cases, switching off, statuses. *)
From Coq Require Import Reals Lra Psatz List Bool.
From Verif Require Import Arith ModelCalc ModelEll SpecDrivers Spec SpecCut PAlg PVol PCalc PCalc2 PCalc3.
Import ListNotations.
Local Open Scope R_scope.

(** ** C16 *)
Section F.
Variable N : R.
Hypothesis HN : 2 <= N.

Lemma fast2_R (a b T : R) eta : 0 < T -> a <= b -> reach T b -> a + b <> 0 ->
  core_parallel_bias_cut_fast2 (core_R N) a b T (a * b) eta =
  Ok (q_rho N T a b, q_sigma N T a b, q_delta N T a b).
Proof.
  intros HT Hab Hr Hs. unfold core_parallel_bias_cut_fast2, core_R.
  cbn [half_n cst0 cst1 cst2 cst3 n_f]. unfold atwo. rn. rewrite !INR_2.
  pose proof (rad_ge_0 N T a b HN) as Hrad. unfold q_rad in Hrad.
  rewrite psqrt_ok by exact Hrad. cbn [bind].
  change (sqrt ((T - a * a) * (T - b * b) + N / 2 * (b * b - a * a) * (N / 2 * (b * b - a * a))))
    with (q_xi N T a b).
  assert (Hs2 : (a + b) * (a + b) <> 0) by nra.
  rewrite pdiv_ok by exact Hs2. cbn [bind]. rewrite pdiv_ok by lra. cbn [bind].
  rewrite pdiv_ok by lra. cbn [bind].
  assert (E : N * (1 / (N + 1)) + 2 * (1 / (N + 1)) * (T + a * b - q_xi N T a b) / ((a + b) * (a + b))
              = q_sigma N T a b).
  { rewrite sigma_alt by (assumption || (unfold q_s; assumption)).
    unfold q_A, q_s. field. split; [exact Hs|lra]. }
  apply triple_eq.
  - unfold q_rho. rewrite <- E. reflexivity.
  - exact E.
  - reflexivity.
Qed.

Lemma old_R (a b T : R) : 0 < T -> a <= b -> reach T b -> a + b <> 0 ->
  core_parallel_bias_cut_old (core_R N) a b T =
  Ok (q_rho N T a b, q_sigma N T a b, q_delta N T a b).
Proof. intros. rewrite <- (fast2_R a b T 0) by assumption. reflexivity. Qed.

Lemma fast2_zero (a b T : R) eta : a + b = 0 ->
  core_parallel_bias_cut_fast2 (core_R N) a b T (a * b) eta = Err ZeroDivision.
Proof.
  intros Hs. unfold core_parallel_bias_cut_fast2, core_R.
  cbn [half_n cst0 cst1 cst2 cst3 n_f]. unfold atwo. rn. rewrite !INR_2.
  pose proof (rad_ge_0 N T a b HN) as Hrad. unfold q_rad in Hrad.
  rewrite psqrt_ok by exact Hrad. cbn [bind].
  rewrite Hs. rewrite Rmult_0_l. rewrite pdiv_zero. reflexivity.
Qed.

Lemma old_zero (a b T : R) : a + b = 0 ->
  core_parallel_bias_cut_old (core_R N) a b T = Err ZeroDivision.
Proof. intros. rewrite <- (fast2_zero a b T 0) by assumption. reflexivity. Qed.

Lemma fast_old_common (a b T : R) : 0 < T -> a <= b -> reach T b ->
  core_parallel_bias_cut_fast_old (core_R N) a b T (a * b) (q_eta N T a b) =
  if Rleb (q_k N T a b) (q_eta N T a b)
  then Ok (sqrt T / (N + 1), 2 / (N + 1), N * N / (N * N - 1))
  else Ok (q_rho N T a b, q_sigma N T a b, q_delta N T a b).
Proof.
  intros HT Hab Hr. unfold core_parallel_bias_cut_fast_old.
  cbn [n_plus_1 n_f core_R]. unfold ahalf, atwo. rn. rewrite !INR_2.
  set (bavg := 1 / 2 * (a + b)).
  set (h := 1 / 2 * (T + a * b) + N * (bavg * bavg)).
  assert (Hh : h = q_A N T a b / 2) by (unfold h, bavg, q_A, q_s; field).
  assert (Hg : h * h - (N + 1) * q_eta N T a b * (bavg * bavg) = (q_xi N T a b / 2) * (q_xi N T a b / 2)).
  { rewrite Hh. pose proof (A2_xi2 N T a b HN) as E. unfold bavg. unfold q_s in E. lra. }
  rewrite Hg. pose proof (xi_ge_0 N T a b) as Hx.
  rewrite Rltb_false by nra. rewrite psqrt_ok by nra. cbn [bind].
  rewrite sqrt_square by lra.
  replace (h + q_xi N T a b / 2) with (q_k N T a b) by (rewrite Hh; unfold q_k; field).
  destruct (Rleb_spec (q_k N T a b) (q_eta N T a b)) as [Hk|Hk].
  - rewrite psqrt_ok by lra. cbn [bind]. f_equal. apply central_R. exact HN.
  - pose proof (k_pos N T a b HN HT Hab Hr) as Hkp.
    pose proof (sigma_k N T a b HN HT Hab Hr) as Hsk.
    rewrite pdiv_ok by lra. cbn [bind]. rewrite pdiv_ok by lra. cbn [bind].
    rewrite pdiv_ok by lra. cbn [bind].
    assert (Hs : q_eta N T a b / q_k N T a b = q_sigma N T a b).
    { rewrite <- Hsk. field. lra. }
    rewrite Hs. apply triple_eq.
    + unfold q_rho, bavg. field.
    + reflexivity.
    + pose proof (delta_identity N T a b HN HT Hab Hr) as Hd.
      assert (H1s : 1 - q_sigma N T a b = (q_k N T a b - q_eta N T a b) / q_k N T a b).
      { rewrite <- Hs. field. lra. }
      apply (Rmult_eq_reg_r T); [|lra]. unfold Rdiv at 1. rewrite Rmult_assoc, Rinv_l by lra.
      apply (Rmult_eq_reg_l (1 - q_sigma N T a b)).
      2: { rewrite H1s. unfold Rdiv. apply Rmult_integral_contrapositive. split; [lra|].
           apply Rinv_neq_0_compat. lra. }
      transitivity ((1 - q_sigma N T a b) * T + q_sigma N T a b *
                    (q_sigma N T a b * (q_s a b * q_s a b) / 4 - a * b)); [|rewrite <- Hd; ring].
      assert (Hm : (1 - q_sigma N T a b) * (q_eta N T a b / (q_k N T a b - q_eta N T a b))
                   = q_sigma N T a b) by (rewrite H1s, <- Hs; field; split; lra).
      transitivity ((1 - q_sigma N T a b) * T
        + (1 - q_sigma N T a b) * (q_eta N T a b / (q_k N T a b - q_eta N T a b))
          * (bavg * bavg * q_sigma N T a b - a * b)); [unfold Rdiv; ring|].
      rewrite Hm.
      unfold bavg, q_s. field.
Qed.

Lemma k_gt_eta (a b T : R) : 0 < T -> a < b -> reach T b -> q_eta N T a b < q_k N T a b.
Proof.
  intros HT Hab Hr. pose proof (k_pos N T a b HN HT ltac:(lra) Hr) as Hk.
  destruct (Rle_dec 0 (q_eta N T a b)) as [He|He]; [|lra].
  pose proof (sigma_lt_1 N T a b HN HT ltac:(lra) Hr He Hab) as Hs.
  pose proof (sigma_k N T a b HN HT ltac:(lra) Hr) as Hsk. nra.
Qed.

Lemma central_old_R (b T : R) : 0 < T -> 0 < b -> b * b < T ->
  core_parallel_central_cut_old (core_R N) b T =
  Ok (q_rho N T 0 b, q_sigma N T 0 b, q_delta N T 0 b).
Proof.
  intros HT Hb HbT. unfold core_parallel_central_cut_old, core_R.
  cbn [half_n cst1 cst2 cst3 n_f]. unfold atwo. rn. rewrite !INR_2.
  rewrite pdiv_ok by lra. cbn [bind].
  set (al := b * b / T).
  assert (Hal : 0 < al < 1).
  { unfold al. split.
    - apply Rdiv_lt_0_compat; nra.
    - apply (Rmult_lt_reg_r T); [exact HT|]. unfold Rdiv. rewrite Rmult_assoc, Rinv_l; lra. }
  assert (HbaT : b * b = al * T) by (unfold al; field; lra).
  set (k := N / 2 * al).
  assert (Hrad : 0 < 1 - al + k * k) by nra.
  rewrite psqrt_ok by lra. cbn [bind].
  set (w := sqrt (1 - al + k * k)).
  assert (Hw : w * w = 1 - al + k * k) by (apply sqrt_sqrt; lra).
  assert (Hw0 : 0 < w) by (apply sqrt_lt_R0; exact Hrad).
  rewrite pdiv_ok by lra. cbn [bind]. rewrite pdiv_ok by lra. cbn [bind].
  assert (Hxi : q_xi N T 0 b = T * w).
  { unfold q_xi. replace (q_rad N T 0 b) with ((T * w) * (T * w)).
    - rewrite sqrt_square; [reflexivity|]. nra.
    - replace (T * w * (T * w)) with (T * T * (w * w)) by ring. rewrite Hw.
      unfold q_rad, k. rewrite HbaT. field. }
  assert (E : N * (1 / (N + 1)) + 2 * (1 / (N + 1)) * (1 - w) / al = q_sigma N T 0 b).
  { rewrite sigma_alt; [|exact HN|exact HT|lra|right; exact HbT|unfold q_s; lra].
    rewrite Hxi. unfold q_A, q_s. replace ((0 + b) * (0 + b)) with (b * b) by ring.
    rewrite HbaT. field. repeat split; lra. }
  rewrite E. apply triple_eq.
  - unfold q_rho. field.
  - reflexivity.
  - assert (N * N - 1 <> 0) by nra. unfold q_delta. rewrite Hxi, HbaT. field. repeat split; lra.
Qed.

Lemma central_old_zero (T : R) : 0 < T ->
  core_parallel_central_cut_old (core_R N) 0 T = Err ZeroDivision.
Proof.
  intros HT. unfold core_parallel_central_cut_old. rn. rewrite pdiv_ok by lra. cbn [bind].
  cbn [half_n cst1 cst2 cst3 n_f core_R].
  replace (0 * 0 / T) with 0 by (field; lra).
  rewrite psqrt_ok by lra. cbn [bind]. rewrite pdiv_zero. reflexivity.
Qed.

End F.

Lemma formulations_agree n p c (a b T : R) :
  calc_for n p c -> 0 < T -> a <= b -> (b <= 0 \/ b * b < T) ->
  let h := c_helper c in
  let eta := T + INR n * (a * b) in
  exists r : triple RA,
    core_parallel_bias_cut h a b T = Ok r /\
    core_parallel_bias_cut_fast h a b T (a * b) eta = Ok r /\
    (a + b <> 0 -> core_parallel_bias_cut_old h a b T = Ok r /\
                   core_parallel_bias_cut_fast2 h a b T (a * b) eta = Ok r) /\
    (a + b = 0 -> core_parallel_bias_cut_old h a b T = Err ZeroDivision /\
                  core_parallel_bias_cut_fast2 h a b T (a * b) eta = Err ZeroDivision) /\
    (a < b -> core_parallel_bias_cut_fast_old h a b T (a * b) eta = Ok r) /\
    (a = b -> b * b <= T ->
       core_parallel_bias_cut_fast_old h a b T (a * b) eta = Ok (core_central_cut h (sqrt T)) /\
       snd (fst r) = 1).
Proof.
  intros Hc HT Hab Hr h eta. calc_R_tac Hc. pose proof (INR_ge_2 n Hn) as HN.
  subst h eta. cbn [c_helper calc_R].
  exists (q_rho (INR n) T a b, q_sigma (INR n) T a b, q_delta (INR n) T a b).
  split; [apply par_R; assumption|]. split; [apply par_fast_R; assumption|].
  split; [intros Hs; split; [apply old_R|apply fast2_R]; assumption|].
  split; [intros Hs; split; [apply old_zero|apply fast2_zero]; assumption|].
  pose proof (fast_old_common (INR n) HN a b T HT Hab Hr) as E. unfold q_eta at 1 in E.
  split.
  - intros Hlt. pose proof (k_gt_eta (INR n) HN a b T HT Hlt Hr) as Hk.
    rewrite Rleb_false in E by exact Hk. exact E.
  - intros Heq HbT. pose proof (sigma_flat _ _ _ _ HN HT Hab Hr Heq HbT) as Hs1.
    split; [|exact Hs1].
    pose proof (sigma_k _ _ _ _ HN HT Hab Hr) as Hsk. rewrite Hs1 in Hsk.
    rewrite Rleb_true in E by lra. rewrite central_R by exact HN. exact E.
Qed.

Lemma central_formulations_agree n p c (b T : R) :
  calc_for n p c -> 0 < T -> 0 <= b -> b * b < T ->
  exists r : triple RA,
    core_parallel_central_cut (c_helper c) b T = Ok r /\
    (0 < b -> core_parallel_central_cut_old (c_helper c) b T = Ok r) /\
    (b = 0 -> core_parallel_central_cut_old (c_helper c) b T = Err ZeroDivision).
Proof.
  intros Hc HT Hb HbT. calc_R_tac Hc. pose proof (INR_ge_2 n Hn) as HN. cbn [c_helper calc_R].
  eexists. split; [apply par_central_R; assumption|]. split.
  - intros H0. apply central_old_R; assumption.
  - intros ->. apply central_old_zero; assumption.
Qed.

(** ** C17 *)
Lemma deep_zero_is_central n p c tau : calc_for n p c -> 0 < tau ->
  core_bias_cut (c_helper c) 0 tau = Ok (core_central_cut (c_helper c) tau).
Proof.
  intros Hc Ht. calc_R_tac Hc. pose proof (INR_ge_2 n Hn) as HN. cbn [c_helper calc_R].
  rewrite central_R by exact HN. rewrite bias_R; [|exact HN|lra|lra].
  assert (INR n * INR n - 1 <> 0) by nra.
  apply triple_eq; field; repeat split; try assumption; lra.
Qed.

Lemma parallel_zero_is_central n p c b T : calc_for n p c -> 0 < T -> 0 <= b -> b * b < T ->
  core_parallel_bias_cut (c_helper c) 0 b T = core_parallel_central_cut (c_helper c) b T.
Proof.
  intros Hc HT Hb HbT. calc_R_tac Hc. pose proof (INR_ge_2 n Hn) as HN. cbn [c_helper calc_R].
  rewrite par_central_R by assumption. rewrite par_R; try assumption; [reflexivity|].
  right; exact HbT.
Qed.

Lemma parallel_tau_is_single n p c beta tau : calc_for n p c -> 0 < tau -> - tau < beta <= tau ->
  core_parallel_bias_cut (c_helper c) beta tau (tau * tau) = core_bias_cut (c_helper c) beta tau.
Proof.
  intros Hc Ht Hb. calc_R_tac Hc. pose proof (INR_ge_2 n Hn) as HN. cbn [c_helper calc_R].
  rewrite bias_R; [|exact HN|lra|lra].
  unfold core_parallel_bias_cut, core_parallel_bias_cut_fast, core_R.
  cbn [half_n cst0 cst1 cst2 n_f]. unfold atwo. rn. rewrite !INR_2.
  pose proof (rad_ge_0 (INR n) (tau * tau) beta tau HN) as Hrad. unfold q_rad in Hrad.
  rewrite psqrt_ok by exact Hrad. cbn [bind].
  pose proof (tau_den (INR n) tau beta HN Hb) as Hd.
  unfold q_A, q_s, q_xi, q_rad in Hd. 
  rewrite pdiv_ok; [|rewrite Hd; apply Rgt_not_eq, Rlt_gt; apply Rmult_lt_0_compat; nra].
  cbn [bind]. rewrite pdiv_ok by lra. cbn [bind].
  rewrite pdiv_ok by nra. cbn [bind].
  rewrite <- (tau_rho (INR n) tau beta), <- (tau_sigma (INR n) tau beta), <- (tau_delta (INR n) tau beta)
    by assumption. reflexivity.
Qed.

(** continuity in beta1 at tau *)
Lemma cont_plus f g x : continuity_pt f x -> continuity_pt g x -> continuity_pt (fun y => f y + g y) x.
Proof. exact (continuity_pt_plus f g x). Qed.
Lemma cont_minus f g x : continuity_pt f x -> continuity_pt g x -> continuity_pt (fun y => f y - g y) x.
Proof. exact (continuity_pt_minus f g x). Qed.
Lemma cont_mult f g x : continuity_pt f x -> continuity_pt g x -> continuity_pt (fun y => f y * g y) x.
Proof. exact (continuity_pt_mult f g x). Qed.
Lemma cont_div f g x : continuity_pt f x -> continuity_pt g x -> g x <> 0 -> continuity_pt (fun y => f y / g y) x.
Proof. exact (continuity_pt_div f g x). Qed.
Lemma cont_sqrt f x : continuity_pt f x -> 0 <= f x -> continuity_pt (fun y => sqrt (f y)) x.
Proof.
  intros Hf H0. apply (continuity_pt_comp f sqrt); [exact Hf|].
  apply continuity_pt_sqrt. exact H0.
Qed.
Lemma cont_id x : continuity_pt (fun y => y) x.
Proof. apply derivable_continuous_pt, derivable_pt_id. Qed.
Lemma cont_const k x : continuity_pt (fun _ => k) x.
Proof. apply continuity_pt_const. intros ? ?. reflexivity. Qed.

Section Cont.
Variables N T a x : R.
Hypothesis HN : 2 <= N.
Hypothesis HT : 0 < T.
Ltac ct := repeat first [apply cont_minus|apply cont_plus|apply cont_mult|apply cont_const|apply cont_id].

Lemma cont_xi : continuity_pt (fun b => q_xi N T a b) x.
Proof. unfold q_xi. apply cont_sqrt; [unfold q_rad; ct|apply rad_ge_0, HN]. Qed.

Lemma cont_sigma : q_A N T a x + q_xi N T a x <> 0 -> continuity_pt (fun b => q_sigma N T a b) x.
Proof.
  intros H. unfold q_sigma. apply cont_div; [unfold q_eta; ct| |exact H].
  apply cont_plus; [unfold q_A, q_s; ct|apply cont_xi].
Qed.

Lemma cont_rho : q_A N T a x + q_xi N T a x <> 0 -> continuity_pt (fun b => q_rho N T a b) x.
Proof.
  intros H. unfold q_rho, Rdiv. apply cont_mult; [|apply cont_const].
  apply cont_mult; [apply cont_sigma, H|ct].
Qed.

Lemma cont_delta : continuity_pt (fun b => q_delta N T a b) x.
Proof.
  unfold q_delta, Rdiv. apply cont_mult; [|apply cont_const]. apply cont_mult; [apply cont_const|].
  apply cont_plus; [ct|]. apply cont_mult; [apply cont_xi|apply cont_const].
Qed.
End Cont.

Lemma cont_eps f x : continuity_pt f x -> forall eps, 0 < eps ->
  exists d, 0 < d /\ forall y, Rabs (y - x) < d -> Rabs (f y - f x) < eps.
Proof.
  intros H eps He. destruct (H eps He) as (d & Hd & Hc). exists d. split; [exact Hd|].
  intros y Hy. destruct (Req_dec x y) as [->|Hne].
  - replace (f y - f y) with 0 by ring. rewrite Rabs_R0. exact He.
  - apply Hc. split; [split; [exact I|exact Hne]|exact Hy].
Qed.

Lemma fallback_continuous n p c a T : calc_for n p c -> 0 < T -> 0 <= a < sqrt T ->
  forall eps, 0 < eps -> exists d, 0 < d /\
  forall b, Rabs (b - sqrt T) < d -> exists r s e r' s' e',
    calc_parallel c a b T = Ok (Success, Some (r, s, e)) /\
    calc_parallel c a (sqrt T) T = Ok (Success, Some (r', s', e')) /\
    Rabs (r - r') < eps /\ Rabs (s - s') < eps /\ Rabs (e - e') < eps.
Proof.
  intros Hc HT Ha eps He. calc_R_tac Hc. pose proof (INR_ge_2 n Hn) as HN.
  assert (Ht : 0 < sqrt T) by (apply sqrt_lt_R0, HT).
  assert (Htt : sqrt T * sqrt T = T) by (apply sqrt_sqrt; lra).
  assert (Hden : q_A (INR n) T a (sqrt T) + q_xi (INR n) T a (sqrt T) <> 0).
  { pose proof (tau_den (INR n) (sqrt T) a HN ltac:(lra)) as E. rewrite Htt in E. rewrite E.
    apply Rgt_not_eq, Rlt_gt, Rmult_lt_0_compat; [nra|lra]. }
  destruct (cont_eps _ _ (cont_rho (INR n) T a (sqrt T) HN Hden) eps He) as (d1 & Hd1 & C1).
  destruct (cont_eps _ _ (cont_sigma (INR n) T a (sqrt T) HN Hden) eps He) as (d2 & Hd2 & C2).
  destruct (cont_eps _ _ (cont_delta (INR n) T a (sqrt T) HN) eps He) as (d3 & Hd3 & C3).
  set (d := Rmin (sqrt T - a) (Rmin d1 (Rmin d2 d3))).
  exists d. split; [unfold d; repeat apply Rmin_glb_lt; lra|].
  intros b Hb.
  assert (Hb0 : Rabs (b - sqrt T) < sqrt T - a) by (eapply Rlt_le_trans; [exact Hb|apply Rmin_l]).
  assert (Hbr : Rabs (b - sqrt T) < Rmin d1 (Rmin d2 d3)) by (eapply Rlt_le_trans; [exact Hb|apply Rmin_r]).
  assert (Hb1 : Rabs (b - sqrt T) < d1) by (eapply Rlt_le_trans; [exact Hbr|apply Rmin_l]).
  assert (Hbr2 : Rabs (b - sqrt T) < Rmin d2 d3) by (eapply Rlt_le_trans; [exact Hbr|apply Rmin_r]).
  assert (Hb2 : Rabs (b - sqrt T) < d2) by (eapply Rlt_le_trans; [exact Hbr2|apply Rmin_l]).
  assert (Hb3 : Rabs (b - sqrt T) < d3) by (eapply Rlt_le_trans; [exact Hbr2|apply Rmin_r]).
  assert (Hba : a < b) by (apply Rabs_def2 in Hb0; lra).
  assert (Esg : single_res false (INR n) a T =
    Ok (Success, Some (q_rho (INR n) T a (sqrt T), q_sigma (INR n) T a (sqrt T), q_delta (INR n) T a (sqrt T)))).
  { unfold single_res. rewrite Rleb_true, Rltb_false by lra.
    pose proof (tau_rho (INR n) (sqrt T) a HN Ht ltac:(lra)) as E1.
    pose proof (tau_sigma (INR n) (sqrt T) a HN Ht ltac:(lra)) as E2.
    pose proof (tau_delta (INR n) (sqrt T) a HN Ht ltac:(lra)) as E3.
    rewrite Htt in E1, E2, E3. rewrite E1, E2, E3. reflexivity. }
  assert (Eq' : calc_parallel (calc_R p n) a (sqrt T) T =
    Ok (Success, Some (q_rho (INR n) T a (sqrt T), q_sigma (INR n) T a (sqrt T), q_delta (INR n) T a (sqrt T)))).
  { rewrite par_norm by assumption. unfold par_res. rewrite Rltb_false by lra.
    rewrite (proj2 (fallback_iff T (sqrt T) HT)) by lra. exact Esg. }
  destruct (Rle_dec (sqrt T) b) as [Hge|Hlt].
  - do 6 eexists. split.
    + rewrite par_norm by assumption. unfold par_res. rewrite Rltb_false by lra.
      rewrite (proj2 (fallback_iff T b HT)) by exact Hge. exact Esg.
    + split; [exact Eq'|]. unfold Rminus. rewrite !Rplus_opp_r, Rabs_R0. auto.
  - do 6 eexists. split.
    + rewrite par_norm by assumption. unfold par_res. rewrite Rltb_false by lra.
      destruct (Rltb 0 b && Rleb T (b * b)) eqn:E.
      { apply fallback_iff in E; [contradiction|exact HT]. }
      cbn [andb]. reflexivity.
    + split; [exact Eq'|]. auto.
Qed.

(** ** C18 *)
Lemma parallel_off k c b0 rest T : use_parallel_cut c = false ->
  strat_of k c (CList (Some b0 :: rest)) T = strat_of k c (CSingle b0) T.
Proof.
  intros Hp. destruct k; cbn [strat_of calc_single_or_parallel calc_single_or_parallel_central_cut
    calc_single_or_parallel_q]; rewrite Hp, orb_true_r; reflexivity.
Qed.

Lemma parallel_one k c b0 T :
  strat_of k c (CList [Some b0]) T = strat_of k c (CSingle b0) T.
Proof. destruct k; reflexivity. Qed.

Lemma parallel_none k c o0 rest T : use_parallel_cut c = true ->
  strat_of k c (CList (o0 :: None :: rest)) T = Err AssertionError.
Proof.
  intros Hp. destruct k; cbn [strat_of calc_single_or_parallel calc_single_or_parallel_central_cut
    calc_single_or_parallel_q]; rewrite Hp; destruct o0; reflexivity.
Qed.

Lemma parallel_empty c T :
  strat_of OpBias c (CList []) T = Err IndexError /\ strat_of OpQ c (CList []) T = Err IndexError /\
  strat_of OpCentral c (CList []) T = strat_of OpCentral c (@CSingle RA 0) T.
Proof. repeat split; reflexivity. Qed.

(** ** C19 *)
Lemma status_bias n p c beta T : calc_for n p c -> 0 < T ->
  ((exists r, calc_bias_cut c beta T = Ok (NoSoln, r)) <-> sqrt T < beta).
Proof.
  intros Hc HT. calc_R_tac Hc. rewrite bias_norm by assumption. unfold single_res.
  assert (Ht : 0 < sqrt T) by (apply sqrt_lt_R0, HT).
  destruct (Rleb_spec 0 beta) as [H|H].
  - destruct (Rltb_spec (sqrt T) beta) as [H2|H2].
    + split; [intros _; exact H2|intros _; eexists; reflexivity].
    + split; [intros [r E]; discriminate|lra].
  - split; [intros [r E]; discriminate|lra].
Qed.

Lemma status_bias_q n p c beta T : calc_for n p c -> 0 < T ->
  ((exists r, calc_bias_cut_q c beta T = Ok (NoSoln, r)) <-> sqrt T < beta) /\
  ((exists r, calc_bias_cut_q c beta T = Ok (NoEffect, r)) <-> sqrt T + INR n * beta <= 0).
Proof.
  intros Hc HT. calc_R_tac Hc. rewrite q_norm by assumption. unfold single_res.
  assert (Ht : 0 < sqrt T) by (apply sqrt_lt_R0, HT). pose proof (INR_ge_2 n Hn) as HN.
  destruct (Rltb_spec (sqrt T) beta) as [H2|H2].
  - split; split; try (intros [r E]; discriminate); try lra.
    + intros _. eexists; reflexivity.
    + intros. assert (0 < INR n * beta) by (apply Rmult_lt_0_compat; lra). lra.
  - destruct (Rleb_spec (sqrt T + INR n * beta) 0) as [H3|H3];
      split; split; try (intros [r E]; discriminate); try lra.
    intros _. eexists; reflexivity.
Qed.

Lemma status_parallel n p c a b T : calc_for n p c -> 0 < T ->
  ((exists r, calc_parallel c a b T = Ok (NoSoln, r)) <-> b < a \/ sqrt T < a).
Proof.
  intros Hc HT. calc_R_tac Hc. rewrite par_norm by assumption. unfold par_res.
  assert (Ht : 0 < sqrt T) by (apply sqrt_lt_R0, HT).
  destruct (Rltb_spec b a) as [H|H].
  { split; [intros _; left; exact H|intros _; eexists; reflexivity]. }
  destruct (Rltb 0 b && Rleb T (b * b)) eqn:E.
  - apply fallback_iff in E; [|exact HT].
    rewrite <- (bias_norm p n T Hn HT). rewrite (status_bias n p (calc_R p n) a T); [|apply calc_for_ok, Hn|exact HT].
    lra.
  - cbn [andb]. split; [intros [r E2]; discriminate|]. intros [H1|H1]; [lra|].
    assert (sqrt T <= b) by lra. apply fallback_iff in H0; [congruence|exact HT].
Qed.

Lemma status_parallel_q n p c a b T : calc_for n p c -> 0 < T ->
  ((exists r, calc_parallel_q c a b T = Ok (NoSoln, r)) <-> b < a \/ sqrt T < a) /\
  ((exists r, calc_parallel_q c a b T = Ok (NoEffect, r)) <->
     a <= b /\ ((sqrt T <= b /\ sqrt T + INR n * a <= 0) \/ (b < sqrt T /\ T + INR n * (a * b) <= 0))).
Proof.
  intros Hc HT. calc_R_tac Hc. rewrite parq_norm by assumption. unfold par_res.
  assert (Ht : 0 < sqrt T) by (apply sqrt_lt_R0, HT).
  destruct (Rltb_spec b a) as [H|H].
  { split; split; try (intros [r E]; discriminate); try lra. intros _. eexists; reflexivity. }
  destruct (Rltb 0 b && Rleb T (b * b)) eqn:E.
  - apply fallback_iff in E; [|exact HT].
    rewrite <- (q_norm p n T Hn HT).
    destruct (status_bias_q n p (calc_R p n) a T) as [S1 S2]; [apply calc_for_ok, Hn|exact HT|].
    rewrite S1, S2. lra.
  - assert (Hb : b < sqrt T).
    { destruct (Rle_dec (sqrt T) b) as [H1|H1]; [|lra].
      apply fallback_iff in H1; [congruence|exact HT]. }
    cbn [andb]. unfold q_eta. destruct (Rleb_spec (T + INR n * (a * b)) 0) as [H2|H2].
    + split; split; try (intros [r E2]; discriminate); try lra. intros _. eexists; reflexivity.
    + split; split; try (intros [r E2]; discriminate); try lra.
Qed.

Lemma triple_iff_success n p c k beta T st r : calc_for n p c -> 0 < T ->
  strat_of k c beta T = Ok (st, r) -> ((exists t, r = Some t) <-> st = Success).
Proof.
  intros Hc HT. calc_R_tac Hc. rewrite strat_norm by assumption.
  assert (Hs : forall q b, single_res q (INR n) b T = Ok (st, r) -> ((exists t, r = Some t) <-> st = Success)).
  { intros q b. unfold single_res.
    repeat (match goal with |- context[if ?x then _ else _] => destruct x end);
    intros E; inversion E; subst; split; intros H; try discriminate; eauto; destruct H; discriminate. }
  destruct (norm k p beta) as [x|[b|a b]]; cbn [eff_res]; [discriminate|apply Hs|].
  unfold par_res.
  repeat (match goal with |- context[if ?x then _ else _] => destruct x end); try apply Hs;
    intros E; inversion E; subst; split; intros H; try discriminate; eauto; destruct H; discriminate.
Qed.
