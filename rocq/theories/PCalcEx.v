(** Volume statement and concrete calculator runs (used as examples). *)
From Coq Require Import Reals Lra Psatz List Bool.
From Verif Require Import Arith ModelCalc ModelEll SpecDrivers Spec SpecCut PAlg PVol PCalc PCalc2 PCalc3 PCalc4.
Import ListNotations.
Local Open Scope R_scope.

Lemma ln_pow_nat x n : 0 < x -> ln (x ^ n) = INR n * ln x.
Proof.
  intros Hx. induction n as [|m IH].
  - simpl. rewrite ln_1. ring.
  - rewrite S_INR. cbn [pow]. rewrite ln_mult; [|exact Hx|apply pow_lt, Hx]. rewrite IH. ring.
Qed.

Lemma volume_factor n p c k beta T rho sigma delta : calc_for n p c -> 0 < T ->
  deep k beta -> strat_of k c beta T = Ok (Success, Some (rho, sigma, delta)) ->
  delta ^ n * (1 - sigma) <= exp (- / (INR n + 1)) < 1.
Proof.
  intros Hc HT Hd Hs. calc_R_tac Hc. pose proof (INR_ge_2 n Hn) as HN.
  destruct (win_deep n p k beta T rho sigma delta Hn HT Hd Hs) as (_ & _ & _ & Hv).
  split.
  - destruct Hv as [->|(Hs1 & Hdp & Hl)].
    + replace (delta ^ n * (1 - 1)) with 0 by ring. apply Rlt_le, exp_pos.
    + assert (Hp : 0 < delta ^ n * (1 - sigma)).
      { apply Rmult_lt_0_compat; [apply pow_lt, Hdp|lra]. }
      rewrite <- (exp_ln _ Hp). rewrite ln_mult; [|apply pow_lt, Hdp|lra].
      rewrite ln_pow_nat by exact Hdp.
      destruct Hl as [Hl|Hl]; [apply Rlt_le, exp_increasing, Hl|rewrite Hl; apply Rle_refl].
  - apply Rlt_le_trans with (exp 0); [|rewrite exp_0; lra].
    apply exp_increasing. apply Ropp_lt_gt_0_contravar, Rinv_0_lt_compat. lra.
Qed.

Lemma ex_calc p : calc_for 2 p (calc_R p 2).
Proof. apply calc_for_ok. auto. Qed.

Lemma sqrt_4 : sqrt 4 = 2.
Proof. replace 4 with (2 * 2) by ring. apply sqrt_square. lra. Qed.

Lemma sqrt_1' : sqrt 1 = 1.
Proof. exact sqrt_1. Qed.

(** n = 2, tsq = 4, beta = 1 *)
Lemma ex_single k p : k <> OpCentral ->
  strat_of k (calc_R p 2) (@CSingle RA 1) 4 = Ok (Success, Some (4/3, 8/9, 1)).
Proof.
  intros Hk. rewrite strat_norm; [|auto|lra].
  assert (E : (sg_rho (INR 2) 2 1, sg_sigma (INR 2) 2 1, sg_delta (INR 2) 2 1) = (4/3, 8/9, 1)).
  { unfold sg_rho, sg_sigma, sg_delta. rewrite INR_2. f_equal; [f_equal|]; field. }
  destruct k; [|congruence|]; cbn [norm eff_res is_q]; unfold single_res; rewrite sqrt_4.
  - rewrite Rleb_true, Rltb_false, E by lra. reflexivity.
  - rewrite Rltb_false by lra. rewrite Rleb_false by (rewrite INR_2; lra). rewrite E. reflexivity.
Qed.

(** n = 2, tsq = 12, beta = (2, 3) *)
Lemma ex_par_val : (q_rho (INR 2) 12 2 3, q_sigma (INR 2) 12 2 3, q_delta (INR 2) 12 2 3)
  = (12/5, 24/25, 1).
Proof.
  assert (Hx : q_xi 2 12 2 3 = 7).
  { unfold q_xi. replace (q_rad 2 12 2 3) with (7 * 7) by (unfold q_rad; field).
    apply sqrt_square. lra. }
  rewrite INR_2. unfold q_rho, q_delta, q_sigma. rewrite Hx. unfold q_eta, q_A, q_s.
  f_equal; [f_equal|]; field.
Qed.

Lemma ex_par k : k <> OpCentral ->
  strat_of k (calc_R true 2) (@CList RA [Some 2; Some 3]) 12
  = Ok (Success, Some (12/5, 24/25, 1)).
Proof.
  intros Hk. rewrite strat_norm; [|auto|lra].
  destruct k; [|congruence|]; cbn [norm eff_res is_q length Nat.ltb Nat.leb negb orb]; unfold par_res;
  rewrite Rltb_false by lra; rewrite Rltb_true by lra; rewrite Rleb_false by lra; cbn [andb].
  - rewrite ex_par_val. reflexivity.
  - rewrite Rleb_false by (unfold q_eta; rewrite INR_2; lra). rewrite ex_par_val. reflexivity.
Qed.

(** n = 2, tsq = 1, beta = (-1/2, 1/2): a shallow discrete cut *)
Lemma ex_shallow_val : (q_rho (INR 2) 1 (-1/2) (1/2), q_sigma (INR 2) 1 (-1/2) (1/2), q_delta (INR 2) 1 (-1/2) (1/2))
  = (0, 2/3, 3/2).
Proof.
  assert (Hx : q_xi 2 1 (-1/2) (1/2) = 3/4).
  { unfold q_xi. replace (q_rad 2 1 (-1/2) (1/2)) with (3/4 * (3/4)) by (unfold q_rad; field).
    apply sqrt_square. lra. }
  rewrite INR_2. unfold q_rho, q_delta, q_sigma. rewrite Hx. unfold q_eta, q_A, q_s.
  f_equal; [f_equal|]; field.
Qed.

Lemma ex_shallow :
  strat_of OpQ (calc_R true 2) (@CList RA [Some (-1/2); Some (1/2)]) 1
  = Ok (Success, Some (0, 2/3, 3/2)).
Proof.
  rewrite strat_norm; [|auto|lra]. cbn [norm eff_res is_q length Nat.ltb Nat.leb negb orb]. unfold par_res.
  rewrite Rltb_false by lra; rewrite Rltb_true by lra; rewrite Rleb_false by lra; cbn [andb].
  rewrite Rleb_false by (unfold q_eta; rewrite INR_2; lra). rewrite ex_shallow_val. reflexivity.
Qed.

(** ranges, as stated *)
Lemma ranges_deep n p c k beta T rho sigma delta : calc_for n p c -> 0 < T ->
  deep k beta -> strat_of k c beta T = Ok (Success, Some (rho, sigma, delta)) ->
  0 < sigma <= 1 /\ 0 <= delta /\ 0 <= rho <= sqrt T.
Proof.
  intros Hc HT Hd Hs. calc_R_tac Hc.
  destruct (win_deep n p k beta T rho sigma delta Hn HT Hd Hs) as (H1 & H2 & H3 & _). auto.
Qed.

Lemma ranges_meet n p c k beta T rho sigma delta t0 : calc_for n p c -> 0 < T ->
  bias_cond n k p beta T ->
  t0 * t0 <= T -> cut_holds k p beta t0 ->
  strat_of k c beta T = Ok (Success, Some (rho, sigma, delta)) ->
  0 <= sigma <= 1 /\ 0 <= delta /\ (k = OpQ -> 0 < sigma) /\
  (forall t1, t1 * t1 <= T -> cut_holds k p beta t1 -> t1 <> t0 -> sigma < 1 /\ 0 < delta).
Proof.
  intros Hc HT Hb Ht Hh Hs. calc_R_tac Hc.
  destruct (win_ranges n p k beta T rho sigma delta t0 Hn HT Hb Ht Hh Hs) as (H1 & H2 & _ & H4).
  split; [exact H1|]. split; [exact H2|]. split.
  - intros ->. eapply (win_sigma_pos n p OpQ); try eassumption. congruence.
  - intros t1 Ht1 Hh1 Hne. apply (H4 t1); auto.
Qed.
