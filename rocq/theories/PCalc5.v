(** Strategies on a degenerate ellipsoid ([T = 0]), and two more facts. *)
From Coq Require Import Reals Lra Psatz List Bool Arith.
From Verif Require Import Arith ModelCalc ModelEll SpecDrivers Spec SpecCut PAlg PCalc PCalc2 PCalc3.
Import ListNotations.
Local Open Scope R_scope.

Lemma some_triple_success (r : res (triple RA)) st t : some_triple r = Ok (st, Some t) -> st = Success.
Proof. destruct r; cbn; congruence. Qed.

Lemma bind_ok {T U} (x : res T) (f : T -> res U) y :
  bind x f = Ok y -> exists a, x = Ok a /\ f a = Ok y.
Proof. destruct x; cbn; [eauto|discriminate]. Qed.

Lemma calc_bias_cut_success c beta T st t : @calc_bias_cut RA c beta T = Ok (st, Some t) -> st = Success.
Proof.
  unfold calc_bias_cut. destruct (_ : bool); [|discriminate]. destruct (_ : bool); [discriminate|].
  intros H. apply bind_ok in H. destruct H as (? & _ & H). exact (some_triple_success _ _ _ H).
Qed.

Lemma calc_bias_cut_q_success c beta T st t : @calc_bias_cut_q RA c beta T = Ok (st, Some t) -> st = Success.
Proof.
  unfold calc_bias_cut_q. intros H. apply bind_ok in H. destruct H as (? & _ & H).
  destruct (_ : bool) in H; [discriminate|]. destruct (_ : bool) in H; [discriminate|].
  exact (some_triple_success _ _ _ H).
Qed.

(** A triple comes only with Success, whatever the calculator. *)
Lemma triple_success k c beta T st t : strat_of k c beta T = Ok (st, Some t) -> st = Success.
Proof.
  destruct k; cbn [strat_of].
  - unfold calc_single_or_parallel. destruct beta as [b|l]; [apply calc_bias_cut_success|].
    destruct (_ : bool).
    + intros H. apply bind_ok in H. destruct H as (? & _ & H). exact (calc_bias_cut_success _ _ _ _ _ H).
    + destruct l as [|o [|[b|] l]]; try discriminate.
      intros H. apply bind_ok in H. destruct H as (? & _ & H). unfold calc_parallel in H.
      destruct (_ : bool) in H; [discriminate|]. destruct (_ : bool) in H.
      * exact (calc_bias_cut_success _ _ _ _ _ H).
      * exact (some_triple_success _ _ _ H).
  - unfold calc_single_or_parallel_central_cut.
    assert (E : forall x, bind (psqrt (A:=RA) T) x = Ok (st, Some t) ->
      (forall y, exists z, x y = Ok (Success, z)) -> st = Success).
    { intros x H Hx. apply bind_ok in H. destruct H as (y & _ & H). destruct (Hx y) as [z Hz]. congruence. }
    destruct beta as [b|l]; [intros H; apply (E _ H); eauto|].
    destruct (_ : bool); [intros H; apply (E _ H); eauto|].
    destruct l as [|o [|[b|] l]]; try discriminate.
    destruct (_ : bool); [discriminate|]. destruct (_ : bool).
    + intros H; apply (E _ H); eauto.
    + apply some_triple_success.
  - unfold calc_single_or_parallel_q. destruct beta as [b|l]; [apply calc_bias_cut_q_success|].
    destruct (_ : bool).
    + intros H. apply bind_ok in H. destruct H as (? & _ & H). exact (calc_bias_cut_q_success _ _ _ _ _ H).
    + destruct l as [|o [|[b|] l]]; try discriminate.
      intros H. apply bind_ok in H. destruct H as (? & _ & H). unfold calc_parallel_q in H.
      destruct (_ : bool) in H; [discriminate|]. destruct (_ : bool) in H.
      * exact (calc_bias_cut_q_success _ _ _ _ _ H).
      * destruct (_ : bool) in H; [discriminate|]. exact (some_triple_success _ _ _ H).
Qed.

(** ** NoSoln, for every nonnegative [T] *)
Lemma bias_nosoln c beta T t r : 0 <= T -> @calc_bias_cut RA c beta T = Ok (NoSoln, r) ->
  t * t <= T -> t <= - beta -> False.
Proof.
  unfold calc_bias_cut. rn. intros HT H Ht Hb.
  destruct (Rleb_spec 0 beta); [|discriminate].
  destruct (Rltb_spec T (beta * beta)) as [H1|H1]; [nra|].
  apply bind_ok in H. destruct H as (tau & _ & H). unfold some_triple in H.
  apply bind_ok in H. destruct H as (? & _ & H). discriminate.
Qed.

Lemma bias_q_nosoln c beta T t r : 0 <= T -> @calc_bias_cut_q RA c beta T = Ok (NoSoln, r) ->
  t * t <= T -> t <= - beta -> False.
Proof.
  unfold calc_bias_cut_q. rn. intros HT H Ht Hb. rewrite psqrt_ok in H by exact HT. cbn [bind] in H.
  destruct (Rltb_spec (sqrt T) beta) as [H1|H1].
  - assert (Htt : sqrt T * sqrt T = T) by (apply sqrt_sqrt; lra).
    assert (0 <= sqrt T) by apply sqrt_pos. nra.
  - destruct (_ : bool) in H; [discriminate|]. unfold some_triple in H.
    apply bind_ok in H. destruct H as (? & _ & H). discriminate.
Qed.

Lemma some_triple_nosoln (r : res (triple RA)) x : some_triple r = Ok (NoSoln, x) -> False.
Proof. destruct r; cbn; discriminate. Qed.

Lemma nosoln_empty k c p beta T r t : use_parallel_cut c = p -> 0 <= T ->
  strat_of k c beta T = Ok (NoSoln, r) -> t * t <= T -> cut_holds k p beta t -> False.
Proof.
  intros Hp HT H Ht [H1 H2]. destruct k; cbn [strat_of] in H.
  - unfold calc_single_or_parallel in H. destruct beta as [b|l].
    { exact (bias_nosoln _ _ _ _ _ HT H Ht H1). }
    rewrite Hp in H. destruct p; rewrite ?orb_true_r in H; cbn [negb] in H.
    + rewrite orb_false_r in H. destruct l as [|o [|o1 l]]; cbn in H.
      * discriminate.
      * destruct o as [b|]; cbn in H; [|discriminate]. exact (bias_nosoln _ _ _ _ _ HT H Ht H1).
      * destruct o1 as [b1|]; [|discriminate]. destruct o as [b|]; cbn in H; [|discriminate].
        unfold calc_parallel in H. rn_in H. cbn in H1, H2.
        destruct (Rltb_spec b1 b); [lra|]. destruct (_ : bool) in H.
        -- exact (bias_nosoln _ _ _ _ _ HT H Ht H1).
        -- exact (some_triple_nosoln _ _ H).
    + destruct l as [|[b|] l]; cbn in H; try discriminate. exact (bias_nosoln _ _ _ _ _ HT H Ht H1).
  - unfold calc_single_or_parallel_central_cut in H.
    rewrite psqrt_ok in H by exact HT. cbn [bind] in H.
    destruct beta as [b|l]; [discriminate|]. rewrite Hp in H.
    destruct p; rewrite ?orb_true_r in H; cbn [negb] in H; [|discriminate].
    rewrite orb_false_r in H. destruct l as [|o [|o1 l]]; cbn in H; try discriminate.
    destruct o1 as [b1|]; [|discriminate]. rn_in H. cbn in H1, H2.
    destruct (Rltb_spec b1 0); [lra|]. destruct (_ : bool) in H; [discriminate|].
    exact (some_triple_nosoln _ _ H).
  - unfold calc_single_or_parallel_q in H. destruct beta as [b|l].
    { exact (bias_q_nosoln _ _ _ _ _ HT H Ht H1). }
    rewrite Hp in H. destruct p; rewrite ?orb_true_r in H; cbn [negb] in H.
    + rewrite orb_false_r in H. destruct l as [|o [|o1 l]]; cbn in H.
      * discriminate.
      * destruct o as [b|]; cbn in H; [|discriminate]. exact (bias_q_nosoln _ _ _ _ _ HT H Ht H1).
      * destruct o1 as [b1|]; [|discriminate]. destruct o as [b|]; cbn in H; [|discriminate].
        unfold calc_parallel_q in H. rn_in H. cbn in H1, H2.
        destruct (Rltb_spec b1 b); [lra|]. destruct (_ : bool) in H.
        -- exact (bias_q_nosoln _ _ _ _ _ HT H Ht H1).
        -- destruct (_ : bool) in H; [discriminate|]. exact (some_triple_nosoln _ _ H).
    + destruct l as [|[b|] l]; cbn in H; try discriminate. exact (bias_q_nosoln _ _ _ _ _ HT H Ht H1).
Qed.

(** ** A degenerate ellipsoid *)
Lemma bind_err_r {T U} (x : res T) (e : exn) : (exists e', bind x (fun _ => @Err U e) = Err e').
Proof. destruct x; cbn; eauto. Qed.

Lemma par_fast_T0 h a b ab eta : exists e, @core_parallel_bias_cut_fast RA h a b 0 ab eta = Err e.
Proof.
  unfold core_parallel_bias_cut_fast. rn.
  destruct (psqrt _) as [xi|]; cbn [bind]; [|eauto].
  match goal with |- exists e, bind ?x _ = _ => destruct x; cbn [bind]; [|eauto] end.
  match goal with |- exists e, bind ?x _ = _ => destruct x; cbn [bind]; [|eauto] end.
  rewrite pdiv_zero. cbn [bind]. eauto.
Qed.

Lemma bias_T0 c beta t : @calc_bias_cut RA c beta 0 = Ok (Success, Some t) -> False.
Proof.
  unfold calc_bias_cut. rn. intros H. destruct (Rleb_spec 0 beta); [|discriminate].
  destruct (Rltb_spec 0 (beta * beta)) as [H1|H1]; [discriminate|].
  rewrite psqrt_ok in H by lra. cbn [bind] in H. rewrite sqrt_0 in H.
  unfold core_bias_cut, core_bias_cut_fast in H. rn_in H. rewrite pdiv_zero in H. discriminate.
Qed.

Lemma bias_q_T0 n p beta t : @calc_bias_cut_q RA (calc_R p n) beta 0 = Ok (Success, Some t) -> False.
Proof.
  unfold calc_bias_cut_q. rn. intros H. rewrite psqrt_ok in H by lra. cbn [bind] in H. rewrite sqrt_0 in H.
  destruct (Rltb_spec 0 beta) as [H1|H1]; [discriminate|].
  cbn [c_n_f calc_R] in H. destruct (Rleb_spec (0 + INR n * beta) 0) as [H2|H2]; [discriminate|].
  pose proof (pos_INR n). nra.
Qed.

Lemma central_T0 n : (2 <= n)%nat ->
  core_central_cut (core_R (INR n)) 0 = (0, 2 / (INR n + 1), INR n * INR n / (INR n * INR n - 1)).
Proof.
  intros Hn. pose proof (INR_ge_2 n Hn). rewrite central_R by assumption.
  f_equal. f_equal. field. lra.
Qed.

Lemma strat_T0 n p k beta rho sigma delta : (2 <= n)%nat ->
  strat_of k (calc_R p n) beta 0 = Ok (Success, Some (rho, sigma, delta)) ->
  k = OpCentral /\ rho = 0 /\ 0 <= sigma < 1.
Proof.
  intros Hn H. pose proof (INR_ge_2 n Hn) as HN.
  assert (Hsg : 0 <= 2 / (INR n + 1) < 1).
  { split; [apply Rle_mult_inv_pos; lra|]. apply Rmult_lt_reg_r with (INR n + 1); [lra|].
    unfold Rdiv. rewrite Rmult_assoc, Rinv_l; lra. }
  destruct k; cbn [strat_of] in H.
  - exfalso. unfold calc_single_or_parallel in H. destruct beta as [b|l]; [exact (bias_T0 _ _ _ H)|].
    destruct (_ : bool) in H.
    + apply bind_ok in H. destruct H as (? & _ & H). exact (bias_T0 _ _ _ H).
    + destruct l as [|o [|[b|] l]]; try discriminate.
      apply bind_ok in H. destruct H as (a & _ & H). unfold calc_parallel in H.
      destruct (_ : bool) in H; [discriminate|]. destruct (_ : bool) in H; [exact (bias_T0 _ _ _ H)|].
      unfold core_parallel_bias_cut in H. cbn zeta in H.
      destruct (par_fast_T0 (c_helper (calc_R p n)) a b (amul a b) (aadd (azero (a:=RA)) (amul (n_f (c_helper (calc_R p n))) (amul a b)))) as [e E].
      rn_in E. rn_in H. rewrite E in H. discriminate.
  - split; [reflexivity|]. unfold calc_single_or_parallel_central_cut in H.
    rewrite psqrt_ok in H by lra. cbn [bind] in H. rewrite sqrt_0 in H. cbn [c_helper calc_R] in H.
    rewrite central_T0 in H by exact Hn.
    assert (E : @Ok (stratres RA) (Success, Some (0, 2 / (INR n + 1), INR n * INR n / (INR n * INR n - 1)))
      = Ok (Success, Some (rho, sigma, delta)) -> rho = 0 /\ 0 <= sigma < 1).
    { intros E. injection E as <- <- <-. split; [reflexivity|exact Hsg]. }
    destruct beta as [b|l]; [exact (E H)|]. destruct (_ : bool) in H; [exact (E H)|].
    destruct l as [|o [|[b|] l]]; try discriminate.
    rn_in H. destruct (Rltb_spec b 0); [discriminate|].
    destruct (Rleb_spec 0 (b * b)); [exact (E H)|nra].
  - exfalso. unfold calc_single_or_parallel_q in H. destruct beta as [b|l]; [exact (bias_q_T0 _ _ _ _ H)|].
    destruct (_ : bool) in H.
    + apply bind_ok in H. destruct H as (? & _ & H). exact (bias_q_T0 _ _ _ _ H).
    + destruct l as [|o [|[b|] l]]; try discriminate.
      apply bind_ok in H. destruct H as (a & _ & H). unfold calc_parallel_q in H.
      destruct (_ : bool) in H; [discriminate|]. destruct (_ : bool) in H; [exact (bias_q_T0 _ _ _ _ H)|].
      destruct (_ : bool) in H; [discriminate|].
      match type of H with some_triple (core_parallel_bias_cut_fast ?h ?a ?b _ ?ab ?eta) = _ =>
        destruct (par_fast_T0 h a b ab eta) as [e E] end.
      rewrite E in H. discriminate.
Qed.

(** ** A cut that leaves more than one value keeps the ellipsoid full *)
Lemma win_nondeg n p k beta T rho sigma delta t0 t1 : (2 <= n)%nat -> 0 < T ->
  strat_of k (calc_R p n) beta T = Ok (Success, Some (rho, sigma, delta)) ->
  t0 * t0 <= T -> cut_holds k p beta t0 -> t1 * t1 <= T -> cut_holds k p beta t1 -> t0 <> t1 ->
  sigma < 1 /\ 0 < delta.
Proof.
  intros Hn HT Hs Ht0 Hc0 Ht1 Hc1 Hne. pose proof (INR_ge_2 n Hn) as HN.
  destruct (strat_win n p k beta T _ Hn HT Hs) as (e & r' & s' & d' & He & Hr & Hw).
  injection Hr as <- <- <-.
  assert (Ht : 0 < sqrt T) by (apply sqrt_lt_R0, HT).
  assert (Htt : sqrt T * sqrt T = T) by (apply sqrt_sqrt; lra).
  rewrite (norm_holds p k beta e t0 He) in Hc0. rewrite (norm_holds p k beta e t1 He) in Hc1.
  apply (tau_bounds T t0 HT) in Ht0. apply (tau_bounds T t1 HT) in Ht1.
  destruct Hw as [b0 Hcase Hb0 Hb0q Heta -> -> ->|a b -> Hab HbT Hre Hq -> -> ->].
  - assert (Hbl : - sqrt T < b0) by nra.
    assert (b0 < sqrt T).
    { destruct Hcase as [->|(b & -> & Hb & Hb2)]; cbn in Hc0, Hc1; lra. }
    split; [apply sg_sigma_lt; [exact Hn|lra]|apply sg_delta_pos; [exact Hn|exact HT|lra]].
  - cbn in Hc0, Hc1. split.
    + destruct (Rlt_dec (q_eta (INR n) T a b) 0) as [Heta|Heta].
      * apply Rlt_trans with 0; [|lra]. apply sigma_neg; assumption.
      * apply sigma_lt_1; try assumption; lra.
    + apply delta_sign; [exact HN|exact HT|]. assert (b * b <> T); [|nra].
      intros E. assert (b = - sqrt T) by nra. lra.
Qed.

(** Success always comes with a triple. *)
Lemma success_triple k c beta T : strat_of k c beta T <> Ok (Success, None).
Proof.
  assert (S0 : forall r : res (triple RA), some_triple r <> Ok (Success, None)).
  { intros [t|]; cbn; discriminate. }
  assert (S1 : forall b, @calc_bias_cut RA c b T <> Ok (Success, None)).
  { intros b. unfold calc_bias_cut. destruct (_ : bool); [|discriminate]. destruct (_ : bool); [discriminate|].
    intros H. apply bind_ok in H. destruct H as (? & _ & H). exact (S0 _ H). }
  assert (S2 : forall b, @calc_bias_cut_q RA c b T <> Ok (Success, None)).
  { intros b. unfold calc_bias_cut_q. intros H. apply bind_ok in H. destruct H as (? & _ & H).
    destruct (_ : bool) in H; [discriminate|]. destruct (_ : bool) in H; [discriminate|]. exact (S0 _ H). }
  destruct k; cbn [strat_of].
  - unfold calc_single_or_parallel. destruct beta as [b|l]; [apply S1|].
    destruct (_ : bool).
    + intros H. apply bind_ok in H. destruct H as (? & _ & H). exact (S1 _ H).
    + destruct l as [|o [|[b|] l]]; try discriminate.
      intros H. apply bind_ok in H. destruct H as (? & _ & H). unfold calc_parallel in H.
      destruct (_ : bool) in H; [discriminate|]. destruct (_ : bool) in H; [exact (S1 _ H)|exact (S0 _ H)].
  - unfold calc_single_or_parallel_central_cut.
    assert (E : bind (psqrt (A:=RA) T) (fun tau => Ok (Success, Some (core_central_cut (c_helper c) tau)))
                <> Ok (Success, None)).
    { intros H. apply bind_ok in H. destruct H as (y & _ & H). discriminate. }
    destruct beta as [b|l]; [exact E|].
    destruct (_ : bool); [exact E|].
    destruct l as [|o [|[b|] l]]; try discriminate.
    destruct (_ : bool); [discriminate|]. destruct (_ : bool); [exact E|apply S0].
  - unfold calc_single_or_parallel_q. destruct beta as [b|l]; [apply S2|].
    destruct (_ : bool).
    + intros H. apply bind_ok in H. destruct H as (? & _ & H). exact (S2 _ H).
    + destruct l as [|o [|[b|] l]]; try discriminate.
      intros H. apply bind_ok in H. destruct H as (? & _ & H). unfold calc_parallel_q in H.
      destruct (_ : bool) in H; [discriminate|]. destruct (_ : bool) in H; [exact (S2 _ H)|].
      destruct (_ : bool) in H; [discriminate|exact (S0 _ H)].
Qed.
