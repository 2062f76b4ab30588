(** The calculator properties in the form in which they are stated. *)
From Coq Require Import Reals Lra Psatz List Bool.
From Verif Require Import Arith ModelCalc ModelEll SpecDrivers Spec SpecCut PAlg PVol PCalc PCalc2.
Import ListNotations.
Local Open Scope R_scope.

Lemma calc_for_R n p c : calc_for n p c -> (2 <= n)%nat /\ c = calc_R p n.
Proof.
  intros (c0 & H0 & ->). destruct (le_lt_dec 2 n) as [Hn|Hn].
  - rewrite calc_init_R in H0 by exact Hn. injection H0 as <-. split; [exact Hn|reflexivity].
  - rewrite calc_init_small in H0 by exact Hn. discriminate.
Qed.

Lemma calc_for_ok n p : (2 <= n)%nat -> calc_for n p (calc_R p n).
Proof. intros Hn. exists (calc_R true n). split; [apply calc_init_R, Hn|reflexivity]. Qed.

Ltac calc_R_tac H :=
  let Hn := fresh "Hn" in destruct (calc_for_R _ _ _ H) as [Hn ->].

(** ** C14 *)
Lemma single_res_cases q N beta T :
  single_res q N beta T = Err AssertionError \/ exists r, single_res q N beta T = Ok r.
Proof.
  unfold single_res. repeat (match goal with |- context[if ?x then _ else _] => destruct x end);
    eauto.
Qed.

Lemma par_res_cases q N a b T :
  par_res q N a b T = Err AssertionError \/ exists r, par_res q N a b T = Ok r.
Proof.
  unfold par_res. pose proof (single_res_cases q N a T) as H.
  repeat (match goal with |- context[if ?x then _ else _] => destruct x end); eauto.
Qed.

Lemma no_math_error n p c k beta T : calc_for n p c -> 0 < T ->
  strat_of k c beta T <> Err ValueError /\ strat_of k c beta T <> Err ZeroDivision.
Proof.
  intros Hc HT. calc_R_tac Hc. rewrite strat_norm by assumption.
  destruct (norm k p beta) as [x|[b|a b]] eqn:E; cbn [eff_res].
  - unfold norm in E. destruct k, beta as [b|[|[a|] [|[b|] l]]], p; cbn in E;
      inversion E; subst; split; discriminate.
  - destruct (single_res_cases (is_q k) (INR n) b T) as [->|[r ->]]; split; discriminate.
  - destruct (par_res_cases (is_q k) (INR n) a b T) as [->|[r ->]]; split; discriminate.
Qed.

Lemma bias_total n p c beta T : calc_for n p c -> 0 < T ->
  (0 <= beta -> exists st r, calc_bias_cut c beta T = Ok (st, r)) /\
  (beta < 0 -> calc_bias_cut c beta T = Err AssertionError).
Proof.
  intros Hc HT. calc_R_tac Hc. rewrite bias_norm by assumption. unfold single_res. split; intros Hb.
  - rewrite Rleb_true by exact Hb. destruct (Rltb _ _); eauto.
  - rewrite Rleb_false by exact Hb. reflexivity.
Qed.

Lemma tau_le_sq T b : 0 < T -> 0 <= b -> (T <= b * b <-> sqrt T <= b).
Proof.
  intros HT Hb. assert (Ht : 0 < sqrt T) by (apply sqrt_lt_R0, HT).
  assert (Htt : sqrt T * sqrt T = T) by (apply sqrt_sqrt; lra). split; intros; nra.
Qed.

Lemma fallback_iff T b : 0 < T -> (Rltb 0 b && Rleb T (b * b) = true <-> sqrt T <= b).
Proof.
  intros HT. assert (Ht : 0 < sqrt T) by (apply sqrt_lt_R0, HT).
  destruct (Rltb_spec 0 b) as [Hb|Hb]; cbn [andb].
  - destruct (Rleb_spec T (b * b)) as [H|H].
    + split; [intros _; apply tau_le_sq; [exact HT|lra|exact H]|reflexivity].
    + split; [discriminate|]. intros H2. exfalso. apply H. apply tau_le_sq; lra.
  - split; [discriminate|lra].
Qed.

Lemma parallel_total n p c a b T : calc_for n p c -> 0 < T ->
  (a < 0 /\ sqrt T <= b /\ calc_parallel c a b T = Err AssertionError) \/
  ((0 <= a \/ b < sqrt T) /\ exists st r, calc_parallel c a b T = Ok (st, r)).
Proof.
  intros Hc HT. calc_R_tac Hc. rewrite par_norm by assumption. unfold par_res.
  assert (Ht : 0 < sqrt T) by (apply sqrt_lt_R0, HT).
  destruct (Rltb_spec b a) as [H|H].
  { right. split; [lra|eauto]. }
  destruct (Rltb 0 b && Rleb T (b * b)) eqn:E.
  - apply fallback_iff in E; [|exact HT]. unfold single_res.
    destruct (Rleb_spec 0 a) as [Ha|Ha].
    + right. split; [left; exact Ha|]. destruct (Rltb _ _); eauto.
    + left. repeat split; [lra|exact E].
  - right. split; [|cbn; eauto]. right. destruct (Rle_dec (sqrt T) b) as [H1|H1]; [|lra].
    apply fallback_iff in H1; [|exact HT]. congruence.
Qed.

Lemma q_total n p c a b T : calc_for n p c -> 0 < T ->
  (exists st r, calc_bias_cut_q c a T = Ok (st, r)) /\
  (exists st r, calc_parallel_q c a b T = Ok (st, r)).
Proof.
  intros Hc HT. calc_R_tac Hc. rewrite q_norm, parq_norm by assumption.
  assert (H1 : exists st r, single_res true (INR n) a T = Ok (st, r)).
  { unfold single_res. repeat (match goal with |- context[if ?x then _ else _] => destruct x end); eauto. }
  split; [exact H1|]. unfold par_res.
  repeat (match goal with |- context[if ?x then _ else _] => destruct x end); eauto.
Qed.

Lemma central_total n p c a b T : calc_for n p c -> 0 < T ->
  (exists st r, calc_single_or_parallel_central_cut c (CSingle a) T = Ok (st, r)) /\
  (exists st r, calc_single_or_parallel_central_cut c (CList [Some a; Some b]) T = Ok (st, r)).
Proof.
  intros Hc HT. calc_R_tac Hc.
  pose proof (strat_norm p n T Hn HT OpCentral (CSingle a)) as E1.
  pose proof (strat_norm p n T Hn HT OpCentral (CList [Some a; Some b])) as E2.
  cbn [strat_of] in E1, E2. rewrite E1, E2. clear E1 E2.
  assert (H1 : exists st r, single_res false (INR n) 0 T = Ok (st, r)).
  { unfold single_res. rewrite Rleb_true by lra. destruct (Rltb _ _); eauto. }
  split; [exact H1|]. destruct p; cbn; [|exact H1]. unfold par_res.
  repeat (match goal with |- context[if ?x then _ else _] => destruct x end); eauto.
Qed.

(** ** Success in normal form *)
Inductive win_case (N T : R) (k : op_kind) (e : eff) (rho sigma delta : R) : Prop :=
| WinSingle : forall beta,
    (e = ESingle beta \/ exists b, e = EPar beta b /\ beta <= b /\ sqrt T <= b) ->
    beta <= sqrt T -> (k <> OpQ -> 0 <= beta) -> 0 < sqrt T + N * beta ->
    rho = sg_rho N (sqrt T) beta -> sigma = sg_sigma N (sqrt T) beta ->
    delta = sg_delta N (sqrt T) beta -> win_case N T k e rho sigma delta
| WinPar : forall a b,
    e = EPar a b -> a <= b -> b < sqrt T -> reach T b ->
    (k = OpQ -> 0 < q_eta N T a b) ->
    rho = q_rho N T a b -> sigma = q_sigma N T a b -> delta = q_delta N T a b ->
    win_case N T k e rho sigma delta.

Lemma single_win N T k beta e r : 0 < T -> 2 <= N ->
  (e = ESingle beta \/ exists b, e = EPar beta b /\ beta <= b /\ sqrt T <= b) ->
  single_res (is_q k) N beta T = Ok (Success, r) ->
  exists rho sigma delta, r = Some (rho, sigma, delta) /\ win_case N T k e rho sigma delta.
Proof.
  intros HT HN He. assert (Ht : 0 < sqrt T) by (apply sqrt_lt_R0, HT). unfold single_res.
  destruct (is_q k) eqn:Ek.
  - destruct (Rltb_spec (sqrt T) beta) as [H|H]; [discriminate|].
    destruct (Rleb_spec (sqrt T + N * beta) 0) as [H2|H2]; [discriminate|].
    intros E; injection E as <-. do 3 eexists; split; [reflexivity|].
    apply (WinSingle N T k e _ _ _ beta); auto; try lra. destruct k; try discriminate. congruence.
  - destruct (Rleb_spec 0 beta) as [H0|H0]; [|discriminate].
    destruct (Rltb_spec (sqrt T) beta) as [H|H]; [discriminate|].
    intros E; injection E as <-. do 3 eexists; split; [reflexivity|].
    apply (WinSingle N T k e _ _ _ beta); auto; try lra. nra.
Qed.

Lemma strat_win n p k beta T r : (2 <= n)%nat -> 0 < T ->
  strat_of k (calc_R p n) beta T = Ok (Success, r) ->
  exists e rho sigma delta, norm k p beta = inr e /\
    r = Some (rho, sigma, delta) /\ win_case (INR n) T k e rho sigma delta.
Proof.
  intros Hn HT. rewrite strat_norm by assumption. pose proof (INR_ge_2 n Hn) as HN.
  destruct (norm k p beta) as [x|[b|a b]]; cbn [eff_res]; [discriminate| |].
  - intros E. destruct (single_win (INR n) T k b (ESingle b) r HT HN (or_introl eq_refl) E)
      as (rho & sg & dl & H1 & H2). eauto 8.
  - unfold par_res. destruct (Rltb_spec b a) as [H|H]; [discriminate|].
    destruct (Rltb 0 b && Rleb T (b * b)) eqn:E.
    + pose proof E as E'. apply fallback_iff in E'; [|exact HT]. intros E2.
      assert (He : EPar a b = ESingle a \/ exists b0, EPar a b = EPar a b0 /\ a <= b0 /\ sqrt T <= b0).
      { right. exists b. repeat split; [lra|exact E']. }
      destruct (single_win (INR n) T k a (EPar a b) r HT HN He E2)
        as (rho & sg & dl & H1 & H2). eauto 8.
    + destruct (is_q k && Rleb (q_eta (INR n) T a b) 0) eqn:E3; [discriminate|].
      intros E2. injection E2 as <-. do 4 eexists. split; [reflexivity|]. split; [reflexivity|].
      apply (WinPar (INR n) T k (EPar a b) _ _ _ a b); auto; try lra.
      * destruct (Rle_dec (sqrt T) b) as [H1|H1]; [|lra].
        apply fallback_iff in H1; [|exact HT]. congruence.
      * apply (reach_of T a); [lra|exact E].
      * intros ->. cbn in E3. destruct (Rleb_spec (q_eta (INR n) T a b) 0); [discriminate|lra].
Qed.

(** the condition under which a two-sided bias cut is sound *)
Lemma norm_cond n k p beta T a b : 0 < T -> bias_cond n k p beta T ->
  norm k p beta = inr (EPar a b) -> a <= b ->
  (k = OpQ -> 0 < q_eta (INR n) T a b) -> 0 <= q_eta (INR n) T a b.
Proof.
  intros HT Hc Hn Hab Hq. unfold q_eta in *. destruct k.
  - specialize (Hc eq_refl).
    unfold norm in Hn. destruct beta as [b'|[|[a'|] [|[b'|] l]]], p; cbn in Hn; inversion Hn; subst.
    apply Hc; [reflexivity|reflexivity|exact Hab].
  - unfold norm in Hn. destruct beta as [b'|[|[a'|] [|[b'|] l]]], p; cbn in Hn; inversion Hn; subst;
      rewrite Rmult_0_l, Rmult_0_r; lra.
  - apply Rlt_le, Hq. reflexivity.
Qed.

Lemma tau_bounds T t : 0 < T -> (t * t <= T <-> - sqrt T <= t <= sqrt T).
Proof.
  intros HT. assert (Ht : 0 < sqrt T) by (apply sqrt_lt_R0, HT).
  assert (Htt : sqrt T * sqrt T = T) by (apply sqrt_sqrt; lra). split; intros; [split|]; nra.
Qed.

(** ** Soundness of every accepted cut *)
Lemma win_sound n p k beta T rho sigma delta : (2 <= n)%nat -> 0 < T ->
  bias_cond n k p beta T ->
  strat_of k (calc_R p n) beta T = Ok (Success, Some (rho, sigma, delta)) ->
  exists a b, sound T a b rho sigma delta /\
    (forall t, t * t <= T -> cut_holds k p beta t -> - b <= t <= - a).
Proof.
  intros Hn HT Hcond Hs. pose proof (INR_ge_2 n Hn) as HN.
  destruct (strat_win n p k beta T _ Hn HT Hs) as (e & r' & s' & d' & He & Hr & Hw).
  injection Hr as <- <- <-.
  assert (Ht : 0 < sqrt T) by (apply sqrt_lt_R0, HT).
  destruct Hw as [b0 Hcase Hb0 Hb0q Heta -> -> ->|a b -> Hab HbT Hre Hq -> -> ->].
  - exists b0, (sqrt T). split.
    + apply sg_sound; [exact Hn|exact HT|split; [nra|exact Hb0]|lra].
    + intros t Htt Hh. apply (norm_holds p k beta e t He) in Hh.
      apply (tau_bounds T t HT) in Htt.
      destruct Hcase as [->|(b & -> & Hb & Hb2)]; cbn in Hh; lra.
  - exists a, b. split.
    + apply par_sound; try assumption. eapply norm_cond; eassumption.
    + intros t Htt Hh. apply (norm_holds p k beta _ t He) in Hh. exact Hh.
Qed.

(** parameters when the cut meets the ellipsoid *)
Lemma win_ranges n p k beta T rho sigma delta t0 : (2 <= n)%nat -> 0 < T ->
  bias_cond n k p beta T ->
  t0 * t0 <= T -> cut_holds k p beta t0 ->
  strat_of k (calc_R p n) beta T = Ok (Success, Some (rho, sigma, delta)) ->
  0 <= sigma <= 1 /\ 0 <= delta /\ cut_holds k p beta (- rho) /\
  (forall t1, t1 * t1 <= T -> cut_holds k p beta t1 -> t0 <> t1 -> sigma < 1 /\ 0 < delta).
Proof.
  intros Hn HT Hcond Ht0 Hc0 Hs. pose proof (INR_ge_2 n Hn) as HN.
  destruct (strat_win n p k beta T _ Hn HT Hs) as (e & r' & s' & d' & He & Hr & Hw).
  injection Hr as <- <- <-.
  assert (Ht : 0 < sqrt T) by (apply sqrt_lt_R0, HT).
  assert (Htt : sqrt T * sqrt T = T) by (apply sqrt_sqrt; lra).
  rewrite (norm_holds p k beta e t0 He) in Hc0.
  apply (tau_bounds T t0 HT) in Ht0.
  destruct Hw as [b0 Hcase Hb0 Hb0q Heta -> -> ->|a b -> Hab HbT Hre Hq -> -> ->].
  - assert (Hbl : - sqrt T < b0) by nra.
    assert (Hs1 : sg_sigma (INR n) (sqrt T) b0 <= 1).
    { destruct Hb0 as [H|H]; [apply Rlt_le, sg_sigma_lt; [exact Hn|lra]|].
      rewrite H. rewrite sg_sigma_tau by assumption. lra. }
    split; [split; [apply sg_sigma_ge; [exact Hn|lra|lra]|exact Hs1]|].
    split.
    { destruct Hb0 as [H|H]; [apply Rlt_le, sg_delta_pos; [exact Hn|exact HT|lra]|].
      rewrite H. rewrite sg_delta_tau by assumption. lra. }
    split.
    { apply (norm_holds p k beta e _ He).
      assert (Hlo : b0 <= sg_rho (INR n) (sqrt T) b0).
      { unfold sg_rho. apply (Rmult_le_reg_r (INR n + 1)); [lra|].
        unfold Rdiv. rewrite Rmult_assoc, Rinv_l by lra. lra. }
      assert (Hhi : sg_rho (INR n) (sqrt T) b0 <= sqrt T).
      { unfold sg_rho. apply (Rmult_le_reg_r (INR n + 1)); [lra|].
        unfold Rdiv. rewrite Rmult_assoc, Rinv_l by lra. nra. }
      destruct Hcase as [->|(b & -> & Hb & Hb2)]; cbn; lra. }
    intros t1 Ht1 Hc1 Hne. apply (norm_holds p k beta e t1 He) in Hc1.
    apply (tau_bounds T t1 HT) in Ht1.
    assert (b0 < sqrt T).
    { destruct Hcase as [->|(b & -> & Hb & Hb2)]; cbn in Hc0, Hc1; lra. }
    split; [apply sg_sigma_lt; [exact Hn|lra]|apply sg_delta_pos; [exact Hn|exact HT|lra]].
  - cbn in Hc0.
    assert (Heta : 0 <= q_eta (INR n) T a b) by (eapply norm_cond; eassumption).
    split; [split; [apply sigma_nonneg; assumption|apply sigma_le_1; assumption]|].
    assert (Hbb : b * b <= T) by nra.
    split.
    { destruct (Req_dec (b * b) T) as [E|E].
      - rewrite delta_touch; [lra|exact HN|exact HT|auto|].
        assert (b = - sqrt T) by nra. nra.
      - apply Rlt_le, delta_sign; [exact HN|exact HT|lra]. }
    split.
    { apply (norm_holds p k beta _ _ He). cbn.
      assert (a <= q_rho (INR n) T a b <= b); [|lra].
      apply (rho_in_slab _ _ _ _ HN HT Hab Hre t0 Heta); [nra|exact Hc0]. }
    intros t1 Ht1 Hc1 Hne. apply (norm_holds p k beta _ t1 He) in Hc1. cbn in Hc1.
    apply (tau_bounds T t1 HT) in Ht1.
    split.
    + apply sigma_lt_1; try assumption. lra.
    + apply delta_sign; [exact HN|exact HT|]. assert (b * b <> T); [|lra].
      intros E. assert (b = - sqrt T) by nra. lra.
Qed.

Lemma win_sigma_pos n p k beta T rho sigma delta : (2 <= n)%nat -> 0 < T ->
  (k <> OpCentral -> k <> OpQ -> forall b0, first_beta beta = Some b0 -> 0 <= b0) ->
  strat_of k (calc_R p n) beta T = Ok (Success, Some (rho, sigma, delta)) ->
  0 < sigma.
Proof.
  intros Hn HT Hpos Hs. pose proof (INR_ge_2 n Hn) as HN.
  destruct (strat_win n p k beta T _ Hn HT Hs) as (e & r' & s' & d' & He & Hr & Hw).
  injection Hr as <- <- <-.
  assert (Ht : 0 < sqrt T) by (apply sqrt_lt_R0, HT).
  destruct Hw as [b0 Hcase Hb0 Hb0q Heta -> -> ->|a b -> Hab HbT Hre Hq -> -> ->].
  - apply sg_sigma_pos; [exact Hn|nra|exact Heta].
  - apply sigma_pos; try assumption.
    destruct k; [| |apply Hq; reflexivity]; unfold q_eta;
    unfold norm in He; destruct beta as [b'|[|[a'|] [|[b'|] l]]], p; cbn in He; inversion He; subst.
    + assert (0 <= a) by (apply Hpos; [discriminate|discriminate|reflexivity]).
      assert (0 <= INR n * (a * b)) by (apply Rmult_le_pos; nra). lra.
    + rewrite Rmult_0_l, Rmult_0_r; lra.
    + rewrite Rmult_0_l, Rmult_0_r; lra.
Qed.


Lemma norm_deep k p beta e : deep k beta -> norm k p beta = inr e ->
  match e with ESingle b => 0 <= b | EPar a _ => 0 <= a end.
Proof.
  unfold deep, norm. intros Hd He.
  destruct k, beta as [b'|[|[a'|] [|[b'|] l]]], p; cbn in He; inversion He; subst; try lra;
    destruct Hd as [Hd|(b0 & E & H)]; try discriminate; cbn in E; injection E as ->; exact H.
Qed.


Definition vol_ok (N sigma delta : R) : Prop :=
  sigma = 1 \/ (sigma < 1 /\ 0 < delta /\ N * ln delta + ln (1 - sigma) <= - / (N + 1)).

Lemma win_deep n p k beta T rho sigma delta : (2 <= n)%nat -> 0 < T ->
  deep k beta ->
  strat_of k (calc_R p n) beta T = Ok (Success, Some (rho, sigma, delta)) ->
  0 < sigma <= 1 /\ 0 <= delta /\ 0 <= rho <= sqrt T /\ vol_ok (INR n) sigma delta.
Proof.
  intros Hn HT Hd Hs. pose proof (INR_ge_2 n Hn) as HN.
  destruct (strat_win n p k beta T _ Hn HT Hs) as (e & r' & s' & d' & He & Hr & Hw).
  injection Hr as <- <- <-.
  pose proof (norm_deep k p beta e Hd He) as Hde.
  assert (Ht : 0 < sqrt T) by (apply sqrt_lt_R0, HT).
  assert (Htt : sqrt T * sqrt T = T) by (apply sqrt_sqrt; lra).
  destruct Hw as [b0 Hcase Hb0 Hb0q Heta -> -> ->|a b -> Hab HbT Hre Hq -> -> ->].
  - assert (H0 : 0 <= b0) by (destruct Hcase as [->|(b & -> & Hb & Hb2)]; exact Hde).
    pose proof (sg_sound n T Hn HT b0 ltac:(lra) ltac:(lra)) as Hso.
    split; [|split; [|split]].
    + split; [apply sg_sigma_pos; [exact Hn|lra|exact Heta]|].
      destruct Hso as [Hso|Hso]; lra.
    + destruct Hb0 as [H|H]; [apply Rlt_le, sg_delta_pos; [exact Hn|exact HT|lra]|].
      rewrite H. rewrite sg_delta_tau by assumption. lra.
    + unfold sg_rho. split.
      * unfold Rdiv. apply Rmult_le_pos; [lra|]. apply Rlt_le, Rinv_0_lt_compat. lra.
      * apply (Rmult_le_reg_r (INR n + 1)); [lra|].
        unfold Rdiv. rewrite Rmult_assoc, Rinv_l by lra. nra.
    + destruct Hb0 as [Hlt|Heq]; [right|left; rewrite Heq; apply sg_sigma_tau; assumption].
      split; [apply sg_sigma_lt; [exact Hn|lra]|].
      split; [apply sg_delta_pos; [exact Hn|exact HT|lra]|].
      apply (vol_log (INR n) T b0 (sqrt T)); try assumption; try lra; try nra.
      * split; [apply sg_sigma_ge; [exact Hn|lra|lra]|apply sg_sigma_lt; [exact Hn|lra]].
      * assert (ET : forall tau, 0 < tau -> 0 <= b0 ->
          (INR n + 1) * ((b0 + tau) * (b0 + tau) / 4) * (sg_sigma (INR n) tau b0 * sg_sigma (INR n) tau b0)
          - (tau * tau + b0 * tau + 2 * INR n * ((b0 + tau) * (b0 + tau) / 4)) * sg_sigma (INR n) tau b0
          + (tau * tau + INR n * (b0 * tau)) = 0).
        { intros tau Hta Hb. unfold sg_sigma. field. split; lra. }
        specialize (ET (sqrt T) Ht H0). rewrite Htt in ET. exact ET.
      * destruct Hso as [(_ & _ & E)|(E & _)]; [exact E|].
        pose proof (sg_sigma_lt n T Hn b0 ltac:(lra)). lra.
  - cbn in Hde.
    assert (Heta : 0 < q_eta (INR n) T a b).
    { unfold q_eta. assert (0 <= INR n * (a * b)) by (apply Rmult_le_pos; nra). lra. }
    assert (Hbb : b * b < T) by nra.
    pose proof (par_sound n T Hn HT a b Hab Hre ltac:(lra)) as Hso.
    pose proof (sigma_pos _ _ _ _ HN HT Hab Hre Heta) as Hsp.
    pose proof (sigma_le_1 _ _ _ _ HN HT Hab Hre ltac:(lra)) as Hs1.
    assert (Hdp : 0 < q_delta (INR n) T a b) by (apply delta_sign; [exact HN|exact HT|lra]).
    split; [lra|]. split; [lra|]. split.
    + unfold q_rho. nra.
    + destruct Hab as [Hlt|Heq].
      2: { left. subst b. apply sigma_flat; try assumption; try reflexivity; lra. }
      right. assert (Hs2 : q_sigma (INR n) T a b < 1) by (apply sigma_lt_1; try assumption; lra).
      split; [exact Hs2|]. split; [exact Hdp|].
      apply (vol_log (INR n) T a b); try assumption; try lra; try nra.
      * pose proof (sigma_quadratic (INR n) T a b HN HT ltac:(lra) Hre) as Hqd.
        unfold q_A, q_s, q_eta in Hqd. lra.
      * apply delta_identity; try assumption. lra.
Qed.
