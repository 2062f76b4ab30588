(** Convergence: one step of both spaces while a ball survives. *)
From Coq Require Import Reals List Arith Lia Lra Psatz Bool ZArith.
From Verif Require Import Arith Vec ModelCalc ModelEll ModelStable ModelCut ModelSpaces SpecDrivers Spec SpecCut SpecEll SpecStable SpecSearch SpecConverge
  PSum PAlg PCalc PCalc2 PCalc3 PCalc5 PCalcEx PVec PGeo PEll PEll2 PEll3 PStable2 PStable4 PStable5 PSearch.
Import ListNotations.
Local Open Scope R_scope.

(** ** Balls *)
Lemma ball_centre n c r : 0 <= r -> ball n c r c.
Proof. intros Hr. unfold ball. rewrite (dot_ext n _ _ (fun _ => 0) (fun _ => 0)); [|intros; ring|intros; ring]. unfold dot. rewrite sumn_0; [nra|intros; ring]. Qed.

Lemma ball_push n c r u t : dot n u u * (t * t) <= r * r -> ball n c r (fun i => c i + t * u i).
Proof.
  intros H. unfold ball. rewrite (dot_ext n _ _ (fun i => t * u i) (fun i => t * u i)); [|intros; ring|intros; ring].
  rewrite dot_scal_l, dot_scal_r. lra.
Qed.

Lemma cutval_push n g x c u t : cutval n g x (fun i => c i + t * u i) = cutval n g x c + t * dot n g u.
Proof.
  unfold cutval. rewrite (dot_ext n g _ g (fun i => (c i - x i) + t * u i)); [|reflexivity|intros; ring].
  rewrite dot_plus_r, dot_scal_r. reflexivity.
Qed.

(** two opposite points of the ball, in the direction of [g] *)
Lemma ball_pair n g c r : 0 < r -> 0 < dot n g g ->
  exists t, t * t * dot n g g = r * r /\ 0 < t /\
    ball n c r (fun i => c i + t * g i) /\ ball n c r (fun i => c i + - t * g i).
Proof.
  intros Hr Hg. exists (r / sqrt (dot n g g)). pose proof (sqrt_lt_R0 _ Hg) as Hs. pose proof (sqrt_sqrt _ (Rlt_le _ _ Hg)) as Hss.
  set (q := sqrt (dot n g g)) in *. assert (E : r / q * (r / q) * dot n g g = r * r) by (rewrite <- Hss; field; lra).
  split; [exact E|]. split; [apply Rdiv_lt_0_compat; assumption|]. split; apply ball_push; nra.
Qed.

(** ** The invariant *)
Definition pot (n : nat) (s : stable RA) : R := s_kappa s ^ n * prodn n (fun j => fm (s_mq s) j j).

Definition conv_inv (n : nat) (p : bool) (c : nat -> R) (r : R) (e : ell RA) (s : stable RA) (V : R) : Prop :=
  pd_ell n p e /\ stable_ok n p s /\ agree n e s /\ no_defer_trick e = false /\ s_no_defer_trick s = false /\
  (forall z, ball n c r z -> ell_in n e z) /\ pot n s <= V.

Lemma prodn_scal n k f : prodn n (fun j => k * f j) = k ^ n * prodn n f.
Proof. induction n as [|n IH]; cbn [prodn pow]; [ring|]. rewrite IH. ring. Qed.
Lemma prodn_le n f g : (forall j, (j < n)%nat -> 0 <= f j <= g j) -> 0 <= prodn n f <= prodn n g.
Proof.
  induction n as [|n IH]; intros H; cbn [prodn]; [lra|]. destruct IH as (A & B); [intros; apply H; lia|]. destruct (H n ltac:(lia)) as (C & D).
  split; [nra|]. apply Rmult_le_compat; assumption.
Qed.
Lemma prodn_const n k : prodn n (fun _ => k) = k ^ n.
Proof. induction n as [|n IH]; cbn [prodn pow]; [reflexivity|]. rewrite IH. ring. Qed.
Lemma prodn_pos n f : (forall j, (j < n)%nat -> 0 < f j) -> 0 < prodn n f.
Proof. induction n as [|n IH]; intros H; cbn [prodn]; [lra|]. apply Rmult_lt_0_compat; [apply IH; intros; apply H; lia|apply H; lia]. Qed.

Lemma tL_push n M c u t j : tL n M (fun i => c i + t * u i) j = tL n M c j + t * tL n M u j.
Proof.
  unfold tL. rewrite (sumn_ext n _ (fun i => lowf M i j * c i + t * (lowf M i j * u i))) by (intros; ring).
  rewrite sumn_plus, sumn_scal. reflexivity.
Qed.
Lemma tL_unit n M j : (j < n)%nat -> tL n M (fun i => if Nat.eqb i j then 1 else 0) j = 1.
Proof.
  intros Hj. unfold tL. rewrite (sumn_ext n _ (fun i => (if Nat.eqb i j then 1 else 0) * lowf M i j)) by (intros; ring).
  rewrite (sumn_delta_l n j (fun i => lowf M i j) Hj). unfold lowf. rewrite Nat.ltb_irrefl, Nat.eqb_refl. reflexivity.
Qed.

Lemma pot_lower n p c r e s V : 0 <= r -> conv_inv n p c r e s V -> (r * r) ^ n <= V.
Proof.
  intros Hr (He & Hs & Ha & _ & _ & Hb & HV). eapply Rle_trans; [|exact HV]. unfold pot. rewrite <- prodn_scal, <- prodn_const.
  apply prodn_le. intros j Hj. split; [nra|].
  destruct Hs as (_ & _ & _ & _ & Hd). specialize (Hd j Hj) as Hdj. set (d := fm (s_mq s) j j) in *.
  set (u := fun i => if Nat.eqb i j then 1 else 0).
  assert (Hu : dot n u u = 1).
  { unfold dot, u. rewrite (sumn_ext n _ (fun i => (if Nat.eqb i j then 1 else 0) * 1)); [apply (sumn_delta_l n j (fun _ => 1) Hj)|]. intros i _. destruct (Nat.eqb i j); ring. }
  assert (K : forall t, t * t <= r * r -> let y := tL n (fm (s_mq s)) (fun i => c i - fv (s_xc s) i) j + t in y * y <= s_kappa s * d).
  { intros t Ht. cbn zeta. pose proof (ball_push n c r u t ltac:(rewrite Hu; lra)) as B. apply Hb in B.
    apply (same_set n e s) in B; [|apply He|exact Ha]. unfold stable_in in B.
    rewrite <- (Rmult_1_r t), <- (tL_unit n (fm (s_mq s)) j Hj). fold u. rewrite <- tL_push.
    set (y := fun k => tL n (fm (s_mq s)) (fun i => c i + t * u i - fv (s_xc s) i) k) in *.
    assert (E : tL n (fm (s_mq s)) (fun i => c i - fv (s_xc s) i + t * u i) j = y j) by (unfold y, tL; apply sumn_ext; intros; ring).
    rewrite E. assert (Q : y j * y j / d <= s_kappa s).
    { eapply Rle_trans; [|exact B]. apply (proj2 (sumn_term_le n (fun k => y k * y k / fm (s_mq s) k k) ltac:(cbv beta; intros k Hk; apply Rle_mult_inv_pos; [nra|apply Hd, Hk])) j Hj). }
    apply Rmult_le_compat_r with (r := d) in Q; [|lra]. replace (y j * y j / d * d) with (y j * y j) in Q by (field; lra). exact Q. }
  pose proof (K r ltac:(lra)) as K1. pose proof (K (- r) ltac:(lra)) as K2. cbn zeta in K1, K2.
  set (y := tL n (fm (s_mq s)) (fun i => c i - fv (s_xc s) i) j) in *. change (num RA) with R in *.
  destruct (Rle_dec 0 y); nra.
Qed.

(** ** The outcome of a deep, usable cut *)
Lemma usable_outcome n p k be T : (2 <= n)%nat -> 0 < T -> usable p be -> deep k be ->
  (exists x, strat_of k (calc_R p n) be T = Ok (NoSoln, x)) \/
  (exists rho sigma delta, strat_of k (calc_R p n) be T = Ok (Success, Some (rho, sigma, delta))).
Proof.
  intros Hn HT Hu Hd. rewrite strat_norm by assumption.
  assert (Hs : 0 < sqrt T) by (apply sqrt_lt_R0; exact HT). assert (HN : 2 <= INR n) by (apply INR_ge_2; exact Hn).
  assert (S1 : forall q b, 0 <= b -> (exists x, single_res q (INR n) b T = Ok (NoSoln, x)) \/
    (exists rho sigma delta, single_res q (INR n) b T = Ok (Success, Some (rho, sigma, delta)))).
  { intros q b Hb. unfold single_res. rewrite (Rleb_true 0 b) by exact Hb. rewrite (Rleb_false (sqrt T + INR n * b) 0) by nra.
    destruct q, (Rltb (sqrt T) b); eauto. }
  assert (P1 : forall q a b, 0 <= a -> (exists x, par_res q (INR n) a b T = Ok (NoSoln, x)) \/
    (exists rho sigma delta, par_res q (INR n) a b T = Ok (Success, Some (rho, sigma, delta)))).
  { intros q a b Ha. unfold par_res. destruct (Rltb_spec b a); [eauto|]. destruct (Rltb 0 b && Rleb T (b * b)); [apply S1, Ha|].
    assert (0 <= a * b) by nra. rewrite (Rleb_false (q_eta (INR n) T a b) 0) by (unfold q_eta; nra). rewrite andb_false_r. eauto. }
  assert (D : k <> OpCentral -> exists b0, first_beta be = Some b0 /\ 0 <= b0) by (intros Hk; destruct Hd as [Hd|Hd]; [contradiction|exact Hd]).
  destruct be as [b|[|[b|] l]]; cbn [usable] in Hu; try contradiction.
  - destruct k; cbn [norm is_q eff_res]; try (apply S1; lra); destruct (D ltac:(discriminate)) as (b0 & E & Hb); injection E as ->; apply S1, Hb.
  - destruct l as [|[b1|] l].
    + destruct k; cbn [norm is_q eff_res length Nat.ltb Nat.leb orb]; try (apply S1; lra); destruct (D ltac:(discriminate)) as (b0 & E & Hb); injection E as ->; apply S1, Hb.
    + destruct k, p; cbn [norm is_q eff_res length Nat.ltb Nat.leb orb negb]; try (apply S1; lra); try (apply P1; lra);
        destruct (D ltac:(discriminate)) as (b0 & E & Hb); injection E as ->; (apply S1, Hb || apply P1, Hb).
    + subst p. destruct k; cbn [norm is_q eff_res length Nat.ltb Nat.leb orb negb]; try (apply S1; lra); destruct (D ltac:(discriminate)) as (b0 & E & Hb); injection E as ->; apply S1, Hb.
Qed.

(** ** One step *)
Lemma conv_step0 n p c r e s V k (ct : cut RA) : 0 < r -> conv_inv n p c r e s V ->
  deep k (snd ct) -> vec_wf n (fst ct) -> nonzero n (fv (fst ct)) -> usable p (snd ct) -> cut_keeps n p (ball n c r) k ct (xc e) ->
  exists e1 s1, ell_update k ct e = (e1, Ok Success) /\ stable_update k ct s = (s1, Ok Success) /\
    conv_inv n p c r e1 s1 (V * exp (- / (INR n + 1))) /\ tsq e1 = s_tsq s1 /\
    r * r * dot n (fv (fst ct)) (fv (fst ct)) <= tsq e1 /\
    (forall z, ball n c r z -> cutval n (fv (fst ct)) (fv (xc e)) z * cutval n (fv (fst ct)) (fv (xc e)) z <= tsq e1).
Proof.
  intros Hr (He & Hs & Ha & F1 & F2 & Hb & HV) Hd Hg Hz Hu (_ & Hk). destruct ct as [g be]. cbn [fst snd] in *.
  assert (Hgg : 0 < dot n (fv g) (fv g)) by (destruct Hz as (i & Hi & Hz); eapply Rlt_le_trans; [|apply (proj2 (sumn_term_le n (fun k => fv g k * fv g k) ltac:(cbv beta; intros; nra)) i Hi)]; cbv beta; nra).
  destruct (ball_pair n (fv g) c r Hr Hgg) as (t & Et & Ht & B1 & B2).
  pose proof (pd_psd _ _ _ He) as Hps.
  pose proof He as (HM & Hxc & Hc & Hsym & Hpd & Hkap). destruct (calc_for_R _ _ _ Hc) as [Hn Hh].
  pose proof (pd_omega n p e (g, be) He Hz) as HT. unfold cut_tsq in HT. cbn [fst] in HT.
  destruct (ell_update k (g, be) e) as [e1 o] eqn:E.
  assert (Ho : exists rho sigma delta, strat_of k (helper e) be (kappa e * quad n (fm (mq e)) (fv g)) = Ok (Success, Some (rho, sigma, delta)) /\ o = Ok Success).
  { rewrite (update_eq n e g be HM Hxc Hg k Hz) in E by (pose proof (Hpd _ Hz); lra). rewrite Hh in *.
    destruct (usable_outcome n p k be _ Hn HT Hu Hd) as [(x & Ex)|(rho & sigma & delta & Ex)]; rewrite Ex in E.
    - exfalso. assert (N : ell_update k (g, be) e = (e1, Ok NoSoln)).
      { rewrite (update_eq n e g be HM Hxc Hg k Hz) by (pose proof (Hpd _ Hz); lra). rewrite Hh, Ex. destruct x as [[[? ?] ?]|]; injection E as <- <-; reflexivity. }
      apply (step_nosoln n p e k (g, be) e1 Hps N c); [apply Hb, ball_centre; lra|]. apply Hk, ball_centre. lra.
    - injection E as <- <-. eauto 6. }
  destruct Ho as (rho & sigma & delta & Es & ->). exists e1.
  pose proof (step_tsq n p e k (g, be) e1 _ He Hg Hz E) as (T1 & _). cbn [fst] in T1.
  pose proof (T1 _ (Hb _ B1)) as T1a. pose proof (T1 _ (Hb _ B2)) as T1b. rewrite !cutval_push in T1a, T1b.
  set (a := cutval n (fv g) (fv (xc e)) c) in *. set (gg := dot n (fv g) (fv g)) in *. change (num RA) with R in *.
  assert (TT : r * r * gg <= tsq e1).
  { rewrite <- Et.
    replace (t * t * gg * gg) with ((t * gg) * (t * gg)) by ring. replace (- t * gg) with (- (t * gg)) in T1b by ring.
    set (q := t * gg) in *. assert (0 < q) by (unfold q; nra). destruct (Rle_dec 0 a); nra. }
  assert (He1 : pd_ell n p e1).
  { apply (step_pd n p e k (g, be) e1 He E). exists (fun i => c i + t * fv g i), (fun i => c i + - t * fv g i).
    split; [apply Hb, B1|]. split; [apply Hk, B1|]. split; [apply Hb, B2|]. split; [apply Hk, B2|].
    cbn [fst]. rewrite !cutval_push. fold a gg. nra. }
  destruct (step_agree n p e s g (pd_npd _ _ _ He) Hs Ha Hg Hz k be e1 _ F1 F2 E) as (s1 & U & S1 & A1 & D1 & D2 & _ & Hst).
  { apply (pd_sigma n p e g be k e1 _ (pd_npd _ _ _ He) Hg Hz E F1). intros _. apply He1. }
  destruct (Hst rho sigma delta Es) as (Hsig & Hka & Hpr).
  exists s1. split; [reflexivity|]. split; [exact U|]. split; [|split; [apply A1|split; [exact TT|intros z Hz1; apply T1, Hb, Hz1]]].
  split; [exact He1|]. split; [exact S1|]. split; [exact A1|]. split; [exact D2|]. split; [exact D1|]. split.
  - intros z Hzb. apply (step_contain n p e k (g, be) e1 z Hps E); [apply deep_bias; [unfold cut_tsq; cbn [fst]; lra|auto]|apply Hb, Hzb|apply Hk, Hzb].
  - unfold pot. rewrite Hka, Hpr, Rpow_mult_distr.
    destruct (volume_factor n p (helper e) k be _ rho sigma delta Hc HT Hd Es) as (VF & _).
    assert (P : 0 < pot n s).
    { unfold pot. apply Rmult_lt_0_compat; [apply pow_lt; rewrite <- (proj1 (proj2 Ha)); exact Hkap|apply prodn_pos; intros j Hj; apply Hs, Hj]. }
    unfold pot in P, HV. set (K := s_kappa s ^ n) in *. set (Q := prodn n (fun j => fm (s_mq s) j j)) in *.
    replace (K * delta ^ n * (Q * (1 - sigma))) with (K * Q * (delta ^ n * (1 - sigma))) by ring.
    pose proof (exp_pos (- / (INR n + 1))) as EP. change (num RA) with R in *.
    apply Rle_trans with (K * Q * exp (- / (INR n + 1))); [apply Rmult_le_compat_l; lra|apply Rmult_le_compat_r; lra].
Qed.

Lemma conv_step n p c r gmin e s V k (ct : cut RA) : 0 < r -> 0 < gmin -> conv_inv n p c r e s V ->
  deep k (snd ct) -> good_cut n p (ball n c r) gmin k ct (xc e) ->
  exists e1 s1, ell_update k ct e = (e1, Ok Success) /\ stable_update k ct s = (s1, Ok Success) /\
    conv_inv n p c r e1 s1 (V * exp (- / (INR n + 1))) /\ r * r * (gmin * gmin) <= tsq e1 /\ tsq e1 = s_tsq s1.
Proof.
  intros Hr Hgm HI Hd (Hg & Hm & Hu & Hk). set (gg := dot n (fv (fst ct)) (fv (fst ct))) in *.
  assert (Hz : nonzero n (fv (fst ct))).
  { destruct (nz_dec n (fv (fst ct))) as [|N]; [assumption|]. exfalso. assert (Z : gg = 0); [|nra].
    unfold gg, dot. apply sumn_0. intros i Hi. destruct (Req_dec (fv (fst ct) i) 0) as [->|Q]; [ring|]. exfalso. apply N. exists i. auto. }
  destruct (conv_step0 n p c r e s V k ct Hr HI Hd Hg Hz Hu Hk) as (e1 & s1 & H1 & H2 & H3 & H4 & H5 & _). exists e1, s1.
  split; [exact H1|]. split; [exact H2|]. split; [exact H3|]. split; [|exact H4]. eapply Rle_trans; [|exact H5]. apply Rmult_le_compat_l; [nra|exact Hm].
Qed.

Lemma conv_step_margin n p c r eps e s V k (ct : cut RA) : 0 < r -> 0 < eps -> conv_inv n p c r e s V ->
  deep k (snd ct) -> margin_cut n p (ball n c r) eps k ct (xc e) ->
  exists e1 s1, ell_update k ct e = (e1, Ok Success) /\ stable_update k ct s = (s1, Ok Success) /\
    conv_inv n p c r e1 s1 (V * exp (- / (INR n + 1))) /\ eps * eps <= tsq e1 /\ tsq e1 = s_tsq s1.
Proof.
  intros Hr He HI Hd (Hg & Hu & Hk & Hm). pose proof (ball_centre n c r ltac:(lra)) as B. pose proof (Hm c B) as M.
  assert (Hz : nonzero n (fv (fst ct))).
  { destruct (nz_dec n (fv (fst ct))) as [|N]; [assumption|]. exfalso. assert (Z : cutval n (fv (fst ct)) (fv (xc e)) c = 0); [|lra].
    unfold cutval, dot. apply sumn_0. intros i Hi. destruct (Req_dec (fv (fst ct) i) 0) as [->|Q]; [ring|]. exfalso. apply N. exists i. auto. }
  destruct (conv_step0 n p c r e s V k ct Hr HI Hd Hg Hz Hu Hk) as (e1 & s1 & H1 & H2 & H3 & H4 & _ & H5). exists e1, s1.
  split; [exact H1|]. split; [exact H2|]. split; [exact H3|]. split; [|exact H4]. eapply Rle_trans; [|exact (H5 c B)]. nra.
Qed.
