(** Concrete [EllStable] objects; zero gradients; the flag. *)
From Coq Require Import Reals List Arith Lia Lra Psatz Bool ZArith.
From Verif Require Import Arith Vec ModelCalc ModelEll ModelStable ModelCut ModelSpaces SpecDrivers Spec SpecCut SpecEll SpecSearch SpecStable
  PSum PAlg PCalc PCalc2 PCalc3 PCalc5 PCalcEx PVec PGeo PEll PEll2 PEll3 PEllEx PSearch PSearchEx PStable PStable2 PStable3 PStable4 PStable5.
Import ListNotations.
Local Open Scope R_scope.

Definition s4 : stable RA := @mkStable RA false [[1; 0]; [0; 1]] [0; 0] 4 0 2 (calc_R true 2).

Lemma s4_init : stable_init (A:=RA) (@VScalar RA 4) (@cons R 0 [0]) = Ok s4.
Proof. unfold stable_init. cbn [length]. rewrite calc_init_R by auto. reflexivity. Qed.

Lemma s4_agree : stable_ok 2 true s4 /\ agree 2 e4 s4 /\ s_no_defer_trick s4 = false /\ no_defer_trick e4 = false.
Proof.
  destruct (init_agree 2 (@VScalar RA 4) (@cons R 0 [0]) e4 e4_init eq_refl) as (s & Hs & H); [cbn; lra|].
  rewrite s4_init in Hs. injection Hs as <-. exact H.
Qed.

Lemma e4_npd : npd 2 true e4.
Proof. apply pd_npd, e4_pd. Qed.

Lemma s4_update1 : exists s1, stable_update OpBias ct1 s4 = (s1, Ok Success) /\ stable_ok 2 true s1 /\ agree 2 e4' s1.
Proof.
  destruct s4_agree as (H1 & H2 & H3 & H4).
  destruct (step_agree 2 true e4 s4 g1 e4_npd H1 H2 eq_refl g1_nonzero OpBias (@CSingle RA 1) e4' (Ok Success) H4 H3 e4_update1) as (s1 & Hs & Ho & Ha & _).
  - apply (pd_sigma 2 true e4 g1 (@CSingle RA 1) OpBias e4' (Ok Success) e4_npd eq_refl g1_nonzero e4_update1 H4).
    intros _. apply e4'_pd.
  - exists s1. auto.
Qed.

Lemma s4_update3 k : k <> OpCentral -> exists s1, stable_update k ct3 s4 = (s1, Ok NoSoln).
Proof.
  intros Hk. destruct s4_agree as (H1 & H2 & H3 & H4).
  assert (E : ell_update k ct3 e4 = (set_tsq e4 (4 : num RA), Ok NoSoln)).
  { destruct k; [apply e4_update3|congruence|apply e4_update3q]. }
  destruct (step_agree 2 true e4 s4 g1 e4_npd H1 H2 eq_refl g1_nonzero k (@CSingle RA 3) _ (Ok NoSoln) H4 H3 E) as (s1 & Hs & _).
  - apply (pd_sigma 2 true e4 g1 (@CSingle RA 3) k _ (Ok NoSoln) e4_npd eq_refl g1_nonzero E H4). discriminate.
  - exists s1. exact Hs.
Qed.

Lemma s4_in a b : a * a + b * b <= 4 -> stable_in 2 s4 (pt a b).
Proof. intros H. apply (same_set 2 e4 s4); [apply e4_pd|apply s4_agree|apply e4_in, H]. Qed.

Lemma s4_half3_run : exists l u e',
  cutting_plane_feas (logged_feas (half_feas 3)) (logged_space (stable_space RA)) opt5 (tt, []) (s4, [])
    = ((tt, l), (e', u), Ok (None, 0%Z)) /\ said_nosoln u.
Proof.
  unfold cutting_plane_feas. change (budget opt5) with 5%nat. cbn [feas_loop].
  unfold logged_feas at 1. cbn [fst snd]. change (sp_xc (logged_space (stable_space RA)) (s4, [])) with (xc e4).
  rewrite half3_first.
  change (sp_bias (logged_space (stable_space RA)) ct3 (s4, [])) with
    (log_upd OpBias (stable_update OpBias) (@s_tsq RA) ct3 (s4, [])).
  unfold log_upd. cbn [fst snd]. destruct (s4_update3 OpBias) as [s1 ->]; [discriminate|]. cbn [stop_test].
  do 3 eexists. split; [reflexivity|]. eexists. split; [left; reflexivity|reflexivity].
Qed.

Lemma s4_half1_run : exists l u e',
  cutting_plane_feas (logged_feas (half_feas 1)) (logged_space (stable_space RA)) opt5 (tt, []) (s4, [])
    = ((tt, l), (e', u), Ok (None, 0%Z)) /\ stopped_small opt5 u.
Proof.
  unfold cutting_plane_feas. change (budget opt5) with 5%nat. cbn [feas_loop].
  unfold logged_feas at 1. cbn [fst snd]. change (sp_xc (logged_space (stable_space RA)) (s4, [])) with (xc e4).
  rewrite half1_first.
  change (sp_bias (logged_space (stable_space RA)) ct1 (s4, [])) with
    (log_upd OpBias (stable_update OpBias) (@s_tsq RA) ct1 (s4, [])).
  unfold log_upd. cbn [fst snd]. destruct s4_update1 as (s1 & -> & _ & Ha).
  assert (HT : s_tsq s1 = 4).
  { destruct Ha as (_ & _ & <- & _). unfold e4'. rewrite <- e4_w. rewrite (new_tsq 2 e4 g1). rewrite e4_w. cbn. lra. }
  rewrite HT. unfold stop_test. change (sp_tsq (logged_space (stable_space RA)) (s1, [mkEv OpBias ct1 (Ok Success) (4 : num RA)])) with (s_tsq s1).
  rewrite HT. change (altb (4 : num RA) (tolerance opt5)) with (Rltb 4 5). rewrite Rltb_true by lra.
  do 3 eexists. split; [reflexivity|]. exists (mkEv OpBias ct1 (Ok Success) (4 : num RA)), [].
  repeat split. cbn. lra.
Qed.

Lemma s4_min_run : exists l u e',
  cutting_plane_optim (logged_optim min_z0) (logged_space (stable_space RA)) opt5 (tt, []) (s4, []) (-3)
    = ((tt, l), (e', u), Ok (None, -3, 0%Z)) /\ said_nosoln u.
Proof.
  unfold cutting_plane_optim. change (budget opt5) with 5%nat. cbn [optim_loop].
  unfold logged_optim at 1. cbn [fst snd]. change (sp_xc (logged_space (stable_space RA)) (s4, [])) with (xc e4).
  rewrite min_first.
  change (sp_bias (logged_space (stable_space RA)) ct3 (s4, [])) with
    (log_upd OpBias (stable_update OpBias) (@s_tsq RA) ct3 (s4, [])).
  unfold log_upd. cbn [fst snd]. destruct (s4_update3 OpBias) as [s1 ->]; [discriminate|]. cbn [stop_test].
  do 3 eexists. split; [reflexivity|]. eexists. split; [left; reflexivity|reflexivity].
Qed.

Lemma s4_min_q_run : exists l u e',
  cutting_plane_optim_q (logged_q min_z0_q) (logged_space (stable_space RA)) opt5 (tt, []) (s4, []) (-3)
    = ((tt, l), (e', u), Ok (None, -3, 0%Z)) /\ said_nosoln u.
Proof.
  unfold cutting_plane_optim_q. change (budget opt5) with 5%nat. cbn [optim_q_loop].
  unfold logged_q at 1. cbn [fst snd]. change (sp_xc (logged_space (stable_space RA)) (s4, [])) with (xc e4).
  rewrite min_q_first.
  change (sp_q (logged_space (stable_space RA)) ct3 (s4, [])) with
    (log_upd OpQ (stable_update OpQ) (@s_tsq RA) ct3 (s4, [])).
  unfold log_upd. cbn [fst snd]. destruct (s4_update3 OpQ) as [s1 ->]; [discriminate|].
  do 3 eexists. split; [reflexivity|]. eexists. split; [left; reflexivity|reflexivity].
Qed.

(** ** Zero gradient *)
Lemma stable_zero_central n p s (g : vec RA) b : stable_ok n p s -> vec_wf n g -> ~ nonzero n (fv g) ->
  exists s1, stable_update OpCentral (g, CSingle b) s = (s1, Err ZeroDivision) /\ s_xc s1 = s_xc s.
Proof.
  intros Hok Hg Hz. rewrite (st_gen n p s g OpCentral (CSingle b) Hok Hg).
  rewrite (st_om_zero n p s g Hok Hg Hz). rewrite Rmult_0_r.
  cbn [strat_of]. unfold calc_single_or_parallel_central_cut.
  change (@psqrt RA 0) with (@psqrt RA azero). assert (E : @psqrt RA (0:R) = Ok (sqrt 0)) by (apply psqrt_ok; lra).
  change (@psqrt RA azero) with (@psqrt RA (0 : R)). rewrite E. cbn [bind]. unfold core_central_cut.
  rewrite pdiv_zero. eexists. split; reflexivity.
Qed.

Lemma stable_zero_deep n p s (g : vec RA) (b : R) : stable_ok n p s -> vec_wf n g -> ~ nonzero n (fv g) -> 0 < b ->
  exists s1, stable_update OpBias (g, @CSingle RA b) s = (s1, Ok NoSoln) /\ s_xc s1 = s_xc s.
Proof.
  intros Hok Hg Hz Hb. rewrite (st_gen n p s g OpBias (@CSingle RA b) Hok Hg).
  rewrite (st_om_zero n p s g Hok Hg Hz). rewrite Rmult_0_r.
  cbn [strat_of]. unfold calc_single_or_parallel, calc_bias_cut. rn.
  rewrite Rleb_true by lra. rewrite Rltb_true by nra. eexists. split; reflexivity.
Qed.

(** ** The touching cut *)
Definition ct2 : cut RA := (g1, @CSingle RA 2).

Lemma touch_strat : strat_of OpBias (calc_R true 2) (@CSingle RA 2) 4 = Ok (Success, Some (2, 1, 0)).
Proof.
  rewrite strat_norm by (auto || lra). cbn [norm eff_res is_q]. unfold single_res. rewrite sqrt_4.
  rewrite Rleb_true, Rltb_false by lra.
  assert (E : (sg_rho (INR 2) 2 2, sg_sigma (INR 2) 2 2, sg_delta (INR 2) 2 2) = (2, 1, 0)).
  { unfold sg_rho, sg_sigma, sg_delta. rewrite INR_2. f_equal; [f_equal|]; field. }
  rewrite E. reflexivity.
Qed.

Lemma touch_update : exists s1, stable_update OpBias ct2 s4 = (s1, Err ZeroDivision) /\ fv (s_xc s1) O = -2.
Proof.
  destruct s4_agree as (Hok & Hag & _ & _).
  assert (Hom : st_om 2 s4 g1 = 1) by (rewrite <- (q_om 2 true e4 s4 g1 Hok Hag eq_refl); apply e4_w).
  destruct (st_update 2 true s4 g1 Hok eq_refl OpBias (@CSingle RA 2) g1_nonzero) as (_ & _ & U). cbn zeta in U.
  assert (HT : s_kappa s4 * st_om 2 s4 g1 = 4) by (rewrite Hom; cbn; lra).
  rewrite HT in U. destruct (U Success 2 1 0 touch_strat) as (U1 & _). specialize (U1 eq_refl).
  eexists. split; [exact U1|]. cbn [s_xc]. unfold st_move.
  pose proof (q_list 2 true e4 s4 g1 e4_npd Hok Hag eq_refl) as Hq.
  rewrite vsub_R; [|rewrite vscale_length, <- Hq; reflexivity|cbn; auto].
  rewrite vscale_R by (rewrite <- Hq; cbn; auto). rewrite Hom, <- Hq.
  rewrite (mvmul_R 2); [|apply e4_pd|reflexivity|auto].
  unfold mv, fm, fv, sumn. cbn. lra.
Qed.

(** ** The flag *)
Definition s2t : stable RA := @mkStable RA true [[1; 0]; [0; 1]] [0; 0] 2 0 2 (calc_R true 2).
Definition g11 : vec RA := [1; 1].
Definition ct11 : cut RA := (g11, @CSingle RA 0).

Lemma s2t_ok : stable_ok 2 true s2t.
Proof.
  split; [|split; [reflexivity|split; [reflexivity|split; [apply calc_for_ok; auto|]]]].
  - split; [reflexivity|]. intros [|[|i]] Hi; [reflexivity|reflexivity|lia].
  - intros [|[|i]] Hi; [cbn; lra|cbn; lra|lia].
Qed.

Lemma g11_nonzero : nonzero 2 (fv g11).
Proof. exists O. split; [auto|]. cbn. lra. Qed.

Lemma s2t_strat : strat_of OpCentral (calc_R true 2) (@CSingle RA 0) 4 = Ok (Success, Some (2/3, 2/3, 4/3)).
Proof.
  cbn [strat_of]. unfold calc_single_or_parallel_central_cut.
  assert (E : @psqrt RA (4 : R) = Ok (sqrt 4)) by (apply psqrt_ok; lra).
  rewrite E. cbn [bind]. rewrite sqrt_4. unfold core_central_cut. cbn [c_helper calc_R core_R cst0 cst1 cst2].
  rn. rewrite INR_2. apply (f_equal (fun t => Ok (Success, Some t))); apply (f_equal2 pair); [apply (f_equal2 pair)|]; cbn; field.
Qed.

Lemma s2t_update : exists s1, stable_update OpCentral ct11 s2t = (s1, Ok Success) /\
  fv (s_xc s1) 0 = -(1/3) /\ fv (s_xc s1) 1 = -(1/3) /\ s_kappa s1 = 1 /\
  fm (s_mq s1) 0 0 = 4/3 /\ fm (s_mq s1) 1 0 = 4/3 /\ fm (s_mq s1) 1 1 = 16/9.
Proof.
  pose proof s2t_ok as Hok. pose proof g11_nonzero as Hz.
  assert (Hom : st_om 2 s2t g11 = 2).
  { rewrite (st_om_form 2 true s2t g11 Hok eq_refl). unfold st_q, st_z, st_w, st_m1. cbn. unfold dot, sumn, fv. cbn. lra. }
  destruct (st_update 2 true s2t g11 Hok eq_refl OpCentral (@CSingle RA 0) Hz) as (_ & _ & U). cbn zeta in U.
  assert (HT : s_kappa s2t * st_om 2 s2t g11 = 4) by (rewrite Hom; cbn; lra).
  rewrite HT in U. destruct (U Success (2/3) (2/3) (4/3) s2t_strat) as (_ & _ & U1).
  destruct U1 as (m2 & Em & Eu); [lra|lra|].
  assert (Hmu : 2 / 3 / (1 - 2 / 3) = 2) by field. rewrite Hmu in Em.
  assert (Hom0 : 0 < st_om 2 s2t g11) by lra.
  destruct (st_rank1 2 true s2t g11 Hok eq_refl 2 Hom0) as (m2' & Em' & R1 & R2 & R3 & _); [lra|lra|].
  assert (m2' = m2) by (pose proof (eq_trans (eq_sym Em') Em) as E; injection E; auto). subst m2'.
  assert (HL : forall i k, (i < 2)%nat -> (k < 2)%nat -> ldl 2 (fm m2) i k = ldl 2 (fm (s_mq s2t)) i k + 1).
  { intros i k Hi Hk. rewrite <- !form_unit by assumption. rewrite R3, !dot_unit by assumption.
    assert (G : forall i, (i < 2)%nat -> fv g11 i = 1) by (intros [|[|j]] Hj; [reflexivity|reflexivity|lia]).
    rewrite !G by assumption. rewrite Hom. field. }
  pose proof (HL O O ltac:(auto) ltac:(auto)) as L00.
  pose proof (HL 1%nat O ltac:(auto) ltac:(auto)) as L10.
  pose proof (HL 1%nat 1%nat ltac:(auto) ltac:(auto)) as L11.
  pose proof (R2 O ltac:(auto)) as D0. pose proof (R2 1%nat ltac:(auto)) as D1.
  unfold ldl, sumn, lowf in L00, L10, L11. cbn [Nat.ltb Nat.leb Nat.eqb] in L00, L10, L11.
  change (fm (s_mq s2t) 0%nat 0%nat) with 1 in *. change (fm (s_mq s2t) 1%nat 0%nat) with 0 in *. change (fm (s_mq s2t) 1%nat 1%nat) with 1 in *.
  set (d0 := fm m2 0%nat 0%nat) in *. set (d1 := fm m2 1%nat 1%nat) in *. set (l := fm m2 1%nat 0%nat) in *.
  assert (E0 : d0 = 1/2).
  { assert (H : 1 * 1 / d0 = 2) by lra. apply (f_equal (fun x => x * d0)) in H. unfold Rdiv in H. rewrite Rmult_assoc, Rinv_l in H; lra. }
  rewrite E0 in *.
  assert (E1 : l = 1/2) by lra. rewrite E1 in *.
  assert (E2 : d1 = 2/3).
  { assert (H : 1 * 1 / d1 = 3/2) by lra. apply (f_equal (fun x => x * d1)) in H. unfold Rdiv in H. rewrite Rmult_assoc, Rinv_l in H; lra. }
  change (s_no_defer_trick s2t) with true in Eu. cbv iota in Eu. 
  eexists. split; [exact Eu|]. cbn [s_xc s_kappa s_mq].
  assert (Hq : length (st_q 2 s2t g11) = 2%nat) by apply (st_qR 2 true s2t g11 Hok eq_refl).
  assert (Hqv : fv (st_q 2 s2t g11) 0 = 1 /\ fv (st_q 2 s2t g11) 1 = 1).
  { unfold st_q, st_z, st_w, st_m1. cbn. unfold fv. cbn. split; lra. }
  assert (Hxc : forall i, (i < 2)%nat -> fv (st_move 2 s2t g11 (2/3)) i = 0 - 2/3/2 * fv (st_q 2 s2t g11) i).
  { intros i Hi. unfold st_move. rewrite vsub_R; [|rewrite vscale_length; symmetry; exact Hq|exact Hi].
    rewrite vscale_R by (clear - Hq Hi; llia). rewrite Hom. f_equal. destruct i as [|[|i]]; [reflexivity|reflexivity|lia]. }
  split; [rewrite Hxc by auto; rewrite (proj1 Hqv); field|].
  split; [rewrite Hxc by auto; rewrite (proj2 Hqv); field|]. split; [reflexivity|].
  change (s_kappa s2t) with 2.
  rewrite !(mscale_R 2) by (exact R1 || auto). fold d0 d1 l. rewrite E0, E1, E2. repeat split; field.
Qed.

Lemma flag_loses_point : exists s ct s1 x,
  stable_ok 2 true s /\ s_no_defer_trick s = true /\
  stable_update OpCentral ct s = (s1, Ok Success) /\
  stable_in 2 s x /\ cut_holds OpCentral true (snd ct) (cutval 2 (fv (fst ct)) (fv (s_xc s)) x) /\
  ~ stable_in 2 s1 x.
Proof.
  destruct s2t_update as (s1 & Hu & X0 & X1 & K & M00 & M10 & M11).
  exists s2t, ct11, s1, (pt (-1) 1). split; [apply s2t_ok|]. split; [reflexivity|]. split; [exact Hu|]. split; [|split].
  - unfold stable_in, tL, lowf, sumn, pt, fm, fv. cbn. lra.
  - unfold cut_holds. cbn [snd ct11 second_beta]. split; [|exact I]. unfold cutval, dot, sumn, pt, fv. cbn. lra.
  - unfold stable_in, tL, sumn, lowf. cbn [Nat.ltb Nat.leb Nat.eqb]. rewrite X0, X1, K, M00, M10, M11.
    change (pt (-1) 1 0%nat) with (-1). change (pt (-1) 1 1%nat) with 1. lra.
Qed.

Lemma init_run_agree n v x0 (e : ell RA) l : ell_init v x0 = Ok e -> vec_wf n x0 -> val_pos n v -> grads_nonzero l -> grads_fit n l ->
  (forall l1 l2, l = l1 ++ l2 -> pd_ell n true (fst (ell_seq l1 e))) ->
  exists s, stable_init v x0 = Ok s /\
    snd (ell_seq l e) = snd (stable_seq l s) /\
    xc (fst (ell_seq l e)) = s_xc (fst (stable_seq l s)) /\
    kappa (fst (ell_seq l e)) = s_kappa (fst (stable_seq l s)) /\
    tsq (fst (ell_seq l e)) = s_tsq (fst (stable_seq l s)) /\
    forall x, ell_in n (fst (ell_seq l e)) x <-> stable_in n (fst (stable_seq l s)) x.
Proof.
  intros Hi Hx Hv Hz Hfit Hp. destruct (init_agree n v x0 e Hi Hx Hv) as (s & Hs & Hok & Hag & Hf1 & Hf2).
  exists s. split; [exact Hs|]. destruct (seq_agree n true l e s Hok Hag Hf2 Hf1 Hz Hfit Hp) as (H1 & H2 & H3).
  split; [exact H1|]. pose proof H2 as (A1 & A2 & A3 & _). repeat (split; [assumption|]).
  apply same_set; [|exact H2]. apply (Hp l []). rewrite app_nil_r. reflexivity.
Qed.

Lemma run_agree n p (e : ell RA) (s : stable RA) l : stable_sound n p s -> agree n e s -> no_defer_trick e = false ->
  grads_nonzero l -> grads_fit n l ->
  (forall l1 l2, l = l1 ++ l2 -> pd_ell n p (fst (ell_seq l1 e))) ->
  snd (ell_seq l e) = snd (stable_seq l s) /\ agree n (fst (ell_seq l e)) (fst (stable_seq l s)) /\
  forall x, ell_in n (fst (ell_seq l e)) x <-> stable_in n (fst (stable_seq l s)) x.
Proof.
  intros [Hok Hf] Hag Hf2 Hz Hfit Hp. destruct (seq_agree n p l e s Hok Hag Hf2 Hf Hz Hfit Hp) as (H1 & H2 & H3).
  split; [exact H1|]. split; [exact H2|].
  apply same_set; [|exact H2]. apply (Hp l []). rewrite app_nil_r. reflexivity.
Qed.

Lemma stable_centre_moves : exists s ct s1 x, stable_ok 2 true s /\ s_no_defer_trick s = false /\
  stable_update OpBias ct s = (s1, Err x) /\ s_xc s1 <> s_xc s.
Proof.
  destruct touch_update as (s1 & Hu & H0). exists s4, ct2, s1, ZeroDivision.
  split; [apply s4_agree|]. split; [reflexivity|]. split; [exact Hu|]. intros E. rewrite E in H0. cbn in H0. lra.
Qed.

Lemma run_pd_example : forall l1 l2, [(OpBias, ct1)] = l1 ++ l2 -> pd_ell 2 true (fst (ell_seq l1 e4)).
Proof.
  intros [|x [|y l1]] l2 H; [apply e4_pd| |discriminate]. injection H as <- _.
  cbn [ell_seq]. rewrite e4_update1. apply e4'_pd.
Qed.

Lemma ct1_nonzero : grads_nonzero [(OpBias, ct1)].
Proof. intros k ct [H|[]]. injection H as <- <-. exact g1_nonzero. Qed.

Lemma small_init : ell_init (@VScalar RA 4) (@cons R 0 []) = Err AssertionError.
Proof.
  unfold ell_init. cbn [length]. pose proof (calc_init_small 1) as H. rewrite H by auto. reflexivity.
Qed.

(** ** Touching cuts in general *)
Lemma touch_res k n p (b T : R) : (2 <= n)%nat -> k <> OpCentral -> 0 < b -> b * b = T ->
  exists d, strat_of k (calc_R p n) (@CSingle RA b) T = Ok (Success, Some (b, 1, d)).
Proof.
  intros Hn Hk Hb HT. assert (HT0 : 0 < T) by nra. pose proof (INR_ge_2 n Hn) as HN.
  assert (Es : sqrt T = b) by (rewrite <- HT; apply sqrt_square; lra).
  exists (sg_delta (INR n) b b). rewrite strat_norm by assumption.
  assert (E : norm k p (@CSingle RA b) = inr (ESingle b)) by (destruct k; [reflexivity|congruence|reflexivity]).
  rewrite E. cbn [eff_res]. unfold single_res. rewrite Es.
  rewrite (Rltb_false b b) by lra. rewrite (Rleb_true 0 b) by lra.
  rewrite (Rleb_false (b + INR n * b) 0) by nra.
  assert (E1 : sg_rho (INR n) b b = b) by (unfold sg_rho; field; lra).
  assert (E2 : sg_sigma (INR n) b b = 1) by (unfold sg_sigma; field; split; nra).
  rewrite E1, E2. destruct (is_q k); reflexivity.
Qed.

Lemma touching n p (e : ell RA) (s : stable RA) k (g : vec RA) (b : R) :
  pd_ell n p e -> stable_ok n p s -> agree n e s -> vec_wf n g -> nonzero n (fv g) -> k <> OpCentral ->
  0 < b -> b * b = cut_tsq n e (g, @CSingle RA b) ->
  (exists e1, ell_update k (g, @CSingle RA b) e = (e1, Ok Success)) /\
  exists s1, stable_update k (g, @CSingle RA b) s = (s1, Err ZeroDivision) /\
    cutval n (fv g) (fv (s_xc s)) (fv (s_xc s1)) = - b.
Proof.
  intros Hpd Hok Hag Hg Hz Hk Hb HT. unfold cut_tsq in HT. cbn [fst] in HT.
  assert (Hcf : calc_for n p (helper e)) by apply Hpd.
  destruct (calc_for_R n p (helper e) Hcf) as [Hn Hh].
  assert (Hq : quad n (fm (mq e)) (fv g) = st_om n s g) by apply (q_om n p e s g Hok Hag Hg).
  assert (Hom : 0 < st_om n s g) by apply (st_om_pos n p s g Hok Hg Hz).
  destruct (touch_res k n p b _ Hn Hk Hb HT) as (d & Es). rewrite <- Hh in Es.
  destruct Hag as (A1 & A2 & A3 & A4 & A5).
  split.
  - eexists. rewrite (update_eq n e g (@CSingle RA b)); [|apply Hpd|apply Hpd|exact Hg|exact Hz|rewrite Hq; lra].
    rewrite Es. reflexivity.
  - rewrite (st_gen n p s g k (@CSingle RA b) Hok Hg). rewrite <- A2, <- A4, <- Hq, Es.
    rewrite pdiv_ok by (rewrite Hq; lra). replace (1 - 1) with 0 by ring. rewrite pdiv_zero. cbv zeta.
    eexists. split; [reflexivity|]. cbn [s_xc]. unfold st_move, cutval.
    pose proof (st_om_form n p s g Hok Hg) as Hf. pose proof (proj1 (st_qR n p s g Hok Hg)) as Hql.
    rewrite (dot_ext n (fv g) _ (fv g) (fun i => - (b / st_om n s g) * fv (st_q n s g) i)).
    + rewrite dot_scal_r, <- Hf. field. lra.
    + reflexivity.
    + intros i Hi. rewrite vsub_R; [|rewrite vscale_length, Hql; apply Hok|change (num RA) with R in *; destruct Hok as (_ & Hx & _); unfold vec_wf in Hx; lia].
      rewrite vscale_R by llia. ring.
Qed.
