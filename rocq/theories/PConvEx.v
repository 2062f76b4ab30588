(** Concrete cases of the convergence theorems. *)
From Coq Require Import Reals List Arith Lia Lra Psatz Bool ZArith.
From Verif Require Import Arith Vec ModelCalc ModelEll ModelStable ModelCut ModelSpaces ModelLowpass ModelLdlt ModelLmi SpecLdlt SpecDrivers Spec SpecCut SpecEll SpecStable SpecSearch SpecConverge SpecSpectral SpecLowpass
  PSum PAlg PCalc PCalc2 PCalcEx PVec PEll PEll2 PEll3 PEllEx PStableEx PSearch PSearchEx PProfitEx PLowpass PLowpass2 PLowpassEx PLmi3.
Import ListNotations.
Local Open Scope R_scope.

Definition opt1000 : options RA := @mkOptions RA 1000%Z (1/64).

Lemma ln_le x : 0 < x -> ln x <= x - 1.
Proof.
  intros H. destruct (Req_dec x 1) as [->|N]; [rewrite ln_1; lra|].
  apply Rnot_lt_le. intros L. apply exp_increasing in L. rewrite exp_ln in L by exact H. pose proof (exp_ineq1 (x - 1) ltac:(lra)). lra.
Qed.

Lemma count1000 : INR 2 * (INR 2 + 1) * ln (4 / (1/4 * (1/4))) < IZR (max_iters opt1000).
Proof. cbn [max_iters opt1000 INR]. pose proof (ln_le (4 / (1/4 * (1/4))) ltac:(lra)). lra. Qed.
Lemma count1 : INR 2 * (INR 2 + 1) * ln (4 / (19/10 * (19/10))) < IZR (max_iters opt1).
Proof. cbn [max_iters opt1 INR]. pose proof (ln_le (4 / (19/10 * (19/10))) ltac:(lra)). lra. Qed.

Lemma ball2 c r z : ball 2 c r z <-> (z 0%nat - c 0%nat) * (z 0%nat - c 0%nat) + (z 1%nat - c 1%nat) * (z 1%nat - c 1%nat) <= r * r.
Proof. unfold ball, dot. cbn [sumn]. split; intros; lra. Qed.

(** [z0 <= -1] in the disc of radius 2; the ball of radius 1/4 about (-3/2, 0) *)
Lemma half_ball z : ball 2 (pt (-3/2) 0) (1/4) z -> ball 2 (fv z2) (sqrt 4) z /\ half 1 z.
Proof.
  rewrite !ball2. unfold pt, fv, z2, half. cbn [nth]. change (nth 0 [0; 0] 0) with 0. rewrite sqrt_sqrt by lra. intros H.
  assert (-1/4 <= z 0%nat + 3/2 <= 1/4) by nra. split; nra.
Qed.

Lemma half_good b p : good_feas_oracle 2 p (half b) 1 (half_feas b) tt.
Proof.
  exists (fun _ => True). split; [exact I|]. intros o x _ L. unfold half_feas. do 2 eexists. split; [reflexivity|]. split; [exact I|].
  intros ct E. destruct (Rle_dec _ _) as [Hx|Hx]; [discriminate|]. injection E as <-.
  split; [reflexivity|]. split; [unfold dot, fv, g1; cbn; lra|]. split; [exact I|]. split.
  - intros _. right. exists (fv x O + b). split; [reflexivity|]. lra.
  - intros z Hz. cbn [fst snd]. rewrite g1_cutval. unfold cut_holds; cbn [first_beta second_beta]. unfold half in Hz. split; [|exact I]. lra.
Qed.

Lemma min_good p g : good_optim_oracle 2 p below 1 min_z0 tt g.
Proof.
  exists (fun _ _ => True). split; [exact I|]. clear g. intros o x g o' ct v _ H. split; [exact I|]. unfold min_z0 in H. destruct (Rlt_dec _ _) as [Hx|Hx]; injection H as _ <- <-.
  - split.
    + intros _. split; [reflexivity|]. split; [unfold dot, fv, g1; cbn; lra|]. split; [exact I|]. split; [discriminate|]. intros z Hz. cbn [fst snd]. rewrite g1_cutval. unfold below in Hz.
      unfold cut_holds; cbn [second_beta]. split; [|exact I]. lra.
    + intros z Hz. unfold below in *. lra.
  - intros _. split; [reflexivity|]. split; [unfold dot, fv, g1; cbn; lra|]. split; [exact I|]. split.
    + intros _. right. exists (fv x O - g). split; [reflexivity|]. lra.
    + intros z Hz. cbn [fst snd]. rewrite g1_cutval. unfold below in Hz.
      unfold cut_holds; cbn [first_beta second_beta]. split; [|exact I]. lra.
Qed.

(** one central cut *)
Lemma e4_central : exists e', ell_update OpCentral (g1, @CSingle RA 0) e4 = (e', Ok Success).
Proof.
  rewrite (update_eq 2 e4 g1 (@CSingle RA 0)); [|apply e4_pd|reflexivity|reflexivity|apply g1_nonzero|rewrite e4_w; lra].
  assert (HT : kappa e4 * quad 2 (fm (mq e4)) (fv g1) = 4) by (rewrite e4_w; cbn; lra).
  rewrite HT. change (helper e4) with (calc_R true 2). rewrite strat_norm by (auto || lra). cbn [norm eff_res is_q]. unfold single_res. rewrite sqrt_4. rewrite (Rltb_false 2 0), (Rleb_true 0 0) by lra. eexists. reflexivity.
Qed.
Lemma min_central_run : exists e' k,
  cutting_plane_optim min_z0 (ell_space RA) opt1 tt e4 1 = (tt, e', Ok (Some z2, 0, k)).
Proof.
  unfold cutting_plane_optim. change (budget opt1) with 1%nat. cbn [optim_loop]. change (sp_xc (ell_space RA) e4) with z2.
  unfold min_z0 at 1. change (fv z2 0) with 0. destruct (Rlt_dec 0 1) as [_|N]; [|lra]. destruct e4_central as (e' & E).
  change (sp_central (ell_space RA) (g1, @CSingle RA 0) e4) with (ell_update OpCentral (g1, @CSingle RA 0) e4). rewrite E.
  destruct (stop_test _ _ _ _); do 2 eexists; reflexivity.
Qed.

Lemma big_ball z : ball 2 (fv z2) (19/10) z -> ball 2 (fv z2) (sqrt 4) z.
Proof. rewrite !ball2. rewrite sqrt_sqrt by lra. lra. Qed.
Lemma big_ball5 z : ball 2 (fv x2) (19/10) z -> ball 2 (fv x2) (sqrt 4) z.
Proof. rewrite !ball2. rewrite sqrt_sqrt by lra. lra. Qed.

(** a filter specification with room: [3/4 + 1/2 cos w] and everything within 1/8 *)
Definition f6 : filter := mkFilter 2 0 (1/2) (1/2) (3/2).
Definition o6 : lowpass RA := lowpass_init (A:=RA) RG 2 0 (1/2) (1/2) (3/2) 1.
Lemma o6_d : describes_lp f6 o6.
Proof. apply lp_init; [auto|lra|lra]. Qed.
Lemma f6_ball z : ball 2 (pt (3/4) (1/4)) (1/16) z -> ball 2 (fv z2) (sqrt 4) z /\ meets f6 (lw_sp o6) z.
Proof.
  rewrite !ball2. change (fv z2 0) with 0. change (fv z2 1) with 0. change (pt (3/4) (1/4) 0%nat) with (3/4). change (pt (3/4) (1/4) 1%nat) with (1/4). rewrite sqrt_sqrt by lra. intros H.
  assert (Q : forall t u, t * t + u * u <= 1/16 * (1/16) -> -1/16 <= t <= 1/16) by (intros t u Htu; pose proof (Rle_0_sqr u) as U; unfold Rsqr in U; split; nra).
  pose proof (Q _ _ H) as A. rewrite Rplus_comm in H. pose proof (Q _ _ H) as B. split; [nra|]. change (lw_sp o6) with 1.
  unfold meets. cbn [f6 f_n f_wp f_ws f_lo f_up]. unfold in_stop. cbn [f_ws f6].
  assert (S : forall w, sample f6 w -> 0 <= w <= PI) by (intros w; apply sample_range; cbn; lia).
  split; [|split; [|split]].
  - intros w Hw H0. apply S in Hw. rewrite ps2. replace w with 0 by lra. rewrite cos_0. lra.
  - intros w (Hw & Hs). apply S in Hw. rewrite ps2. pose proof (COS_bound w). assert (cos w <= 0) by (apply cos_le_0; lra). nra.
  - intros w _ _. rewrite ps2. pose proof (COS_bound w). nra.
  - lra.
Qed.
Lemma count6 : INR 2 * (INR 2 + 1) * ln (4 / (1/16 * (1/16))) < IZR (max_iters (@mkOptions RA 10000%Z (1/256))).
Proof. cbn [max_iters INR]. pose proof (ln_le (4 / (1/16 * (1/16))) ltac:(lra)). lra. Qed.

(** the matrix inequality [[-1 - z0, z1], [z1, 1]] > 0; everything within 1/8
    of (-3/2, 0) satisfies it with margin 1/4 *)
Definition cone_lmi : lmi RA := lmi_init (A:=RA) [[[1; 0]; [0; 0]]; [[0; -1]; [-1; 0]]] [[-1; 0]; [0; 1]].
Lemma cone_lmi_wf : lmi_wf 2 cone_lmi.
Proof.
  split; [apply sym_22|]. split; [|apply (PLdlt4.init_wf 2)]. repeat constructor; apply sym_22.
Qed.
Definition opt2000 : options RA := @mkOptions RA 2000%Z (1/16).
Lemma count2000 : INR 2 * (INR 2 + 1) * ln (4 / (1/8 * (1/8))) < IZR (max_iters opt2000).
Proof. cbn [max_iters opt2000 INR]. pose proof (ln_le (4 / (1/8 * (1/8))) ltac:(lra)). lra. Qed.
Lemma quad2 (M : nat -> nat -> R) v : quad 2 M v = M 0%nat 0%nat * (v 0%nat * v 0%nat) + (M 0%nat 1%nat + M 1%nat 0%nat) * (v 0%nat * v 1%nat) + M 1%nat 1%nat * (v 1%nat * v 1%nat).
Proof. unfold quad, bil, dot, mv. cbn [sumn]. ring. Qed.
Lemma cone_ball z : ball 2 (pt (-3/2) 0) (1/8) z ->
  ball 2 (fv z2) (sqrt 4) z /\ above 2 (1/4) (lmi_at (mat_f cone_lmi) (mat_f0 cone_lmi) z).
Proof.
  rewrite !ball2. unfold pt. change (fv z2 0) with 0. change (fv z2 1) with 0. rewrite sqrt_sqrt by lra. intros H. unfold fv in H. cbn [nth] in H.
  pose proof (Rle_0_sqr (z 0%nat + 3/2)) as Q0. pose proof (Rle_0_sqr (z 1%nat)) as Q1. unfold Rsqr in Q0, Q1.
  assert (HA : -1/8 <= z 0%nat + 3/2 <= 1/8) by (split; nra). assert (HB : -1/8 <= z 1%nat <= 1/8) by (split; nra). split; [nra|].
  intros v. rewrite quad2. unfold dot. cbn [sumn]. unfold lmi_at, fm, cone_lmi, lmi_init, mat_f, mat_f0. cbn [length sumn nth].
  set (a := z 0%nat) in *. set (b := z 1%nat) in *. set (p := v 0%nat). set (q := v 1%nat). clearbody a b p q.
  assert (S1 : 0 <= (p + 8 * b * q) * (p + 8 * b * q)) by apply Rle_0_sqr.
  assert (S2 : 0 <= (1/8 - b) * (1/8 + b)) by nra. assert (S3 : 0 <= (-11/8 - a) * (p * p)) by (apply Rmult_le_pos; [lra|apply Rle_0_sqr]).
  assert (S4 : 0 <= (1/8 - b) * (1/8 + b) * (q * q)) by (apply Rmult_le_pos; [exact S2|apply Rle_0_sqr]). pose proof (Rle_0_sqr q) as S5. unfold Rsqr in S5. nra.
Qed.
(** [[z0, z1], [z1, z0]] > 0 near (3/2, 0) *)
Lemma doc0_ball z : ball 2 (pt (3/2) 0) (1/8) z ->
  ball 2 (fv z2) (sqrt 4) z /\ above 2 (1/4) (lmi0_at (mat0_f doc_lmi0) z).
Proof.
  rewrite !ball2. unfold pt. change (fv z2 0) with 0. change (fv z2 1) with 0. rewrite sqrt_sqrt by lra. intros H. unfold fv in H. cbn [nth] in H.
  pose proof (Rle_0_sqr (z 0%nat - 3/2)) as Q0. pose proof (Rle_0_sqr (z 1%nat)) as Q1. unfold Rsqr in Q0, Q1.
  assert (HA : -1/8 <= z 0%nat - 3/2 <= 1/8) by (split; nra). assert (HB : -1/8 <= z 1%nat <= 1/8) by (split; nra). split; [nra|].
  intros v. rewrite quad2. unfold dot. cbn [sumn]. unfold lmi0_at, fm, doc_lmi0, mat0_f. cbn [length sumn nth].
  set (a := z 0%nat) in *. set (b := z 1%nat) in *. set (p := v 0%nat). set (q := v 1%nat). clearbody a b p q.
  assert (S1 : 0 <= (p + q) * (p + q)) by apply Rle_0_sqr. assert (S2 : 0 <= (p - q) * (p - q)) by apply Rle_0_sqr.
  assert (S3 : 0 <= (a - 1/4 - b) * ((p - q) * (p - q))) by (apply Rmult_le_pos; [lra|exact S2]).
  assert (S4 : 0 <= (a - 1/4 + b) * ((p + q) * (p + q))) by (apply Rmult_le_pos; [lra|exact S1]). nra.
Qed.

(** the half plane [z0 <= -1] again, seen from [z0 <= -5/4] with margin 1/4 *)
Lemma half_margin p : margin_feas_oracle 2 p (half (5/4)) (1/4) (half_feas 1) tt.
Proof.
  exists (fun _ => True). split; [exact I|]. intros o x _ L. unfold half_feas. do 2 eexists. split; [reflexivity|]. split; [exact I|].
  intros ct E. destruct (Rle_dec _ _) as [Hx|Hx]; [discriminate|]. injection E as <-.
  split; [reflexivity|]. split; [exact I|]. split; [split|].
  - intros _. right. exists (fv x O + 1). split; [reflexivity|]. lra.
  - intros z Hz. cbn [fst snd]. rewrite g1_cutval. unfold cut_holds; cbn [first_beta second_beta]. unfold half in Hz. split; [|exact I]. lra.
  - intros z Hz. cbn [fst]. rewrite g1_cutval. unfold half in Hz. lra.
Qed.
Lemma half_ball8 z : ball 2 (pt (-3/2) 0) (1/8) z -> ball 2 (fv z2) (sqrt 4) z /\ half (5/4) z.
Proof.
  rewrite !ball2. unfold pt. change (fv z2 0) with 0. change (fv z2 1) with 0. unfold half. rewrite sqrt_sqrt by lra. intros H. unfold fv in H. cbn [nth] in H.
  assert (-1/8 <= z 0%nat + 3/2 <= 1/8) by nra. split; nra.
Qed.
(** minimising [z0]: points better by 1/10 *)
Definition below_by (eps g : R) (z : nat -> R) : Prop := z 0%nat <= g - eps.
Lemma min_margin p eps g : 0 <= eps -> margin_optim_oracle 2 p (below_by eps) eps min_z0 tt g.
Proof.
  intros He. exists (fun _ _ => True). split; [exact I|]. clear g. intros o x g o' ct v _ H. split; [exact I|]. unfold min_z0 in H. destruct (Rlt_dec _ _) as [Hx|Hx]; injection H as _ <- <-.
  - split.
    + intros _. split; [reflexivity|]. split; [exact I|]. split; [split; [discriminate|]|].
      * intros z Hz. cbn [fst snd]. rewrite g1_cutval. unfold below_by in Hz. unfold cut_holds; cbn [second_beta]. split; [|exact I]. lra.
      * intros z Hz. cbn [fst]. rewrite g1_cutval. unfold below_by in Hz. lra.
    + intros z Hz. unfold below_by in *. lra.
  - intros _. split; [reflexivity|]. split; [exact I|]. split; [split|].
    + intros _. right. exists (fv x O - g). split; [reflexivity|]. lra.
    + intros z Hz. cbn [fst snd]. rewrite g1_cutval. unfold below_by in Hz. unfold cut_holds; cbn [first_beta second_beta]. split; [|exact I]. lra.
    + intros z Hz. cbn [fst]. rewrite g1_cutval. unfold below_by in Hz. lra.
Qed.

Lemma cone_lmi_out : ~ posdef 2 (lmi_at (mat_f cone_lmi) (mat_f0 cone_lmi) (fv z2)).
Proof.
  intros H. assert (HN : nonzero 2 (pt 1 0)) by (exists 0%nat; split; [lia|unfold pt, fv; cbn [nth]; lra]). specialize (H _ HN). rewrite quad2 in H.
  unfold lmi_at, fm, cone_lmi, lmi_init, mat_f, mat_f0, pt, fv, z2 in H. cbn [length sumn nth] in H. lra.
Qed.
