(** Concrete runs of the drivers on [Ell]. *)
From Coq Require Import Reals List Arith Lia Lra Psatz Bool ZArith.
From Verif Require Import Arith Vec ModelCalc ModelEll ModelCut ModelSpaces SpecDrivers Spec SpecCut SpecEll SpecSearch
  PSum PAlg PCalc PCalc2 PCalc3 PCalc5 PCalcEx PVec PGeo PEll PEll2 PEll3 PEllEx PTarget PSearch.
Import ListNotations.
Local Open Scope R_scope.

Definition opt5 : options RA := @mkOptions RA 5%Z 5.

(** the half plane [z0 <= -b] *)
Definition half (b : R) (z : nat -> R) : Prop := z O <= - b.
Definition half_feas (b : R) (o : unit) (x : vec RA) : unit * res (option (cut RA)) :=
  (o, Ok (if Rle_dec (fv x O) (- b) then None else Some (g1, @CSingle RA (fv x O + b)))).

Lemma g1_cutval x z : cutval 2 (fv g1) x z = z O - x O.
Proof. unfold cutval, dot, fv, g1, sumn. cbn. lra. Qed.

Lemma half_oracle b p : feas_oracle 2 p (half b) (half_feas b) tt.
Proof.
  exists (fun _ => True). split; [exact I|]. intros o x o' ct _ H. split; [exact I|]. unfold half_feas in H. destruct (Rle_dec _ _) as [Hx|Hx]; [discriminate|].
  injection H as _ <-. split.
  - intros _. right. exists (fv x O + b). split; [reflexivity|]. lra.
  - intros z Hz. cbn [fst snd]. rewrite g1_cutval. unfold cut_holds; cbn [first_beta second_beta]. unfold half in Hz. split; [|exact I]. lra.
Qed.

Lemma half3_first : half_feas 3 tt (xc e4) = (tt, Ok (Some ct3)).
Proof.
  unfold half_feas. change (fv (xc e4) O) with 0. destruct (Rle_dec 0 (- (3))) as [H|H]; [lra|].
  unfold ct3. replace (0 + 3) with 3 by lra. reflexivity.
Qed.
Lemma half1_first : half_feas 1 tt (xc e4) = (tt, Ok (Some ct1)).
Proof.
  unfold half_feas. change (fv (xc e4) O) with 0. destruct (Rle_dec 0 (- (1))) as [H|H]; [lra|].
  unfold ct1. replace (0 + 1) with 1 by lra. reflexivity.
Qed.

Lemma half3_run : exists l u e',
  cutting_plane_feas (logged_feas (half_feas 3)) (logged_space (ell_space RA)) opt5 (tt, []) (e4, [])
    = ((tt, l), (e', u), Ok (None, 0%Z)) /\ said_nosoln u.
Proof.
  unfold cutting_plane_feas. change (budget opt5) with 5%nat. cbn [feas_loop].
  unfold logged_feas at 1. cbn [fst snd]. change (sp_xc (logged_space (ell_space RA)) (e4, [])) with (xc e4).
  rewrite half3_first.
  change (sp_bias (logged_space (ell_space RA)) ct3 (e4, [])) with
    (log_upd OpBias (ell_update OpBias) (@tsq RA) ct3 (e4, [])).
  unfold log_upd. cbn [fst snd]. rewrite e4_update3. cbn [stop_test].
  do 3 eexists. split; [reflexivity|]. eexists. split; [left; reflexivity|reflexivity].
Qed.

Lemma half1_run : exists l u e',
  cutting_plane_feas (logged_feas (half_feas 1)) (logged_space (ell_space RA)) opt5 (tt, []) (e4, [])
    = ((tt, l), (e', u), Ok (None, 0%Z)) /\ stopped_small opt5 u.
Proof.
  unfold cutting_plane_feas. change (budget opt5) with 5%nat. cbn [feas_loop].
  unfold logged_feas at 1. cbn [fst snd]. change (sp_xc (logged_space (ell_space RA)) (e4, [])) with (xc e4).
  rewrite half1_first.
  change (sp_bias (logged_space (ell_space RA)) ct1 (e4, [])) with
    (log_upd OpBias (ell_update OpBias) (@tsq RA) ct1 (e4, [])).
  unfold log_upd. cbn [fst snd]. rewrite e4_update1.
  set (e1 := new_ell e4 g1 1 (4 / 3) (8 / 9) 1).
  assert (HT : tsq e1 = 4).
  { unfold e1. rewrite <- e4_w. rewrite (new_tsq 2 e4 g1). rewrite e4_w. cbn. lra. }
  rewrite HT. unfold stop_test. change (sp_tsq (logged_space (ell_space RA)) (e1, [mkEv OpBias ct1 (Ok Success) (4 : num RA)])) with (tsq e1).
  rewrite HT. change (altb (4 : num RA) (tolerance opt5)) with (Rltb 4 5). rewrite Rltb_true by lra.
  do 3 eexists. split; [reflexivity|]. exists (mkEv OpBias ct1 (Ok Success) (4 : num RA)), [].
  repeat split. cbn. lra.
Qed.

(** minimise [z0] *)
Definition below (g : R) (z : nat -> R) : Prop := z O < g.
Definition min_z0 (o : unit) (x : vec RA) (g : R) : unit * res (cut RA * option R) :=
  (o, Ok (if Rlt_dec (fv x O) g then ((g1, @CSingle RA 0), Some (fv x O))
          else ((g1, @CSingle RA (fv x O - g)), None))).
Definition min_z0_q (o : unit) (x : vec RA) (g : R) (retry : bool) : unit * res (cut RA * vec RA * option R * bool) :=
  (o, Ok (if Rlt_dec (fv x O) g then ((g1, @CSingle RA 0), x, Some (fv x O), false)
          else ((g1, @CSingle RA (fv x O - g)), x, None, false))).

Lemma min_oracle p g : optim_oracle 2 p below min_z0 tt g.
Proof.
  exists (fun _ _ => True). split; [exact I|]. clear g. intros o x g o' ct v _ H. split; [exact I|]. unfold min_z0 in H. destruct (Rlt_dec _ _) as [Hx|Hx]; injection H as _ <- <-.
  - split.
    + split; [discriminate|]. intros z Hz. cbn [fst snd]. rewrite g1_cutval. unfold below in Hz.
      unfold cut_holds; cbn [second_beta]. split; [|exact I]. lra.
    + intros z Hz. unfold below in *. lra.
  - split.
    + intros _. right. exists (fv x O - g). split; [reflexivity|]. lra.
    + intros z Hz. cbn [fst snd]. rewrite g1_cutval. unfold below in Hz.
      unfold cut_holds; cbn [first_beta second_beta]. split; [|exact I]. lra.
Qed.

Lemma min_q_oracle p g : optim_q_oracle 2 p below min_z0_q tt g.
Proof.
  exists (fun _ _ => True). split; [exact I|]. clear g. intros o x g b o' ct y v m _ H. split; [exact I|]. unfold min_z0_q in H. destruct (Rlt_dec _ _) as [Hx|Hx]; injection H as _ <- _ <- _.
  - split.
    + split; [discriminate|]. intros z Hz. cbn [fst snd]. rewrite g1_cutval. unfold below in Hz.
      unfold cut_holds; cbn [first_beta second_beta]. split; [|exact I]. lra.
    + intros z Hz. unfold below in *. lra.
  - split; [discriminate|].
    intros z Hz. cbn [fst snd]. rewrite g1_cutval. unfold below in Hz.
    unfold cut_holds; cbn [first_beta second_beta]. split; [|exact I]. lra.
Qed.

Lemma e4_update3q : ell_update OpQ ct3 e4 = (set_tsq e4 (4 : num RA), Ok NoSoln).
Proof.
  assert (HT : kappa e4 * quad 2 (fm (mq e4)) (fv g1) = 4) by (rewrite e4_w; cbn; lra).
  unfold ct3. rewrite (update_eq 2 e4 g1 (@CSingle RA 3)); [|apply e4_pd|reflexivity|reflexivity|apply g1_nonzero|rewrite e4_w; lra].
  rewrite HT. change (helper e4) with (calc_R true 2).
  rewrite strat_norm by (auto || lra). cbn [norm eff_res is_q]. unfold single_res. rewrite sqrt_4.
  rewrite Rltb_true by lra. reflexivity.
Qed.

Lemma min_first : min_z0 tt (xc e4) (-3) = (tt, Ok (ct3, None)).
Proof.
  unfold min_z0. change (fv (xc e4) O) with 0. destruct (Rlt_dec 0 (-3)) as [H|H]; [lra|].
  unfold ct3. replace (0 - -3) with 3 by lra. reflexivity.
Qed.
Lemma min_q_first : min_z0_q tt (xc e4) (-3) false = (tt, Ok (ct3, xc e4, None, false)).
Proof.
  unfold min_z0_q. change (fv (xc e4) O) with 0. destruct (Rlt_dec 0 (-3)) as [H|H]; [lra|].
  unfold ct3. replace (0 - -3) with 3 by lra. reflexivity.
Qed.

Lemma min_run : exists l u e',
  cutting_plane_optim (logged_optim min_z0) (logged_space (ell_space RA)) opt5 (tt, []) (e4, []) (-3)
    = ((tt, l), (e', u), Ok (None, -3, 0%Z)) /\ said_nosoln u.
Proof.
  unfold cutting_plane_optim. change (budget opt5) with 5%nat. cbn [optim_loop].
  unfold logged_optim at 1. cbn [fst snd]. change (sp_xc (logged_space (ell_space RA)) (e4, [])) with (xc e4).
  rewrite min_first.
  change (sp_bias (logged_space (ell_space RA)) ct3 (e4, [])) with
    (log_upd OpBias (ell_update OpBias) (@tsq RA) ct3 (e4, [])).
  unfold log_upd. cbn [fst snd]. rewrite e4_update3. cbn [stop_test].
  do 3 eexists. split; [reflexivity|]. eexists. split; [left; reflexivity|reflexivity].
Qed.

Lemma min_q_run : exists l u e',
  cutting_plane_optim_q (logged_q min_z0_q) (logged_space (ell_space RA)) opt5 (tt, []) (e4, []) (-3)
    = ((tt, l), (e', u), Ok (None, -3, 0%Z)) /\ said_nosoln u.
Proof.
  unfold cutting_plane_optim_q. change (budget opt5) with 5%nat. cbn [optim_q_loop].
  unfold logged_q at 1. cbn [fst snd]. change (sp_xc (logged_space (ell_space RA)) (e4, [])) with (xc e4).
  rewrite min_q_first.
  change (sp_q (logged_space (ell_space RA)) ct3 (e4, [])) with
    (log_upd OpQ (ell_update OpQ) (@tsq RA) ct3 (e4, [])).
  unfold log_upd. cbn [fst snd]. rewrite e4_update3q.
  do 3 eexists. split; [reflexivity|]. eexists. split; [left; reflexivity|reflexivity].
Qed.
