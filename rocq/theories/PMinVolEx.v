(** A discrete parallel cut whose first plane misses the ellipsoid leaves more than necessary. *)
From Coq Require Import Reals List Arith Lia Lra Psatz Bool.
From Verif Require Import Arith Vec ModelCalc ModelEll SpecDrivers Spec SpecCut SpecEll SpecDet
  PSum PAlg PCalc PCalc2 PCalc3 PCalc5 PCalcEx PVec PGeo PEll PEll2 PEll3 PEllEx PVolume.
Import ListNotations.
Local Open Scope R_scope.

Definition ctfar : cut RA := (g1, @CList RA [Some (-5/2); Some (1/2)]).
Definition gm1 : vec RA := [-1; 0].
Definition ctback : cut RA := (gm1, @CSingle RA (-1/2)).

Lemma far_val : (q_rho (INR 2) 4 (-5/2) (1/2), q_sigma (INR 2) 4 (-5/2) (1/2), q_delta (INR 2) 4 (-5/2) (1/2))
  = (-1/4, 1/4, 9/8).
Proof.
  assert (Hx : q_xi 2 4 (-5/2) (1/2) = 21/4).
  { unfold q_xi. replace (q_rad 2 4 (-5/2) (1/2)) with (21/4 * (21/4)) by (unfold q_rad; field).
    apply sqrt_square. lra. }
  rewrite INR_2. unfold q_rho, q_delta, q_sigma. rewrite Hx. unfold q_eta, q_A, q_s.
  f_equal; [f_equal|]; field.
Qed.

Lemma far_strat : strat_of OpQ (calc_R true 2) (@CList RA [Some (-5/2); Some (1/2)]) 4 = Ok (Success, Some (-1/4, 1/4, 9/8)).
Proof.
  rewrite strat_norm; [|auto|lra]. cbn [norm eff_res is_q length Nat.ltb Nat.leb negb orb]. unfold par_res.
  rewrite Rltb_false by lra; rewrite Rltb_true by lra; rewrite Rleb_false by lra; cbn [andb].
  rewrite Rleb_false by (unfold q_eta; rewrite INR_2; lra). rewrite far_val. reflexivity.
Qed.

Lemma back_strat : strat_of OpQ (calc_R true 2) (@CSingle RA (-1/2)) 4 = Ok (Success, Some (1/3, 4/9, 5/4)).
Proof.
  rewrite strat_norm; [|auto|lra]. cbn [norm eff_res is_q]. unfold single_res. rewrite sqrt_4, INR_2.
  rewrite Rltb_false by lra. rewrite Rleb_false by lra. 
  assert (E1 : sg_rho 2 2 (-1/2) = 1/3) by (unfold sg_rho; field).
  assert (E2 : sg_sigma 2 2 (-1/2) = 4/9) by (unfold sg_sigma; field).
  assert (E3 : sg_delta 2 2 (-1/2) = 5/4) by (unfold sg_delta; field).
  rewrite E1, E2, E3. reflexivity.
Qed.

Lemma e4_wm : quad 2 (fm (mq e4)) (fv gm1) = 1.
Proof. unfold quad, bil, dot, mv, fm, fv, sumn. cbn. lra. Qed.

Lemma gm1_nonzero : nonzero 2 (fv gm1).
Proof. exists O. split; [auto|]. cbn. lra. Qed.

Lemma far_update : ell_update OpQ ctfar e4 = (new_ell e4 g1 1 (-1/4) (1/4) (9/8), Ok Success).
Proof.
  assert (HT : kappa e4 * quad 2 (fm (mq e4)) (fv g1) = 4) by (rewrite e4_w; cbn; lra).
  unfold ctfar. rewrite (update_eq 2 e4 g1); [|apply e4_pd|reflexivity|reflexivity|apply g1_nonzero|rewrite e4_w; lra].
  rewrite HT. change (helper e4) with (calc_R true 2). rewrite far_strat, e4_w. reflexivity.
Qed.

Lemma back_update : ell_update OpQ ctback e4 = (new_ell e4 gm1 1 (1/3) (4/9) (5/4), Ok Success).
Proof.
  assert (HT : kappa e4 * quad 2 (fm (mq e4)) (fv gm1) = 4) by (rewrite e4_wm; cbn; lra).
  unfold ctback. rewrite (update_eq 2 e4 gm1); [|apply e4_pd|reflexivity|reflexivity|apply gm1_nonzero|rewrite e4_wm; lra].
  rewrite HT. change (helper e4) with (calc_R true 2). rewrite back_strat, e4_wm. reflexivity.
Qed.

Lemma back_cutval x : cutval 2 (fv gm1) (fv (xc e4)) x = - cutval 2 (fv g1) (fv (xc e4)) x.
Proof. unfold cutval, dot, fv, sumn. cbn. ring. Qed.

Lemma back_proper : cut_proper 2 OpQ true e4 ctback.
Proof.
  exists (pt 2 0), (pt 1 1). unfold cut_sat. cbn [fst snd ctback]. rewrite !back_cutval, !e4_cutval.
  repeat split; try (apply e4_in; lra); cbn [first_beta second_beta cut_holds]; try lra.
Qed.

Lemma far_plane : exists (e : ell RA) ct e1 c' k' M',
  pd_ell 2 true e /\ ell_update OpQ ct e = (e1, Ok Success) /\ bias_cond 2 OpQ true (snd ct) (cut_tsq 2 e ct) /\
  cut_proper 2 OpQ true e ct /\ symmetric 2 M' /\ posdef 2 M' /\ 0 < k' /\
  (forall x, ell_in 2 e x -> cut_sat 2 OpQ true e ct x -> in_ellipsoid 2 c' k' M' x) /\
  det 2 (fun i j => k' * M' i j) < sqvol 2 e1.
Proof.
  set (e2 := new_ell e4 gm1 1 (1/3) (4/9) (5/4)).
  exists e4, ctfar, (new_ell e4 g1 1 (-1/4) (1/4) (9/8)), (fv (xc e2)), (kappa e2), (fm (mq e2)).
  pose proof (step_pd 2 true e4 OpQ ctback e2 e4_pd back_update back_proper) as (_ & _ & _ & H1 & H2 & H3).
  split; [apply e4_pd|]. split; [apply far_update|]. split; [intros E; discriminate|].
  split.
  { exists (pt 2 0), (pt 1 1). unfold cut_sat. cbn [fst snd ctfar]. rewrite !e4_cutval.
    repeat split; try (apply e4_in; lra); cbn [first_beta second_beta cut_holds]; try lra. }
  split; [exact H1|]. split; [exact H2|]. split; [exact H3|]. split.
  - intros x Hx (_ & Hs). apply (step_contain 2 true e4 OpQ ctback e2 x (pd_psd _ _ _ e4_pd) back_update (single_cond _ _ _ _ _) Hx).
    unfold cut_sat. cbn [fst snd ctback]. rewrite back_cutval. cbn [snd ctfar second_beta fst] in Hs.
    split; cbn [first_beta second_beta]; [lra|exact I].
  - assert (V : sqvol 2 e4 = 16) by (unfold sqvol; cbn; lra).
    destruct (sqvol_step 2 true e4 OpQ ctfar _ (pd_psd _ _ _ e4_pd) far_update) as (r & s & d & Es & ->).
    unfold ctfar in Es. rewrite e4_tsq in Es. cbn [snd] in Es. change (helper e4) with (calc_R true 2) in Es.
    rewrite far_strat in Es. injection Es as <- <- <-.
    change (det 2 (fun i j => kappa e2 * fm (mq e2) i j)) with (sqvol 2 e2).
    destruct (sqvol_step 2 true e4 OpQ ctback _ (pd_psd _ _ _ e4_pd) back_update) as (r & s & d & Es & E).
    assert (ET : cut_tsq 2 e4 ctback = 4) by (unfold cut_tsq; cbn [fst ctback]; rewrite e4_wm; cbn; lra).
    rewrite ET in Es. cbn [snd ctback] in Es. change (helper e4) with (calc_R true 2) in Es.
    rewrite back_strat in Es. injection Es as <- <- <-. unfold e2. rewrite E, V. cbn. lra.
Qed.

(** planes at -1 and -3/2, with and without the parallel rule *)
Definition ctpar : cut RA := (g1, @CList RA [Some 1; Some (3/2)]).

Lemma ctpar_proper : cut_proper 2 OpBias true e4 ctpar.
Proof.
  exists (pt (-3/2) 0), (pt (-1) 1). unfold cut_sat. cbn [fst snd ctpar]. rewrite !e4_cutval.
  repeat split; try (apply e4_in; lra); cbn [first_beta second_beta cut_holds]; try lra.
Qed.

Lemma ctpar_update : exists e1, ell_update OpBias ctpar e4 = (e1, Ok Success).
Proof.
  assert (HT : kappa e4 * quad 2 (fm (mq e4)) (fv g1) = 4) by (rewrite e4_w; cbn; lra).
  unfold ctpar. rewrite (update_eq 2 e4 g1); [|apply e4_pd|reflexivity|reflexivity|apply g1_nonzero|rewrite e4_w; lra].
  rewrite HT. change (helper e4) with (calc_R true 2). rewrite strat_norm; [|auto|lra].
  cbn [norm eff_res is_q length Nat.ltb Nat.leb negb orb]. unfold par_res.
  rewrite Rltb_false by lra; rewrite Rltb_true by lra; rewrite Rleb_false by lra; cbn [andb]. eexists. reflexivity.
Qed.

Lemma ctpar_off : exists e2, ell_update OpBias ctpar (ell_set_parallel e4 false) = (e2, Ok Success).
Proof.
  assert (HT : kappa e4 * quad 2 (fm (mq e4)) (fv g1) = 4) by (rewrite e4_w; cbn; lra).
  unfold ctpar. rewrite (update_eq 2 (ell_set_parallel e4 false) g1); [|apply e4_pd|reflexivity|reflexivity|apply g1_nonzero|cbn [mq ell_set_parallel]; rewrite e4_w; lra].
  assert (EH : helper (ell_set_parallel e4 false) = calc_R false 2) by reflexivity. rewrite EH.
  change (kappa (ell_set_parallel e4 false) * quad 2 (fm (mq (ell_set_parallel e4 false))) (fv g1)) with (kappa e4 * quad 2 (fm (mq e4)) (fv g1)).
  rewrite HT. rewrite strat_norm; [|auto|lra].
  cbn [norm eff_res is_q length Nat.ltb Nat.leb negb orb]. unfold single_res. rewrite sqrt_4.
  rewrite Rleb_true by lra; rewrite Rltb_false by lra. eexists. reflexivity.
Qed.
