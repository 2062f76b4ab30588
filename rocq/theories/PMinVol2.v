(** The ellipsoid kept by a cut is the smallest one around the kept part. *)
From Coq Require Import Reals Arith List Lia Lra Psatz Bool.
From Verif Require Import Arith Vec ModelCalc ModelEll ModelStable ModelLdlt Spec SpecDrivers SpecCut SpecEll SpecStable SpecLdlt SpecConverge SpecDet
  PSum PVec PAlg PVol PCalc PCalcEx PCalc2 PCalc3 PCalc4 PCalc5 PGeo PEll PEll2 PEll3 PConv PDet PVolume PVolume2 PDet2 PMinVol
  PStable PStable2 PStable3 PStable4 PStable5.
Local Open Scope R_scope.

Lemma min_core n M M' g c c' kap kap' (holds : R -> Prop) a b rho sigma delta : (2 <= n)%nat ->
  symmetric n M -> posdef n M -> nonzero n g -> 0 < kap -> symmetric n M' -> posdef n M' -> 0 < kap' ->
  (forall z, in_ellipsoid n c kap M z -> holds (cutval n g c z) -> in_ellipsoid n c' kap' M' z) ->
  a < b -> a <= rho <= b -> a * a <= kap * quad n M g -> b * b <= kap * quad n M g -> holds (- a) -> holds (- b) ->
  window (INR n) (kap * quad n M g) a b rho sigma delta -> sigma < 1 -> 0 < delta ->
  (kap * delta) ^ n * det n (cutM n M g (quad n M g) sigma) <= kap' ^ n * det n M' /\
  ((kap * delta) ^ n * det n (cutM n M g (quad n M g) sigma) = kap' ^ n * det n M' ->
   (forall i j, (i < n)%nat -> (j < n)%nat -> kap' * M' i j = kap * delta * cutM n M g (quad n M g) sigma i j) /\
   (forall i, (i < n)%nat -> c' i = cutC n M g c (quad n M g) rho i)).
Proof.
  intros Hn Hsym Hpd Hz Hk Hsym' Hpd' Hk' Hin Hab Hrho Ha Hb Hha Hhb Hwin Hs Hd.
  destruct (pd_factor n M Hsym Hpd) as (S & HS & HM & _).
  destruct (pd_factor n M' Hsym' Hpd') as (S' & HS' & HM' & D').
  set (w := quad n M g) in *. assert (W : 0 < w) by apply Hpd, Hz.
  set (M1 := cutM n M g w sigma).
  assert (Hsym1 : symmetric n M1) by (apply cutM_sym, Hsym).
  assert (Hpd1 : posdef n M1) by (apply cutM_pd; [exact Hsym|apply posdef_semi, Hpd|exact Hpd|exact W|exact Hs]).
  destruct (pd_factor n M1 Hsym1 Hpd1) as (S1 & HS1 & HM1 & D1).
  destruct (tri_dual n S) as (x & Hx). destruct (tri_dual n S') as (x' & Hx').
  pose proof (trace_bound n M M' g c c' kap kap' Hsym Hpd Hz S S' HS HM HS' HM' x x'
    (fun i Hi => proj2 (proj2 (Hx i Hi))) (fun i Hi => proj2 (proj2 (Hx' i Hi))) holds Hin
    a b rho sigma delta Hn Hab Hrho Ha Hb Hha Hhb Hwin) as TB.
  fold w in TB.
  assert (INRn : 2 <= INR n) by (change 2 with (INR 2); apply le_INR, Hn).
  set (kd := kap * delta). assert (Kd : 0 < kd) by (apply Rmult_lt_0_compat; assumption).
  (* the trace in terms of M1 *)
  assert (Q1 : trM n M S' x' - sigma * gam n M g S' x' / w = sumn n (fun i => quad n M1 (x' i) / S' i i)).
  { unfold trM, gam. unfold Rdiv at 2. rewrite (Rmult_comm sigma), Rmult_assoc, <- sumn_scal_r, <- sumn_minus.
    apply sumn_ext. intros i Hi. unfold M1, w. rewrite (quad_cutM n M g Hsym). fold w. unfold rg.
    rewrite (bil_symm n M g (x' i) Hsym). field. pose proof (HS' i Hi). lra. }
  rewrite Q1 in TB.
  set (r := fun i => kd * S1 i i / (kap' * S' i i)).
  set (q := fun i => kd * quad n M1 (x' i) / (kap' * S' i i)).
  assert (Rp : forall i, (i < n)%nat -> 0 < r i).
  { intros i Hi. unfold r. apply Rdiv_lt_0_compat; apply Rmult_lt_0_compat; auto. }
  assert (Own : forall i, (i < n)%nat -> tL n S1 (x' i) i = 1).
  { intros i Hi. destruct (Hx' i Hi) as (X1 & X2 & _). apply tL_own; assumption. }
  assert (Qd : forall i, (i < n)%nat -> quad n M1 (x' i) = sumn n (fun a => S1 a a * (tL n S1 (x' i) a * tL n S1 (x' i) a))).
  { intros i Hi. apply (bil_ldl n M1 S1 _ _ HM1). }
  assert (Qt : forall i, (i < n)%nat -> forall a, (a < n)%nat -> 0 <= S1 a a * (tL n S1 (x' i) a * tL n S1 (x' i) a)).
  { intros i Hi a' Ha'. apply Rmult_le_pos; [apply Rlt_le, HS1, Ha'|apply Rle_0_sqr]. }
  assert (Qge : forall i, (i < n)%nat -> S1 i i <= quad n M1 (x' i)).
  { intros i Hi. rewrite (Qd i Hi). pose proof (proj2 (sumn_term_le n _ (Qt i Hi)) i Hi) as B. cbn beta in B.
    rewrite (Own i Hi) in B. lra. }
  assert (Rq : forall i, (i < n)%nat -> r i <= q i).
  { intros i Hi. unfold r, q, Rdiv. apply Rmult_le_compat_r; [apply Rlt_le, Rinv_0_lt_compat, Rmult_lt_0_compat; auto|].
    apply Rmult_le_compat_l; [lra|apply Qge, Hi]. }
  assert (Off0 : 0 <= off n M g c c' S' x' rho).
  { apply sumn_ge_0. intros i Hi. unfold Rdiv. apply Rmult_le_pos; [apply Rle_0_sqr|apply Rlt_le, Rinv_0_lt_compat, HS', Hi]. }
  assert (Sq : sumn n q <= INR n - INR n * off n M g c c' S' x' rho / kap').
  { apply Rmult_le_reg_l with kap'; [exact Hk'|].
    replace (kap' * (INR n - INR n * off n M g c c' S' x' rho / kap')) with (INR n * kap' - INR n * off n M g c c' S' x' rho) by (field; lra).
    apply Rle_trans with (delta * kap * sumn n (fun i => quad n M1 (x' i) / S' i i)); [|lra].
    right. rewrite <- !sumn_scal. apply sumn_ext. intros i Hi. unfold q, kd. field. pose proof (HS' i Hi). split; lra. }
  assert (Oge : 0 <= INR n * off n M g c c' S' x' rho / kap').
  { unfold Rdiv. apply Rmult_le_pos; [apply Rmult_le_pos; lra|apply Rlt_le, Rinv_0_lt_compat, Hk']. }
  assert (Sr : sumn n r <= sumn n q) by (apply sumn_le, Rq).
  destruct (amgm n r Rp ltac:(lra)) as (A1 & A2).
  assert (Pr : prodn n r * (kap' ^ n * det n M') = kd ^ n * det n M1).
  { rewrite D', D1, <- !prodn_const, <- !prodn_mult. apply prodn_ext. intros i Hi. unfold r. field. pose proof (HS' i Hi). split; lra. }
  assert (DP : 0 < kap' ^ n * det n M').
  { apply Rmult_lt_0_compat; [apply pow_lt, Hk'|apply det_posdef; assumption]. }
  rewrite <- Pr. split; [nra|]. intros E.
  assert (P1 : prodn n r = 1) by (apply Rmult_eq_reg_r with (kap' ^ n * det n M'); lra).
  destruct (A2 P1) as (A3 & A4).
  assert (O0 : off n M g c c' S' x' rho = 0).
  { assert (Z : INR n * off n M g c c' S' x' rho / kap' = 0) by lra.
    apply Rmult_eq_reg_l with (INR n / kap'); [|apply Rgt_not_eq, Rdiv_lt_0_compat; lra]. rewrite Rmult_0_r, <- Z. field. lra. }
  assert (Eq : forall i, (i < n)%nat -> q i = r i).
  { intros i Hi. assert (Zs : sumn n (fun i => q i - r i) = 0) by (rewrite sumn_minus; lra).
    assert (Zp : forall i, (i < n)%nat -> 0 <= q i - r i) by (intros j Hj; pose proof (Rq j Hj); lra).
    pose proof (proj2 (sumn_term_le n _ Zp) i Hi) as B. pose proof (Zp i Hi). cbn beta in B. lra. }
  assert (Tri : forall i, (i < n)%nat -> x' i i = 1 /\ forall j, (i < j)%nat -> x' i j = 0).
  { intros i Hi. destruct (Hx' i Hi) as (X1 & X2 & _). auto. }
  assert (Ed : forall i, (i < n)%nat -> kd * S1 i i = kap' * S' i i).
  { intros i Hi. pose proof (A4 i Hi) as R1. unfold r in R1. pose proof (HS' i Hi).
    apply Rmult_eq_reg_r with (/ (kap' * S' i i)); [|apply Rinv_neq_0_compat, Rgt_not_eq, Rmult_lt_0_compat; lra].
    unfold Rdiv in R1. rewrite R1. field. split; lra. }
  assert (Dual : forall i, (i < n)%nat -> forall a, (a < n)%nat -> tL n S1 (x' i) a = if Nat.eqb i a then 1 else 0).
  { intros i Hi a' Ha'. destruct (Nat.eqb_spec i a') as [<-|Hne]; [apply Own, Hi|].
    pose proof (Eq i Hi) as R1. unfold q, r in R1. pose proof (HS' i Hi) as Sp.
    assert (Qe : quad n M1 (x' i) = S1 i i).
    { apply Rmult_eq_reg_r with (kd / (kap' * S' i i)); [|apply Rgt_not_eq, Rdiv_lt_0_compat; [exact Kd|apply Rmult_lt_0_compat; lra]].
      transitivity (kd * quad n M1 (x' i) / (kap' * S' i i)); [field; split; lra|]. rewrite R1. field. split; lra. }
    rewrite (Qd i Hi) in Qe.
    set (h := fun k => if Nat.eqb k i then 0 else S1 k k * (tL n S1 (x' i) k * tL n S1 (x' i) k)).
    assert (Hh : sumn n h = 0).
    { rewrite (sumn_ext n h (fun k => S1 k k * (tL n S1 (x' i) k * tL n S1 (x' i) k) - (if Nat.eqb k i then S1 i i else 0))).
      - rewrite sumn_minus, sumn_delta by exact Hi. lra.
      - intros k Hk0. unfold h. destruct (Nat.eqb_spec k i) as [->|_]; [rewrite (Own i Hi)|]; ring. }
    assert (Hp : forall k, (k < n)%nat -> 0 <= h k).
    { intros k Hk0. unfold h. destruct (Nat.eqb k i); [lra|apply Qt; assumption]. }
    pose proof (proj2 (sumn_term_le n _ Hp) a' Ha') as B. pose proof (Hp a' Ha') as B0. rewrite Hh in B.
    assert (B1 : h a' = 0) by lra. unfold h in B1. destruct (Nat.eqb_spec a' i); [lia|].
    pose proof (HS1 a' Ha'). apply Rmult_integral in B1 as [B1|B1]; [lra|]. apply Rmult_integral in B1 as [B1|B1]; exact B1. }
  split.
  - set (D := fun i j => kap' * M' i j - kd * M1 i j).
    assert (Bz : forall i j, (i < n)%nat -> (j < n)%nat -> bil n D (x' i) (x' j) = 0).
    { intros i j Hi Hj. transitivity (kap' * bil n M' (x' i) (x' j) - kd * bil n M1 (x' i) (x' j)).
      - unfold bil. rewrite <- !dot_scal_r, <- dot_minus_r. apply dot_ext; [reflexivity|]. intros k Hk0.
        unfold mv. rewrite <- !sumn_scal, <- sumn_minus. apply sumn_ext. intros. unfold D. ring.
      - rewrite (bil_ldl n M' S' _ _ HM'), (bil_ldl n M1 S1 _ _ HM1), <- !sumn_scal, <- sumn_minus. apply sumn_0. intros k Hk0.
        rewrite (proj2 (proj2 (Hx' i Hi)) k Hk0), (proj2 (proj2 (Hx' j Hj)) k Hk0), (Dual i Hi k Hk0), (Dual j Hj k Hk0).
        rewrite <- !Rmult_assoc, (Ed k Hk0). ring. }
    intros i j Hi Hj.
    assert (Z : D i j = 0); [|unfold D in Z; lra].
    apply (tri_zero n x' (fun j => D i j) Tri); [|exact Hj]. intros l Hl. rewrite dot_comm.
    change (dot n (fun j => D i j) (x' l)) with (mv n D (x' l) i).
    apply (tri_zero n x' (mv n D (x' l)) Tri); [|exact Hi]. intros m Hm. apply (Bz m l Hm Hl).
  - intros i Hi.
    assert (Z : c i - c' i - rho / w * mv n M g i = 0); [|unfold cutC; lra].
    apply (tri_zero n x' (fun i => c i - c' i - rho / w * mv n M g i) Tri); [|exact Hi]. intros l Hl.
    rewrite dot_minus_r, dot_scal_r. fold (bil n M (x' l) g).
    assert (Hp : forall k, (k < n)%nat -> 0 <= (rd n c c' x' k - rho / w * rg n M g x' k) * (rd n c c' x' k - rho / w * rg n M g x' k) / S' k k).
    { intros k Hk0. unfold Rdiv at 2. apply Rmult_le_pos; [apply Rle_0_sqr|apply Rlt_le, Rinv_0_lt_compat, HS', Hk0]. }
    pose proof (proj2 (sumn_term_le n _ Hp) l Hl) as B. pose proof (Hp l Hl) as B0.
    change (sumn n _) with (off n M g c c' S' x' rho) in B. cbn beta in B. rewrite O0 in B.
    assert (B1 : (rd n c c' x' l - rho / w * rg n M g x' l) * (rd n c c' x' l - rho / w * rg n M g x' l) / S' l l = 0) by lra.
    unfold Rdiv at 2 in B1. apply Rmult_integral in B1 as [B1|B1].
    + apply Rmult_integral in B1 as [B1|B1]; exact B1.
    + exfalso. pose proof (Rinv_0_lt_compat _ (HS' l Hl)). lra.
Qed.

Lemma q_sigma_flat N T a : 2 <= N -> 0 < T -> a * a <= T -> q_sigma N T a a = 1.
Proof.
  intros HN HT Ha. unfold q_sigma, q_xi, q_rad, q_A, q_eta, q_s.
  replace ((T - a * a) * (T - a * a) + N / 2 * (a * a - a * a) * (N / 2 * (a * a - a * a))) with ((T - a * a) * (T - a * a)) by ring.
  rewrite sqrt_square by lra. field. assert (0 <= N * (a * a)) by (apply Rmult_le_pos; [lra|apply Rle_0_sqr]). lra.
Qed.

(** the window of an accepted cut whose first plane meets the ellipsoid *)
Lemma win_window n p k beta T rho sigma delta : (2 <= n)%nat -> 0 < T ->
  bias_cond n k p beta T -> (k <> OpCentral -> forall b0, first_beta beta = Some b0 -> b0 * b0 <= T) ->
  strat_of k (calc_R p n) beta T = Ok (Success, Some (rho, sigma, delta)) ->
  sigma = 1 \/ exists a b, a < b /\ a <= rho <= b /\ a * a <= T /\ b * b <= T /\
    cut_holds k p beta (- a) /\ cut_holds k p beta (- b) /\ window (INR n) T a b rho sigma delta /\ sigma < 1 /\ 0 < delta.
Proof.
  intros Hn HT Hcond Hfirst Hs. pose proof (INR_ge_2 n Hn) as HN.
  destruct (strat_win n p k beta T _ Hn HT Hs) as (e & r' & s' & d' & He & Hr & Hw).
  injection Hr as <- <- <-.
  assert (Ht : 0 < sqrt T) by (apply sqrt_lt_R0, HT).
  assert (Htt : sqrt T * sqrt T = T) by (apply sqrt_sqrt; lra).
  destruct Hw as [b0 Hcase Hb0 Hb0q Heta -> -> ->|a b -> Hab HbT Hre Hq -> -> ->].
  - destruct Hb0 as [Hlt|Heq]; [right|left; rewrite Heq; apply sg_sigma_tau; assumption].
    assert (Hbl : - sqrt T < b0) by nra.
    exists b0, (sqrt T). split; [exact Hlt|].
    assert (Hh : forall t, - sqrt T <= t <= - b0 -> cut_holds k p beta t).
    { intros t Ht'. apply (norm_holds p k beta e _ He). destruct Hcase as [->|(b & -> & Hb & Hb2)]; cbn; lra. }
    split.
    { unfold sg_rho. split; apply (Rmult_le_reg_r (INR n + 1)); try lra; unfold Rdiv; rewrite Rmult_assoc, Rinv_l by lra; nra. }
    split; [nra|]. split; [lra|]. split; [apply Hh; lra|]. split; [apply Hh; lra|].
    split; [|split; [apply sg_sigma_lt; [exact Hn|lra]|apply sg_delta_pos; [exact Hn|exact HT|lra]]].
    rewrite <- Htt at 1. apply tau_window; [exact HN|exact Ht|lra].
  - assert (Haa : a * a <= T).
    { unfold norm in He. destruct k, beta as [b'|[|[a'|] [|[b'|] l]]], p; cbn in He; inversion He; subst; try lra;
        apply Hfirst; (discriminate || reflexivity). }
    pose proof (proj1 (tau_bounds T a HT) Haa) as Hab'.
    assert (Hbb : b * b <= T) by (apply (tau_bounds T b HT); lra).
    assert (Heta : 0 <= q_eta (INR n) T a b) by (eapply norm_cond; eassumption).
    destruct Hab as [Hlt|<-]; [right|left; apply q_sigma_flat; assumption].
    assert (Hh : forall t, - b <= t <= - a -> cut_holds k p beta t).
    { intros t Ht'. apply (norm_holds p k beta _ _ He). exact Ht'. }
    assert (Hle : a <= b) by lra.
    exists a, b. split; [exact Hlt|].
    split; [apply (rho_in_slab _ _ _ _ HN HT Hle Hre (- a) Heta); nra|].
    split; [exact Haa|]. split; [exact Hbb|]. split; [apply Hh; lra|]. split; [apply Hh; lra|].
    split; [apply q_window; assumption|]. split; [apply sigma_lt_1; assumption|].
    apply delta_sign; [exact HN|exact HT|]. nra.
Qed.

Lemma step_smallest n p e k (ct : cut RA) e1 : pd_ell n p e -> ell_update k ct e = (e1, Ok Success) ->
  bias_cond n k p (snd ct) (cut_tsq n e ct) ->
  (k <> OpCentral -> forall b0, first_beta (snd ct) = Some b0 -> b0 * b0 <= cut_tsq n e ct) ->
  forall c' k' M', symmetric n M' -> posdef n M' -> 0 < k' ->
  (forall x, ell_in n e x -> cut_sat n k p e ct x -> in_ellipsoid n c' k' M' x) ->
  sqvol n e1 <= det n (fun i j => k' * M' i j) /\
  (sqvol n e1 = det n (fun i j => k' * M' i j) ->
   (forall i j, (i < n)%nat -> (j < n)%nat -> k' * M' i j = kappa e1 * fm (mq e1) i j) /\
   (forall i, (i < n)%nat -> c' i = fv (xc e1) i)).
Proof.
  intros He Hu Hb Hf c' k' M' Hs' Hp' Hk' Hin.
  pose proof He as (HM & Hxc & Hc & Hsym & Hpd & Hk).
  destruct (update_inv n e ct k e1 Success HM Hxc Hu) as (Hg & Hz & [(_ & E & _)|(Hw & [H|(_ & E & _)])]);
    [discriminate| |congruence].
  pose proof (pd_omega n p e ct He Hz) as HT.
  destruct H as (r & s & d & Hstrat & _ & ->). destruct ct as [g beta]. unfold wq in *. cbn [fst snd] in *.
  destruct (calc_for_R _ _ _ Hc) as [Hn Hh]. rewrite Hh in Hstrat.
  unfold cut_tsq in *. cbn [fst] in *. set (w := quad n (fm (mq e)) (fv g)) in *.
  assert (W : 0 < w) by apply Hpd, Hz.
  assert (EV : forall i j, (i < n)%nat -> (j < n)%nat -> kappa (new_ell e g w r s d) * fm (mq (new_ell e g w r s d)) i j =
     kappa e * d * cutM n (fm (mq e)) (fv g) w s i j).
  { intros i j Hi Hj. unfold w. rewrite new_kappa, new_mq by assumption. destruct (no_defer_trick e); ring. }
  assert (EX : forall i, (i < n)%nat -> fv (xc (new_ell e g w r s d)) i = cutC n (fm (mq e)) (fv g) (fv (xc e)) w r i).
  { intros i Hi. unfold w. apply new_xc; assumption. }
  assert (SV : sqvol n (new_ell e g w r s d) = (kappa e * d) ^ n * det n (cutM n (fm (mq e)) (fv g) w s)).
  { unfold sqvol. rewrite (det_ext n _ _ EV). apply (det_scal n (cutM n (fm (mq e)) (fv g) w s)). }
  rewrite SV, (det_scal n M' k').
  assert (DP : 0 < k' ^ n * det n M').
  { apply Rmult_lt_0_compat; [apply pow_lt, Hk'|apply det_posdef; assumption]. }
  destruct (win_window n p k beta (kappa e * w) r s d Hn HT Hb Hf Hstrat) as [->|(a & b & Hab & Hr & Ha & Hb' & Hha & Hhb & Hwin & Hs1 & Hd)].
  - assert (Z : det n (cutM n (fm (mq e)) (fv g) w 1) = 0).
    { unfold cutM. rewrite (det_cut n (fm (mq e)) (fv g) (1 / w) Hsym). fold w.
      replace (1 / w * w) with 1 by (field; lra). ring. }
    rewrite Z, Rmult_0_r. split; [lra|]. intros X. lra.
  - destruct (min_core n (fm (mq e)) M' (fv g) (fv (xc e)) c' (kappa e) k' (cut_holds k p beta) a b r s d) as (C1 & C2); try assumption.
    fold w in C1, C2. split; [exact C1|]. intros X. destruct (C2 X) as (C3 & C4). split.
    + intros i j Hi Hj. rewrite (EV i j Hi Hj). apply C3; assumption.
    + intros i Hi. rewrite (EX i Hi). apply C4, Hi.
Qed.

Lemma deep_meets n p e k (ct : cut RA) : pd_ell n p e -> nonzero n (fv (fst ct)) -> deep k (snd ct) ->
  (exists x, ell_in n e x /\ cut_sat n k p e ct x) ->
  bias_cond n k p (snd ct) (cut_tsq n e ct) /\
  (k <> OpCentral -> forall b0, first_beta (snd ct) = Some b0 -> b0 * b0 <= cut_tsq n e ct).
Proof.
  intros He Hz Hd (x0 & Hx0 & Hs0). pose proof (pd_psd _ _ _ He) as (HM & Hxc & _ & Hsym & Hp).
  pose proof (pd_omega n p e ct He Hz) as HT.
  pose proof (cutval_sq_le n _ (fv (fst ct)) _ Hsym Hp _ _ Hx0) as Ht0.
  change (kappa e * quad n (fm (mq e)) (fv (fst ct))) with (cut_tsq n e ct) in Ht0. unfold cut_sat in Hs0.
  set (t0 := cutval n (fv (fst ct)) (fv (xc e)) x0) in *.
  assert (D : k <> OpCentral -> forall b0, first_beta (snd ct) = Some b0 -> 0 <= b0).
  { intros Hk b0 E. destruct Hd as [?|(b & E' & Hb)]; [contradiction|]. rewrite E in E'. injection E' as ->. exact Hb. }
  split.
  - intros -> b0 b1 E0 _ Hle. assert (0 <= b0) by (apply D; [discriminate|exact E0]).
    assert (0 <= INR n * (b0 * b1)) by (apply Rmult_le_pos; [apply pos_INR|apply Rmult_le_pos; lra]). lra.
  - intros Hk b0 E0. pose proof (D Hk b0 E0) as P. destruct Hs0 as (Hs0 & _).
    assert (t0 <= - b0) by (destruct k; [|contradiction|]; rewrite E0 in Hs0; exact Hs0). nra.
Qed.

Lemma step_smallest_deep n p e k (ct : cut RA) e1 : pd_ell n p e -> ell_update k ct e = (e1, Ok Success) ->
  deep k (snd ct) -> (exists x, ell_in n e x /\ cut_sat n k p e ct x) ->
  forall c' k' M', symmetric n M' -> posdef n M' -> 0 < k' ->
  (forall x, ell_in n e x -> cut_sat n k p e ct x -> in_ellipsoid n c' k' M' x) ->
  sqvol n e1 <= det n (fun i j => k' * M' i j) /\
  (sqvol n e1 = det n (fun i j => k' * M' i j) ->
   (forall i j, (i < n)%nat -> (j < n)%nat -> k' * M' i j = kappa e1 * fm (mq e1) i j) /\
   (forall i, (i < n)%nat -> c' i = fv (xc e1) i)).
Proof.
  intros He Hu Hd Hx. pose proof He as (HM & Hxc & _).
  destruct (update_inv n e ct k e1 Success HM Hxc Hu) as (_ & Hz & _).
  destruct (deep_meets n p e k ct He Hz Hd Hx) as (B1 & B2).
  apply (step_smallest n p e k ct e1 He Hu B1 B2).
Qed.

Lemma scaled_sym n k k' (M M' : nat -> nat -> R) : 0 < k -> symmetric n M' ->
  (forall i j, (i < n)%nat -> (j < n)%nat -> k' * M' i j = k * M i j) -> symmetric n M.
Proof.
  intros Hk Hs E i j Hi Hj. apply Rmult_eq_reg_l with k; [|lra]. rewrite <- (E i j Hi Hj), <- (E j i Hj Hi), (Hs i j Hi Hj). reflexivity.
Qed.
Lemma same_scaled n c k (M : nat -> nat -> R) c' k' M' x : 0 < k' -> 0 < k -> symmetric n M' -> posdef n M' ->
  (forall i j, (i < n)%nat -> (j < n)%nat -> k' * M' i j = k * M i j) ->
  (forall i, (i < n)%nat -> c' i = c i) ->
  in_ellipsoid n c' k' M' x <-> in_ellipsoid n c k M x.
Proof.
  intros Hk' Hk Hs Hp E C. pose proof (posdef_semi n M' Hp) as Hp'. pose proof (scaled_sym n k k' M M' Hk Hs E) as HsM.
  assert (Hq : possemidef n M).
  { intros v. apply Rmult_le_reg_l with k; [exact Hk|]. rewrite Rmult_0_r. unfold quad. rewrite <- bil_mscal.
    rewrite <- (bil_ext n (fun i j => k' * M' i j) (fun i j => k * M i j) v v v v) by auto.
    rewrite bil_mscal. apply Rmult_le_pos; [lra|apply Hp']. }
  split; intros H; (apply scale_out; [lra|]); (apply scale_in in H; [|assumption|assumption]);
    (eapply in_ellipsoid_ext; [..|exact H]); try reflexivity; intros.
  - apply C; assumption.
  - apply E; assumption.
  - symmetry. apply C; assumption.
  - symmetry. apply E; assumption.
Qed.

Lemma stable_smallest n p s k (ct : cut RA) s1 : stable_ok n p s -> s_no_defer_trick s = false -> 0 < s_kappa s ->
  stable_update k ct s = (s1, Ok Success) -> bias_cond n k p (snd ct) (s_tsq s1) ->
  (k <> OpCentral -> forall b0, first_beta (snd ct) = Some b0 -> b0 * b0 <= s_tsq s1) ->
  forall c' k' M', symmetric n M' -> posdef n M' -> 0 < k' ->
  (forall x, stable_in n s x -> cut_holds k p (snd ct) (cutval n (fv (fst ct)) (fv (s_xc s)) x) -> in_ellipsoid n c' k' M' x) ->
  sqvol_s n s1 <= det n (fun i j => k' * M' i j) /\
  (sqvol_s n s1 = det n (fun i j => k' * M' i j) ->
   (forall x, in_ellipsoid n c' k' M' x <-> stable_in n s1 x) /\
   (forall i, (i < n)%nat -> c' i = fv (s_xc s1) i)).
Proof.
  intros Hok Hf Hk Hu Hb Hm c' k' M' Hs' Hp' Hk' Hin. pose proof Hok as (_ & _ & _ & Hc & _).
  destruct (calc_for_R _ _ _ Hc) as [Hn Hh].
  destruct (twin_step n p s k ct s1 Hok Hf Hk Hu) as (r & sg & d & e1 & He & Eu & Ec & HT & Es & Hok1 & Hag & Hf1 & K1 & P1 & Hlt & Hg & Hz).
  { intros T r sg d HT -> E. rewrite Hh in E.
    destruct (win_window n p k (snd ct) _ r sg d Hn HT Hb Hm E) as [->|(a & b & H)]; [lra|]. apply Rlt_le, H. }
  assert (E : sqvol_s n s1 = d ^ n * (1 - sg) * sqvol_s n s).
  { rewrite (sqvol_s_pot n p s1 Hok1), (sqvol_s_pot n p s Hok), K1, P1, Rpow_mult_distr. ring. }
  pose proof (proj2 (proj2 (proj2 (proj2 (proj2 (twin_ok n p s Hok)))))) as Hag0.
  rewrite <- (sqvol_agree n p (twin n s) s He Hok Hag0) in E.
  destruct (sqvol_step n p (twin n s) k ct e1 (pd_psd _ _ _ He) Eu) as (r' & s' & d' & Es' & E').
  rewrite Ec in Es'. change (helper (twin n s)) with (s_helper s) in Es'. pose proof (eq_trans (eq_sym Es) Es') as X. injection X as <- <- <-.
  assert (EE : sqvol_s n s1 = sqvol n e1) by (rewrite E, E'; reflexivity). rewrite EE.
  rewrite <- Ec in Hb, Hm.
  destruct (step_smallest n p (twin n s) k ct e1 He Eu Hb Hm c' k' M' Hs' Hp' Hk') as (L & U).
  { intros x Hx Hs. apply Hin; [apply (twin_in n p s Hok), Hx|exact Hs]. }
  split; [exact L|]. intros X. destruct (U X) as (U1 & U2). destruct Hag as (A1 & A2 & A3).
  assert (Kp : 0 < kappa e1).
  { rewrite A2, K1. apply Rmult_lt_0_compat; [exact Hk|]. rewrite Ec in Hb, Hm. rewrite Hh in Es.
    destruct (win_window n p k (snd ct) _ r sg d Hn HT Hb Hm Es) as [->|(a & b & W)]; [lra|]. apply W. }
  split; [|intros i Hi; rewrite <- A1; apply U2, Hi].
  intros x. rewrite <- (same_set n e1 s1); [|apply (scaled_sym n _ _ _ _ Kp Hs' U1)|exact (conj A1 (conj A2 A3))].
  apply (same_scaled n _ _ _ _ _ _ x Hk' Kp Hs' Hp' U1 U2).
Qed.

(** ** A smaller kept part never leads to a larger ellipsoid *)
Lemma step_monotone n p p' e e' k k' (ct ct' : cut RA) e1 e1' : pd_ell n p e -> pd_ell n p' e' ->
  ell_update k ct e = (e1, Ok Success) -> ell_update k' ct' e' = (e1', Ok Success) ->
  bias_cond n k p (snd ct) (cut_tsq n e ct) ->
  (k <> OpCentral -> forall b0, first_beta (snd ct) = Some b0 -> b0 * b0 <= cut_tsq n e ct) ->
  bias_cond n k' p' (snd ct') (cut_tsq n e' ct') -> cut_proper n k' p' e' ct' ->
  (forall x, ell_in n e x -> cut_sat n k p e ct x -> ell_in n e' x /\ cut_sat n k' p' e' ct' x) ->
  sqvol n e1 <= sqvol n e1'.
Proof.
  intros He He' Hu Hu' Hb Hm Hb' Hp' Hin.
  pose proof (step_pd n p' e' k' ct' e1' He' Hu' Hp') as (_ & _ & _ & S1 & P1 & K1).
  refine (proj1 (step_smallest n p e k ct e1 He Hu Hb Hm (fv (xc e1')) (kappa e1') (fm (mq e1')) S1 P1 K1 _)).
  intros x Hx Hs. destruct (Hin x Hx Hs) as (Hx' & Hs').
  apply (step_contain n p' e' k' ct' e1' x (pd_psd _ _ _ He') Hu' Hb' Hx' Hs').
Qed.

Lemma parallel_helps n e k (ct : cut RA) e1 e2 : pd_ell n true e -> ell_update k ct e = (e1, Ok Success) ->
  ell_update k ct (ell_set_parallel e false) = (e2, Ok Success) -> deep k (snd ct) -> cut_proper n k true e ct ->
  sqvol n e1 <= sqvol n e2.
Proof.
  intros He Hu Hu2 Hd Hp. pose proof He as (HM & Hxc & Hc & Hsym & Hpd & Hk).
  destruct (update_inv n e ct k e1 Success HM Hxc Hu) as (_ & Hz & _).
  assert (Hc2 : calc_for n false (helper (ell_set_parallel e false))).
  { destruct Hc as (c0 & E0 & E1). cbn [helper ell_set_parallel]. rewrite E1. exists c0. split; [exact E0|reflexivity]. }
  assert (He2 : pd_ell n false (ell_set_parallel e false)) by (exact (conj HM (conj Hxc (conj Hc2 (conj Hsym (conj Hpd Hk)))))).
  assert (Hs : forall x, cut_sat n k true e ct x -> cut_sat n k false (ell_set_parallel e false) ct x).
  { intros x (H1 & _). split; [exact H1|]. destruct (snd ct) as [b|[|o [|o' l]]]; exact I. }
  destruct Hp as (x & y & Hx & Sx & Hy & Sy & Hne).
  destruct (deep_meets n true e k ct He Hz Hd (ex_intro _ x (conj Hx Sx))) as (B1 & B2).
  assert (Hp2 : cut_proper n k false (ell_set_parallel e false) ct).
  { exists x, y. split; [exact Hx|]. split; [apply Hs, Sx|]. split; [exact Hy|]. split; [apply Hs, Sy|exact Hne]. }
  destruct (deep_meets n false (ell_set_parallel e false) k ct He2 Hz Hd (ex_intro _ x (conj Hx (Hs x Sx)))) as (B3 & _).
  apply (step_monotone n true false e (ell_set_parallel e false) k k ct ct e1 e2 He He2 Hu Hu2 B1 B2 B3 Hp2).
  intros z Hz' Sz. split; [exact Hz'|apply Hs, Sz].
Qed.
