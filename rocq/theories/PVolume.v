(** The squared volume of [Ell]'s ellipsoid under an update. *)
From Coq Require Import Reals List Arith Lia Lra Psatz.
From Verif Require Import Arith Vec ModelCalc ModelEll Spec SpecDrivers SpecCut SpecEll SpecConverge SpecDet
  PSum PVec PCalc PCalcEx PCalc2 PCalc3 PCalc4 PCalc5 PGeo PEll PEll2 PEll3 PConv PConv2 PDet.
Import ListNotations.
Local Open Scope R_scope.

Lemma sqvol_step n p e k (ct : cut RA) e1 : psd_ell n p e -> ell_update k ct e = (e1, Ok Success) ->
  exists rho sigma delta, strat_of k (helper e) (snd ct) (cut_tsq n e ct) = Ok (Success, Some (rho, sigma, delta)) /\
  sqvol n e1 = delta ^ n * (1 - sigma) * sqvol n e.
Proof.
  intros He Hu. pose proof He as (HM & Hxc & Hc & Hsym & Hp).
  destruct (update_inv n e ct k e1 Success HM Hxc Hu) as (Hg & Hz & [(_ & E & _)|(Hw & [H|(_ & E & _)])]);
    [discriminate| |congruence].
  destruct H as (r & s & d & Hstrat & _ & ->). exists r, s, d. split; [exact Hstrat|].
  destruct ct as [g beta]. unfold wq in *. cbn [fst snd] in *. unfold sqvol. rewrite new_kappa.
  set (w := quad n (fm (mq e)) (fv g)) in *.
  rewrite (det_ext n _ (fun i j => (kappa e * d) * (fm (mq e) i j - s / w * (mv n (fm (mq e)) (fv g) i * mv n (fm (mq e)) (fv g) j)))).
  - rewrite (det_scal n (fun i j => fm (mq e) i j - s / w * (mv n (fm (mq e)) (fv g) i * mv n (fm (mq e)) (fv g) j)) (kappa e * d)).
    rewrite (det_cut n (fm (mq e)) (fv g) (s / w) Hsym). fold w. rewrite (det_scal n (fm (mq e)) (kappa e)), Rpow_mult_distr.
    assert (Ew : s / w * w = s) by (unfold Rdiv; rewrite Rmult_assoc, Rinv_l; [apply Rmult_1_r|exact Hw]).
    change (num RA) with R in *. rewrite Ew. ring.
  - intros i j Hi Hj. unfold w. rewrite new_mq by assumption. fold w. unfold cutM. destruct (no_defer_trick e); ring.
Qed.

Lemma sqvol_pos n p e : pd_ell n p e -> 0 < sqvol n e.
Proof.
  intros (HM & Hxc & Hc & Hsym & Hp & Hk). unfold sqvol. rewrite det_scal.
  apply Rmult_lt_0_compat; [apply pow_lt, Hk|apply det_posdef; assumption].
Qed.

Lemma sqvol_shrinks n p e k (ct : cut RA) e1 : pd_ell n p e -> ell_update k ct e = (e1, Ok Success) ->
  deep k (snd ct) -> sqvol n e1 <= exp (- / (INR n + 1)) * sqvol n e /\ sqvol n e1 < sqvol n e.
Proof.
  intros He Hu Hd. destruct (sqvol_step n p e k ct e1 (pd_psd _ _ _ He) Hu) as (r & s & d & Hs & ->).
  pose proof (sqvol_pos n p e He) as P. pose proof He as (HM & Hxc & Hc & Hsym & Hp & Hk).
  destruct (update_inv n e ct k e1 Success HM Hxc Hu) as (Hg & Hz & _).
  pose proof (pd_omega n p e ct He Hz) as HT.
  destruct (volume_factor n p (helper e) k (snd ct) _ r s d Hc HT Hd Hs) as (V1 & V2).
  split; [apply Rmult_le_compat_r; lra|]. nra.
Qed.

Lemma sqvol_init n v x0 (e : ell RA) : ell_init v x0 = Ok e -> vec_wf n x0 ->
  match v with VScalar _ => True | VDiag d => length d = n end -> sqvol n e = vol0 n v.
Proof.
  intros E Hx Hv. destruct (init_inv v x0 e E) as (Hn & _ & _ & _ & _ & _ & Hk).
  destruct (init_entries v x0 e E) as [_ Hent].
  { destruct v; [exact I|]. unfold vec_wf in Hx. exact (eq_trans Hv (eq_sym Hx)). }
  unfold vec_wf in Hx. subst n. unfold sqvol. rewrite Hk. destruct v as [k|d]; cbn [vol0].
  - rewrite (det_diag _ _ (fun _ => k)); [apply prodn_const|]. intros i j Hi Hj. rewrite Hent by assumption.
    destruct (Nat.eqb i j); change (aone (a:=RA)) with 1; change (azero (a:=RA)) with 0; ring.
  - apply det_diag. intros i j Hi Hj. rewrite Hent by assumption. change (aone (a:=RA)) with 1. destruct (Nat.eqb i j); ring.
Qed.

Lemma refused_sqvol n k ct (e e1 : ell RA) o : ell_update k ct e = (e1, o) -> o <> Ok Success -> sqvol n e1 = sqvol n e.
Proof. intros H N. destruct (update_unchanged k ct e e1 o H N) as (_ & H2 & H3 & _). unfold sqvol. rewrite H2, H3. reflexivity. Qed.

Lemma sqvol_run n p e l e' : pd_ell n p e -> ell_run e l e' ->
  (forall e0 k ct, In (e0, k, ct, Ok Success) l -> deep k (snd ct) /\ cut_proper n k p e0 ct) ->
  sqvol n e' <= exp (- INR (accepted l) / (INR n + 1)) * sqvol n e.
Proof.
  intros He Hr. revert He. induction Hr as [e|e k ct e1 o l e2 Hu Hr IH]; intros He Hd.
  - cbn [accepted]. change (INR 0) with 0. replace (- 0 / (INR n + 1)) with 0 by (unfold Rdiv; ring). rewrite exp_0. lra.
  - assert (Hd' : forall e0 k0 ct0, In (e0, k0, ct0, Ok Success) l -> deep k0 (snd ct0) /\ cut_proper n k0 p e0 ct0)
      by (intros; apply (Hd e0 k0 ct0); right; assumption).
    assert (D : o = Ok Success \/ o <> Ok Success) by (destruct o as [[]|]; auto; right; discriminate).
    pose proof (pos_INR n) as Pn.
    destruct D as [->|N].
    + destruct (Hd e k ct (or_introl eq_refl)) as (Dp & Pr).
      pose proof (step_pd n p e k ct e1 He Hu Pr) as He1. specialize (IH He1 Hd').
      destruct (sqvol_shrinks n p e k ct e1 He Hu Dp) as (S1 & _).
      cbn [accepted]. rewrite S_INR.
      replace (- (INR (accepted l) + 1) / (INR n + 1)) with (- INR (accepted l) / (INR n + 1) + - / (INR n + 1)) by (field; lra).
      rewrite exp_plus, Rmult_assoc. eapply Rle_trans; [exact IH|]. apply Rmult_le_compat_l; [left; apply exp_pos|exact S1].
    + assert (He1 : pd_ell n p e1).
      { destruct (update_unchanged k ct e e1 o Hu N) as (H1 & H2 & H3 & H4 & _). destruct He as (A1 & A2 & A3 & A4 & A5 & A6).
        split; [rewrite H2; exact A1|]. split; [rewrite H1; exact A2|]. split; [rewrite H4; exact A3|]. rewrite H2, H3. auto. }
      specialize (IH He1 Hd'). rewrite (refused_sqvol n k ct e e1 o Hu N) in IH.
      assert (Ea : accepted ((e, k, ct, o) :: l) = accepted l) by (cbn [accepted]; destruct o as [[]|]; congruence).
      rewrite Ea. exact IH.
Qed.

(** ** C24: no division by a zero omega *)
Lemma no_effect_only_q n p c k beta T r : calc_for n p c -> 0 < T -> strat_of k c beta T = Ok (NoEffect, r) -> k = OpQ.
Proof.
  intros Hc HT H. destruct (calc_for_R _ _ _ Hc) as [Hn ->]. rewrite strat_norm in H by assumption.
  destruct k; [exfalso|exfalso|reflexivity]; cbn [is_q] in H;
    match goal with H : eff_res false _ _ ?x = _ |- _ => destruct x as [x1|[b|a b]] end; cbn [eff_res] in H; try discriminate;
    unfold par_res, single_res in H; cbn [andb] in H;
    repeat match goal with H : (if ?c then _ else _) = _ |- _ => destruct c end; discriminate.
Qed.

Lemma pd_omega_use n p (e : ell RA) k (ct : cut RA) e1 o : pd_ell n p e -> vec_wf n (fst ct) -> nonzero n (fv (fst ct)) ->
  ell_update k ct e = (e1, o) -> 0 < quad n (fm (mq e)) (fv (fst ct)) /\ 0 < cut_tsq n e ct /\
  (o = Ok NoEffect -> k = OpQ /\ strat_of OpQ (helper e) (snd ct) (cut_tsq n e ct) = Ok (NoEffect, None)).
Proof.
  intros He Hg Hz Hu. pose proof He as (HM & Hxc & Hc & Hsym & Hp & Hk).
  pose proof (pd_omega n p e ct He Hz) as HT. split; [apply Hp, Hz|]. split; [exact HT|]. intros ->.
  destruct ct as [g be]. cbn [fst snd] in *.
  rewrite (update_eq n e g be HM Hxc Hg k Hz) in Hu by (pose proof (Hp _ Hz); lra).
  change (kappa e * quad n (fm (mq e)) (fv g)) with (cut_tsq n e (g, be)) in Hu.
  destruct (strat_of k (helper e) be (cut_tsq n e (g, be))) as [[st [[[r s] d]|]]|x] eqn:E; [| |discriminate].
  - exfalso. assert (st = NoEffect) by (injection Hu; auto). subst st.
    destruct (triple_iff_success n p (helper e) k be _ _ _ Hc HT E) as (H1 & _). discriminate H1. eauto.
  - assert (st = NoEffect) by (injection Hu; auto). subst st.
    pose proof (no_effect_only_q n p (helper e) k be _ _ Hc HT E). subst k. split; [reflexivity|exact E].
Qed.
