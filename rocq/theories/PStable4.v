(** [EllStable] follows [Ell]. *)
From Coq Require Import Reals List Arith Lia Lra Psatz Bool.
From Verif Require Import Arith Vec ModelCalc ModelEll ModelStable SpecDrivers Spec SpecCut SpecEll SpecStable
  PSum PAlg PCalc PCalc2 PCalc3 PCalc5 PVec PGeo PEll PEll2 PEll3 PStable PStable2 PStable3.
Import ListNotations.
Local Open Scope R_scope.

Lemma ldl_ext n M M' : low_same n M M' -> forall i k, (i < n)%nat -> (k < n)%nat -> ldl n M' i k = ldl n M i k.
Proof.
  intros H i k Hi Hk. apply sumn_ext. intros j Hj. rewrite !(low_same_lowf n M M' H) by assumption.
  rewrite (H j j) by lia. reflexivity.
Qed.

Lemma inverse_ext n M M' P P' :
  (forall i j, (i < n)%nat -> (j < n)%nat -> M' i j = M i j) ->
  (forall i j, (i < n)%nat -> (j < n)%nat -> P' i j = P i j) ->
  inverse n M P -> inverse n M' P'.
Proof.
  intros H1 H2 H i k Hi Hk. rewrite <- (H i k Hi Hk). apply sumn_ext. intros j Hj. rewrite H1, H2 by assumption. reflexivity.
Qed.

Lemma form_unit n M i k : (i < n)%nat -> (k < n)%nat ->
  form n M (fun j => if Nat.eqb j i then 1 else 0) (fun j => if Nat.eqb j k then 1 else 0) = ldl n M i k.
Proof.
  intros Hi Hk. rewrite form_ldl.
  rewrite (sumn_delta_l n i (fun i => sumn n (fun j => ldl n M i j * (if Nat.eqb j k then 1 else 0))) Hi).
  apply (sumn_delta_r n k (fun j => ldl n M i j) Hk).
Qed.

Lemma dot_unit n g k : (k < n)%nat -> dot n g (fun j => if Nat.eqb j k then 1 else 0) = g k.
Proof. intros Hk. apply (sumn_delta_r n k g Hk). Qed.

(** Sherman-Morrison *)
Lemma rank1_inverse n M P g mu s w q :
  inverse n M P -> symmetric n M ->
  (forall i, (i < n)%nat -> mv n M g i = q i) ->
  (forall k, (k < n)%nat -> sumn n (fun j => q j * P j k) = g k) ->
  dot n g q = w -> w <> 0 -> mu * (1 - s) = s ->
  inverse n (cutM n M g w s) (fun i k => P i k + mu / w * (g i * g k)).
Proof.
  intros HI Hsym Hq HP Hw Hw0 Hmu i k Hi Hk. unfold cutM.
  rewrite (sumn_ext n _ (fun j => M i j * P j k + mu / w * g k * (M i j * g j)
     - s / w * q i * (q j * P j k) - s / w * (mu / w) * q i * g k * (g j * q j))).
  2:{ intros j Hj. rewrite !Hq by assumption. field. exact Hw0. }
  rewrite !sumn_minus, sumn_plus, !sumn_scal, (HI i k Hi Hk), HP by exact Hk.
  fold (mv n M g i). rewrite Hq by exact Hi. fold (dot n g q). rewrite Hw.
  transitivity ((if Nat.eqb i k then 1 else 0) + q i * g k / w * (mu * (1 - s) - s)); [field; exact Hw0|].
  rewrite Hmu. ring.
Qed.

(** positive definite, scale allowed to be zero *)
Definition npd (n : nat) (p : bool) (e : ell RA) : Prop :=
  mat_wf n (mq e) /\ vec_wf n (xc e) /\ calc_for n p (helper e) /\
  symmetric n (fm (mq e)) /\ posdef n (fm (mq e)) /\ 0 <= kappa e.

Lemma pd_npd n p e : pd_ell n p e -> npd n p e.
Proof. intros (H1 & H2 & H3 & H4 & H5 & H6). repeat split; try assumption; try apply H1. apply Rlt_le, H6. Qed.

Lemma npd_psd n p e : npd n p e -> psd_ell n p e.
Proof. intros (H1 & H2 & H3 & H4 & H5 & H6). repeat split; try assumption; try apply H1. apply posdef_semi, H5. Qed.

Section Step.
Variables (n : nat) (p : bool) (e : ell RA) (s : stable RA) (g : vec RA).
Hypothesis Hpd : npd n p e.
Hypothesis Hok : stable_ok n p s.
Hypothesis Hag : agree n e s.
Hypothesis Hg : length g = n.
Hypothesis Hz : nonzero n (fv g).

Let HI : inverse n (fm (mq e)) (ldl n (fm (s_mq s))) := proj2 (proj2 (proj2 (proj2 Hag))).
Let q := st_q n s g.

Lemma q_solve k : (k < n)%nat -> sumn n (fun i => ldl n (fm (s_mq s)) k i * fv q i) = fv g k.
Proof. intros Hk. apply form_solve; [|exact Hk]. intros y. apply (st_form n p s g Hok Hg). Qed.

Lemma q_mv i : (i < n)%nat -> mv n (fm (mq e)) (fv g) i = fv q i.
Proof. intros Hi. apply (inverse_apply n _ _ (fv q) (fv g) HI); [apply q_solve|exact Hi]. Qed.

Lemma q_list : mvmul (mq e) g = q.
Proof.
  apply (list_ext n).
  - rewrite mvmul_length. apply Hpd.
  - apply (st_qR n p s g Hok Hg).
  - intros i Hi. rewrite (mvmul_R n); [apply q_mv, Hi|apply Hpd|exact Hg|exact Hi].
Qed.

Lemma q_om : quad n (fm (mq e)) (fv g) = st_om n s g.
Proof.
  rewrite (st_om_form n p s g Hok Hg). unfold quad, bil. apply dot_ext; [reflexivity|]. apply q_mv.
Qed.

Lemma st_m1_same : low_same n (fm (s_mq s)) (fm (st_m1 n s g)).
Proof. apply (st_fwd n p s g Hok Hg). Qed.

Lemma pre_ok xc1 kap T : vec_wf n xc1 ->
  stable_ok n p (mkStable (s_no_defer_trick s) (st_m1 n s g) xc1 kap T n (s_helper s)).
Proof.
  intros Hx. destruct Hok as (H1 & H2 & H3 & H4 & H5).
  split; [apply (st_fwd n p s g Hok Hg)|]. split; [exact Hx|]. split; [reflexivity|]. split; [exact H4|].
  intros j Hj. cbn [s_mq]. rewrite (st_m1_same j j) by lia. apply H5, Hj.
Qed.

Lemma pre_inv : inverse n (fm (mq e)) (ldl n (fm (st_m1 n s g))).
Proof.
  eapply inverse_ext; [| |exact HI]; [reflexivity|]. intros i j Hi Hj. apply ldl_ext; [apply st_m1_same|assumption|assumption].
Qed.

Lemma move_eq rho : vsub (xc e) (vscale (A:=RA) (rho / quad n (fm (mq e)) (fv g)) (mvmul (mq e) g)) = st_move n s g rho.
Proof. rewrite q_om, q_list, (proj1 Hag). reflexivity. Qed.

Lemma move_wf rho : vec_wf n (st_move n s g rho).
Proof.
  unfold st_move, vec_wf. destruct Hok as (_ & H2 & _). rewrite vsub_length; [exact H2|].
  rewrite vscale_length. pose proof (proj1 (st_qR n p s g Hok Hg)). unfold vec_wf in H2. llia.
Qed.

(** the update of the factors gives the inverse of the updated shape *)
Lemma new_inv sigma m2 : sigma < 1 ->
  (forall x y, form n (fm m2) x y = form n (fm (s_mq s)) x y
     + sigma / (1 - sigma) / st_om n s g * (dot n (fv g) x * dot n (fv g) y)) ->
  inverse n (cutM n (fm (mq e)) (fv g) (quad n (fm (mq e)) (fv g)) sigma) (ldl n (fm m2)).
Proof.
  intros Hlt Hf. rewrite q_om. pose proof (st_om_pos n p s g Hok Hg Hz) as Hom.
  eapply inverse_ext; [reflexivity| |
    apply (rank1_inverse n (fm (mq e)) (ldl n (fm (s_mq s))) (fv g) (sigma / (1 - sigma)) sigma (st_om n s g) (fv q))].
  - intros i k Hi Hk. cbn beta. rewrite <- !(form_unit n _ i k) by assumption. rewrite Hf.
    rewrite !dot_unit by assumption. reflexivity.
  - exact HI.
  - apply Hpd.
  - apply q_mv.
  - intros k Hk. rewrite <- q_solve by exact Hk. apply sumn_ext. intros j Hj. rewrite ldl_sym. ring.
  - symmetry. apply (st_om_form n p s g Hok Hg).
  - lra.
  - field. lra.
Qed.

Lemma step_agree k beta e1 o : no_defer_trick e = false -> s_no_defer_trick s = false ->
  ell_update k (g, beta) e = (e1, o) ->
  (forall rho sigma delta, strat_of k (helper e) beta (kappa e * quad n (fm (mq e)) (fv g)) = Ok (Success, Some (rho, sigma, delta)) ->
     sigma < 1) ->
  exists s1, stable_update k (g, beta) s = (s1, o) /\ stable_ok n p s1 /\ agree n e1 s1 /\
    s_no_defer_trick s1 = false /\ no_defer_trick e1 = false /\
    (o <> Ok Success -> forall i j, (j <= i < n)%nat -> fm (s_mq s1) i j = fm (s_mq s) i j) /\
    (forall rho sigma delta, strat_of k (helper e) beta (kappa e * quad n (fm (mq e)) (fv g)) = Ok (Success, Some (rho, sigma, delta)) ->
       sigma < 1 /\ s_kappa s1 = s_kappa s * delta /\
       prodn n (fun j => fm (s_mq s1) j j) = prodn n (fun j => fm (s_mq s) j j) * (1 - sigma)).
Proof.
  intros Hf Hfs Hu Hsg. pose proof Hpd as (HM & Hxc & Hc & Hsym & Hpos & Hk).
  pose proof Hag as (A1 & A2 & A3 & A4 & A5).
  pose proof (st_om_pos n p s g Hok Hg Hz) as Hom.
  set (w := quad n (fm (mq e)) (fv g)) in *.
  assert (Hw : w = st_om n s g) by apply q_om.
  rewrite (update_eq n e g beta HM Hxc Hg k Hz) in Hu by (fold w; lra). fold w in Hu.
  pose proof (st_update n p s g Hok Hg k beta Hz) as (U1 & U2 & U3). cbn zeta in U1, U2, U3.
  assert (HT : s_kappa s * st_om n s g = kappa e * w) by (rewrite A2, Hw; reflexivity).
  rewrite HT in U1, U2, U3. rewrite A4 in Hu, Hsg |- *. fold w in Hsg.
  destruct (calc_for_R _ _ _ Hc) as [Hn Hh].
  destruct (strat_of k (s_helper s) beta (kappa e * w)) as [[st [[[rho sigma] delta]|]]|x] eqn:Es.
  - injection Hu as <- <-. pose proof (triple_success _ _ _ _ _ _ Es) as ->.
    assert (Hmq : forall i j, (i < n)%nat -> (j < n)%nat ->
      fm (mq (new_ell e g w rho sigma delta)) i j = cutM n (fm (mq e)) (fv g) w sigma i j).
    { intros i j Hi Hj. unfold w. rewrite (new_mq n e g HM Hg rho sigma delta i j Hi Hj). rewrite Hf. ring. }
    pose proof (Hsg rho sigma delta eq_refl) as Hlt.
    destruct (U3 Success rho sigma delta eq_refl) as (_ & U0 & Uc).
    assert (Hxc1 : xc (new_ell e g w rho sigma delta) = st_move n s g rho).
    { rewrite <- move_eq. fold w. unfold new_ell. rewrite Hf. reflexivity. }
    assert (Hka : kappa (new_ell e g w rho sigma delta) = kappa e * delta).
    { unfold w. rewrite new_kappa, Hf. reflexivity. }
    assert (Hts : tsq (new_ell e g w rho sigma delta) = kappa e * w) by (unfold w; apply new_tsq).
    assert (Hhe : helper (new_ell e g w rho sigma delta) = helper e) by (unfold w; apply new_helper).
    assert (Hfl : no_defer_trick (new_ell e g w rho sigma delta) = false) by (unfold w; rewrite new_flag; exact Hf).
    destruct (Req_dec sigma 0) as [E0|E0].
    + subst sigma. specialize (U0 eq_refl).
      assert (Hd1 : kappa e * delta = kappa e).
      { destruct Hk as [Hk|<-]; [|apply Rmult_0_l].
        assert (Hd1 : delta = 1); [|rewrite Hd1; apply Rmult_1_r].
        apply (sigma0_delta1 n p k beta (kappa e * w) rho); [exact Hn| |rewrite <- Hh, A4; exact Es].
        apply Rmult_lt_0_compat; lra. }
      eexists. split; [exact U0|]. split; [apply pre_ok, move_wf|]. split.
      { split; [exact Hxc1|]. split; [rewrite Hka, Hd1; exact A2|]. split; [exact Hts|].
        split; [rewrite Hhe; exact A4|]. cbn [s_mq].
        eapply inverse_ext; [|reflexivity|exact pre_inv]. intros i j Hi Hj. rewrite Hmq by assumption.
        unfold cutM. unfold Rdiv. ring. }
      split; [exact Hfs|]. split; [exact Hfl|]. split; [congruence|].
      intros r' s' d' E'. injection E' as <- <- <-. split; [exact Hlt|]. cbn [s_kappa s_mq]. split; [rewrite <- A2; symmetry; exact Hd1|].
      rewrite Rminus_0_r, Rmult_1_r. apply prodn_ext. intros j Hj. apply st_m1_same. lia.
    + destruct (Uc Hlt E0) as (m2 & Em2 & U).
      rewrite Hfs in U.
      assert (Hmu : sigma / (1 - sigma) <> 0).
      { intros H. apply Rmult_integral in H. destruct H as [H|H]; [lra|]. assert (H0 : 1 - sigma <> 0) by lra. apply Rinv_neq_0_compat in H0. contradiction. }
      assert (Hmu1 : -1 < sigma / (1 - sigma)).
      { apply Rmult_lt_reg_r with (1 - sigma); [lra|]. unfold Rdiv. rewrite Rmult_assoc, Rinv_l by lra. lra. }
      destruct (st_rank1 n p s g Hok Hg _ Hom Hmu Hmu1) as (m2' & Em2' & R1 & R2 & R3 & R4).
      assert (m2' = m2) by (pose proof (eq_trans (eq_sym Em2') Em2) as E; injection E; auto). subst m2'.
      eexists. split; [exact U|]. split; [|split].
      * split; [exact R1|]. split; [apply move_wf|]. split; [reflexivity|]. split; [|exact R2].
        apply Hok.
      * split; [exact Hxc1|]. split; [rewrite Hka, A2; reflexivity|]. split; [exact Hts|].
        split; [rewrite Hhe; exact A4|]. cbn [s_mq].
        eapply inverse_ext; [|reflexivity|apply (new_inv sigma m2 Hlt R3)]. exact Hmq.
      * split; [reflexivity|]. split; [exact Hfl|]. split; [congruence|].
        intros r' s' d' E'. injection E' as <- <- <-. split; [exact Hlt|]. cbn [s_kappa s_mq]. split; [reflexivity|].
        replace (1 + sigma / (1 - sigma)) with (/ (1 - sigma)) in R4 by (field; lra).
        rewrite <- R4. field. lra.
  - injection Hu as <- <-. specialize (U2 st eq_refl).
    exists (st_pre n s g). split; [exact U2|]. split; [apply pre_ok, Hok|]. split.
    { split; [exact A1|]. split; [exact A2|]. split; [cbn; rewrite Hw, A2; reflexivity|]. split; [exact A4|]. exact pre_inv. }
    split; [exact Hfs|]. split; [exact Hf|]. split; [intros _ i j Hij; apply st_m1_same; exact Hij|]. intros ? ? ? E; discriminate.
  - injection Hu as <- <-. specialize (U1 x eq_refl).
    exists (st_pre n s g). split; [exact U1|]. split; [apply pre_ok, Hok|]. split.
    { split; [exact A1|]. split; [exact A2|]. split; [cbn; rewrite Hw, A2; reflexivity|]. split; [exact A4|]. exact pre_inv. }
    split; [exact Hfs|]. split; [exact Hf|]. split; [intros _ i j Hij; apply st_m1_same; exact Hij|]. intros ? ? ? E; discriminate.
Qed.
End Step.

(** a positive definite result means [sigma < 1] *)
Lemma pd_sigma n p e (g : vec RA) beta k e1 o : npd n p e -> length g = n -> nonzero n (fv g) ->
  ell_update k (g, beta) e = (e1, o) -> no_defer_trick e = false -> (o = Ok Success -> posdef n (fm (mq e1))) ->
  forall rho sigma delta, strat_of k (helper e) beta (kappa e * quad n (fm (mq e)) (fv g)) = Ok (Success, Some (rho, sigma, delta)) ->
  sigma < 1.
Proof.
  intros (HM & Hxc & Hc & Hsym & Hpos & Hk) Hg Hz Hu Hf Hpd1 rho sigma delta Es.
  set (w := quad n (fm (mq e)) (fv g)) in *.
  assert (Hw : 0 < w) by apply Hpos, Hz.
  rewrite (update_eq n e g beta HM Hxc Hg k Hz) in Hu by (fold w; lra). fold w in Hu. rewrite Es in Hu.
  injection Hu as <- <-. specialize (Hpd1 eq_refl (fv g) Hz).
  unfold quad in Hpd1. rewrite (bil_ext n _ (cutM n (fm (mq e)) (fv g) w sigma) (fv g) (fv g) (fv g) (fv g)) in Hpd1.
  - unfold w at 1 in Hpd1. rewrite bil_cutM in Hpd1 by assumption.
    change (bil n (fm (mq e)) (fv g) (fv g)) with w in Hpd1. fold w in Hpd1.
    replace (w - sigma / w * (w * w)) with (w * (1 - sigma)) in Hpd1 by (field; lra).
    clear - Hpd1 Hw. clearbody w. change (num RA) with R in *. nra.
  - intros i j Hi Hj. unfold w. rewrite (new_mq n e g HM Hg rho sigma delta i j Hi Hj). rewrite Hf. ring.
  - reflexivity.
  - reflexivity.
Qed.

(** ** Runs *)
Lemma seq_agree n p l : forall (e : ell RA) (s : stable RA),
  stable_ok n p s -> agree n e s -> no_defer_trick e = false -> s_no_defer_trick s = false ->
  grads_nonzero l -> grads_fit n l ->
  (forall l1 l2, l = l1 ++ l2 -> pd_ell n p (fst (ell_seq l1 e))) ->
  snd (ell_seq l e) = snd (stable_seq l s) /\ agree n (fst (ell_seq l e)) (fst (stable_seq l s)) /\
  stable_ok n p (fst (stable_seq l s)).
Proof.
  induction l as [|[k [g beta]] l IH]; intros e s Hok Hag Hf Hfs Hz Hfit Hp; [auto|].
  cbn [ell_seq stable_seq]. destruct (ell_update k (g, beta) e) as [e1 o] eqn:Eu.
  assert (Hpd : pd_ell n p e) by apply (Hp [] _ eq_refl).
  assert (Hpd1 : pd_ell n p e1).
  { specialize (Hp [(k, (g, beta))] l eq_refl). cbn [ell_seq] in Hp. rewrite Eu in Hp. exact Hp. }
  assert (Hstep : exists s1, stable_update k (g, beta) s = (s1, o) /\ stable_ok n p s1 /\ agree n e1 s1 /\
    s_no_defer_trick s1 = false /\ no_defer_trick e1 = false).
  { pose proof (Hz k (g, beta) (or_introl eq_refl)) as Hnz. cbn [fst] in Hnz.
    pose proof (Hfit k (g, beta) (or_introl eq_refl)) as Hg. unfold vec_wf in Hg. cbn [fst] in Hg.
    - subst n. destruct (step_agree (length g) p e s g (pd_npd _ _ _ Hpd) Hok Hag eq_refl Hnz k beta e1 o Hf Hfs Eu
          (pd_sigma _ p e g beta k e1 o (pd_npd _ _ _ Hpd) eq_refl Hnz Eu Hf (fun _ => proj1 (proj2 (proj2 (proj2 (proj2 Hpd1)))))))
        as (s1 & H1 & H2 & H3 & H4 & H5 & _). eauto 8.
  }
  destruct Hstep as (s1 & Es & Hok1 & Hag1 & Hfs1 & Hf1). rewrite Es.
  destruct (IH e1 s1 Hok1 Hag1 Hf1 Hfs1) as (I1 & I2 & I3).
  { intros k' ct' Hin. apply (Hz k' ct'). right. exact Hin. }
  { intros k' ct' Hin. apply (Hfit k' ct'). right. exact Hin. }
  { intros l1 l2 ->. specialize (Hp ((k, (g, beta)) :: l1) l2 eq_refl). cbn [ell_seq] in Hp. rewrite Eu in Hp.
    destruct (ell_seq l1 e1). exact Hp. }
  destruct (ell_seq l e1), (stable_seq l s1). cbn [fst snd] in *. split; [f_equal; exact I1|auto].
Qed.
