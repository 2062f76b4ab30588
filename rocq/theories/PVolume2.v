(** [EllStable]: centre, [tsq] and volume under an update, via the [Ell] object that describes the same ellipsoid. *)
From Coq Require Import Reals List Arith Lia Lra Psatz.
From Verif Require Import Arith Vec ModelCalc ModelEll ModelStable Spec SpecDrivers SpecCut SpecEll SpecStable SpecConverge SpecDet
  PSum PVec PCalc PCalcEx PCalc2 PCalc3 PCalc4 PCalc5 PGeo PEll PEll2 PEll3 PStable PStable2 PStable3 PStable4 PStable5 PConv PDet PVolume.
Import ListNotations.
Local Open Scope R_scope.

Lemma twin_step n p s k (ct : cut RA) s1 : stable_ok n p s -> s_no_defer_trick s = false -> 0 < s_kappa s ->
  stable_update k ct s = (s1, Ok Success) ->
  (forall T rho sigma delta, 0 < T -> T = s_tsq s1 -> strat_of k (s_helper s) (snd ct) T = Ok (Success, Some (rho, sigma, delta)) -> sigma <= 1) ->
  exists rho sigma delta e1, pd_ell n p (twin n s) /\ ell_update k ct (twin n s) = (e1, Ok Success) /\
    cut_tsq n (twin n s) ct = s_tsq s1 /\ 0 < s_tsq s1 /\
    strat_of k (s_helper s) (snd ct) (s_tsq s1) = Ok (Success, Some (rho, sigma, delta)) /\
    stable_ok n p s1 /\ agree n e1 s1 /\ s_no_defer_trick s1 = false /\ s_kappa s1 = s_kappa s * delta /\
    prodn n (fun j => fm (s_mq s1) j j) = prodn n (fun j => fm (s_mq s) j j) * (1 - sigma) /\ sigma < 1 /\
    vec_wf n (fst ct) /\ nonzero n (fv (fst ct)).
Proof.
  intros Hok Hf Hk Hu Hle. destruct ct as [g beta]. cbn [fst snd] in *.
  destruct (stable_success n p s k g beta s1 Hok Hu) as (Hg & Hz & rho & sigma & delta & Es & Hne).
  pose proof (stable_tsq n p s k g beta s1 _ Hok Hg Hu) as HT. rewrite <- HT in Es.
  pose proof (twin_npd n p s Hok (Rlt_le _ _ Hk)) as Hpd. pose proof (proj2 (proj2 (proj2 (proj2 (proj2 (twin_ok n p s Hok)))))) as Hag.
  assert (He : pd_ell n p (twin n s)).
  { destruct Hpd as (H1 & H2 & H3 & H4 & H5 & _). exact (conj H1 (conj H2 (conj H3 (conj H4 (conj H5 Hk))))). }
  set (e := twin n s) in *.
  assert (Hq : quad n (fm (mq e)) (fv g) = st_om n s g) by apply (q_om n p e s g Hok Hag Hg).
  pose proof (st_om_pos n p s g Hok Hg Hz) as Hom.
  assert (HTp : 0 < s_tsq s1) by (rewrite HT; apply Rmult_lt_0_compat; assumption).
  assert (Hlt : sigma < 1).
  { pose proof (Hle _ rho sigma delta HTp eq_refl Es). clear - H Hne. change (num RA) with R in *. lra. }
  assert (Ec : kappa e * quad n (fm (mq e)) (fv g) = s_tsq s1) by (rewrite Hq, HT; reflexivity).
  destruct (ell_update k (g, beta) e) as [e1 o] eqn:Eu.
  assert (Eo : o = Ok Success).
  { rewrite (update_eq n e g beta) in Eu; [|apply Hpd|apply Hpd|exact Hg|exact Hz|rewrite Hq; lra].
    rewrite Ec in Eu. change (helper e) with (s_helper s) in Eu. rewrite Es in Eu. injection Eu as <- <-. reflexivity. }
  subst o.
  destruct (step_agree n p e s g Hpd Hok Hag Hg Hz k beta e1 (Ok Success) eq_refl Hf Eu) as (s1' & Es1 & Hok1 & Hag1 & Hf1 & _ & _ & Hst).
  { intros r' s' d' E'. rewrite Ec in E'. change (helper e) with (s_helper s) in E'.
    pose proof (eq_trans (eq_sym Es) E') as E. injection E as _ <- _. exact Hlt. }
  rewrite Hu in Es1. injection Es1 as <-.
  rewrite Ec in Hst. change (helper e) with (s_helper s) in Hst. destruct (Hst rho sigma delta Es) as (_ & K1 & P1).
  exists rho, sigma, delta, e1. unfold cut_tsq. cbn [fst]. rewrite Ec.
  split; [exact He|]. split; [reflexivity|]. split; [reflexivity|]. split; [exact HTp|]. split; [exact Es|]. split; [exact Hok1|].
  split; [exact Hag1|]. split; [exact Hf1|]. split; [exact K1|]. split; [exact P1|]. split; [exact Hlt|]. split; [exact Hg|exact Hz].
Qed.

(** ** The determinant of [L D^-1 L^T] *)
Lemma ldl_shift n M i k : (i < n)%nat -> (k < n)%nat ->
  ldl n (fun a b => M (S a) (S b)) i k = ldl (S n) M (S i) (S k) - lowf M (S i) O * lowf M (S k) O / M O O.
Proof.
  intros Hi Hk. unfold ldl. rewrite sumn_S_l. 
  rewrite (sumn_ext n (fun j => lowf (fun a b => M (S a) (S b)) i j * lowf (fun a b => M (S a) (S b)) k j / M (S j) (S j))
             (fun j => lowf M (S i) (S j) * lowf M (S k) (S j) / M (S j) (S j))); [ring|].
  intros j _. unfold lowf. cbn [Nat.ltb Nat.leb Nat.eqb]. reflexivity.
Qed.

Lemma ldl_col0 n M i : ldl (S n) M i O = lowf M i O / M O O.
Proof.
  unfold ldl. rewrite sumn_S_l, (sumn_0 n).
  - unfold lowf at 2. cbn [Nat.ltb Nat.leb Nat.eqb]. unfold Rdiv. ring.
  - intros j _. unfold lowf at 2. cbn [Nat.ltb Nat.leb Nat.eqb]. unfold Rdiv. ring.
Qed.

Lemma ldl_row0 n M i : ldl (S n) M O i = lowf M i O / M O O.
Proof.
  unfold ldl. rewrite sumn_S_l, (sumn_0 n).
  - unfold lowf at 1. cbn [Nat.ltb Nat.leb Nat.eqb]. unfold Rdiv. ring.
  - intros j _. unfold lowf at 1. cbn [Nat.ltb Nat.leb Nat.eqb]. unfold Rdiv. ring.
Qed.

Lemma det_ldl n : forall M, (forall j, (j < n)%nat -> M j j <> 0) -> det n (ldl n M) = prodn n (fun j => / M j j).
Proof.
  induction n as [|n IH]; intros M H; [reflexivity|]. pose proof (H O ltac:(lia)) as H0.
  rewrite <- (det_add_rows (S n) O (fun i => - lowf M i O) (S n) (ldl (S n) M)) by lia.
  rewrite det_block.
  - rewrite Nat.eqb_refl, Bool.andb_false_r, ldl_col0, prodn_S_l. f_equal.
    + unfold lowf. cbn [Nat.ltb Nat.leb Nat.eqb]. unfold Rdiv. ring.
    + rewrite <- (IH (fun a b => M (S a) (S b))) by (intros j Hj; apply H; lia).
      apply det_ext. intros a b Ha Hb. destruct (Nat.ltb_spec (S a) (S n)); [|lia]. cbn [Nat.eqb andb negb].
      rewrite ldl_shift, ldl_row0 by assumption. unfold Rdiv. ring.
  - intros i Hi. destruct (Nat.ltb_spec i (S n)); [|lia]. destruct (Nat.eqb_spec i O); [lia|]. cbn [andb negb].
    rewrite !ldl_col0. unfold lowf at 2. cbn [Nat.ltb Nat.leb Nat.eqb]. unfold Rdiv. ring.
Qed.

Lemma prodn_inv n f : (forall j, (j < n)%nat -> f j <> 0) -> prodn n (fun j => / f j) = / prodn n f.
Proof.
  induction n as [|n IH]; intros H; cbn [prodn]; [field|]. rewrite IH by (intros; apply H; lia).
  rewrite Rinv_mult. reflexivity.
Qed.

Lemma sqvol_s_pot n p s : stable_ok n p s -> sqvol_s n s = s_kappa s ^ n * prodn n (fun j => fm (s_mq s) j j).
Proof.
  intros Hok. pose proof Hok as (_ & _ & _ & _ & Hd). unfold sqvol_s. rewrite det_ldl.
  - rewrite prodn_inv by (intros j Hj; specialize (Hd j Hj); lra). unfold Rdiv. rewrite Rinv_inv. reflexivity.
  - intros j Hj. specialize (Hd j Hj). lra.
Qed.

Lemma sqvol_s_shrinks n p s k (ct : cut RA) s1 : stable_ok n p s -> s_no_defer_trick s = false -> 0 < s_kappa s ->
  stable_update k ct s = (s1, Ok Success) -> deep k (snd ct) ->
  (exists rho sigma delta, strat_of k (s_helper s) (snd ct) (s_tsq s1) = Ok (Success, Some (rho, sigma, delta)) /\
     sqvol_s n s1 = delta ^ n * (1 - sigma) * sqvol_s n s) /\
  sqvol_s n s1 <= exp (- / (INR n + 1)) * sqvol_s n s /\ sqvol_s n s1 < sqvol_s n s.
Proof.
  intros Hok Hf Hk Hu Hd. pose proof Hok as (_ & _ & _ & Hc & _).
  destruct (twin_step n p s k ct s1 Hok Hf Hk Hu) as (r & sg & d & e1 & He & Eu & Ec & HT & Es & Hok1 & Hag & Hf1 & K1 & P1 & Hlt & Hg & Hz).
  { intros T r sg d HT _ E. exact (proj2 (proj1 (ranges_deep n p (s_helper s) k (snd ct) T r sg d Hc HT Hd E))). }
  assert (E : sqvol_s n s1 = d ^ n * (1 - sg) * sqvol_s n s).
  { rewrite (sqvol_s_pot n p s1 Hok1), (sqvol_s_pot n p s Hok), K1, P1, Rpow_mult_distr. ring. }
  assert (P : 0 < sqvol_s n s).
  { rewrite (sqvol_s_pot n p s Hok). apply Rmult_lt_0_compat; [apply pow_lt, Hk|apply prodn_pos; apply Hok]. }
  destruct (volume_factor n p (s_helper s) k (snd ct) _ r sg d Hc HT Hd Es) as (V1 & V2).
  split; [exists r, sg, d; split; [exact Es|exact E]|].
  rewrite E. split; [apply Rmult_le_compat_r; lra|]. nra.
Qed.

(** ** C25 and C26 *)
Lemma stable_centre n p s k (ct : cut RA) s1 x : stable_ok n p s -> s_no_defer_trick s = false -> 0 < s_kappa s ->
  stable_update k ct s = (s1, Ok Success) -> bias_cond n k p (snd ct) (s_tsq s1) ->
  stable_in n s x -> cut_holds k p (snd ct) (cutval n (fv (fst ct)) (fv (s_xc s)) x) ->
  cut_holds k p (snd ct) (cutval n (fv (fst ct)) (fv (s_xc s)) (fv (s_xc s1))).
Proof.
  intros Hok Hf Hk Hu Hb Hx Hs. pose proof Hok as (_ & _ & _ & Hc & _).
  destruct (twin_step n p s k ct s1 Hok Hf Hk Hu) as (r & sg & d & e1 & He & Eu & Ec & HT & Es & Hok1 & Hag & _).
  { intros T r sg d HT ET E. subst T.
    assert (Hg : vec_wf n (fst ct)) by (destruct ct as [g be]; apply (stable_success n p s k g be s1 Hok Hu)).
    exact (proj2 (proj1 (ranges_meet n p (s_helper s) k (snd ct) _ r sg d _ Hc HT Hb (stable_near n p s k ct s1 _ x Hok Hu Hg Hx) Hs E))). }
  rewrite <- (proj1 Hag). rewrite <- Ec in Hb. exact (step_centre n p (twin n s) k ct e1 x He Eu Hb (proj2 (twin_in n p s Hok x) Hx) Hs).
Qed.

Lemma stable_tsq_max n p s k (ct : cut RA) s1 o : stable_ok n p s -> 0 < s_kappa s -> vec_wf n (fst ct) -> nonzero n (fv (fst ct)) ->
  stable_update k ct s = (s1, o) ->
  exists x, stable_in n s x /\ cutval n (fv (fst ct)) (fv (s_xc s)) x * cutval n (fv (fst ct)) (fv (s_xc s)) x = s_tsq s1.
Proof.
  intros Hok Hk Hg Hz Hu. destruct ct as [g be]. cbn [fst] in *.
  pose proof (stable_tsq n p s k g be s1 _ Hok Hg Hu) as HT.
  pose proof (twin_npd n p s Hok (Rlt_le _ _ Hk)) as Hpd. pose proof (proj2 (proj2 (proj2 (proj2 (proj2 (twin_ok n p s Hok)))))) as Hag.
  assert (He : pd_ell n p (twin n s)).
  { destruct Hpd as (H1 & H2 & H3 & H4 & H5 & _). exact (conj H1 (conj H2 (conj H3 (conj H4 (conj H5 Hk))))). }
  destruct (ell_update OpCentral (g, @CSingle RA 0) (twin n s)) as [e1 o1] eqn:Eu.
  pose proof (step_tsq n p (twin n s) OpCentral (g, @CSingle RA 0) e1 o1 He Hg Hz Eu) as (_ & x & Hx & E).
  exists x. split; [apply (twin_in n p s Hok), Hx|]. etransitivity; [exact E|]. rewrite HT.
  pose proof (q_om n p (twin n s) s g Hok Hag Hg) as Hq. pose proof (st_om_pos n p s g Hok Hg Hz) as Hom.
  rewrite (update_eq n (twin n s) g _) in Eu; [|apply Hpd|apply Hpd|exact Hg|exact Hz|rewrite Hq; lra].
  assert (Et : tsq e1 = kappa (twin n s) * quad n (fm (mq (twin n s))) (fv g)).
  { destruct (strat_of _ _ _ _) as [[st [[[r1 s2] d1]|]]|x1]; injection Eu as <- _; [apply new_tsq| |]; reflexivity. }
  rewrite Et, Hq. reflexivity.
Qed.

(** ** C21 *)
Lemma stable_run_contain n p s l s' x : stable_ok n p s -> s_no_defer_trick s = false -> stable_run s l s' ->
  (forall s0 k ct o, In (s0, k, ct, o) l -> o <> Err ZeroDivision) ->
  (forall s0 k ct, In (s0, k, ct, Ok Success) l ->
     bias_cond n k p (snd ct) (s_tsq (fst (stable_update k ct s0))) /\
     cut_holds k p (snd ct) (cutval n (fv (fst ct)) (fv (s_xc s0)) x)) ->
  stable_in n s x -> stable_ok n p s' /\ stable_in n s' x.
Proof.
  intros Hok Hf Hr. revert Hok Hf. induction Hr as [s|s k ct s1 o l s2 Hu Hr IH]; intros Hok Hf He Hd Hx; [auto|].
  assert (D : o = Ok Success \/ o <> Ok Success) by (destruct o as [[]|]; auto; right; discriminate).
  assert (He' : forall s0 k0 ct0 o0, In (s0, k0, ct0, o0) l -> o0 <> Err ZeroDivision) by (intros; eapply He; right; eassumption).
  assert (Hd' : forall s0 k0 ct0, In (s0, k0, ct0, Ok Success) l ->
     bias_cond n k0 p (snd ct0) (s_tsq (fst (stable_update k0 ct0 s0))) /\
     cut_holds k0 p (snd ct0) (cutval n (fv (fst ct0)) (fv (s_xc s0)) x)) by (intros; apply Hd; right; assumption).
  destruct D as [->|N].
  - destruct (Hd s k ct (or_introl eq_refl)) as (B & C). rewrite Hu in B. cbn [fst] in B.
    destruct (stable_contain n p s k ct s1 x Hok Hf Hu B Hx C) as (H1 & H2 & H3). exact (IH H1 H2 He' Hd' H3).
  - destruct (stable_unchanged n p s k ct s1 o Hok Hu N (He s k ct o (or_introl eq_refl))) as (H1 & _ & _ & _ & H5 & _ & H7).
    apply IH; try assumption; [congruence|apply H7, Hx].
Qed.
