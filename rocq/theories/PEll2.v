(** Properties of one update of [Ell] and of runs of updates. *)
From Coq Require Import Reals List Arith Lia Lra Psatz Bool.
From Verif Require Import Arith Vec ModelCalc ModelEll SpecDrivers Spec SpecCut SpecEll
  PSum PAlg PCalc PCalc2 PCalc3 PCalc5 PVec PGeo PEll.
Import ListNotations.
Local Open Scope R_scope.

Definition wq (n : nat) (e : ell RA) (ct : cut RA) : R := quad n (fm (mq e)) (fv (fst ct)).

Lemma update_inv n (e : ell RA) ct k e1 st : mat_wf n (mq e) -> length (xc e) = n ->
  ell_update k ct e = (e1, Ok st) ->
  length (fst ct) = n /\ nonzero n (fv (fst ct)) /\
  ((wq n e ct = 0 /\ st = NoEffect /\ e1 = e) \/
   (wq n e ct <> 0 /\
    ((exists r s d, strat_of k (helper e) (snd ct) (cut_tsq n e ct) = Ok (Success, Some (r, s, d)) /\
        st = Success /\ e1 = new_ell e (fst ct) (wq n e ct) r s d) \/
     (strat_of k (helper e) (snd ct) (cut_tsq n e ct) = Ok (st, None) /\ st <> Success /\
        e1 = set_tsq e (cut_tsq n e ct : num RA))))).
Proof.
  intros HM Hx H. destruct ct as [g beta]. cbn [fst snd].
  assert (Hg : length g = n).
  { rewrite ell_update_core_eq in H. unfold ell_update_core in H.
    destruct (forallb _ g); [discriminate|].
    destruct (negb _) eqn:E in H; [discriminate|]. apply negb_false_iff, andb_prop in E.
    destruct E as [_ E]. apply Nat.eqb_eq in E. destruct HM; llia. }
  assert (Hz : nonzero n (fv g)).
  { apply (forallb_zero n g Hg). rewrite ell_update_core_eq in H. unfold ell_update_core in H.
    destruct (forallb _ g); [discriminate|reflexivity]. }
  split; [exact Hg|]. split; [exact Hz|]. unfold wq. cbn [fst].
  destruct (Req_dec (quad n (fm (mq e)) (fv g)) 0) as [Hw|Hw].
  - left. rewrite (update_zero_omega n e g beta HM Hx Hg k Hz Hw) in H. injection H as <- <-. auto.
  - right. split; [exact Hw|]. rewrite (update_eq n e g beta HM Hx Hg k Hz Hw) in H.
    unfold cut_tsq. cbn [fst].
    destruct (strat_of k (helper e) beta _) as [[s0 [[[r s] d]|]]|] eqn:E; [| |discriminate].
    + injection H as <- <-. left. exists r, s, d. pose proof (triple_success _ _ _ _ _ _ E) as ->. auto.
    + injection H as <- <-. right. split; [reflexivity|]. split; [|reflexivity].
      intros ->. exact (success_triple _ _ _ _ E).
Qed.

Lemma psd_wq n p e ct : psd_ell n p e -> 0 <= wq n e ct.
Proof. intros (_ & _ & _ & _ & H). apply H. Qed.

Lemma pd_psd n p e : pd_ell n p e -> psd_ell n p e.
Proof. intros (H1 & H2 & H3 & H4 & H5 & _). repeat split; try assumption; try apply H1. apply posdef_semi, H5. Qed.

(** ** Containment *)
Lemma scaled_sym n k M : symmetric n M -> symmetric n (fun i j => k * M i j).
Proof. intros H i j Hi Hj. cbn. rewrite (H i j Hi Hj). reflexivity. Qed.

Lemma sym_ext n M M' : (forall i j, (i < n)%nat -> (j < n)%nat -> M i j = M' i j) ->
  symmetric n M -> symmetric n M'.
Proof. intros H HM i j Hi Hj. rewrite <- !H by assumption. apply HM; assumption. Qed.

Lemma psd_ext n M M' : (forall i j, (i < n)%nat -> (j < n)%nat -> M i j = M' i j) ->
  possemidef n M -> possemidef n M'.
Proof. intros H HM v. unfold quad. rewrite <- (bil_ext n M M' v v v v); auto. apply HM. Qed.

Lemma pd_ext n M M' : (forall i j, (i < n)%nat -> (j < n)%nat -> M i j = M' i j) ->
  posdef n M -> posdef n M'.
Proof. intros H HM v Hv. unfold quad. rewrite <- (bil_ext n M M' v v v v); auto. apply HM, Hv. Qed.

Lemma scaled_psd n k M : 0 <= k -> possemidef n M -> possemidef n (fun i j => k * M i j).
Proof. intros Hk H v. unfold quad. rewrite bil_mscal. apply Rmult_le_pos; [exact Hk|apply H]. Qed.

Lemma scaled_pd n k M : 0 < k -> posdef n M -> posdef n (fun i j => k * M i j).
Proof. intros Hk H v Hv. unfold quad. rewrite bil_mscal. apply Rmult_lt_0_compat; [exact Hk|apply H, Hv]. Qed.

(** from the unscaled new shape to the object, under either flag *)
Lemma new_in n (e : ell RA) (g : vec RA) r s d x : mat_wf n (mq e) -> length (xc e) = n -> length g = n ->
  symmetric n (fm (mq e)) -> possemidef n (cutM n (fm (mq e)) (fv g) (quad n (fm (mq e)) (fv g)) s) ->
  in_ellipsoid n (cutC n (fm (mq e)) (fv g) (fv (xc e)) (quad n (fm (mq e)) (fv g)) r) (kappa e * d)
    (cutM n (fm (mq e)) (fv g) (quad n (fm (mq e)) (fv g)) s) x ->
  ell_in n (new_ell e g (quad n (fm (mq e)) (fv g)) r s d) x.
Proof.
  intros HM Hx Hg Hsym Hp H. set (w := quad n (fm (mq e)) (fv g)) in *.
  unfold ell_in. unfold w. rewrite new_kappa. fold w.
  destruct (no_defer_trick e) eqn:Ef.
  - apply (scale_in n _ _ _ x) in H; [|apply cutM_sym; exact Hsym|exact Hp].
    revert H. apply in_ellipsoid_ext; [|reflexivity|].
    + intros i Hi. symmetry. apply new_xc; assumption.
    + intros i j Hi Hj. unfold w. rewrite new_mq by assumption. rewrite Ef. reflexivity.
  - revert H. apply in_ellipsoid_ext; [|reflexivity|].
    + intros i Hi. symmetry. apply new_xc; assumption.
    + intros i j Hi Hj. unfold w. rewrite new_mq by assumption. rewrite Ef. ring.
Qed.

Lemma new_psd n p (e : ell RA) (g : vec RA) r s d : psd_ell n p e -> length g = n ->
  possemidef n (cutM n (fm (mq e)) (fv g) (quad n (fm (mq e)) (fv g)) s) ->
  0 <= kappa e * d -> psd_ell n p (new_ell e g (quad n (fm (mq e)) (fv g)) r s d).
Proof.
  intros (HM & Hx & Hc & Hsym & Hp0) Hg Hp Hk. set (w := quad n (fm (mq e)) (fv g)) in *.
  split; [unfold w; apply new_wf; assumption|]. split; [unfold w; apply new_xc_length; assumption|].
  split; [unfold w; rewrite new_helper; exact Hc|].
  split.
  - apply (sym_ext n (fun i j => (if no_defer_trick e then kappa e * d else 1) * cutM n (fm (mq e)) (fv g) w s i j)).
    + intros i j Hi Hj. unfold w. rewrite new_mq by assumption. reflexivity.
    + apply scaled_sym, cutM_sym, Hsym.
  - apply (psd_ext n (fun i j => (if no_defer_trick e then kappa e * d else 1) * cutM n (fm (mq e)) (fv g) w s i j)).
    + intros i j Hi Hj. unfold w. rewrite new_mq by assumption. reflexivity.
    + apply scaled_psd; [destruct (no_defer_trick e); lra|exact Hp].
Qed.

(** C20, with the invariant needed to iterate it *)
Lemma step_contain n p e k ct e1 x : psd_ell n p e ->
  ell_update k ct e = (e1, Ok Success) -> bias_cond n k p (snd ct) (cut_tsq n e ct) ->
  ell_in n e x -> cut_sat n k p e ct x -> psd_ell n p e1 /\ ell_in n e1 x.
Proof.
  intros He Hu Hb Hx Hs. pose proof He as (HM & Hxc & Hc & Hsym & Hp).
  destruct (update_inv n e ct k e1 Success HM Hxc Hu) as (Hg & Hz & [(_ & E & _)|(Hw & [H|(_ & E & _)])]);
    [discriminate| |congruence].
  destruct H as (r & s & d & Hstrat & _ & ->). destruct ct as [g beta]. unfold wq in *. cbn [fst snd] in *.
  set (w := quad n (fm (mq e)) (fv g)) in *.
  assert (Hw0 : 0 < w) by (pose proof (Hp (fv g)); fold w in H; lra).
  pose proof (in_ellipsoid_k n _ _ Hp _ _ Hx) as Hk.
  pose proof (cutval_sq_le n _ (fv g) _ Hsym Hp _ _ Hx) as Ht. fold w in Ht.
  destruct (calc_for_R _ _ _ Hc) as [Hn Hh]. rewrite Hh in Hstrat.
  unfold cut_tsq in Hstrat, Hb. cbn [fst] in Hstrat, Hb. fold w in Hstrat, Hb.
  unfold cut_sat in Hs. cbn [fst snd] in Hs.
  assert (Hmain : possemidef n (cutM n (fm (mq e)) (fv g) w s) /\
    in_ellipsoid n (cutC n (fm (mq e)) (fv g) (fv (xc e)) w r) (kappa e * d) (cutM n (fm (mq e)) (fv g) w s) x).
  { destruct (Req_dec (kappa e) 0) as [Hk0|Hk0].
    - rewrite Hk0, Rmult_0_l in Hstrat. apply strat_T0 in Hstrat; [|exact Hn].
      destruct Hstrat as (-> & -> & Hs1).
      assert (Hps : possemidef n (cutM n (fm (mq e)) (fv g) w s)) by (apply cutM_psd; try assumption; lra).
      split; [exact Hps|]. destruct Hx as (y & Hy & Hq). rewrite Hk0 in *.
      exists (fun _ => 0).
      assert (Hz0 : forall M i, mv n M (fun _ : nat => 0) i = 0).
      { intros M i. apply sumn_0. intros. ring. }
      split.
      + intros i Hi. rewrite Hz0. unfold cutC. 
        replace (0 / w) with 0 by (field; lra).
        pose proof (psd_quad_0 n _ y Hsym Hp Hq i Hi) as E. rewrite <- (Hy i Hi) in E. lra.
      + unfold quad, bil. rewrite Rmult_0_l. right. apply sumn_0. intros. rewrite Hz0. ring.
    - assert (HT : 0 < kappa e * w) by (apply Rmult_lt_0_compat; lra).
      destruct (win_sound n p k beta (kappa e * w) r s d Hn HT Hb Hstrat) as (a & b & Hsound & Hint).
      assert (Hs1 : s <= 1) by (destruct Hsound as [(? & _)|(? & _)]; lra).
      split; [apply cutM_psd; assumption|].
      apply (contain n _ (fv g) (fv (xc e)) Hsym _ a b); try assumption.
      apply Hint; assumption. }
  destruct Hmain as [Hps Hin]. split.
  - apply new_psd; try assumption. exact (in_ellipsoid_k n _ _ Hps _ _ Hin).
  - apply new_in; assumption.
Qed.

(** ** NoSoln *)
Lemma step_nosoln n p e k ct e1 : psd_ell n p e -> ell_update k ct e = (e1, Ok NoSoln) ->
  forall x, ell_in n e x -> ~ cut_sat n k p e ct x.
Proof.
  intros He Hu x Hx Hs. pose proof He as (HM & Hxc & Hc & Hsym & Hp).
  destruct (update_inv n e ct k e1 NoSoln HM Hxc Hu) as (Hg & Hz & [(_ & E & _)|(Hw & [H|(Hst & E & _)])]);
    [discriminate|destruct H as (? & ? & ? & _ & E & _); discriminate|].
  destruct (calc_for_R _ _ _ Hc) as [Hn Hh].
  pose proof (in_ellipsoid_k n _ _ Hp _ _ Hx) as Hk.
  pose proof (cutval_sq_le n _ (fv (fst ct)) _ Hsym Hp _ _ Hx) as Ht.
  pose proof (psd_wq n p e ct He) as Hw0. unfold wq in *.
  refine (nosoln_empty k (helper e) p (snd ct) (cut_tsq n e ct) None _ _ _ Hst Ht Hs).
  - rewrite Hh. reflexivity.
  - unfold cut_tsq. apply Rmult_le_pos; assumption.
Qed.

(** ** Everything but an accepted cut leaves the ellipsoid alone *)
Lemma update_unchanged k ct e e1 o : ell_update k ct e = (e1, o) -> o <> Ok Success ->
  xc e1 = xc e /\ mq e1 = mq e /\ kappa e1 = kappa e /\
  helper e1 = helper e /\ no_defer_trick e1 = no_defer_trick e.
Proof.
  rewrite ell_update_core_eq. unfold ell_update_core. destruct ct as [g beta]. intros H Ho.
  destruct (forallb _ g); [injection H as <- <-; repeat split|].
  destruct (negb _) in H; [injection H as <- <-; repeat split|].
  destruct (aeqb _ _) in H; [injection H as <- <-; repeat split|].
  destruct (strat_of k _ _ _) as [[st [[[r s] d]|]]|] eqn:E in H.
  - pose proof (triple_success _ _ _ _ _ _ E) as ->.
    destruct (Broadcast.isub _ _) in H; [|injection H as <- <-; repeat split].
    destruct (no_defer_trick e) in H; injection H as <- <-; congruence.
  - injection H as <- <-. repeat split.
  - injection H as <- <-. repeat split.
Qed.

Lemma unchanged_psd n p k ct e e1 o : psd_ell n p e -> ell_update k ct e = (e1, o) -> o <> Ok Success ->
  psd_ell n p e1 /\ (forall x, ell_in n e1 x <-> ell_in n e x).
Proof.
  intros He Hu Ho. destruct (update_unchanged k ct e e1 o Hu Ho) as (H1 & H2 & H3 & H4 & _).
  unfold psd_ell, ell_in. rewrite H1, H2, H3, H4. split; [exact He|reflexivity].
Qed.

Lemma res_dec (o : res cut_status) : o = Ok Success \/ o <> Ok Success.
Proof. destruct o as [[]|]; (left; reflexivity) || (right; discriminate). Qed.

Lemma run_contain n p e l e' x : psd_ell n p e -> ell_run e l e' ->
  (forall e0 k ct, In (e0, k, ct, Ok Success) l ->
     bias_cond n k p (snd ct) (cut_tsq n e0 ct) /\ cut_sat n k p e0 ct x) ->
  ell_in n e x -> ell_in n e' x.
Proof.
  intros He Hr. revert He. induction Hr as [e|e k ct e1 o l e2 Hu Hr IH]; intros He Hall Hx; [exact Hx|].
  assert (H1 : psd_ell n p e1 /\ ell_in n e1 x).
  { destruct (res_dec o) as [->|Ho].
    - destruct (Hall e k ct (or_introl eq_refl)) as [Hb Hs].
      exact (step_contain n p e k ct e1 x He Hu Hb Hx Hs).
    - destruct (unchanged_psd n p k ct e e1 o He Hu Ho) as [H1 H2]. split; [exact H1|apply H2, Hx]. }
  destruct H1 as [He1 Hx1].
  apply IH; [exact He1| |exact Hx1]. intros e0 k0 ct0 Hin. apply Hall. right. exact Hin.
Qed.

(** ** Positive definiteness *)
Lemma step_pd n p e k ct e1 : pd_ell n p e -> ell_update k ct e = (e1, Ok Success) ->
  cut_proper n k p e ct -> pd_ell n p e1.
Proof.
  intros He Hu (x0 & x1 & Hx0 & Hs0 & Hx1 & Hs1 & Hne). pose proof (pd_psd _ _ _ He) as (_ & _ & _ & _ & Hp).
  destruct He as (HM & Hxc & Hc & Hsym & Hpd & Hk).
  destruct (update_inv n e ct k e1 Success HM Hxc Hu) as (Hg & Hz & [(_ & E & _)|(Hw & [H|(_ & E & _)])]);
    [discriminate| |congruence].
  destruct H as (r & s & d & Hstrat & _ & ->). destruct ct as [g beta]. unfold wq in *. cbn [fst snd] in *.
  set (w := quad n (fm (mq e)) (fv g)) in *.
  assert (Hw0 : 0 < w) by (apply Hpd, Hz).
  pose proof (cutval_sq_le n _ (fv g) _ Hsym Hp _ _ Hx0) as Ht0. fold w in Ht0.
  pose proof (cutval_sq_le n _ (fv g) _ Hsym Hp _ _ Hx1) as Ht1. fold w in Ht1.
  destruct (calc_for_R _ _ _ Hc) as [Hn Hh]. rewrite Hh in Hstrat.
  unfold cut_tsq in Hstrat. cbn [fst] in Hstrat. fold w in Hstrat.
  unfold cut_sat in Hs0, Hs1. cbn [fst snd] in Hs0, Hs1.
  assert (HT : 0 < kappa e * w) by (apply Rmult_lt_0_compat; assumption).
  destruct (win_nondeg n p k beta _ r s d _ _ Hn HT Hstrat Ht0 Hs0 Ht1 Hs1 Hne) as [Hs Hd].
  assert (Hkd : 0 < kappa e * d) by (apply Rmult_lt_0_compat; assumption).
  split; [unfold w; apply new_wf; assumption|]. split; [unfold w; apply new_xc_length; assumption|].
  split; [unfold w; rewrite new_helper; exact Hc|].
  assert (Hf : 0 < if no_defer_trick e then kappa e * d else 1) by (destruct (no_defer_trick e); lra).
  assert (Hext : forall i j, (i < n)%nat -> (j < n)%nat ->
    (if no_defer_trick e then kappa e * d else 1) * cutM n (fm (mq e)) (fv g) w s i j
    = fm (mq (new_ell e g w r s d)) i j).
  { intros i j Hi Hj. unfold w. rewrite new_mq by assumption. reflexivity. }
  split; [apply (sym_ext n _ _ Hext), scaled_sym, cutM_sym, Hsym|].
  split; [apply (pd_ext n _ _ Hext), scaled_pd; [exact Hf|apply cutM_pd; assumption]|].
  unfold w. rewrite new_kappa. destruct (no_defer_trick e); lra.
Qed.

(** ** The new centre satisfies the cut *)
Lemma step_centre n p e k ct e1 x : pd_ell n p e -> ell_update k ct e = (e1, Ok Success) ->
  bias_cond n k p (snd ct) (cut_tsq n e ct) ->
  ell_in n e x -> cut_sat n k p e ct x -> cut_sat n k p e ct (fv (xc e1)).
Proof.
  intros He Hu Hb Hx0 Hs0. pose proof (pd_psd _ _ _ He) as (_ & _ & _ & _ & Hp).
  destruct He as (HM & Hxc & Hc & Hsym & Hpd & Hk).
  destruct (update_inv n e ct k e1 Success HM Hxc Hu) as (Hg & Hz & [(_ & E & _)|(Hw & [H|(_ & E & _)])]);
    [discriminate| |congruence].
  destruct H as (r & s & d & Hstrat & _ & ->). destruct ct as [g beta]. unfold wq in *. cbn [fst snd] in *.
  set (w := quad n (fm (mq e)) (fv g)) in *.
  assert (Hw0 : 0 < w) by (apply Hpd, Hz).
  pose proof (cutval_sq_le n _ (fv g) _ Hsym Hp _ _ Hx0) as Ht0. fold w in Ht0.
  destruct (calc_for_R _ _ _ Hc) as [Hn Hh]. rewrite Hh in Hstrat.
  unfold cut_tsq in Hstrat, Hb. cbn [fst] in Hstrat, Hb. fold w in Hstrat, Hb.
  unfold cut_sat in *. cbn [fst snd] in *.
  assert (HT : 0 < kappa e * w) by (apply Rmult_lt_0_compat; assumption).
  destruct (win_ranges n p k beta _ r s d _ Hn HT Hb Ht0 Hs0 Hstrat) as (_ & _ & H & _).
  replace (cutval n (fv g) (fv (xc e)) (fv (xc (new_ell e g w r s d)))) with (- r); [exact H|].
  symmetry. rewrite <- (cutval_cutC n (fm (mq e)) (fv g) (fv (xc e)) r) by (fold w; lra).
  apply dot_ext; [reflexivity|]. intros i Hi. unfold w. rewrite new_xc by assumption. reflexivity.
Qed.

(** ** tsq *)
Lemma step_tsq n p e k ct e1 o : pd_ell n p e -> vec_wf n (fst ct) -> nonzero n (fv (fst ct)) ->
  ell_update k ct e = (e1, o) ->
  (forall x, ell_in n e x ->
     cutval n (fv (fst ct)) (fv (xc e)) x * cutval n (fv (fst ct)) (fv (xc e)) x <= tsq e1) /\
  exists x, ell_in n e x /\
     cutval n (fv (fst ct)) (fv (xc e)) x * cutval n (fv (fst ct)) (fv (xc e)) x = tsq e1.
Proof.
  intros He Hg Hz Hu. pose proof (pd_psd _ _ _ He) as (_ & _ & _ & _ & Hp).
  destruct He as (HM & Hxc & Hc & Hsym & Hpd & Hk). destruct ct as [g beta]. cbn [fst] in *.
  assert (Hw : 0 < quad n (fm (mq e)) (fv g)) by (apply Hpd, Hz).
  assert (Ht : tsq e1 = kappa e * quad n (fm (mq e)) (fv g)).
  { assert (Hw' : quad n (fm (mq e)) (fv g) <> 0) by lra.
    pose proof (eq_trans (eq_sym Hu) (update_eq n e g beta HM Hxc Hg k Hz Hw')) as E. clear Hu.
    destruct (strat_of k _ _ _) as [[st [[[r s] d]|]]|]; injection E as -> ->;
      [apply new_tsq|reflexivity|reflexivity]. }
  rewrite Ht. split.
  - intros x Hx. apply cutval_sq_le; assumption.
  - exists (extreme n (fm (mq e)) (fv g) (fv (xc e)) (kappa e)). split.
    + apply extreme_in; [exact Hw|lra].
    + apply extreme_sq; [exact Hw|lra].
Qed.

Lemma run_pd n p e l e' : pd_ell n p e -> ell_run e l e' ->
  (forall e0 k ct, In (e0, k, ct, Ok Success) l -> cut_proper n k p e0 ct) -> pd_ell n p e'.
Proof.
  intros He Hr. revert He. induction Hr as [e|e k ct e1 o l e2 Hu Hr IH]; intros He Hall; [exact He|].
  assert (H1 : pd_ell n p e1).
  { destruct (res_dec o) as [->|Ho].
    - exact (step_pd n p e k ct e1 He Hu (Hall e k ct (or_introl eq_refl))).
    - destruct (update_unchanged k ct e e1 o Hu Ho) as (H1 & H2 & H3 & H4 & _).
      unfold pd_ell. rewrite H1, H2, H3, H4. exact He. }
  apply IH; [exact H1|]. intros e0 k0 ct0 Hin. apply Hall. right. exact Hin.
Qed.

Lemma pd_omega n p e ct : pd_ell n p e -> nonzero n (fv (fst ct)) -> 0 < cut_tsq n e ct.
Proof.
  intros (_ & _ & _ & _ & Hpd & Hk) Hz. apply Rmult_lt_0_compat; [exact Hk|apply Hpd, Hz].
Qed.

(** ** The constructor *)
Lemma quad_diag n (M : nat -> nat -> R) d v :
  (forall i j, (i < n)%nat -> (j < n)%nat -> M i j = if Nat.eqb i j then d i else 0) ->
  quad n M v = sumn n (fun i => d i * (v i * v i)).
Proof.
  intros H. unfold quad, bil, dot. apply sumn_ext. intros i Hi.
  assert (E : mv n M v i = d i * v i).
  { unfold mv. rewrite (sumn_ext n _ (fun j => d i * v j * (if Nat.eqb j i then 1 else 0))).
    - apply (sumn_delta_r n i (fun j => d i * v j) Hi).
    - intros j Hj. rewrite H by assumption. rewrite Nat.eqb_sym. destruct (Nat.eqb j i); ring. }
  rewrite E. ring.
Qed.

Lemma diag_psd n M d :
  (forall i j, (i < n)%nat -> (j < n)%nat -> M i j = if Nat.eqb i j then d i else 0) ->
  (forall i, (i < n)%nat -> 0 <= d i) -> symmetric n M /\ possemidef n M.
Proof.
  intros H Hd. split.
  - intros i j Hi Hj. rewrite !H by assumption. rewrite (Nat.eqb_sym j i).
    destruct (Nat.eqb_spec i j); subst; reflexivity.
  - intros v. rewrite (quad_diag n M d v H). apply sumn_ge_0. intros i Hi.
    apply Rmult_le_pos; [apply Hd, Hi|apply Rle_0_sqr].
Qed.

Lemma diag_pd n M d :
  (forall i j, (i < n)%nat -> (j < n)%nat -> M i j = if Nat.eqb i j then d i else 0) ->
  (forall i, (i < n)%nat -> 0 < d i) -> posdef n M.
Proof.
  intros H Hd v (k & Hk & Hv). rewrite (quad_diag n M d v H).
  apply Rlt_le_trans with (d k * (v k * v k)).
  - apply Rmult_lt_0_compat; [apply Hd, Hk|]. apply Rsqr_pos_lt in Hv. exact Hv.
  - apply (sumn_ge_term n (fun i => d i * (v i * v i)) k Hk). intros i Hi.
    apply Rmult_le_pos; [apply Rlt_le, Hd, Hi|apply Rle_0_sqr].
Qed.

Lemma init_inv v x0 (e : ell RA) : ell_init v x0 = Ok e ->
  (2 <= length x0)%nat /\ helper e = calc_R true (length x0) /\ xc e = x0 /\ tsq e = 0 /\
  no_defer_trick e = false /\
  mq e = match v with VScalar _ => meye (length x0) | VDiag d => mdiag d end /\
  kappa e = match v with VScalar k => k | VDiag _ => 1 end.
Proof.
  unfold ell_init. destruct (le_lt_dec 2 (length x0)) as [Hn|Hn].
  - rewrite calc_init_R by exact Hn. cbn [bind]. intros H.
    destruct v; injection H as <-; repeat split; exact Hn.
  - rewrite calc_init_small by exact Hn. discriminate.
Qed.

Lemma init_entries v x0 (e : ell RA) : ell_init v x0 = Ok e ->
  match v with VScalar _ => True | VDiag d => length d = length x0 end ->
  mat_wf (length x0) (mq e) /\
  forall i j, (i < length x0)%nat -> (j < length x0)%nat ->
    fm (mq e) i j = if Nat.eqb i j then match v with VScalar _ => 1 | VDiag d => fv d i end else 0.
Proof.
  intros H Hl. destruct (init_inv v x0 e H) as (_ & _ & _ & _ & _ & Hm & _). rewrite Hm.
  destruct v as [k|d].
  - split; [apply meye_wf|]. intros i j Hi Hj. rewrite meye_R by assumption. reflexivity.
  - rewrite <- Hl. split; [apply mdiag_wf|]. intros i j Hi Hj. apply mdiag_R; assumption.
Qed.

Lemma init_psd n v x0 (e : ell RA) : ell_init v x0 = Ok e -> vec_wf n x0 -> val_nonneg n v -> psd_ell n true e.
Proof.
  intros H Hl Hv. unfold vec_wf in Hl. subst n.
  destruct (init_inv v x0 e H) as (Hn & Hh & Hx & _ & _ & _ & Hk).
  destruct (init_entries v x0 e H) as [Hw Hent].
  { destruct v; [exact I|]. destruct Hv as [Hv _]. exact Hv. }
  destruct (diag_psd (length x0) (fm (mq e)) (fun i => match v with VScalar _ => 1 | VDiag d => fv d i end) Hent) as [Hs Hp].
  { intros i Hi. destruct v; [lra|]. apply Hv, Hi. }
  split; [exact Hw|]. split; [unfold vec_wf; rewrite Hx; reflexivity|].
  split; [rewrite Hh; apply calc_for_ok, Hn|]. split; assumption.
Qed.

Lemma init_pd n v x0 (e : ell RA) : ell_init v x0 = Ok e -> vec_wf n x0 -> val_pos n v -> pd_ell n true e.
Proof.
  intros H Hl Hv.
  assert (Hnn : val_nonneg n v).
  { destruct v; [exact I|]. destruct Hv as [H1 H2]. split; [exact H1|]. intros i Hi. apply Rlt_le, H2, Hi. }
  destruct (init_psd n v x0 e H Hl Hnn) as (H1 & H2 & H3 & H4 & _).
  destruct (init_inv v x0 e H) as (Hn & Hh & Hx & _ & _ & _ & Hk).
  unfold vec_wf in Hl. subst n.
  destruct (init_entries v x0 e H) as [Hw Hent].
  { destruct v; [exact I|]. destruct Hv as [Hv _]. exact Hv. }
  repeat (split; [assumption|]). split.
  - apply (diag_pd (length x0) _ (fun i => match v with VScalar _ => 1 | VDiag d => fv d i end) Hent).
    intros i Hi. destruct v; [lra|]. apply Hv, Hi.
  - rewrite Hk. destruct v; [exact Hv|lra].
Qed.

Lemma set_parallel_psd n p q e : psd_ell n p e -> psd_ell n q (ell_set_parallel e q).
Proof.
  intros (H1 & H2 & (c0 & H3 & Hc) & H4 & H5). repeat (split; [assumption|]). split; [|split; assumption].
  exists c0. split; [exact H3|]. cbn [helper ell_set_parallel]. rewrite Hc. reflexivity.
Qed.

Lemma set_parallel_pd n p q e : pd_ell n p e -> pd_ell n q (ell_set_parallel e q).
Proof.
  intros (H1 & H2 & (c0 & H3 & Hc) & H4 & H5 & H6). repeat (split; [assumption|]). split; [|repeat split; assumption].
  exists c0. split; [exact H3|]. cbn [helper ell_set_parallel]. rewrite Hc. reflexivity.
Qed.
