(** [no_defer_trick], straddling bias cuts, cuts that miss, zero gradients. *)
From Coq Require Import Reals List Arith Lia Lra Psatz Bool.
From Verif Require Import Arith Vec ModelCalc ModelEll SpecDrivers Spec SpecCut SpecEll
  PSum PAlg PCalc PCalc2 PCalc3 PCalc5 PVec PGeo PEll PEll2.
Import ListNotations.
Local Open Scope R_scope.

(** ** Refused gradients *)
Lemma zero_gradient k (g : vec RA) beta (e : ell RA) : ~ nonzero (length g) (fv g) ->
  ell_update k (g, beta) e = (e, Err ValueError).
Proof.
  intros H. rewrite ell_update_core_eq. unfold ell_update_core.
  destruct (forallb (fun x => aeqb x azero) g) eqn:E; [reflexivity|].
  apply (forallb_zero (length g) g eq_refl) in E. contradiction.
Qed.

Lemma bad_shape n k (g : vec RA) beta (e : ell RA) : mat_wf n (mq e) -> length g <> n ->
  ell_update k (g, beta) e = (e, Err ValueError).
Proof.
  intros [HM _] H. rewrite ell_update_core_eq. unfold ell_update_core.
  destruct (forallb _ g); [reflexivity|].
  replace (Nat.eqb (length (mq e)) (length g)) with false
    by (symmetry; apply Nat.eqb_neq; llia).
  rewrite andb_false_r. reflexivity.
Qed.

(** ** no_defer_trick *)
Definition same (n : nat) (a b : ell RA) : Prop :=
  mat_wf n (mq a) /\ mat_wf n (mq b) /\ length (xc a) = n /\ xc a = xc b /\
  tsq a = tsq b /\ helper a = helper b /\ kappa a <> 0 /\ kappa b <> 0 /\
  no_defer_trick a = false /\ no_defer_trick b = true /\
  forall i j, (i < n)%nat -> (j < n)%nat -> kappa a * fm (mq a) i j = kappa b * fm (mq b) i j.

Lemma list_ext n (u v : vec RA) : length u = n -> length v = n ->
  (forall i, (i < n)%nat -> fv u i = fv v i) -> u = v.
Proof.
  intros Hu Hv H. apply (nth_ext u v 0 0); [llia|]. intros i Hi. apply H. llia.
Qed.

Lemma same_step n a b k ct a1 ra b1 rb : same n a b ->
  ell_update k ct a = (a1, ra) -> ell_update k ct b = (b1, rb) -> kappa a1 <> 0 ->
  ra = rb /\ same n a1 b1.
Proof.
  intros Hsame Ha Hb Hk1. pose proof Hsame as (HMa & HMb & Hla & Hx & Ht & Hh & Hka & Hkb & Hfa & Hfb & HE).
  destruct ct as [g beta].
  destruct (Nat.eq_dec (length g) n) as [Hg|Hg].
  2:{ rewrite (bad_shape n) in Ha by assumption. rewrite (bad_shape n) in Hb by assumption.
      injection Ha as <- <-. injection Hb as <- <-. auto. }
  destruct (forallb (fun x => aeqb (a:=RA) x azero) g) eqn:Ez.
  { assert (Hz : ~ nonzero (length g) (fv g)).
    { intros Hz. apply (forallb_zero (length g) g eq_refl) in Hz. congruence. }
    rewrite zero_gradient in Ha by exact Hz. rewrite zero_gradient in Hb by exact Hz.
    injection Ha as <- <-. injection Hb as <- <-. auto. }
  assert (Hz : nonzero n (fv g)) by (apply (forallb_zero n g Hg); exact Ez).
  assert (Hlb : length (xc b) = n) by (rewrite <- Hx; exact Hla).
  assert (Hmv : forall y i, (i < n)%nat -> kappa a * mv n (fm (mq a)) y i = kappa b * mv n (fm (mq b)) y i).
  { intros y i Hi. rewrite <- !mv_mscal. apply mv_ext; auto. }
  assert (HW : kappa a * quad n (fm (mq a)) (fv g) = kappa b * quad n (fm (mq b)) (fv g)).
  { unfold quad. rewrite <- !bil_mscal. apply bil_ext; auto. }
  destruct (Req_dec (quad n (fm (mq a)) (fv g)) 0) as [Hwa|Hwa].
  { assert (Hwb : quad n (fm (mq b)) (fv g) = 0).
    { rewrite Hwa, Rmult_0_r in HW. symmetry in HW. apply Rmult_integral in HW. tauto. }
    rewrite (update_zero_omega n) in Ha by assumption. rewrite (update_zero_omega n) in Hb by assumption.
    injection Ha as <- <-. injection Hb as <- <-. auto. }
  assert (Hwb : quad n (fm (mq b)) (fv g) <> 0).
  { intros E. rewrite E, Rmult_0_r in HW. apply Rmult_integral in HW. tauto. }
  rewrite (update_eq n) in Ha by assumption. rewrite (update_eq n) in Hb by assumption.
  rewrite <- HW, <- Hh in Hb.
  destruct (strat_of k (helper a) beta _) as [[st [[[r s] d]|]]|] eqn:Estr.
  - injection Ha as <- <-. injection Hb as <- <-. split; [reflexivity|].
    set (wa := quad n (fm (mq a)) (fv g)) in *. set (wb := quad n (fm (mq b)) (fv g)) in *.
    assert (Hd : kappa a * d <> 0).
    { unfold wa in Hk1. rewrite new_kappa, Hfa in Hk1. exact Hk1. }
    assert (Ewb : wb = kappa a / kappa b * wa).
    { apply Rmult_eq_reg_l with (kappa b); [|exact Hkb]. rewrite <- HW. field. exact Hkb. }
    assert (Hmvb : forall i, (i < n)%nat -> mv n (fm (mq b)) (fv g) i = kappa a / kappa b * mv n (fm (mq a)) (fv g) i).
    { intros i Hi. apply Rmult_eq_reg_l with (kappa b); [|exact Hkb]. rewrite <- Hmv by exact Hi. field. exact Hkb. }
    split; [unfold wa; apply new_wf; assumption|]. split; [unfold wb; apply new_wf; assumption|].
    split; [unfold wa; apply new_xc_length; assumption|].
    split.
    { apply (list_ext n); [unfold wa; apply new_xc_length; assumption|unfold wb; apply new_xc_length; assumption|].
      intros i Hi. unfold wa at 1, wb at 1. rewrite !new_xc by assumption. unfold cutC. fold wa wb.
      rewrite <- Hx, Hmvb, Ewb by exact Hi. field. auto. }
    split; [unfold wa, wb; rewrite !new_tsq; exact HW|].
    split; [unfold wa, wb; rewrite !new_helper; exact Hh|].
    split; [exact Hk1|].
    split; [unfold wb; rewrite new_kappa, Hfb; lra|].
    split; [unfold wa; rewrite new_flag; exact Hfa|].
    split; [unfold wb; rewrite new_flag; exact Hfb|].
    intros i j Hi Hj. unfold wa, wb. rewrite !new_kappa, !new_mq, Hfa, Hfb by assumption. fold wa wb.
    unfold cutM. rewrite !Hmvb, Ewb by assumption.
    transitivity (d * (kappa a * fm (mq a) i j) - kappa a * d * s / wa * (mv n (fm (mq a)) (fv g) i * mv n (fm (mq a)) (fv g) j));
      [field; auto|].
    rewrite (HE i j Hi Hj). field. auto.
  - injection Ha as <- <-. injection Hb as <- <-. split; [reflexivity|].
    split; [exact HMa|]. split; [exact HMb|]. split; [exact Hla|]. split; [exact Hx|].
    split; [reflexivity|]. repeat (split; [assumption|]). exact HE.
  - injection Ha as <- <-. injection Hb as <- <-. split; [reflexivity|].
    split; [exact HMa|]. split; [exact HMb|]. split; [exact Hla|]. split; [exact Hx|].
    split; [reflexivity|]. repeat (split; [assumption|]). exact HE.
Qed.

Lemma seq_app l1 l2 e : fst (ell_seq (l1 ++ l2) e) = fst (ell_seq l2 (fst (ell_seq l1 e))).
Proof.
  revert e. induction l1 as [|[k ct] l1 IH]; intros e; [reflexivity|]. cbn [app ell_seq].
  destruct (ell_update k ct e) as [e1 o]. specialize (IH e1).
  destruct (ell_seq (l1 ++ l2) e1), (ell_seq l1 e1). exact IH.
Qed.

Lemma same_seq n l : forall a b, same n a b ->
  (forall l1 l2, l = l1 ++ l2 -> kappa (fst (ell_seq l1 a)) <> 0) ->
  snd (ell_seq l a) = snd (ell_seq l b) /\ same n (fst (ell_seq l a)) (fst (ell_seq l b)).
Proof.
  induction l as [|[k ct] l IH]; intros a b Hs Hk; [auto|].
  cbn [ell_seq]. destruct (ell_update k ct a) as [a1 ra] eqn:Ea. destruct (ell_update k ct b) as [b1 rb] eqn:Eb.
  assert (Hk1 : kappa a1 <> 0).
  { specialize (Hk [(k, ct)] l eq_refl). cbn [ell_seq] in Hk. rewrite Ea in Hk. exact Hk. }
  destruct (same_step n a b k ct a1 ra b1 rb Hs Ea Eb Hk1) as [<- Hs1].
  destruct (IH a1 b1 Hs1) as [H1 H2].
  { intros l1 l2 ->. specialize (Hk ((k, ct) :: l1) l2 eq_refl). cbn [ell_seq] in Hk. rewrite Ea in Hk.
    destruct (ell_seq l1 a1). exact Hk. }
  destruct (ell_seq l a1), (ell_seq l b1). cbn [fst snd] in *. split; [f_equal; exact H1|exact H2].
Qed.

Lemma scaled_same_set n c k M k' M' x : 0 < k -> 0 < k' ->
  (forall i j, (i < n)%nat -> (j < n)%nat -> k * M i j = k' * M' i j) ->
  in_ellipsoid n c k M x -> in_ellipsoid n c k' M' x.
Proof.
  intros Hk Hk' HE (y & Hy & Hq). exists (fun i => k' / k * y i).
  assert (Hmv : forall y i, (i < n)%nat -> k * mv n M y i = k' * mv n M' y i).
  { intros y0 i Hi. rewrite <- !mv_mscal. apply mv_ext; auto. }
  assert (Hqq : k * quad n M y = k' * quad n M' y).
  { unfold quad. rewrite <- !bil_mscal. apply bil_ext; auto. }
  split.
  - intros i Hi. rewrite mv_scal, (Hy i Hi). apply Rmult_eq_reg_l with k; [|lra].
    rewrite Hmv by exact Hi. field. lra.
  - unfold quad. rewrite bil_scal_l, bil_scal_r. fold (quad n M' y).
    replace (k' / k * (k' / k * quad n M' y)) with (k' / (k * k) * (k' * quad n M' y)) by (field; lra).
    rewrite <- Hqq. replace (k' / (k * k) * (k * quad n M y)) with (k' / k * quad n M y) by (field; lra).
    apply Rle_trans with (k' / k * k); [|right; field; lra].
    apply Rmult_le_compat_l; [|exact Hq]. apply Rle_mult_inv_pos; lra.
Qed.

Lemma no_defer_equiv n p e l : psd_ell n p e -> kappa e <> 0 ->
  let a := ell_set_no_defer e false in
  let b := ell_set_no_defer e true in
  (forall l1 l2, l = l1 ++ l2 -> kappa (fst (ell_seq l1 a)) <> 0) ->
  snd (ell_seq l a) = snd (ell_seq l b) /\
  xc (fst (ell_seq l a)) = xc (fst (ell_seq l b)) /\
  tsq (fst (ell_seq l a)) = tsq (fst (ell_seq l b)) /\
  (0 < kappa e -> 0 < kappa (fst (ell_seq l a)) ->
   forall x, ell_in n (fst (ell_seq l a)) x <-> ell_in n (fst (ell_seq l b)) x).
Proof.
  intros (H1 & H2 & H3 & H4 & H5) Hk a b Hall.
  assert (Hs : same n a b).
  { split; [exact H1|]. split; [exact H1|]. split; [exact H2|]. repeat (split; [reflexivity||exact Hk|]). reflexivity. }
  destruct (same_seq n l a b Hs Hall) as [E1 E2]. split; [exact E1|].
  assert (Hkb : 0 < kappa e -> 0 < kappa (fst (ell_seq l b))).
  { intros Hpos. assert (G : forall l (e0 : ell RA), no_defer_trick e0 = true -> 0 < kappa e0 ->
      0 < kappa (fst (ell_seq l e0)) ).
    { clear. induction l as [|[k ct] l IH]; intros e0 Hf Hk; [exact Hk|].
      cbn [ell_seq]. destruct (ell_update k ct e0) as [e1 o] eqn:E.
      assert (G : no_defer_trick e1 = true /\ 0 < kappa e1).
      { rewrite ell_update_core_eq in E. unfold ell_update_core in E. destruct ct as [g beta].
        destruct (forallb _ g); [injection E as <- <-; auto|].
        destruct (negb _) in E; [injection E as <- <-; auto|].
        destruct (aeqb _ _) in E; [injection E as <- <-; auto|].
        destruct (strat_of k _ _ _) as [[st [[[r s] d]|]]|] in E; [|injection E as <- <-; auto|injection E as <- <-; auto].
        destruct (Broadcast.isub _ _) in E; [|injection E as <- <-; auto].
        rewrite Hf in E. injection E as <- <-. split; [reflexivity|]. cbn. lra. }
      destruct G as [G1 G2]. specialize (IH e1 G1 G2). destruct (ell_seq l e1). exact IH. }
    apply G; [reflexivity|exact Hpos]. }
  destruct E2 as (_ & _ & _ & Ex & Et & _ & _ & _ & _ & _ & HE).
  split; [exact Ex|]. split; [exact Et|].
  intros Hpos Hka x. specialize (Hkb Hpos). unfold ell_in. rewrite <- Ex. split.
  - apply scaled_same_set; assumption.
  - apply scaled_same_set; try assumption. intros i j Hi Hj. symmetry. apply HE; assumption.
Qed.

(** ** Straddling two-sided bias cuts lose points *)
Lemma two_beta_norm k p beta b0 b1 : k <> OpCentral -> first_beta beta = Some b0 -> second_beta p beta = Some b1 ->
  norm k p beta = inr (EPar b0 b1).
Proof.
  intros Hk H1 H2. destruct beta as [b|[|[a|] [|o l]]]; cbn in H1, H2; try discriminate.
  destruct p; [|discriminate]. subst o. injection H1 as ->. destruct k; [reflexivity|congruence|reflexivity].
Qed.

Lemma orth_exists n M g : (2 <= n)%nat -> symmetric n M -> posdef n M -> nonzero n g ->
  exists y, nonzero n y /\ bil n M g y = 0.
Proof.
  intros Hn Hsym Hpd (i & Hi & Hgi).
  assert (Hw : 0 < quad n M g) by (apply Hpd; exists i; auto).
  set (j := if Nat.eqb i 0 then 1%nat else 0%nat).
  assert (Hj : (j < n)%nat /\ j <> i) by (unfold j; destruct (Nat.eqb_spec i 0); lia).
  destruct Hj as [Hj Hji].
  set (v := fun k : nat => if Nat.eqb k j then 1 else 0).
  set (q := bil n M g v / quad n M g).
  exists (fun k => v k - q * g k). split.
  - destruct (Req_dec q 0) as [Hq|Hq].
    + exists j. split; [exact Hj|]. rewrite Hq. unfold v. rewrite Nat.eqb_refl. lra.
    + exists i. split; [exact Hi|]. unfold v. destruct (Nat.eqb_spec i j); [congruence|].
      intros E. apply Hq. apply Rmult_eq_reg_r with (g i); [lra|exact Hgi].
  - rewrite bil_minus_r, bil_scal_r. fold (quad n M g). unfold q. field. lra.
Qed.

Lemma pd_inj n M u v : posdef n M -> (forall i, (i < n)%nat -> mv n M u i = mv n M v i) ->
  forall i, (i < n)%nat -> u i = v i.
Proof.
  intros Hpd H i Hi. destruct (Req_dec (u i) (v i)) as [|N]; [assumption|exfalso].
  assert (Hz : nonzero n (fun k => u k - v k)) by (exists i; split; [exact Hi|lra]).
  apply Hpd in Hz. unfold quad, bil in Hz.
  rewrite (dot_ext n _ _ (fun k => u k - v k) (fun _ => 0)) in Hz;
    [|auto|intros k Hk; rewrite mv_minus, H by exact Hk; lra].
  unfold dot in Hz. rewrite sumn_0 in Hz; [lra|]. intros. ring.
Qed.

Lemma straddle_loses n p (e : ell RA) (ct : cut RA) b0 b1 : pd_ell n p e -> vec_wf n (fst ct) -> nonzero n (fv (fst ct)) ->
  first_beta (snd ct) = Some b0 -> second_beta p (snd ct) = Some b1 ->
  b0 <= b1 -> b1 * b1 < cut_tsq n e ct -> cut_tsq n e ct + INR n * (b0 * b1) < 0 ->
  (exists e1, ell_update_bias_cut ct e = (e1, Ok Success) /\
     exists x, ell_in n e x /\ cut_sat n OpBias p e ct x /\ ~ ell_in n e1 x) /\
  (exists e1, ell_update_q ct e = (e1, Ok NoEffect)).
Proof.
  intros He Hg Hz Hb0 Hb1 Hab HbT Heta. pose proof (pd_psd _ _ _ He) as (_ & _ & _ & _ & Hp).
  pose proof (pd_omega n p e ct He Hz) as HT.
  destruct He as (HM & Hxc & Hc & Hsym & Hpd & Hk). destruct ct as [g beta]. unfold cut_tsq in *. cbn [fst snd] in *.
  set (w := quad n (fm (mq e)) (fv g)) in *. set (T := kappa e * w) in *.
  assert (Hw : 0 < w) by (apply Hpd, Hz). assert (Hw' : w <> 0) by lra.
  destruct (calc_for_R _ _ _ Hc) as [Hn Hh]. pose proof (INR_ge_2 n Hn) as HN.
  assert (Hneg : b0 * b1 < 0) by nra.
  assert (Hb0' : b0 < 0) by nra. assert (Hb1' : 0 < b1) by nra.
  assert (Hfall : Rltb 0 b1 && Rleb T (b1 * b1) = false).
  { destruct (Rltb 0 b1); [|reflexivity]. cbn. destruct (Rleb_spec T (b1 * b1)); [lra|reflexivity]. }
  assert (Hbias : strat_of OpBias (helper e) beta T =
    Ok (Success, Some (q_rho (INR n) T b0 b1, q_sigma (INR n) T b0 b1, q_delta (INR n) T b0 b1))).
  { rewrite Hh, strat_norm by assumption.
    rewrite (two_beta_norm OpBias p beta b0 b1) by (assumption || discriminate). cbn [eff_res is_q].
    unfold par_res. destruct (Rltb_spec b1 b0); [lra|]. rewrite Hfall. reflexivity. }
  assert (Hq : strat_of OpQ (helper e) beta T = Ok (NoEffect, None)).
  { rewrite Hh, strat_norm by assumption.
    rewrite (two_beta_norm OpQ p beta b0 b1) by (assumption || discriminate). cbn [eff_res is_q].
    unfold par_res. destruct (Rltb_spec b1 b0); [lra|]. rewrite Hfall. unfold q_eta.
    destruct (Rleb_spec (T + INR n * (b0 * b1)) 0); [reflexivity|lra]. }
  split.
  2:{ exists (set_tsq e (T : num RA)). change (ell_update OpQ (g, beta) e = (set_tsq e (T : num RA), Ok NoEffect)).
      rewrite (update_eq n) by assumption. fold w T. rewrite Hq. reflexivity. }
  set (r := q_rho (INR n) T b0 b1) in *. set (s := q_sigma (INR n) T b0 b1) in *.
  set (d := q_delta (INR n) T b0 b1) in *.
  exists (new_ell e g w r s d). split.
  { change (ell_update OpBias (g, beta) e = (new_ell e g w r s d, Ok Success)).
    rewrite (update_eq n) by assumption. fold w T. rewrite Hbias. reflexivity. }
  assert (Hre : reach T b1) by (right; exact HbT).
  assert (Hs : s < 0) by (apply sigma_neg; assumption).
  assert (Hd : 0 < d) by (apply delta_sign; [exact HN|exact HT|lra]).
  assert (Hid : (1 - s) * (d * T - T) = s * (s * ((b0 + b1) * (b0 + b1)) / 4 - b0 * b1)).
  { apply delta_identity; assumption. }
  destruct (orth_exists n (fm (mq e)) (fv g) Hn Hsym Hpd Hz) as (y0 & Hy0 & Horth).
  pose proof (Hpd y0 Hy0) as Hq0.
  set (m := sqrt (kappa e / quad n (fm (mq e)) y0)).
  assert (Hm : m * m * quad n (fm (mq e)) y0 = kappa e).
  { unfold m. rewrite sqrt_sqrt by (apply Rle_mult_inv_pos; lra). field. lra. }
  set (y := fun i => m * y0 i).
  assert (Hqy : quad n (fm (mq e)) y = kappa e).
  { unfold quad, y. rewrite bil_scal_l, bil_scal_r. fold (quad n (fm (mq e)) y0). lra. }
  assert (Hgy : bil n (fm (mq e)) (fv g) y = 0).
  { unfold y. rewrite bil_scal_r, Horth. ring. }
  set (x := fun i => fv (xc e) i + mv n (fm (mq e)) y i).
  assert (Hxy : forall i, (i < n)%nat -> x i - fv (xc e) i = mv n (fm (mq e)) y i).
  { intros i Hi. unfold x. ring. }
  exists x. split; [exists y; split; [exact Hxy|rewrite Hqy; lra]|].
  split.
  { unfold cut_sat. cbn [fst snd]. rewrite (cutval_bil n (fm (mq e)) (fv g) (fv (xc e)) x y Hxy), Hgy.
    unfold cut_holds. rewrite Hb0, Hb1. lra. }
  intros Hin.
  assert (Hin' : in_ellipsoid n (cutC n (fm (mq e)) (fv g) (fv (xc e)) w r) (kappa e * d)
                   (cutM n (fm (mq e)) (fv g) w s) x).
  { assert (Hkd : 0 < kappa e * d) by (apply Rmult_lt_0_compat; assumption).
    unfold ell_in in Hin. unfold w in Hin. rewrite new_kappa in Hin. fold w in Hin.
    destruct (no_defer_trick e) eqn:Ef.
    - apply scale_out; [lra|]. revert Hin. apply in_ellipsoid_ext; [|reflexivity|].
      + intros i Hi. apply new_xc; assumption.
      + intros i j Hi Hj. unfold w. rewrite new_mq by assumption. rewrite Ef. reflexivity.
    - revert Hin. apply in_ellipsoid_ext; [|reflexivity|].
      + intros i Hi. apply new_xc; assumption.
      + intros i j Hi Hj. unfold w. rewrite new_mq by assumption. rewrite Ef. ring. }
  destruct Hin' as (z & Hz1 & Hz2).
  assert (Hpd1 : posdef n (cutM n (fm (mq e)) (fv g) w s)) by (apply cutM_pd; try assumption; lra).
  assert (Hzy : forall i, (i < n)%nat -> z i = new_y n (fm (mq e)) (fv g) y r s i).
  { apply (pd_inj n _ _ _ Hpd1). intros i Hi. rewrite <- Hz1 by exact Hi.
    apply (new_y_mv n (fm (mq e)) (fv g) (fv (xc e)) Hsym x y r s Hw); [lra|exact Hxy|exact Hi]. }
  assert (Hid' : (1 - s) * (d * (kappa e * w) - kappa e * w) = s * (s * (b0 + b1) * (b0 + b1) / 4 - b0 * b1)).
  { fold T. rewrite Hid. field. }
  pose proof (new_y_gap n (fm (mq e)) (fv g) Hsym y (kappa e) r s d b0 b1 Hw ltac:(lra) eq_refl Hid') as G.
  fold w in G. rewrite Hqy, Hgy in G.
  assert (Eq : quad n (cutM n (fm (mq e)) (fv g) w s) z
             = quad n (cutM n (fm (mq e)) (fv g) w s) (new_y n (fm (mq e)) (fv g) y r s)).
  { apply bil_ext; auto. }
  rewrite <- Eq in G.
  assert (0 < s * (b0 * b1)) by nra.
  assert (0 < w * (1 - s)) by nra.
  nra.
Qed.

(** ** Parallel cuts that miss the ellipsoid *)
Lemma miss_accepted n p (e : ell RA) k (ct : cut RA) b0 b1 : pd_ell n p e -> k <> OpCentral ->
  vec_wf n (fst ct) -> nonzero n (fv (fst ct)) ->
  first_beta (snd ct) = Some b0 -> second_beta p (snd ct) = Some b1 ->
  b0 <= b1 -> b1 < - sqrt (cut_tsq n e ct) ->
  (forall x, ell_in n e x -> ~ cut_sat n k p e ct x) /\
  exists e1, ell_update k ct e = (e1, Ok Success) /\
    (no_defer_trick e = false -> kappa e1 < 0) /\
    (no_defer_trick e = false -> b0 < b1 ->
       forall (g2 : vec RA) b2, vec_wf n g2 -> nonzero n (fv g2) ->
       exists e2, ell_update_central_cut (g2, CSingle b2) e1 = (e2, Err ValueError)).
Proof.
  intros He Hkc Hg Hz Hb0 Hb1 Hab HbT. pose proof (pd_psd _ _ _ He) as Hpsd. pose proof Hpsd as (_ & _ & _ & _ & Hp).
  pose proof (pd_omega n p e ct He Hz) as HT. pose proof He as (HM & Hxc & Hc & Hsym & Hpd & Hk).
  destruct (calc_for_R _ _ _ Hc) as [Hn Hh]. pose proof (INR_ge_2 n Hn) as HN.
  assert (Ht : 0 < sqrt (cut_tsq n e ct)) by (apply sqrt_lt_R0, HT).
  assert (Htt : sqrt (cut_tsq n e ct) * sqrt (cut_tsq n e ct) = cut_tsq n e ct) by (apply sqrt_sqrt; lra).
  split.
  { intros x Hx [H1 H2]. rewrite Hb1 in H2.
    pose proof (cutval_sq_le n _ (fv (fst ct)) _ Hsym Hp _ _ Hx) as H.
    change (kappa e * quad n (fm (mq e)) (fv (fst ct))) with (cut_tsq n e ct) in H. nra. }
  destruct ct as [g beta]. unfold cut_tsq in *. cbn [fst snd] in *.
  set (w := quad n (fm (mq e)) (fv g)) in *. set (T := kappa e * w) in *.
  assert (Hw : 0 < w) by (apply Hpd, Hz). assert (Hw' : w <> 0) by lra.
  assert (Heta : 0 < q_eta (INR n) T b0 b1).
  { unfold q_eta. assert (0 < b0 * b1) by nra. nra. }
  assert (Hstrat : strat_of k (helper e) beta T =
    Ok (Success, Some (q_rho (INR n) T b0 b1, q_sigma (INR n) T b0 b1, q_delta (INR n) T b0 b1))).
  { rewrite Hh, strat_norm by assumption.
    rewrite (two_beta_norm k p beta b0 b1) by assumption. cbn [eff_res].
    unfold par_res. destruct (Rltb_spec b1 b0); [lra|]. destruct (Rltb_spec 0 b1); [lra|]. cbn [andb].
    destruct (Rleb_spec (q_eta (INR n) T b0 b1) 0); [lra|]. rewrite andb_false_r. reflexivity. }
  set (r := q_rho (INR n) T b0 b1) in *. set (s := q_sigma (INR n) T b0 b1) in *.
  set (d := q_delta (INR n) T b0 b1) in *.
  exists (new_ell e g w r s d). split.
  { rewrite (update_eq n) by assumption. fold w T. rewrite Hstrat. reflexivity. }
  assert (Hre : reach T b1) by (left; lra).
  assert (Hd : d < 0) by (apply delta_miss; [exact HN|exact HT|nra|nra]).
  assert (Hkn : no_defer_trick e = false -> kappa (new_ell e g w r s d) < 0).
  { intros Hf. unfold w. rewrite new_kappa, Hf. nra. }
  split; [exact Hkn|]. intros Hf Hlt g2 b2 Hg2 Hz2. specialize (Hkn Hf).
  assert (Hs : s < 1) by (apply sigma_lt_1; try assumption; lra).
  assert (Hw2 : 0 < quad n (fm (mq (new_ell e g w r s d))) (fv g2)).
  { assert (Hext : forall i j, (i < n)%nat -> (j < n)%nat ->
      cutM n (fm (mq e)) (fv g) w s i j = fm (mq (new_ell e g w r s d)) i j).
    { intros i j Hi Hj. unfold w. rewrite new_mq, Hf by assumption. ring. }
    apply (pd_ext n _ _ Hext); [apply cutM_pd; assumption|exact Hz2]. }
  set (e1 := new_ell e g w r s d) in *.
  assert (HM1 : mat_wf n (mq e1)) by (unfold e1, w; apply new_wf; assumption).
  assert (Hx1 : length (xc e1) = n) by (unfold e1, w; apply new_xc_length; assumption).
  exists (set_tsq e1 (kappa e1 * quad n (fm (mq e1)) (fv g2) : num RA)).
  change (ell_update OpCentral (g2, CSingle b2) e1 = (set_tsq e1 (kappa e1 * quad n (fm (mq e1)) (fv g2) : num RA), Err ValueError)).
  rewrite (update_eq n) by (assumption || lra). cbn [strat_of calc_single_or_parallel_central_cut].
  rewrite psqrt_neg; [reflexivity|nra].
Qed.

(** A one-sided shallow cut written with a far second offset. *)
Lemma shallow_assert n p (e : ell RA) (ct : cut RA) b0 b1 : pd_ell n p e -> vec_wf n (fst ct) -> nonzero n (fv (fst ct)) ->
  first_beta (snd ct) = Some b0 -> second_beta p (snd ct) = Some b1 ->
  b0 < 0 -> sqrt (cut_tsq n e ct) <= b1 ->
  exists e1, ell_update_bias_cut ct e = (e1, Err AssertionError).
Proof.
  intros He Hg Hz Hb0 Hb1 Hb HbT. pose proof (pd_omega n p e ct He Hz) as HT.
  destruct He as (HM & Hxc & Hc & Hsym & Hpd & Hk).
  destruct (calc_for_R _ _ _ Hc) as [Hn Hh]. pose proof (INR_ge_2 n Hn) as HN.
  assert (Ht : 0 < sqrt (cut_tsq n e ct)) by (apply sqrt_lt_R0, HT).
  assert (Htt : sqrt (cut_tsq n e ct) * sqrt (cut_tsq n e ct) = cut_tsq n e ct) by (apply sqrt_sqrt; lra).
  destruct ct as [g beta]. unfold cut_tsq in *. cbn [fst snd] in *.
  assert (Hw : quad n (fm (mq e)) (fv g) <> 0) by (apply Rgt_not_eq, Hpd, Hz).
  exists (set_tsq e (kappa e * quad n (fm (mq e)) (fv g) : num RA)).
  change (ell_update OpBias (g, beta) e = (set_tsq e (kappa e * quad n (fm (mq e)) (fv g) : num RA), Err AssertionError)).
  rewrite (update_eq n) by assumption. rewrite Hh, strat_norm by assumption.
  rewrite (two_beta_norm OpBias p beta b0 b1) by (assumption || discriminate). cbn [eff_res is_q].
  unfold par_res. destruct (Rltb_spec b1 b0); [lra|].
  destruct (Rltb_spec 0 b1); [|lra].
  match goal with |- context [Rleb ?a ?b] => destruct (Rleb_spec a b); [|nra] end.
  cbn [andb]. unfold single_res. destruct (Rleb_spec 0 b0); [lra|]. reflexivity.
Qed.
