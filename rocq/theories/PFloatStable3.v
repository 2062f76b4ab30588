(** Runs of [EllStable] in double arithmetic. *)
From Coq Require Import Reals List Arith ZArith Lia Lra Bool Floats.
From Verif Require Import Arith Vec ModelCalc ModelEll ModelStable SpecDrivers SpecFloating.
From Verif Require Import PVec PStable PFloat PFloatEll PFloatSign PFloatCalc PFloatStable PFloatStable2.
Import ListNotations.
Local Open Scope R_scope.

Lemma notneg_inv n s : fstable_notneg n s <-> fst_inv n s.
Proof.
  unfold fstable_notneg, fst_inv, msq. split.
  - intros (H1 & Hx & H2 & H3 & H4 & H5). split; [ exact H1 | ]. split; [ exact Hx | ]. split; [ now split | ].
    split; [ intros j Hj; apply fnotneg_ev, H4, Hj | now apply fnotneg_ev ].
  - intros (H1 & Hx & (H2 & H3) & H4 & H5). split; [ exact H1 | ]. split; [ exact Hx | ]. split; [ exact H2 | ]. split; [ exact H3 | ].
    split; [ intros j Hj; apply fnotneg_ev, H4, Hj | now apply fnotneg_ev ].
Qed.

Lemma fstable_step n s k g beta s1 o : (1 <= n)%nat -> fstable_notneg n s -> length g = n ->
  fstable_update k (g, beta) s = (s1, o) ->
  (forall st rho sigma delta,
     fstrat_of k (s_helper s) beta (s_tsq s1) = Ok (st, Some (rho, sigma, delta)) ->
     fnonneg sigma /\ PrimFloat.ltb sigma PrimFloat.one = true /\ fnotneg delta) ->
  fstable_notneg n s1 /\ fnotneg (s_tsq s1) /\ s_helper s1 = s_helper s /\
  o = match fstrat_of k (s_helper s) beta (s_tsq s1) with Err x => Err x | Ok (st, _) => Ok st end.
Proof.
  intros Hn Hs Hg Hu Ha. apply notneg_inv in Hs.
  assert (Hu' : stable_update_core (fstrat_of k) (g, beta) s = (s1, o)) by (destruct k; exact Hu).
  destruct (step_inv n s g Hn Hs Hg _ _ _ _ Hu') as (I1 & I2 & I3 & I4 & I5).
  - intros st rho sigma delta E. destruct (Ha st rho sigma delta E) as (A1 & A2 & A3).
    apply fnonneg_ev in A1. apply fnotneg_ev in A3. split; [ | exact A3 ].
    rewrite ev_ltb in A2. change PrimFloat.one with (aone (a:=FA)) in A2. rewrite ev_one in A2.
    destruct A1 as [A1 A4]. destruct (ev sigma) as [q| | |]; cbn in A1, A2; try tauto; try discriminate.
    exists q. destruct (Rlt_dec q 1); [ | discriminate ]. split; [ reflexivity | lra ].
  - split; [ now apply notneg_inv | ]. split; [ now apply fnotneg_ev | ]. split; [ exact I3 | exact I5 ].
Qed.

Lemma central_answer (c : calc FA) n b t : core_ok n (c_helper c) -> enn (ev t) ->
  exists st, calc_single_or_parallel_central_cut c (CSingle b) t = Ok (Success, Some st) /\
  (exists q, ev (snd (fst st)) = EFin q /\ 0 <= q < 1) /\ enn (ev (snd st)).
Proof.
  intros Hc Ht. cbn [calc_single_or_parallel_central_cut]. rewrite fpsqrt by exact Ht. cbn [bind].
  eexists. split; [ reflexivity | ]. cbn [core_central_cut fst snd]. split.
  - destruct (ok_c2 _ _ Hc) as (v & Ev & _ & Hv). exists v. split; [ exact Ev | lra ].
  - destruct (ok_c1 _ _ Hc) as (v & -> & Hv & _). cbn. lra.
Qed.

Lemma stable_tsq_strat (strat strat' : strategy FA) g b s s1 o :
  stable_update_core strat (g, b) s = (s1, o) ->
  s_tsq s1 = s_tsq (fst (stable_update_core strat' (g, b) s)).
Proof.
  assert (T : forall st : strategy FA, s_tsq (fst (stable_update_core st (g, b) s)) =
     if Nat.ltb (length g) (s_ndim s) || Nat.ltb (length (s_mq s)) (s_ndim s) then s_tsq s
     else let '(m1, w) := fwd_subst (s_ndim s) (s_mq s) g in
          amul (s_kappa s) (vsum (map2 amul w (diag_scale (s_ndim s) m1 w)))).
  { intros st. unfold stable_update_core.
    destruct (Nat.ltb (length g) (s_ndim s) || Nat.ltb (length (s_mq s)) (s_ndim s)); [ reflexivity | ].
    destruct (fwd_subst (s_ndim s) (s_mq s) g) as [m1 w].
    destruct (st (s_helper s) b _) as [[st' [[[a1 a2] a3]|]]|x]; try reflexivity.
    destruct (ndiv a1 _); [ | reflexivity ]. destruct (negb (Nat.eqb _ _)); [ reflexivity | ].
    destruct (pdiv a2 _) as [mu|]; [ | reflexivity ].
    destruct (aeqb mu azero); [ reflexivity | ].
    destruct (rank1_loop _ _ _ _ _ _) as [m2 [u|x]]; [ destruct (s_no_defer_trick s) | ]; reflexivity. }
  intros E. rewrite T, <- (T strat), E. reflexivity.
Qed.

Lemma fstable_central n : (2 <= n)%nat -> forall l s, fst_inv n s -> core_ok n (c_helper (s_helper s)) ->
  central_calls n l ->
  let r := fstable_seq l s in
  fst_inv n (fst r) /\ (l <> [] -> enn (ev (s_tsq (fst r)))) /\
  forall o, In o (snd r) -> o = Ok Success.
Proof.
  intros Hn. induction l as [|[k [g beta]] l IH]; intros s Hs Hc Hl; cbn [fstable_seq].
  - cbn. split; [ exact Hs | ]. split; [ congruence | tauto ].
  - destruct (Hl k (g, beta)) as (-> & Hg & b & Eb); [ now left | ]. cbn [fst snd] in Hg, Eb. subst beta.
    destruct (fstable_update OpCentral (g, CSingle b) s) as [s1 o] eqn:Eu.
    assert (St : fst_inv n s1 /\ enn (ev (s_tsq s1)) /\ s_helper s1 = s_helper s /\
        o = Ok Success).
    { destruct (step_inv n s g ltac:(lia) Hs Hg _ _ _ _ Eu) as (I1 & I2 & I3 & I4 & I5).
      - intros st rho sigma delta E.
        assert (T : enn (ev (s_tsq s1))).
        { (* tsq is computed before the strategy is asked *)
          destruct (step_inv n s g ltac:(lia) Hs Hg
             (fun _ _ _ => Err AssertionError) (CSingle b) _ _ (surjective_pairing _)) as (_ & J2 & _ & J4 & _);
            [ intros ? ? ? ? [=] | ].
          assert (E1 := stable_tsq_strat _ (fun _ _ _ => Err AssertionError) _ _ _ _ _ Eu).
          rewrite E1. exact J2. }
        destruct (central_answer (s_helper s) n b (s_tsq s1) Hc T) as (st' & E' & P1 & P2).
        rewrite E' in E. injection E as _ E. subst st'. cbn [fst snd] in P1, P2. now split.
      - split; [ exact I1 | ]. split; [ exact I2 | ]. split; [ exact I3 | ].
        destruct (central_answer (s_helper s) n b (s_tsq s1) Hc I2) as (st' & E' & _ & _).
        rewrite I5, E'. reflexivity. }
    destruct St as (I1 & I2 & I3 & I4).
    assert (Hc1 : core_ok n (c_helper (s_helper s1))) by (rewrite I3; exact Hc).
    specialize (IH s1 I1 Hc1 ltac:(intros k' ct' Hi; apply Hl; now right)).
    destruct (fstable_seq l s1) as [s2 os] eqn:E2. cbn [fst snd] in *.
    destruct IH as (J1 & J2 & J3). split; [ exact J1 | ]. split.
    + intros _. destruct l as [|a l']; [ | apply J2; discriminate ].
      cbn in E2. injection E2 as <- _. exact I2.
    + intros o' [<-|Ho']; [ exact I4 | now apply J3 ].
Qed.

Lemma mdiag_notneg n (d : vec FA) : length d = n -> (forall i, (i < n)%nat -> fnotneg (vget d i)) ->
  msq n (mdiag d) /\ forall j, (j < n)%nat -> enn (ev (mget (mdiag d) j j)).
Proof.
  intros L H. split.
  - generalize (mdiag_sq d). intros [Q1 Q2]. split; [ rewrite Q1; exact L | ].
    intros i Hi. rewrite Q2; [ exact L | rewrite L; exact Hi ].
  - intros j Hj. rewrite mdiag_get by (rewrite L; exact Hj). rewrite Nat.eqb_refl.
    apply fnotneg_ev. now apply H.
Qed.

Lemma fstable_init_inv n v x0 s : stable_init (A:=FA) v x0 = Ok s -> length x0 = n ->
  (Z.of_nat n < 2 ^ 53)%Z -> fval_notneg n v ->
  (2 <= n)%nat /\ fst_inv n s /\ core_ok n (c_helper (s_helper s)) /\ s_tsq s = PrimFloat.zero.
Proof.
  intros Hi Hx Hb Hv. unfold stable_init in Hi. rewrite Hx in Hi.
  destruct (Nat.leb_spec 2 n) as [H2|H2].
  2:{ unfold calc_init in Hi. destruct (Nat.leb_spec 2 n); [ lia | discriminate ]. }
  destruct (calc_init_ok n H2 Hb) as (c & Ec & _ & _ & Hc). rewrite Ec in Hi. cbn [bind] in Hi.
  split; [ exact H2 | ].
  destruct v as [k|d]; injection Hi as <-; cbn [s_tsq s_helper].
  - split; [ | split; [ exact Hc | reflexivity ] ].
    unfold fst_inv; cbn [s_ndim s_mq s_kappa s_xc]. split; [ reflexivity | ]. split; [ exact Hx | ].
    destruct (mdiag_notneg n (repeat (aone (a:=FA)) n)) as [Q1 Q2].
    + apply repeat_length.
    + intros i Hi. apply fnotneg_ev.
      assert (E : vget (repeat (aone (a:=FA)) n) i = aone (a:=FA)).
      { unfold vget. apply nth_repeat_lt || (rewrite nth_indep with (d' := aone (a:=FA)) by (rewrite repeat_length; exact Hi); apply nth_repeat). }
      rewrite E, ev_one. cbn. lra.
    + split; [ exact Q1 | ]. split; [ exact Q2 | ]. apply fnotneg_ev. exact Hv.
  - split; [ | split; [ exact Hc | reflexivity ] ].
    unfold fst_inv; cbn [s_ndim s_mq s_kappa s_xc]. split; [ reflexivity | ]. split; [ exact Hx | ].
    destruct Hv as [Hv1 Hv2]. destruct (mdiag_notneg n d Hv1 Hv2) as [Q1 Q2].
    split; [ exact Q1 | ]. split; [ exact Q2 | ]. change (enn (ev (aone (a:=FA)))). rewrite ev_one. cbn. lra.
Qed.

Lemma fstable_never_negative n v x0 s l : stable_init (A:=FA) v x0 = Ok s -> length x0 = n ->
  (Z.of_nat n < 2 ^ 53)%Z -> fval_notneg n v -> central_calls n l ->
  let r := fstable_seq l s in
  fstable_notneg n (fst r) /\ fnotneg (s_tsq (fst r)) /\
  forall o, In o (snd r) -> o = Ok Success.
Proof.
  intros Hi Hx Hb Hv Hl. destruct (fstable_init_inv n v x0 s Hi Hx Hb Hv) as (H2 & I1 & I2 & I3).
  destruct (fstable_central n H2 l s I1 I2 Hl) as (J1 & J2 & J3). cbv zeta.
  split; [ now apply notneg_inv | ]. split; [ | exact J3 ].
  apply fnotneg_ev. destruct l as [|a l'].
  - cbn. rewrite I3. rewrite ev_zero. cbn. lra.
  - apply J2. discriminate.
Qed.
