(** [EllStable] in double arithmetic: signs. *)
From Coq Require Import Reals List Arith ZArith Lia Lra Bool Floats.
From Verif Require Import Arith Vec ModelCalc ModelEll ModelStable SpecDrivers SpecFloating.
From Verif Require Import PVec PStable PFloat PFloatEll PFloatSign PFloatCalc PFloatStable PStableLen.
Import ListNotations.
Local Open Scope R_scope.

Definition fst_inv (n : nat) (s : stable FA) : Prop :=
  s_ndim s = n /\ length (s_xc s) = n /\ msq n (s_mq s) /\
  (forall j, (j < n)%nat -> enn (ev (mget (s_mq s) j j))) /\ enn (ev (s_kappa s)).

Lemma enn_sum (l : list PrimFloat.float) : Forall (fun x => enn (ev x)) l ->
  forall a : PrimFloat.float, enn (ev a) -> enn (ev (fold_left (aadd (a:=FA)) l a)).
Proof.
  induction 1 as [|x l Hx _ IH]; intros a Ha; [ exact Ha | ].
  cbn [fold_left]. apply IH. cbn [aadd FA]. rewrite ev_add. now apply enn_add.
Qed.

Lemma enn_vsum (l : vec FA) : Forall (fun x => enn (ev x)) l -> enn (ev (vsum l)).
Proof. intros H. apply enn_sum; [ exact H | ].
  change (azero (a:=FA)) with PrimFloat.zero. rewrite ev_zero. cbn. lra.
Qed.

(** the numpy divisions raise nothing in doubles *)
Lemma rank_ok n (z : vec FA) : forall js m v t, snd (rank1_loop n z js m v t) = Ok tt.
Proof.
  induction js as [|j js IH]; intros m v t; cbn [rank1_loop]; [ reflexivity | ].
  unfold ndiv. cbn [adivz FA negb andb].
  destruct (fold_left _ _ _) as [m2 v2]. apply IH.
Qed.

Section Step.
Variables (n : nat) (s : stable FA) (g : vec FA).
Hypothesis Hn : (1 <= n)%nat.
Hypothesis Hs : fst_inv n s.
Hypothesis Hg : length g = n.

Let m0 := s_mq s.
Let m1 := fst (fwd_subst n m0 g).
Let w := snd (fwd_subst n m0 g).
Let z := diag_scale n m1 w.
Let omega : PrimFloat.float := vsum (map2 amul w z).

Lemma step_fwd : finv n m0 g (n - 1) (fwd_subst n m0 g).
Proof. destruct Hs as (H1 & _ & H2 & H3 & H4). apply fwd_result; assumption. Qed.

Lemma step_m1_diag j : mget m1 j j = mget m0 j j.
Proof.
  destruct step_fwd as (Q & L & HU & HW). fold m1 in HU. rewrite HU. unfold upval.
  destruct (Nat.ltb_spec j j); [ lia | reflexivity ].
Qed.

Lemma step_m1_sq : msq n m1.
Proof. apply step_fwd. Qed.

Lemma step_z : length z = n /\ forall i, (i < n)%nat -> vget z i = (vget w i * mget m0 i i)%float.
Proof.
  destruct step_fwd as (Q & L & HU & HW). fold w in L.
  destruct (diag_result n m1 w L) as [Lz Hz]. split; [ exact Lz | ].
  intros i Hi. unfold z. rewrite (Hz i Hi), step_m1_diag. reflexivity.
Qed.

Lemma step_wz i : (i < n)%nat -> enn (ev (vget w i * vget z i)%float).
Proof.
  intros Hi. rewrite (proj2 step_z i Hi). rewrite !ev_mul. apply enn_wwd.
  now apply (proj1 (proj2 (proj2 (proj2 Hs)))).
Qed.

Lemma step_omega : enn (ev omega).
Proof.
  apply enn_vsum. apply Forall_forall. intros x Hx.
  destruct (In_nth _ _ (azero (a:=FA)) Hx) as (i & Hi & <-).
  destruct step_fwd as (Q & L & HU & HW). fold w in L.
  assert (Lwz : length w = length z) by (etransitivity; [ exact L | symmetry; apply step_z ]).
  assert (Hi' : (i < n)%nat).
  { rewrite <- L. apply Nat.lt_le_trans with (length (map2 (amul (a:=FA)) w z)); [ exact Hi | ].
    apply Nat.eq_le_incl. exact (map2_length (amul (a:=FA)) w z Lwz). }
  assert (E : nth i (map2 (amul (a:=FA)) w z) (azero (a:=FA)) = (vget w i * vget z i)%float).
  { apply (nth_map2 (amul (a:=FA)) w z i (azero (a:=FA)) (azero (a:=FA)) (azero (a:=FA)) Lwz). 
    apply Nat.lt_le_trans with n; [ exact Hi' | ]. apply Nat.eq_le_incl. symmetry; exact L. }
  rewrite E. now apply step_wz.
Qed.

Lemma step_rank (t : PrimFloat.float) : enn (ev t) ->
  let r := rank1_loop n z (seq 0 n) m1 g t in
  msq n (fst r) /\ forall i, (i < n)%nat -> enn (ev (mget (fst r) i i)).
Proof.
  intros Ht. destruct step_fwd as (Q & L & HU & HW).
  apply (rank_loop n m0 g z (fun x => enn (ev x)) (fun x => enn (ev x))).
  - intros j t' d Hj Pt Qd.
    set (nt := (t' + Wst m0 g n (n - 1) j * vget z j)%float).
    assert (Pw : enn (ev (Wst m0 g n (n - 1) j * vget z j)%float)).
    { rewrite <- (HW j). fold w. now apply step_wz. }
    assert (Pnt : enn (ev nt)).
    { unfold nt. rewrite ev_add. now apply enn_add. }
    split; [ exact Pnt | ].
    change (enn (ev (d * (t' / nt))%float)).
    rewrite ev_mul. apply enn_mul; [ exact Qd | ].
    destruct (eeqb (ev nt) (EFin 0)) eqn:Nz.
    { (* only the quotient 0 / 0 can come up *)
      assert (En : ev nt = EFin 0).
      { revert Nz. destruct (ev nt) as [q| | |]; cbn; try discriminate. destruct (Req_EM_T q 0) as [->|]; [ reflexivity | discriminate ]. }
      assert (Et : ev t' = EFin 0).
      { revert En. unfold nt. rewrite ev_add. generalize (ev_fmt t'). revert Pt Pw. 
        generalize (ev_fmt (Wst m0 g n (n - 1) j * vget z j)%float).
        destruct (ev t') as [a| | |], (ev (Wst m0 g n (n - 1) j * vget z j)%float) as [b| | |]; cbn; try discriminate; try tauto.
        intros Fb Pa Pb Fa. destruct (Req_dec a 0) as [->|Na]; [ reflexivity | ]. intros K. exfalso.
        assert (0 < rnd (a + b)) by (apply rnd_plus_pos; [ now apply Fa | now apply Fb | lra ]).
        unfold rx in K. destruct (Rlt_dec (Rabs (rnd (a + b))) big); [ injection K; lra | ].
        destruct (Rlt_dec 0 (a + b)); discriminate. }
      rewrite (ev_zero_div t' nt Et En). exact I. }
    rewrite ev_div by exact Nz.
    apply enn_div; [ exact Pt | ]. now apply enn_nz.
  - reflexivity.
  - exact Q.
  - exact Hg.
  - intros a b Hab. apply HU.
  - intros i. reflexivity.
  - exact Ht.
  - intros i Hi. rewrite step_m1_diag. now apply (proj1 (proj2 (proj2 (proj2 Hs)))).
Qed.

(** What the update needs of the strategy's answer. *)
Definition answer_ok (r : res (stratres FA)) : Prop :=
  forall st rho sigma delta, r = Ok (st, Some (rho, sigma, delta)) ->
  (exists q, ev sigma = EFin q /\ 0 <= q < 1) /\ enn (ev delta).

Lemma step_inv strat beta s1 o :
  stable_update_core strat (g, beta) s = (s1, o) ->
  answer_ok (strat (s_helper s) beta (s_tsq s1)) ->
  fst_inv n s1 /\ enn (ev (s_tsq s1)) /\ s_helper s1 = s_helper s /\
  s_tsq s1 = (s_kappa s * omega)%float /\
  o = match strat (s_helper s) beta (s_tsq s1) with Err x => Err x | Ok (st, _) => Ok st end.
Proof.
  destruct Hs as (H1 & Hx & H2 & H3 & H4).
  unfold stable_update_core. rewrite H1.
  assert (Eg : (Nat.ltb (length g) n || Nat.ltb (length (s_mq s)) n) = false).
  { apply orb_false_iff. split; apply Nat.ltb_ge; apply Nat.eq_le_incl; symmetry; [ exact Hg | apply H2 ]. }
  rewrite Eg.
  change (s_mq s) with m0. rewrite (surjective_pairing (fwd_subst n m0 g)).
  fold m1 w. fold z. change (vsum (map2 amul w z)) with omega.
  assert (Ot : enn (ev (s_kappa s * omega)%float)).
  { rewrite ev_mul. apply enn_mul; [ exact H4 | apply step_omega ]. }
  cbn [amul FA].
  assert (D1 : forall j, (j < n)%nat -> enn (ev (mget m1 j j))).
  { intros j Hj. rewrite step_m1_diag. now apply H3. }
  set (tq := (s_kappa s * omega)%float) in *.
  destruct (strat (s_helper s) beta tq) as [[st [[[rho sigma] delta]|]]|x] eqn:Es.
  2:{ intros [= <- <-] _. cbn [s_tsq s_helper s_mq s_kappa s_ndim]. split; [ | split; [ exact Ot | ] ].
      - unfold fst_inv; cbn. split; [ reflexivity | ]. split; [ exact Hx | ]. split; [ apply step_m1_sq | ]. now split.
      - split; [ reflexivity | ]. split; [ reflexivity | ]. now rewrite Es. }
  2:{ intros [= <- <-] _. cbn [s_tsq s_helper s_mq s_kappa s_ndim]. split; [ | split; [ exact Ot | ] ].
      - unfold fst_inv; cbn. split; [ reflexivity | ]. split; [ exact Hx | ]. split; [ apply step_m1_sq | ]. now split.
      - split; [ reflexivity | ]. split; [ reflexivity | ]. now rewrite Es. }
  (* the strategy answered; the quotient by [omega] raises nothing and the lengths fit *)
  unfold ndiv. cbn [adivz FA negb andb].
  assert (Lq : length (bwd_subst n m1 z) = n) by (rewrite bwd_len; apply step_z).
  rewrite Lq. replace (Nat.eqb (length (s_xc s)) n) with true by (symmetry; apply Nat.eqb_eq; exact Hx). cbn [negb].
  set (xc1 := vsub (s_xc s) (vscale (adiv (a:=FA) rho omega) (bwd_subst n m1 z))).
  assert (Lx : length xc1 = n).
  { unfold xc1, vsub. rewrite map2_length; [ exact Hx | ]. unfold vscale. rewrite map_length.
    etransitivity; [ exact Hx | symmetry; exact Lq ]. }
  assert (B1 : fst_inv n (mkStable (s_no_defer_trick s) m1 xc1 (s_kappa s) tq n (s_helper s))).
  { unfold fst_inv; cbn. split; [ reflexivity | ]. split; [ exact Lx | ]. split; [ apply step_m1_sq | ]. now split. }
  intros Hres Hok.
  assert (Htq : s_tsq s1 = tq).
  { destruct (pdiv sigma (asub aone sigma)) as [mu|x]; [ | injection Hres as <- _; reflexivity ].
    destruct (aeqb (a:=FA) mu azero); [ injection Hres as <- _; reflexivity | ].
    destruct (rank1_loop n z (seq 0 n) m1 g (adiv (a:=FA) omega mu)) as [m2 [u|x]];
      [ destruct (s_no_defer_trick s) | ]; injection Hres as <- _; reflexivity. }
  rewrite Htq in Hok |- *. rewrite Es.
  destruct (Hok st rho sigma delta Es) as ((q & Eq & Hq) & Hd).
  (* 1 - sigma is positive *)
  assert (Ps : epos (ev (PrimFloat.one - sigma)%float)).
  { rewrite ev_sub, Eq. change PrimFloat.one with (aone (a:=FA)). rewrite ev_one. cbn [esub].
    assert (0 < rnd (1 - q)) by (apply rnd_minus_pos; [ apply fmt_1 | exact (ev_fmt _ _ Eq) | lra ]).
    unfold rx. destruct (Rlt_dec (Rabs (rnd (1 - q))) big); [ exact H | ].
    destruct (Rlt_dec 0 (1 - q)); [ exact I | lra ]. }
  assert (Nz1 : eeqb (ev (PrimFloat.one - sigma)%float) (EFin 0) = false) by (now apply epn_nz, epos_epn).
  assert (Em : pdiv sigma (asub (a:=FA) aone sigma) = Ok (sigma / (PrimFloat.one - sigma))%float).
  { unfold pdiv. change (aeqb (asub (a:=FA) aone sigma) azero) with (PrimFloat.eqb (PrimFloat.one - sigma)%float PrimFloat.zero).
    rewrite ev_eqb, ev_zero, Nz1. reflexivity. }
  rewrite Em in Hres. set (mu := (sigma / (PrimFloat.one - sigma))%float) in *.
  assert (Pm : enn (ev mu)).
  { unfold mu. rewrite ev_div by exact Nz1. rewrite Eq. apply enn_div; [ cbn; lra | now apply epos_epn ]. }
  destruct (aeqb (a:=FA) mu azero) eqn:Ez.
  { injection Hres as <- <-. split; [ exact B1 | ]. split; [ exact Ot | ]. split; [ reflexivity | ]. now split. }
  assert (Pmu : epn (ev mu)).
  { apply enn_nz; [ exact Pm | ]. change (PrimFloat.eqb mu PrimFloat.zero = false) in Ez.
    now rewrite ev_eqb, ev_zero in Ez. }
  assert (Pt : enn (ev (omega / mu)%float)).
  { rewrite ev_div by (now apply epn_nz). apply enn_div; [ apply step_omega | exact Pmu ]. }
  destruct (step_rank (omega / mu)%float Pt) as [R1 R2]. assert (R3 := rank_ok n z (seq 0 n) m1 g (omega / mu)%float).
  revert Hres R1 R2 R3.
  change (adiv (a:=FA) omega mu) with (omega / mu)%float.
  destruct (rank1_loop n z (seq 0 n) m1 g (omega / mu)%float) as [m2 r] eqn:Er. cbn [fst snd].
  intros Hres R1 R2 ->.
  assert (Pk : enn (ev (s_kappa s * delta)%float)) by (rewrite ev_mul; now apply enn_mul).
  assert (Ho : o = Ok st) by (destruct (s_no_defer_trick s); injection Hres as _ <-; reflexivity).
  assert (Hh : s_helper s1 = s_helper s) by (destruct (s_no_defer_trick s); injection Hres as <- _; reflexivity).
  split; [ | split; [ exact Ot | split; [ exact Hh | split; [ reflexivity | exact Ho ] ] ] ].
  destruct (s_no_defer_trick s); injection Hres as <- _; unfold fst_inv; cbn [s_ndim s_mq s_kappa s_xc].
  - split; [ reflexivity | ]. split; [ exact Lx | ]. split; [ | split ].
    + destruct R1 as [L1 L2]. split; [ now rewrite mscale_len | ].
      intros i Hi. rewrite nth_mscale by (rewrite L1; exact Hi). rewrite vscale_len. now apply L2.
    + intros j Hj. destruct R1 as [L1 L2]. unfold mget.
      rewrite nth_mscale by (rewrite L1; exact Hj). rewrite vget_scale by (rewrite L2; exact Hj).
      cbn [amul FA]. rewrite ev_mul. apply enn_mul; [ exact Pk | now apply R2 ].
    + change (enn (ev (aone (a:=FA)))). rewrite ev_one. cbn. lra.
  - split; [ reflexivity | ]. split; [ exact Lx | ]. split; [ exact R1 | ]. split; [ exact R2 | exact Pk ].
Qed.

End Step.
