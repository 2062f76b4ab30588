(** [EllStable] in double arithmetic: an all-zero gradient. *)
From Coq Require Import Reals List Arith ZArith Lia Lra Bool Floats.
From Verif Require Import Arith Vec ModelCalc ModelEll ModelStable SpecDrivers SpecFloating.
From Verif Require Import PVec PStable PFloat PFloatEll PFloatSign PFloatCalc PFloatStable PFloatStable2 PFloatStable3 PFloatCut2 PStableLen.
Import ListNotations.
Local Open Scope R_scope.

Lemma fnan_ev x : fnan x <-> ev x = ENan.
Proof.
  unfold fnan. rewrite ev_eqb. destruct (ev x) as [r| | |]; cbn; try (split; [ discriminate | discriminate ]).
  - destruct (Req_EM_T r r); [ split; discriminate | contradiction ].
  - split; reflexivity.
Qed.

Lemma ffinite_ev x : ffinite x -> exists r, ev x = EFin r.
Proof. unfold ffinite, ev. destruct (Prim2SF x) as [s|s| |s m e]; try tauto; intros _; eexists; reflexivity. Qed.

Lemma fzero_ev x : PrimFloat.eqb x PrimFloat.zero = true <-> ev x = EFin 0.
Proof.
  rewrite ev_eqb, ev_zero. destruct (ev x) as [r| | |]; cbn; try (split; discriminate).
  destruct (Req_EM_T r 0) as [->|N]; [ split; reflexivity | ]. split; [ discriminate | intros [= ->]; contradiction ].
Qed.

Section Zero.
Variables (n : nat) (s : stable FA) (g : vec FA).
Hypothesis Hn : (1 <= n)%nat.
Hypothesis Hs : fst_inv n s.
Hypothesis Hg : length g = n.
Hypothesis Hz : forall i, (i < n)%nat -> ev (vget g i) = EFin 0.
Hypothesis Hf : forall i j, (j <= i < n)%nat -> exists r, ev (mget (s_mq s) i j) = EFin r.
Hypothesis Hk : exists r, ev (s_kappa s) = EFin r.

Let m0 := s_mq s.
Let m1 := fst (fwd_subst n m0 g).
Let w := snd (fwd_subst n m0 g).
Let z := diag_scale n m1 w.
Let omega : PrimFloat.float := vsum (map2 amul w z).

Lemma zero_mul x y r : ev x = EFin r -> ev y = EFin 0 -> ev (x * y)%float = EFin 0.
Proof. intros Ex Ey. rewrite ev_mul, Ex, Ey. cbn. rewrite Rmult_0_r. apply rx_0. Qed.

Lemma zero_W k : forall i, (i < n)%nat -> ev (Wst m0 g n k i) = EFin 0.
Proof.
  induction k as [|k IH]; intros i Hi; cbn [Wst]; [ now apply Hz | ].
  destruct (Nat.ltb_spec k i); cbn [andb]; [ | now apply IH ].
  destruct (Nat.ltb_spec i n); [ | lia ].
  change (ev (Wst m0 g n k i - mget m0 i k * Wst m0 g n k k)%float = EFin 0).
  destruct (Hf i k) as [r Er]; [ lia | ]. fold m0 in Er.
  rewrite ev_sub, (IH i Hi), (zero_mul _ _ r Er (IH k ltac:(lia))). cbn. rewrite Rminus_0_r. apply rx_0.
Qed.

Lemma zero_sum (l : vec FA) : (forall x, In x l -> ev x = EFin 0) -> forall a, ev a = EFin 0 -> ev (fold_left (aadd (a:=FA)) l a) = EFin 0.
Proof.
  induction l as [|x l IH]; intros H a Ha; cbn [fold_left]; [ exact Ha | ].
  apply IH; [ intros y Hy; apply H; now right | ]. cbn [aadd FA]. rewrite ev_add, Ha, (H x (or_introl eq_refl)).
  cbn. rewrite Rplus_0_r. apply rx_0.
Qed.

Lemma zero_omega : ev omega = EFin 0.
Proof.
  destruct (step_fwd n s g Hn Hs Hg) as (Q & L & HU & HW). fold m0 w in L, HW.
  destruct (step_z n s g Hn Hs Hg) as [Lz Ez]. fold m0 m1 w z in Lz, Ez.
  unfold omega, vsum. apply zero_sum; [ | apply ev_zero ].
  intros x Hx. destruct (In_nth _ _ (azero (a:=FA)) Hx) as (i & Hi & <-).
  assert (Lwz : length w = length z) by (etransitivity; [ exact L | symmetry; exact Lz ]).
  assert (Hi' : (i < n)%nat).
  { rewrite <- L. apply Nat.lt_le_trans with (length (map2 (amul (a:=FA)) w z)); [ exact Hi | ].
    apply Nat.eq_le_incl. exact (map2_length (amul (a:=FA)) w z Lwz). }
  assert (E : nth i (map2 (amul (a:=FA)) w z) (azero (a:=FA)) = (vget w i * vget z i)%float).
  { apply (nth_map2 (amul (a:=FA)) w z i (azero (a:=FA)) (azero (a:=FA)) (azero (a:=FA)) Lwz).
    apply Nat.lt_le_trans with n; [ exact Hi' | ]. apply Nat.eq_le_incl. symmetry; exact L. }
  rewrite E, (Ez i Hi'). assert (Ew : ev (vget w i) = EFin 0) by (rewrite HW; now apply zero_W).
  destruct (Hf i i) as [r Er]; [ lia | ]. fold m0 in Er.
  assert (Ewz : ev (vget w i * mget m0 i i)%float = EFin 0).
  { rewrite ev_mul, Er, Ew. cbn. rewrite Rmult_0_l. apply rx_0. }
  exact (zero_mul _ _ 0 Ew Ewz).
Qed.

Lemma zero_tsq : ev (s_kappa s * omega)%float = EFin 0.
Proof. destruct Hk as [r Er]. exact (zero_mul _ _ r Er zero_omega). Qed.

(** the centre after an answered call *)
Lemma core_xc strat beta st rho sigma delta :
  strat (s_helper s) beta (s_kappa s * omega)%float = Ok (st, Some (rho, sigma, delta)) ->
  s_xc (fst (stable_update_core strat (g, beta) s)) =
    vsub (s_xc s) (vscale (adiv (a:=FA) rho omega) (bwd_subst n m1 z)).
Proof.
  intros Es. destruct Hs as (H1 & Hx & H2 & H3 & H4).
  unfold stable_update_core. rewrite H1.
  assert (Eg : (Nat.ltb (length g) n || Nat.ltb (length (s_mq s)) n) = false).
  { apply orb_false_iff. split; apply Nat.ltb_ge; apply Nat.eq_le_incl; symmetry; [ exact Hg | apply H2 ]. }
  rewrite Eg.
  change (s_mq s) with m0. rewrite (surjective_pairing (fwd_subst n m0 g)).
  fold m1 w. fold z. change (vsum (map2 amul w z)) with omega. cbn [amul FA]. rewrite Es.
  unfold ndiv. cbn [adivz FA negb andb].
  assert (Lq : length (bwd_subst n m1 z) = n) by (rewrite bwd_len; apply (step_z n s g Hn Hs Hg)).
  rewrite Lq. replace (Nat.eqb (length (s_xc s)) n) with true by (symmetry; apply Nat.eqb_eq; exact Hx). cbn [negb].
  destruct (pdiv sigma (asub aone sigma)) as [mu|x]; [ | reflexivity ].
  destruct (aeqb (a:=FA) mu azero); [ reflexivity | ].
  destruct (rank1_loop n z (seq 0 n) m1 g (adiv (a:=FA) omega mu)) as [m2 [u|x]];
      [ destruct (s_no_defer_trick s) | ]; reflexivity.
Qed.

Lemma nan_xc (c : PrimFloat.float) (x q : vec FA) i : ev c = ENan -> length x = length q -> (i < length x)%nat ->
  ev (vget (vsub x (vscale (A:=FA) c q)) i) = ENan.
Proof.
  intros Hc Hl Hi. unfold vsub.
  assert (Lq : length x = length (vscale (A:=FA) c q)) by (unfold vscale; rewrite map_length; exact Hl).
  assert (E : vget (map2 (asub (a:=FA)) x (vscale (A:=FA) c q)) i = (vget x i - vget (vscale (A:=FA) c q) i)%float).
  { apply (nth_map2 (asub (a:=FA)) x _ i (azero (a:=FA)) (azero (a:=FA)) (azero (a:=FA)) Lq Hi). }
  assert (E2 : vget (vscale (A:=FA) c q) i = (c * vget q i)%float).
  { assert (Hi2 : (i < length q)%nat) by (apply Nat.lt_le_trans with (length x); [ exact Hi | apply Nat.eq_le_incl; exact Hl ]).
    exact (vget_scale (A:=FA) c q i Hi2). }
  etransitivity; [ exact (f_equal ev E) | ]. rewrite E2, ev_sub, ev_mul, Hc. cbn [emul]. destruct (ev (vget x i)); reflexivity.
Qed.

Lemma zero_central b : core_ok n (c_helper (s_helper s)) ->
  snd (fstable_update OpCentral (g, CSingle (A:=FA) b) s) = Ok Success /\
  forall i, (i < n)%nat -> ev (vget (s_xc (fst (fstable_update OpCentral (g, CSingle (A:=FA) b) s))) i) = ENan.
Proof.
  intros Hc. assert (Et : enn (ev (s_kappa s * omega)%float)) by (rewrite zero_tsq; cbn; lra).
  destruct (central_answer (s_helper s) n b _ Hc Et) as ([[rho sigma] delta] & Es & P1 & P2). cbn [fst snd] in P1, P2.
  assert (Er : ev rho = EFin 0).
  { assert (K := Es). cbn [calc_single_or_parallel_central_cut] in K. rewrite fpsqrt in K by exact Et. cbn [bind] in K.
    injection K as K _ _. rewrite <- K. destruct (ok_c0 _ _ Hc) as (v & Ev & _).
    apply (zero_mul _ _ v Ev). rewrite (ev_sqrt _ 0 zero_tsq (Rle_refl 0)). rewrite R_sqrt.sqrt_0, rnd_0. reflexivity. }
  assert (Exc := core_xc calc_single_or_parallel_central_cut (CSingle (A:=FA) b) _ _ _ _ Es).
  destruct (stable_update_core calc_single_or_parallel_central_cut (g, CSingle (A:=FA) b) s) as [s1 o] eqn:Eu.
  cbn [fst] in Exc.
  assert (Htq : s_tsq s1 = (s_kappa s * omega)%float).
  { assert (E1 := stable_tsq_strat _ (fun _ _ _ => Err AssertionError) _ _ _ _ _ Eu). rewrite E1.
    destruct (step_inv n s g Hn Hs Hg (fun _ _ _ => Err AssertionError) (CSingle (A:=FA) b) _ _ (surjective_pairing _)) as (_ & _ & _ & J4 & _);
      [ intros ? ? ? ? [=] | ]. exact J4. }
  destruct (step_inv n s g Hn Hs Hg _ _ _ _ Eu) as (_ & _ & _ & _ & I5).
  { rewrite Htq. intros st r1 r2 r3 E. rewrite Es in E. injection E as _ _ <- <-. now split. }
  rewrite Htq, Es in I5.
  change (fstable_update OpCentral) with (stable_update_central_cut (A:=FA)). unfold stable_update_central_cut. rewrite Eu. cbn [fst snd].
  split; [ exact I5 | ]. intros i Hi. rewrite Exc.
  destruct Hs as (H1 & Hx & _).
  assert (Lq : length (bwd_subst n m1 z) = n) by (rewrite bwd_len; apply (step_z n s g Hn Hs Hg)).
  apply nan_xc.
  - exact (ev_zero_div _ _ Er zero_omega).
  - etransitivity; [ exact Hx | symmetry; exact Lq ].
  - apply Nat.lt_le_trans with n; [ exact Hi | ]. apply Nat.eq_le_incl. symmetry. exact Hx.
Qed.
End Zero.

Lemma fstable_zero_central n p (s : stable FA) (g : vec FA) b : (Z.of_nat n < 2 ^ 53)%Z ->
  fstable_notneg n s -> fcalc_for n p (s_helper s) -> length g = n ->
  (forall i, (i < n)%nat -> PrimFloat.eqb (vget g i) PrimFloat.zero = true) ->
  (forall i j, (j <= i < n)%nat -> ffinite (mget (s_mq s) i j)) -> ffinite (s_kappa s) ->
  exists s1, fstable_update OpCentral (g, CSingle (A:=FA) b) s = (s1, Ok Success) /\
  forall i, (i < n)%nat -> fnan (vget (s_xc s1) i).
Proof.
  intros Hb Hs Hc Hg Hz Hf Hk.
  destruct (fcalc_ok n p _ Hc Hb) as (Hn & _).
  assert (Hco : core_ok n (c_helper (s_helper s))) by apply (fcalc_ok n p _ Hc Hb).
  destruct (zero_central n s g ltac:(lia) (proj1 (notneg_inv n s) Hs) Hg) with (b := b) as [Z1 Z2].
  - intros i Hi. apply fzero_ev. now apply Hz.
  - intros i j Hij. apply ffinite_ev. now apply Hf.
  - now apply ffinite_ev.
  - exact Hco.
  - exists (fst (fstable_update OpCentral (g, CSingle (A:=FA) b) s)). split.
    + rewrite <- Z1. apply surjective_pairing.
    + intros i Hi. apply fnan_ev. now apply Z2.
Qed.
