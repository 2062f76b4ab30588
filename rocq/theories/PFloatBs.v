(** [bsearch] on double bounds. *)
From Coq Require Import Reals ZArith Lia Lra Psatz Bool Floats List.
From Flocq Require Import Core.Core Plus_error.
From Verif Require Import Arith ModelCut SpecDrivers SpecFloating.
From Verif Require Import PFloat PFloatSign PFloatCalc PFloatErr PFloatPar PFloatCut PFloatCut2 PFloatAcc PFloatAcc2.
Local Open Scope R_scope.

Lemma tiny_bp : tiny = bpow radix2 (-1074).
Proof. unfold tiny. now rewrite bp_powerRZ. Qed.

Lemma half_err d : fmt d -> 0 <= d -> Rabs (rnd (d / 2) - d / 2) <= tiny.
Proof.
  intros F P. generalize (bpow_gt_0 radix2 (-1074)). rewrite <- tiny_bp. intros T0.
  destruct (Rle_lt_dec (bpow radix2 (-1021)) d) as [L|L].
  - rewrite rnd_fmt; [ rewrite Rminus_diag_eq by reflexivity; rewrite Rabs_R0; lra | ].
    apply fmt_halve; [ exact F | rewrite Rabs_pos_eq; assumption ].
  - assert (E := err_any (d / 2)). rewrite (Rabs_pos_eq (d / 2)) in E by lra.
    apply Rle_trans with (1 := E). rewrite tiny_bp.
    assert (A : uu * (d / 2) <= bpow radix2 (-1075)).
    { replace (-1075)%Z with (-53 + -1022)%Z by lia. rewrite bpow_plus. fold uu.
      apply Rmult_le_compat_l; [ generalize uu_pos; lra | ].
      replace (-1021)%Z with (-1022 + 1)%Z in L by lia. rewrite bp_S in L. lra. }
    unfold eta0. replace (-1074)%Z with (-1075 + 1)%Z by lia. rewrite bp_S. lra.
Qed.

(** one rounded bisection step *)
Section Step.
Variables l u : R.
Hypothesis Fl : fmt l.
Hypothesis Fu : fmt u.
Hypothesis Lu : l <= u.
Let w := u - l.
Let d := rnd (u - l).
Let h := rnd (d / 2).
Let g := rnd (l + h).

Lemma d_err : w * (1 - uu) <= d <= w * (1 + uu).
Proof. apply Rabs_bnd; [ now apply err_minus | unfold w; lra ]. Qed.
Lemma d_nn : 0 <= d.
Proof. apply rnd_nonneg. lra. Qed.
Lemma h_nn : 0 <= h.
Proof. apply rnd_nonneg. generalize d_nn. lra. Qed.
Lemma h_le : h <= w.
Proof.
  assert (W : 0 <= w) by (unfold w; lra). generalize uu_pos uu_small d_err d_nn. intros U0 U1 D D0.
  destruct (Rle_lt_dec (bpow radix2 (-1021)) w) as [L|L].
  - destruct (Rle_lt_dec (bpow radix2 (-1021)) d) as [M|M].
    + unfold h. rewrite rnd_fmt; [ nra | ]. apply fmt_halve; [ apply fmt_rnd | rewrite Rabs_pos_eq; assumption ].
    + apply Rle_trans with d; [ | lra ]. unfold h. rewrite <- (rnd_fmt d (fmt_rnd _)) at 2. apply rnd_le. lra.
  - assert (E : d = w).
    { unfold d. apply rnd_fmt. replace (u - l) with (u + - l) by ring.
      apply FLT_format_plus_small; [ typeclasses eauto | exact Fu | now apply generic_format_opp | ].
      change (u + - l) with w. rewrite Rabs_pos_eq by exact W. left. exact L. }
    rewrite <- E. unfold h. rewrite <- (rnd_fmt d (fmt_rnd _)) at 2. apply rnd_le. lra.
Qed.
Lemma g_range : l <= g <= u.
Proof.
  generalize h_nn h_le. unfold w. intros H0 H1. unfold g.
  split; [ rewrite <- (rnd_fmt l Fl) at 1 | rewrite <- (rnd_fmt u Fu) ]; apply rnd_le; lra.
Qed.
Lemma h_err : w / 2 * (1 - uu) - tiny <= h <= w / 2 * (1 + uu) + tiny.
Proof.
  assert (E := half_err d (fmt_rnd _) d_nn). fold h in E. apply Rabs_le_inv in E.
  generalize d_err. lra.
Qed.
Lemma g_err M : Rabs l <= M -> Rabs u <= M ->
  g - l <= w * ((1 + uu) / 2) + (uu * M + tiny) /\ u - g <= w * ((1 + uu) / 2) + (uu * M + tiny).
Proof.
  intros Ml Mu. generalize uu_pos h_err h_nn h_le. intros U0 H H0 H1.
  assert (E := err_plus l h Fl (fmt_rnd _)). fold g in E.
  assert (A : Rabs (l + h) <= M).
  { apply Rabs_le_inv in Ml, Mu. apply Rabs_le. unfold w in H1. lra. }
  assert (B : uu * Rabs (l + h) <= uu * M) by (apply Rmult_le_compat_l; lra).
  apply Rabs_le_inv in E. unfold w in *. split; lra.
Qed.
End Step.

Lemma fmt_range_big x M : Rabs x <= M -> M < big -> Rabs x < big.
Proof. lra. Qed.

(** the two float expressions of the loop *)
Lemma tau_float (lo up : num FA) : ffinite lo -> ffinite up -> fval lo <= fval up -> ffinite (up - lo)%float ->
  ev ((up - lo) / 2)%float = EFin (rnd (rnd (fval up - fval lo) / 2)).
Proof.
  intros Fl Fu L Fd. assert (El := proj1 (ev_fin_iff _) Fl). assert (Eu := proj1 (ev_fin_iff _) Fu).
  assert (Ed := proj1 (ev_fin_iff _) Fd). assert (Es := ev_sub up lo). rewrite Ed, El, Eu in Es. cbn in Es.
  symmetry in Es. apply rx_inv in Es. rewrite Es in Ed.
  assert (E2 : ev 2%float = EFin 2) by exact ev_two.
  rewrite ev_div.
  2:{ rewrite E2. cbn. destruct (Req_EM_T 2 0); [ lra | reflexivity ]. }
  rewrite Ed, E2. cbn. set (d := rnd (fval up - fval lo)) in *.
  assert (D0 : 0 <= d) by (apply rnd_nonneg; lra).
  assert (Db := ev_big _ _ Ed). rewrite Rabs_pos_eq in Db by exact D0.
  apply (rx_fin_le (d / 2) d); [ lra | lra | apply fmt_rnd | exact Db ].
Qed.

Lemma mid_float (lo up : num FA) : ffinite lo -> ffinite up -> fval lo <= fval up -> ffinite (up - lo)%float ->
  ffinite (mid_num (A:=FA) lo up) /\
  fval (mid_num (A:=FA) lo up) = rnd (fval lo + rnd (rnd (fval up - fval lo) / 2)).
Proof.
  intros Fl Fu L Fd. assert (T := tau_float lo up Fl Fu L Fd).
  assert (El := proj1 (ev_fin_iff _) Fl). assert (Eu := proj1 (ev_fin_iff _) Fu).
  assert (G := g_range _ _ (ev_fmt _ _ El) (ev_fmt _ _ Eu) L).
  assert (E : ev (mid_num (A:=FA) lo up) = EFin (rnd (fval lo + rnd (rnd (fval up - fval lo) / 2)))).
  { change (mid_num (A:=FA) lo up) with (lo + (up - lo) / 2)%float. rewrite ev_add, El, T. cbn.
    unfold rx. destruct (Rlt_dec _ big) as [|N]; [ reflexivity | exfalso; apply N ].
    apply Rle_lt_trans with (Rmax (Rabs (fval lo)) (Rabs (fval up))).
    - set (q := rnd (fval lo + rnd (rnd (fval up - fval lo) / 2))) in *. apply Rabs_le.
      generalize (Rmax_l (Rabs (fval lo)) (Rabs (fval up))) (Rmax_r (Rabs (fval lo)) (Rabs (fval up))).
      intros A1 A2. assert (B1 := Rle_refl (Rabs (fval lo))). assert (B2 := Rle_refl (Rabs (fval up))).
      apply Rabs_le_inv in B1, B2. lra.
    - apply Rmax_lub_lt; eapply ev_big; eassumption. }
  split; [ exact (ffinite_ev _ _ E) | exact (fval_ev _ _ E) ].
Qed.

Lemma narrow_float (tol lo up : num FA) : ffinite tol -> ffinite lo -> ffinite up -> fval lo <= fval up -> ffinite (up - lo)%float ->
  narrow_num (A:=FA) tol lo up = true <-> rnd (rnd (fval up - fval lo) / 2) < fval tol.
Proof.
  intros Ft Fl Fu L Fd. assert (T := tau_float lo up Fl Fu L Fd).
  change (narrow_num (A:=FA) tol lo up) with (PrimFloat.ltb ((up - lo) / 2) tol)%float.
  rewrite ev_ltb, T, (proj1 (ev_fin_iff _) Ft). cbn.
  destruct (Rlt_dec _ (fval tol)); split; intros; try reflexivity; try assumption; try discriminate; contradiction.
Qed.

(** a narrower bracket has a finite width *)
Lemma width_finite (lo up lo' up' : num FA) : ffinite lo -> ffinite up -> ffinite (up - lo)%float ->
  ffinite lo' -> ffinite up' -> fval lo <= fval lo' <= fval up' -> fval up' <= fval up ->
  ffinite (up' - lo')%float.
Proof.
  intros Fl Fu Fd Fl' Fu' H1 H2.
  assert (El := proj1 (ev_fin_iff _) Fl). assert (Eu := proj1 (ev_fin_iff _) Fu).
  assert (El' := proj1 (ev_fin_iff _) Fl'). assert (Eu' := proj1 (ev_fin_iff _) Fu').
  assert (Ed := proj1 (ev_fin_iff _) Fd). assert (Es := ev_sub up lo). rewrite Ed, El, Eu in Es. cbn in Es.
  symmetry in Es. apply rx_inv in Es. rewrite Es in Ed.
  assert (Db := ev_big _ _ Ed). assert (D0 : 0 <= rnd (fval up - fval lo)) by (apply rnd_nonneg; lra).
  rewrite Rabs_pos_eq in Db by exact D0.
  assert (E : ev (up' - lo')%float = EFin (rnd (fval up' - fval lo'))).
  { rewrite ev_sub, El', Eu'. cbn. unfold rx. destruct (Rlt_dec _ big) as [|N]; [ reflexivity | exfalso; apply N ].
    rewrite Rabs_pos_eq by (apply rnd_nonneg; lra).
    apply Rle_lt_trans with (2 := Db). apply rnd_le. lra. }
  exact (ffinite_ev _ _ E).
Qed.

Section Loop.
Context {B : Type}.
Variable f : B -> num FA -> B * res bool.
Variable t : R.
Hypothesis f_thr : forall o x, ffinite x -> exists b, snd (f o x) = Ok b /\
  (b = true -> t <= fval x) /\ (b = false -> fval x <= t).
Variable tol : num FA.
Hypothesis Ftol : ffinite tol.
Variable maxit : Z.
Variables L0 U0 : R.

Let M := Rmax (Rabs L0) (Rabs U0).
Let W := bs_width_bound L0 U0.

Lemma W_step w j : w <= W j -> w * ((1 + uu) / 2) + (uu * M + tiny) <= W (S j).
Proof.
  unfold W, bs_width_bound. rewrite uu_u53. fold M. cbn [pow].
  generalize uu_pos uu_small. intros U1 U2 H.
  assert (M0 : 0 <= M) by (unfold M; eapply Rle_trans; [ apply Rabs_pos | apply Rmax_l ]).
  assert (T0 : 0 <= uu * M + tiny).
  { rewrite tiny_bp. generalize (bpow_gt_0 radix2 (-1074)). nra. }
  set (e := uu * M + tiny) in *. set (q := ((1 + uu) / 2) ^ j) in *.
  assert (w * ((1 + uu) / 2) <= ((U0 - L0) * q + 3 * e) * ((1 + uu) / 2)) by (apply Rmult_le_compat_r; lra).
  assert (3 * e * ((1 + uu) / 2) + e <= 3 * e) by nra. nra.
Qed.

Lemma loop_double fuel : forall j o lo up o' v k,
  (Z.of_nat fuel + Z.of_nat j = maxit)%Z ->
  ffinite lo -> ffinite up -> ffinite (up - lo)%float ->
  L0 <= fval lo -> fval up <= U0 -> fval lo <= t <= fval up ->
  fval up - fval lo <= W j ->
  bsearch_loop f (narrow_num (A:=FA) tol) (mid_num (A:=FA)) maxit fuel (Z.of_nat j) o lo up = (o', Ok (v, k)) ->
  ffinite v /\ t <= fval v <= fval up /\ (Z.of_nat j <= k <= maxit)%Z /\
  ((k < maxit)%Z -> (fval v - t) / 2 * (1 - u53) - tiny < fval tol) /\
  (forall i : nat, (j <= i)%nat -> (Z.of_nat i < maxit)%Z -> W i / 2 * (1 + u53) + tiny < fval tol -> (k <= Z.of_nat i)%Z) /\
  (k = maxit -> fval v - t <= W (Z.to_nat maxit)).
Proof.
  induction fuel as [|fuel IH]; intros j o lo up o' v k Hj Fl Fu Fd Ll Uu Ht Hw H; cbn [bsearch_loop] in H.
  - injection H as _ <- <-. split; [ exact Fu | ]. split; [ lra | ]. split; [ lia | ].
    split; [ lia | ]. split; [ intros; lia | ].
    intros _. assert (E : Z.to_nat maxit = j) by lia. rewrite E. lra.
  - assert (Lu : fval lo <= fval up) by lra.
    assert (fl : fmt (fval lo)) by exact (ev_fmt _ _ (proj1 (ev_fin_iff _) Fl)).
    assert (fu : fmt (fval up)) by exact (ev_fmt _ _ (proj1 (ev_fin_iff _) Fu)).
    assert (HE := h_err _ _ fl fu Lu).
    assert (NF := narrow_float tol lo up Ftol Fl Fu Lu Fd).
    generalize uu_pos uu_small. intros U1 U2.
    destruct (narrow_num (A:=FA) tol lo up) eqn:EN.
    + injection H as _ <- <-. assert (N := proj1 NF eq_refl).
      assert (S : (fval up - t) / 2 * (1 - u53) - tiny < fval tol) by (rewrite uu_u53; nra).
      split; [ exact Fu | ]. split; [ lra | ]. split; [ lia | ].
      split; [ intros _; exact S | ]. split; [ intros; lia | ]. intros E. exfalso. lia.
    + assert (N : fval tol <= rnd (rnd (fval up - fval lo) / 2)).
      { apply Rnot_lt_le. intros C. apply NF in C. discriminate. }
      destruct (mid_float lo up Fl Fu Lu Fd) as [Fg Eg].
      assert (G := g_range _ _ fl fu Lu). rewrite <- Eg in G.
      assert (MM : Rabs (fval lo) <= M /\ Rabs (fval up) <= M).
      { generalize (Rmax_l (Rabs L0) (Rabs U0)) (Rmax_r (Rabs L0) (Rabs U0)). fold M. intros A1 A2.
        apply Rabs_le_inv in A1, A2. split; apply Rabs_le; lra. }
      destruct (g_err _ _ fl fu Lu M (proj1 MM) (proj2 MM)) as [G1 G2]. rewrite <- Eg in G1, G2.
      assert (WS := W_step _ _ Hw).
      set (gm := mid_num (A:=FA) lo up) in *.
      destruct (f_thr o gm Fg) as (b & Eb & B1 & B2).
      destruct (f o gm) as [o1 r]. cbn in Eb. subst r.
      replace (Z.of_nat j + 1)%Z with (Z.of_nat (S j)) in H by lia.
      assert (notj : forall i : nat, (j <= i)%nat -> W i / 2 * (1 + u53) + tiny < fval tol -> (S j <= i)%nat).
      { intros i Hi Hs. destruct (Nat.eq_dec i j) as [->|]; [ | lia ]. exfalso.
        rewrite uu_u53 in Hs. nra. }
      destruct b.
      * specialize (B1 eq_refl).
        destruct (IH (S j) o1 lo gm o' v k) as (I1 & I2 & I3 & I4 & I5 & I6); try assumption; try lia; try lra.
        { apply (width_finite lo up lo gm); try assumption; lra. }
        split; [ exact I1 | ]. split; [ lra | ]. split; [ lia | ]. split; [ exact I4 | ].
        split; [ | exact I6 ]. intros i Hi Hm Hs. apply I5; auto.
      * specialize (B2 eq_refl).
        destruct (IH (S j) o1 gm up o' v k) as (I1 & I2 & I3 & I4 & I5 & I6); try assumption; try lia; try lra.
        { apply (width_finite lo up gm up); try assumption; lra. }
        split; [ exact I1 | ]. split; [ lra | ]. split; [ lia | ]. split; [ exact I4 | ].
        split; [ | exact I6 ]. intros i Hi Hm Hs. apply I5; auto.
Qed.
End Loop.

Lemma bsearch_double : forall (B : Type) (f : B -> num FA -> B * res bool) (t : R),
  (forall o x, ffinite x -> exists b, snd (f o x) = Ok b /\ (b = true -> t <= fval x) /\ (b = false -> fval x <= t)) ->
  forall (tol : num FA) (maxit : Z) o (lower upper : num FA) o' v k,
  ffinite tol -> ffinite lower -> ffinite upper -> ffinite (upper - lower)%float ->
  fval lower <= t <= fval upper -> (0 <= maxit)%Z ->
  bsearch f (narrow_num (A:=FA) tol) (mid_num (A:=FA)) maxit o lower upper = (o', Ok (v, k)) ->
  ffinite v /\ t <= fval v <= fval upper /\ (0 <= k <= maxit)%Z /\
  ((k < maxit)%Z -> (fval v - t) / 2 * (1 - u53) - tiny < fval tol) /\
  (forall j : nat, (Z.of_nat j < maxit)%Z ->
     bs_width_bound (fval lower) (fval upper) j / 2 * (1 + u53) + tiny < fval tol -> (k <= Z.of_nat j)%Z) /\
  (k = maxit -> fval v - t <= bs_width_bound (fval lower) (fval upper) (Z.to_nat maxit)).
Proof.
  intros B f t Hf tol maxit o lower upper o' v k Ftol Fl Fu Fd Ht Hm H.
  assert (W0 : fval upper - fval lower <= bs_width_bound (fval lower) (fval upper) 0).
  { unfold bs_width_bound. cbn [pow]. rewrite uu_u53, tiny_bp.
    generalize uu_pos (bpow_gt_0 radix2 (-1074)) (Rabs_pos (fval lower)) (Rmax_l (Rabs (fval lower)) (Rabs (fval upper))).
    intros. nra. }
  destruct (loop_double f t Hf tol Ftol maxit (fval lower) (fval upper) (Z.to_nat maxit) 0 o lower upper o' v k)
    as (I1 & I2 & I3 & I4 & I5 & I6); try assumption; try lia; try lra.
  split; [ exact I1 | ]. split; [ exact I2 | ]. split; [ lia | ]. split; [ exact I4 | ].
  split; [ intros j; apply I5; lia | exact I6 ].
Qed.
