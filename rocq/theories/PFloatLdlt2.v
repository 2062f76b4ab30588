(** Error bounds for the numbers that [LDLTMgr.factor] stores in doubles. *)
From Coq Require Import Reals ZArith List Arith Lia Lra Psatz Bool Floats.
From Flocq Require Import Core.Core.
From Verif Require Import Arith Vec ModelLdlt Spec PSum.
From Verif Require Import SpecFloating PFloat PFloatErr PFloatLdlt.
Import ListNotations.
Local Open Scope R_scope.

Definition th : R := / (1 - uu).

Lemma th_1 : 1 <= th.
Proof.
  unfold th. pose proof uu_pos. pose proof uu_small. rewrite <- Rinv_1 at 1. apply Rinv_le_contravar; lra.
Qed.
Lemma th_eq : th - 1 = uu * th.
Proof. unfold th. pose proof uu_small. field. lra. Qed.
Lemma th_uu : 1 + uu <= th.
Proof. pose proof th_eq. pose proof th_1. pose proof uu_pos. nra. Qed.
Lemma thp_1 k : 1 <= th ^ k.
Proof. apply pow_R1_Rle, th_1. Qed.
Lemma thp_le j k : (j <= k)%nat -> th ^ j <= th ^ k.
Proof. intros H. apply Rle_pow; [apply th_1|exact H]. Qed.

Lemma rx_EFin r s : rx r = EFin s -> s = rnd r.
Proof. unfold rx. destruct (Rlt_dec _ _); [congruence|]. destruct (Rlt_dec _ _); discriminate. Qed.

Lemma fin_sub x y r : ev (x - y)%float = EFin r -> exists a b, ev x = EFin a /\ ev y = EFin b /\ r = rnd (a - b).
Proof.
  rewrite ev_sub. destruct (ev x) as [a| | |], (ev y) as [b| | |]; cbn [esub]; intros H; try discriminate.
  exists a, b. split; [reflexivity|]. split; [reflexivity|]. apply rx_EFin, H.
Qed.
Lemma fin_add x y r : ev (x + y)%float = EFin r -> exists a b, ev x = EFin a /\ ev y = EFin b /\ r = rnd (a + b).
Proof.
  rewrite ev_add. destruct (ev x) as [a| | |], (ev y) as [b| | |]; cbn [eadd]; intros H; try discriminate.
  exists a, b. split; [reflexivity|]. split; [reflexivity|]. apply rx_EFin, H.
Qed.
Lemma fin_mul x y r : ev (x * y)%float = EFin r -> exists a b, ev x = EFin a /\ ev y = EFin b /\ r = rnd (a * b).
Proof.
  rewrite ev_mul. destruct (ev x) as [a| | |], (ev y) as [b| | |]; cbn [emul]; unfold esgn;
    repeat destruct (Rlt_dec _ _); intros H; try discriminate;
  exists a, b; (split; [reflexivity|]; split; [reflexivity|]; apply rx_EFin, H).
Qed.
Lemma fin_div x y r b : ev y = EFin b -> b <> 0 -> ev (x / y)%float = EFin r -> exists a, ev x = EFin a /\ r = rnd (a / b).
Proof.
  intros Ey Hb. rewrite ev_div.
  2:{ rewrite Ey. cbn [eeqb]. destruct (Req_EM_T b 0); [contradiction|reflexivity]. }
  rewrite Ey. destruct (ev x) as [a| | |]; cbn [ediv]; unfold esgn;
    repeat destruct (Rlt_dec _ _); intros H; try discriminate.
  exists a. split; [reflexivity|]. apply rx_EFin, H.
Qed.

Lemma vsum_snoc {A : Arith} (l : vec A) a : vsum (l ++ [a]) = aadd (vsum l) a.
Proof. unfold vsum. rewrite fold_left_app. reflexivity. Qed.

Lemma vsum_err (x y : nat -> num FA) c : forall s,
  ev (vsum (A:=FA) (map (fun k => amul (x k) (y k)) (seq 0 c))) = EFin s ->
  (forall k, (k < c)%nat -> ffinite (x k) /\ ffinite (y k)) /\
  Rabs (s - sumn c (fun k => fval (x k) * fval (y k))) <=
    (th ^ (S c) - 1) * sumn c (fun k => Rabs (fval (x k)) * Rabs (fval (y k))) + INR c * th ^ c * eta0.
Proof.
  induction c as [|c IH]; intros s Es.
  - cbn [seq map sumn]. split; [intros; lia|]. change (ev PrimFloat.zero = EFin s) in Es. rewrite ev_zero in Es.
    injection Es as <-. rewrite Rminus_0_r, Rabs_R0. cbn [INR]. lra.
  - rewrite seq_S, map_app in Es. cbn [map Nat.add] in Es. rewrite vsum_snoc in Es.
    apply fin_add in Es. destruct Es as (s0 & p & E0 & Ep & ->).
    pose proof (ev_fmt _ _ E0) as F0. pose proof (ev_fmt _ _ Ep) as Fp.
    apply fin_mul in Ep. destruct Ep as (xa & ya & Ex & Ey & Ep).
    destruct (IH _ E0) as [IH1 IH2]. split.
    + intros k Hk. destruct (Nat.eq_dec k c) as [->|Hne]; [split; eapply ffinite_ev; eassumption|apply IH1; lia].
    + cbn [sumn]. rewrite (fval_ev _ _ Ex), (fval_ev _ _ Ey).
      set (S0 := sumn c (fun k => fval (x k) * fval (y k))) in *.
      set (T0 := sumn c (fun k => Rabs (fval (x k)) * Rabs (fval (y k)))) in *.
      assert (HT : Rabs S0 <= T0).
      { unfold S0, T0. clear. induction c as [|c IH]; cbn [sumn]; [rewrite Rabs_R0; lra|].
        eapply Rle_trans; [apply Rabs_triang|]. rewrite Rabs_mult. lra. }
      rewrite <- Rabs_mult. set (q := xa * ya) in *.
      assert (Hp : Rabs (p - q) <= uu * Rabs q + eta0) by (rewrite Ep; apply err_any).
      pose proof (err_plus s0 p F0 Fp) as Hs.
      rewrite S_INR.
      replace (rnd (s0 + p) - (S0 + q)) with ((rnd (s0 + p) - (s0 + p)) + (s0 - S0) + (p - q)) by ring.
      assert (H1 : Rabs (s0 + p) <= T0 + Rabs q + Rabs (s0 - S0) + Rabs (p - q)).
      { replace (s0 + p) with (S0 + q + (s0 - S0) + (p - q)) by ring.
        eapply Rle_trans; [apply Rabs_triang|]. apply Rplus_le_compat_r.
        eapply Rle_trans; [apply Rabs_triang|]. apply Rplus_le_compat_r.
        eapply Rle_trans; [apply Rabs_triang|]. lra. }
      eapply Rle_trans; [apply Rabs_triang|]. eapply Rle_trans; [apply Rplus_le_compat_r, Rabs_triang|].
      pose proof uu_pos as U. pose proof eta0_pos as E. pose proof th_uu as Hth. pose proof (Rabs_pos q) as Hq.
      pose proof (thp_1 c) as P1. pose proof (pos_INR c) as Hc.
      assert (T0p : 0 <= T0) by (pose proof (Rabs_pos S0); lra).
      set (e := Rabs (s0 - S0)) in *. set (f := Rabs (p - q)) in *.
      change (th ^ S (S c)) with (th * (th * th ^ c)). change (th ^ S c) with (th * th ^ c) in *. set (t := th ^ c) in *.
      assert (G : uu * Rabs (s0 + p) + e + f <= (1 + uu) * e + (1 + uu) * (uu * Rabs q + eta0) + uu * (T0 + Rabs q)) by nra.
      assert (G2 : (1 + uu) * e <= (1 + uu) * ((th * t - 1) * T0 + INR c * t * eta0)) by (apply Rmult_le_compat_l; lra).
      assert (Ht : th <= th * t) by nra.
      assert (K1 : (1 + uu) * (th * t - 1) + uu <= th * (th * t) - 1).
      { assert ((1 + uu) * (th * t) <= th * (th * t)) by (apply Rmult_le_compat_r; lra). lra. }
      assert (K2 : (1 + uu) * uu + uu <= th * (th * t) - 1) by nra.
      assert (K3 : (1 + uu) * (INR c * t) + (1 + uu) <= (INR c + 1) * (th * t)).
      { assert ((1 + uu) * (INR c * t) <= th * (INR c * t)) by (apply Rmult_le_compat_r; [nra|lra]). nra. }
      assert (K1' := Rmult_le_compat_r T0 _ _ T0p K1). assert (K2' := Rmult_le_compat_r _ _ _ Hq K2).
      assert (K3' := Rmult_le_compat_r eta0 _ _ (Rlt_le _ _ E) K3).
      nra.
Qed.

Lemma gdiag_err (g : nat -> nat -> num FA) (m : mat FA) i c r : ev (gdiag (A:=FA) g m i c) = EFin r ->
  ffinite (g i c) /\ (forall k, (k < c)%nat -> ffinite (mget m i k) /\ ffinite (mget m k c)) /\
  exists X, Rabs (X - r) <= uu * Rabs X /\ (r <= 0 -> X <= 0) /\
  Rabs (fval (g i c) - sumn c (fun k => fval (mget m i k) * fval (mget m k c)) - X) <=
    (th ^ (S c) - 1) * sumn c (fun k => Rabs (fval (mget m i k)) * Rabs (fval (mget m k c))) + INR c * th ^ c * eta0.
Proof.
  unfold gdiag. destruct (Nat.eqb_spec c 0) as [->|Hc]; intros H.
  - split; [eapply ffinite_ev; eassumption|]. split; [intros; lia|]. exists r.
    pose proof uu_pos. pose proof (Rabs_pos r).
    split; [rewrite Rminus_eq_0, Rabs_R0; nra|]. split; [auto|].
    cbn [sumn INR]. rewrite (fval_ev _ _ H). replace (r - 0 - r) with 0 by ring. rewrite Rabs_R0. lra.
  - apply fin_sub in H. destruct H as (a & s & Ea & Es & ->).
    pose proof (ev_fmt _ _ Ea) as Fa. pose proof (ev_fmt _ _ Es) as Fs.
    unfold row_dot in Es. rewrite Nat.sub_0_r in Es.
    destruct (vsum_err (fun k => mget m i k) (fun k => mget m k c) c s Es) as [Hf He].
    split; [eapply ffinite_ev; eassumption|]. split; [exact Hf|]. exists (a - s).
    split; [rewrite Rabs_minus_sym; apply err_minus; assumption|]. split.
    + intros Hr. destruct (Rle_dec (a - s) 0) as [|Hn]; [assumption|exfalso].
      assert (0 < rnd (a - s)) by (apply PFloatCalc.rnd_minus_pos; [assumption|assumption|lra]). lra.
    + rewrite (fval_ev _ _ Ea). set (Sm := sumn c _) in *.
      replace (a - Sm - (a - s)) with (s - Sm) by ring. exact He.
Qed.

Lemma div_err (x y : num FA) r b : ev y = EFin b -> 0 < b -> ev (adiv (a:=FA) x y) = EFin r ->
  ffinite x /\ Rabs (fval x - b * r) <= (th - 1) * (b * Rabs r) + th * (b * eta0).
Proof.
  intros Ey Hb H. destruct (fin_div x y r b Ey ltac:(lra) H) as (a & Ea & ->).
  split; [eapply ffinite_ev; eassumption|]. rewrite (fval_ev _ _ Ea).
  pose proof (err_any (a / b)) as He. set (q := a / b) in *. set (r := rnd q) in *.
  assert (Eq : a = b * q) by (unfold q; field; lra). rewrite Eq.
  replace (b * q - b * r) with (- (b * (r - q))) by ring. rewrite Rabs_Ropp, Rabs_mult, (Rabs_pos_eq b) by lra.
  assert (Hq : Rabs q <= Rabs r + Rabs (r - q)).
  { replace q with (r - (r - q)) at 1 by ring. unfold Rminus at 1. eapply Rle_trans; [apply Rabs_triang|]. rewrite Rabs_Ropp. lra. }
  assert (G : Rabs (r - q) <= (th - 1) * Rabs r + th * eta0).
  { pose proof th_eq. pose proof th_1. pose proof uu_pos. pose proof uu_small.
    set (e := Rabs (r - q)) in *. set (ar := Rabs r) in *.
    assert ((1 - uu) * e <= uu * ar + eta0) by nra.
    assert (th * ((1 - uu) * e) <= th * (uu * ar + eta0)) by (apply Rmult_le_compat_l; lra).
    assert (Ee : e = th * ((1 - uu) * e)) by (unfold th; field; lra). rewrite th_eq. lra. }
  replace ((th - 1) * (b * Rabs r) + th * (b * eta0)) with (b * ((th - 1) * Rabs r + th * eta0)) by ring.
  apply Rmult_le_compat_l; lra.
Qed.

(** ** Putting them together, over the reals *)
Section Combine.
Variables (c : nat) (li lc d U : nat -> R) (a X : R).
Hypothesis Hd : forall k, (k < c)%nat -> 0 < d k.
Hypothesis HU : forall k, (k < c)%nat -> Rabs (U k - d k * lc k) <= (th - 1) * (d k * Rabs (lc k)) + th * (d k * eta0).
Hypothesis HX : Rabs (a - sumn c (fun k => li k * U k) - X) <=
    (th ^ (S c) - 1) * sumn c (fun k => Rabs (li k) * Rabs (U k)) + INR c * th ^ c * eta0.

Let Sm := sumn c (fun k => Rabs (li k) * (d k * Rabs (lc k))).
Let Tm := sumn c (fun k => Rabs (li k) * d k).

Lemma comb_abs : sumn c (fun k => Rabs (li k) * Rabs (U k)) <= th * Sm + th * eta0 * Tm.
Proof.
  unfold Sm, Tm. rewrite <- !sumn_scal, <- sumn_plus. apply sumn_le. intros k Hk.
  specialize (HU k Hk). specialize (Hd k Hk).
  assert (Rabs (U k) <= Rabs (d k * lc k) + Rabs (U k - d k * lc k)).
  { replace (U k) with (d k * lc k + (U k - d k * lc k)) at 1 by ring. apply Rabs_triang. }
  rewrite Rabs_mult, (Rabs_pos_eq (d k)) in H by lra.
  assert (Rabs (U k) <= th * (d k * Rabs (lc k)) + th * eta0 * d k) by nra.
  pose proof (Rabs_pos (li k)).
  replace (th * (Rabs (li k) * (d k * Rabs (lc k))) + th * eta0 * (Rabs (li k) * d k)) with
    (Rabs (li k) * (th * (d k * Rabs (lc k)) + th * eta0 * d k)) by ring.
  apply Rmult_le_compat_l; assumption.
Qed.

Lemma comb_dif : Rabs (sumn c (fun k => li k * U k) - sumn c (fun k => li k * (d k * lc k))) <= (th - 1) * Sm + th * eta0 * Tm.
Proof.
  rewrite <- sumn_minus. unfold Sm, Tm. rewrite <- !sumn_scal, <- sumn_plus.
  assert (HA : forall f, Rabs (sumn c f) <= sumn c (fun k => Rabs (f k))).
  { intros f. clear. induction c as [|n IH]; cbn [sumn]; [rewrite Rabs_R0; lra|].
    eapply Rle_trans; [apply Rabs_triang|]. lra. }
  eapply Rle_trans; [apply HA|]. apply sumn_le. intros k Hk.
  replace (li k * U k - li k * (d k * lc k)) with (li k * (U k - d k * lc k)) by ring. rewrite Rabs_mult.
  replace ((th - 1) * (Rabs (li k) * (d k * Rabs (lc k))) + th * eta0 * (Rabs (li k) * d k)) with
    (Rabs (li k) * ((th - 1) * (d k * Rabs (lc k)) + th * (d k * eta0))) by ring.
  apply Rmult_le_compat_l; [apply Rabs_pos|apply HU, Hk].
Qed.

Lemma combine : Rabs (a - sumn c (fun k => li k * (d k * lc k)) - X) <=
  (th ^ (S (S c)) - 1) * Sm + th ^ (S (S c)) * eta0 * (INR c + Tm).
Proof.
  pose proof comb_abs as H1. pose proof comb_dif as H2.
  set (P := sumn c (fun k => li k * U k)) in *. set (Q := sumn c (fun k => li k * (d k * lc k))) in *.
  set (B := sumn c (fun k => Rabs (li k) * Rabs (U k))) in *.
  replace (a - Q - X) with ((a - P - X) + (P - Q)) by ring.
  eapply Rle_trans; [apply Rabs_triang|].
  pose proof (thp_1 (S c)) as P1. pose proof th_1 as P2. pose proof eta0_pos as E. pose proof (pos_INR c) as Hc.
  assert (K : (th ^ S c - 1) * B <= (th ^ S c - 1) * (th * Sm + th * eta0 * Tm)) by (apply Rmult_le_compat_l; lra).
  assert (K2 : INR c * th ^ c * eta0 <= th ^ (S (S c)) * eta0 * INR c).
  { pose proof (thp_le c (S (S c)) ltac:(lia)). replace (th ^ (S (S c)) * eta0 * INR c) with (INR c * th ^ (S (S c)) * eta0) by ring.
    apply Rmult_le_compat_r; [lra|]. apply Rmult_le_compat_l; assumption. }
  assert (K3 : (th ^ S c - 1) * (th * Sm + th * eta0 * Tm) + ((th - 1) * Sm + th * eta0 * Tm) =
    (th ^ (S (S c)) - 1) * Sm + th ^ (S (S c)) * eta0 * Tm) by (cbn [pow]; ring).
  lra.
Qed.

Lemma combine_off dc lx Uc : 0 < dc -> Rabs (X - Uc) <= uu * Rabs X ->
  Rabs (Uc - dc * lx) <= (th - 1) * (dc * Rabs lx) + th * (dc * eta0) ->
  Rabs (a - (sumn c (fun k => li k * (d k * lc k)) + lx * dc)) <=
  (th ^ (S (S c)) - 1) * (Sm + Rabs lx * dc) + th ^ (S (S c)) * eta0 * (INR c + Tm + dc).
Proof.
  intros Hdc HXU HUl. pose proof combine as H0.
  set (Q := sumn c (fun k => li k * (d k * lc k))) in *.
  replace (a - (Q + lx * dc)) with ((a - Q - X) + (X - Uc) + (Uc - dc * lx)) by ring.
  eapply Rle_trans; [apply Rabs_triang|]. eapply Rle_trans; [apply Rplus_le_compat_r, Rabs_triang|].
  assert (G : Rabs (X - Uc) <= (th - 1) * Rabs Uc).
  { pose proof th_eq. pose proof th_1. pose proof uu_pos. pose proof uu_small.
    assert (HXa : Rabs X <= Rabs Uc + Rabs (X - Uc)).
    { replace X with (Uc + (X - Uc)) at 1 by ring. apply Rabs_triang. }
    set (e := Rabs (X - Uc)) in *. set (ar := Rabs Uc) in *.
    assert ((1 - uu) * e <= uu * ar) by nra.
    assert (th * ((1 - uu) * e) <= th * (uu * ar)) by (apply Rmult_le_compat_l; lra).
    assert (Ee : e = th * ((1 - uu) * e)) by (unfold th; field; lra). rewrite th_eq. lra. }
  assert (HUa : Rabs Uc <= th * (dc * Rabs lx) + th * (dc * eta0)).
  { assert (Rabs Uc <= Rabs (dc * lx) + Rabs (Uc - dc * lx)).
    { replace Uc with (dc * lx + (Uc - dc * lx)) at 1 by ring. apply Rabs_triang. }
    rewrite Rabs_mult, (Rabs_pos_eq dc) in H by lra. lra. }
  pose proof th_1 as P2. pose proof eta0_pos as E.
  assert (G2 : (th - 1) * Rabs Uc <= (th - 1) * (th * (dc * Rabs lx) + th * (dc * eta0))) by (apply Rmult_le_compat_l; lra).
  assert (P3 : th * th <= th ^ S (S c)) by (pose proof (thp_le 2 (S (S c)) ltac:(lia)) as Q2; cbn [pow] in *; lra).
  pose proof (Rabs_pos lx) as Hl.
  assert (K1 : (th * th - 1) * (dc * Rabs lx) <= (th ^ S (S c) - 1) * (Rabs lx * dc)).
  { rewrite (Rmult_comm dc). apply Rmult_le_compat_r; [apply Rmult_le_pos; lra|lra]. }
  assert (K2 : th * th * (dc * eta0) <= th ^ S (S c) * eta0 * dc).
  { replace (th ^ S (S c) * eta0 * dc) with (th ^ S (S c) * (dc * eta0)) by ring.
    apply Rmult_le_compat_r; [apply Rmult_le_pos; lra|lra]. }
  lra.
Qed.
End Combine.

(** ** The stored numbers *)
Section Stored.
Variables (g : nat -> nat -> num FA) (m : mat FA) (N : nat).
Hypothesis Hr : rows_done (A:=FA) g m N.
Hypothesis Hfin : forall i j, (i < N)%nat -> (j < N)%nat -> ffinite (mget m i j).
Let M (i j : nat) : R := fval (mget m i j).

Lemma fin_ev i j : (i < N)%nat -> (j < N)%nat -> ev (mget m i j) = EFin (M i j).
Proof. intros Hi Hj. apply ev_fin_iff. apply Hfin; assumption. Qed.

Lemma stored_div c i : (c < i < N)%nat -> 0 < M c c ->
  Rabs (M c i - M c c * M i c) <= (th - 1) * (M c c * Rabs (M i c)) + th * (M c c * eta0).
Proof.
  intros Hc Hd. destruct (Hr i ltac:(lia)) as [_ H]. specialize (H c ltac:(lia)).
  pose proof (fin_ev i c ltac:(lia) ltac:(lia)) as E. rewrite H in E.
  apply (div_err _ _ _ _ (fin_ev c c ltac:(lia) ltac:(lia)) Hd E).
Qed.

Lemma stored_exact c i : (c <= i < N)%nat -> (forall k, (k < c)%nat -> 0 < M k k) ->
  exists X, Rabs (X - M c i) <= uu * Rabs X /\ (M c i <= 0 -> X <= 0) /\
  Rabs (fval (g i c) - sumn c (fun k => M i k * (M k k * M c k)) - X) <=
    (th ^ (S (S c)) - 1) * sumn c (fun k => Rabs (M i k) * (M k k * Rabs (M c k))) +
    th ^ (S (S c)) * eta0 * (INR c + sumn c (fun k => Rabs (M i k) * M k k)).
Proof.
  intros Hc Hd. destruct (Hr i ltac:(lia)) as [H _]. specialize (H c ltac:(lia)).
  pose proof (fin_ev c i ltac:(lia) ltac:(lia)) as E. rewrite H in E.
  destruct (gdiag_err g m i c _ E) as (_ & _ & X & H1 & H2 & H3).
  exists X. split; [exact H1|]. split; [exact H2|].
  apply (combine c (M i) (M c) (fun k => M k k) (fun k => M k c) (fval (g i c)) X Hd); [|exact H3].
  intros k Hk. apply stored_div; [lia|apply Hd, Hk].
Qed.

Lemma stored_off c i : (c < i < N)%nat -> (forall k, (k <= c)%nat -> 0 < M k k) ->
  Rabs (fval (g i c) - (sumn c (fun k => M i k * (M k k * M c k)) + M i c * M c c)) <=
    (th ^ (S (S c)) - 1) * (sumn c (fun k => Rabs (M i k) * (M k k * Rabs (M c k))) + Rabs (M i c) * M c c) +
    th ^ (S (S c)) * eta0 * (INR c + sumn c (fun k => Rabs (M i k) * M k k) + M c c).
Proof.
  intros Hc Hd. destruct (Hr i ltac:(lia)) as [H _]. specialize (H c ltac:(lia)).
  pose proof (fin_ev c i ltac:(lia) ltac:(lia)) as E. rewrite H in E.
  destruct (gdiag_err g m i c _ E) as (_ & _ & X & H1 & H2 & H3).
  apply (combine_off c (M i) (M c) (fun k => M k k) (fun k => M k c) (fval (g i c)) X) with (Uc := M c i).
  - intros k Hk. apply Hd. lia.
  - intros k Hk. apply stored_div; [lia|apply Hd; lia].
  - exact H3.
  - apply Hd. lia.
  - exact H1.
  - apply stored_div; [lia|apply Hd; lia].
Qed.

Lemma g_finite c i : (c <= i < N)%nat -> ffinite (g i c).
Proof.
  intros Hc. destruct (Hr i ltac:(lia)) as [H _]. specialize (H c ltac:(lia)).
  pose proof (fin_ev c i ltac:(lia) ltac:(lia)) as E. rewrite H in E. apply (gdiag_err g m i c _ E).
Qed.
End Stored.
