(** The cut calculations raise no arithmetic error in double arithmetic. *)
From Coq Require Import Reals ZArith Lia Lra Psatz Bool Floats List.
From Flocq Require Import Core.Core.
From Verif Require Import Arith Vec ModelCalc SpecFloating PFloat PFloatSign PFloatCalc PFloatErr PFloatPar.
Import ListNotations.
Local Open Scope R_scope.

Definition enz (x : ext) : Prop := eeqb x (EFin 0) = false.

Lemma enz_fin a : enz (EFin a) <-> a <> 0.
Proof. unfold enz. cbn. destruct (Req_EM_T a 0); split; congruence || tauto. Qed.

Lemma rx_nz r : rnd r <> 0 -> enz (rx r).
Proof.
  intros H. unfold rx. destruct (Rlt_dec _ _); [ now apply enz_fin | ].
  destruct (Rlt_dec 0 r); reflexivity.
Qed.

Lemma rx_pos r : 0 < rnd r -> epos (rx r).
Proof.
  intros H. unfold rx. destruct (Rlt_dec _ _); [ exact H | ].
  destruct (Rlt_dec 0 r) as [|N]; [ exact I | ].
  assert (rnd r <= 0) by (apply rnd_nonpos; lra). lra.
Qed.

Lemma rx_inv r v : rx r = EFin v -> v = rnd r.
Proof.
  unfold rx. destruct (Rlt_dec (Rabs (rnd r)) big); [ congruence | ].
  destruct (Rlt_dec 0 r); discriminate.
Qed.

Lemma eadd_fin x y v : eadd x y = EFin v -> exists a b, x = EFin a /\ y = EFin b /\ v = rnd (a + b).
Proof.
  destruct x as [a| | |], y as [b| | |]; cbn; try discriminate.
  intros H. exists a, b. split; [ reflexivity | ]. split; [ reflexivity | now apply rx_inv ].
Qed.

Lemma emul_fin x y v : emul x y = EFin v -> exists a b, x = EFin a /\ y = EFin b /\ v = rnd (a * b).
Proof.
  destruct x as [a| | |], y as [b| | |]; cbn; unfold esgn; try discriminate;
    try (destruct (Rlt_dec 0 _); [ discriminate | destruct (Rlt_dec _ 0); discriminate ]).
  intros H. exists a, b. split; [ reflexivity | ]. split; [ reflexivity | now apply rx_inv ].
Qed.

Lemma esub_fin x y v : esub x y = EFin v -> exists a b, x = EFin a /\ y = EFin b /\ v = rnd (a - b).
Proof.
  destruct x as [a| | |], y as [b| | |]; cbn; try discriminate.
  intros H. exists a, b. split; [ reflexivity | ]. split; [ reflexivity | now apply rx_inv ].
Qed.

Lemma fl_div x y : enz (ev y) -> exists z, pdiv (A:=FA) x y = Ok z.
Proof. intros H. eexists. apply (fpdiv x y H). Qed.

Lemma tau_pos T t : ev T = EFin t -> 0 < t ->
  exists v, ev (PrimFloat.sqrt T) = EFin v /\ 0 < v /\ fmt v /\ v = rnd (R_sqrt.sqrt t).
Proof.
  intros E P. rewrite (ev_sqrt _ _ E) by lra. eexists. split; [ reflexivity | ].
  split; [ | split; [ apply fmt_rnd | reflexivity ] ].
  apply Rlt_le_trans with (bpow radix2 (-537)); [ apply bpow_gt_0 | ].
  rewrite <- (rnd_fmt (bpow radix2 (-537))) by (apply generic_format_FLT_bpow; [ typeclasses eauto | lia ]).
  apply rnd_le. rewrite <- (sqrt_Rsqr (bpow radix2 (-537))) by apply bpow_ge_0. apply sqrt_le_1_alt. unfold Rsqr.
  rewrite <- bpow_plus. apply fmt_tiny; [ exact (ev_fmt _ _ E) | exact P ].
Qed.

(** ** deep cuts *)

Lemma bias_fast_ok (c : core FA) beta tau eta : enz (ev tau) -> enz (ev (tau + beta)%float) ->
  exists r, core_bias_cut_fast c beta tau eta = Ok r.
Proof.
  intros H1 H2. unfold core_bias_cut_fast.
  destruct (fl_div beta tau H1) as [z ->]. cbn [bind].
  destruct (fl_div (amul (a:=FA) (cst2 c) eta) (tau + beta)%float H2) as [w Hw].
  cbn [aadd FA] in *. rewrite Hw. cbn [bind]. eexists. reflexivity.
Qed.

Lemma nn_add_nz v y : fmt v -> 0 < v -> enn y -> enz (eadd (EFin v) y).
Proof.
  intros F P Y. destruct y as [b| | |]; cbn in Y |- *; try reflexivity; try tauto.
  apply epn_nz, epos_epn, (rx_ge _ v); [ exact F | exact P | lra ].
Qed.

Lemma bias_ok (c : calc FA) beta T t : ev T = EFin t -> 0 < t ->
  calc_bias_cut c beta T = Err AssertionError \/ exists r, calc_bias_cut c beta T = Ok r.
Proof.
  intros E P. unfold calc_bias_cut.
  destruct (aleb (a:=FA) azero beta) eqn:L; [ right | now left ].
  destruct (altb (a:=FA) T _); [ eexists; reflexivity | ].
  rewrite fpsqrt by (rewrite E; cbn; lra). cbn [bind].
  destruct (tau_pos T t E P) as (v & Ev & Pv & Fv & _).
  unfold core_bias_cut. change (PrimFloat.leb PrimFloat.zero beta = true) in L.
  apply fnonneg_ev in L.
  destruct (bias_fast_ok (c_helper c) beta (PrimFloat.sqrt T)
    (aadd (a:=FA) (PrimFloat.sqrt T) (amul (n_f (c_helper c)) beta))) as [r Hr].
  - rewrite Ev. apply enz_fin. lra.
  - rewrite ev_add, Ev. apply nn_add_nz; [ exact Fv | exact Pv | apply L ].
  - rewrite Hr. eexists. reflexivity.
Qed.

Lemma le0_add_neg v b : v + b <= 0 -> eleb (rx (v + b)) (EFin 0) = true.
Proof.
  intros H. unfold rx. destruct (Rlt_dec (Rabs (rnd (v + b))) big).
  - cbn. assert (rnd (v + b) <= 0) by (apply rnd_nonpos; exact H).
    destruct (Rle_dec (rnd (v + b)) 0); [ reflexivity | contradiction ].
  - destruct (Rlt_dec 0 (v + b)); [ lra | reflexivity ].
Qed.

(** [v + n b > 0] as computed implies [v + b > 0] *)
Lemma eta_pos n v b : (1 <= n)%nat -> fmt v -> 0 < v -> fmt b ->
  eleb (eadd (EFin v) (emul (EFin (INR n)) (EFin b))) (EFin 0) = false -> 0 < v + b.
Proof.
  intros Hn Fv Pv Fb H. destruct (Rlt_le_dec 0 (v + b)) as [L|L]; [ exact L | exfalso ].
  assert (N1 : 1 <= INR n) by (apply (le_INR 1); exact Hn).
  assert (Nb : INR n * b <= b) by nra.
  assert (K : rnd (INR n * b) <= b) by (rewrite <- (rnd_fmt b Fb) at 2; now apply rnd_le).
  cbn [emul] in H. unfold rx in H. destruct (Rlt_dec (Rabs (rnd (INR n * b))) big).
  - cbn [eadd] in H. rewrite le0_add_neg in H; [ discriminate | lra ].
  - destruct (Rlt_dec 0 (INR n * b)); [ lra | ]. cbn in H. discriminate.
Qed.

Lemma eta_add_nz n v y : (1 <= n)%nat -> fmt v -> 0 < v -> (forall b, y = EFin b -> fmt b) ->
  eleb (eadd (EFin v) (emul (EFin (INR n)) y)) (EFin 0) = false ->
  enz (eadd (EFin v) y).
Proof.
  intros Hn Fv Pv Fy H. destruct y as [b| | |]; try reflexivity.
  specialize (Fy b eq_refl). assert (0 < v + b) by exact (eta_pos n v b Hn Fv Pv Fy H).
  cbn. apply rx_nz. assert (0 < rnd (v + b)) by now apply rnd_plus_pos. lra.
Qed.

Lemma biasq_ok n (c : calc FA) beta T t : (1 <= n)%nat -> ev (c_n_f c) = EFin (INR n) ->
  ev T = EFin t -> 0 < t -> exists r, calc_bias_cut_q c beta T = Ok r.
Proof.
  intros Hn Nf E P. unfold calc_bias_cut_q.
  rewrite fpsqrt by (rewrite E; cbn; lra). cbn [bind].
  destruct (tau_pos T t E P) as (v & Ev & Pv & Fv & _).
  destruct (altb (a:=FA) (PrimFloat.sqrt T) beta); [ eexists; reflexivity | ].
  destruct (aleb (a:=FA) (aadd (a:=FA) (PrimFloat.sqrt T) (amul (a:=FA) (c_n_f c) beta)) azero) eqn:L; [ eexists; reflexivity | ].
  change (PrimFloat.leb (PrimFloat.sqrt T + c_n_f c * beta)%float PrimFloat.zero = false) in L.
  rewrite ev_leb, ev_add, ev_mul, ev_zero, Ev, Nf in L.
  destruct (bias_fast_ok (c_helper c) beta (PrimFloat.sqrt T)
    (aadd (a:=FA) (PrimFloat.sqrt T) (amul (c_n_f c) beta))) as [r Hr].
  - rewrite Ev. apply enz_fin. lra.
  - rewrite ev_add, Ev. apply (eta_add_nz n); [ exact Hn | exact Fv | exact Pv | intros b; apply ev_fmt | exact L ].
  - rewrite Hr. eexists. reflexivity.
Qed.

(** ** parallel cuts *)

(** the square is not negative *)
Lemma sq_cases x : (exists a, x = EFin a /\ emul x x = EFin (rnd (a * a)) /\ 0 <= rnd (a * a) < big) \/
  emul x x = EPinf \/ emul x x = ENan.
Proof.
  destruct x as [a| | |]; cbn; try tauto.
  unfold rx. destruct (Rlt_dec (Rabs (rnd (a * a))) big) as [L|L].
  - left. exists a. split; [ reflexivity | ]. split; [ reflexivity | ].
    assert (0 <= rnd (a * a)) by (apply rnd_nonneg; nra). split; [ assumption | ]. rewrite Rabs_pos_eq in L by assumption. exact L.
  - destruct (Rlt_dec 0 (a * a)) as [|N]; [ tauto | exfalso ].
    assert (a * a = 0) by nra. rewrite H, rnd_0, Rabs_R0 in L. apply L. apply big_pos.
Qed.

Lemma rx_diff a b : fmt a -> fmt b -> 0 <= a < big -> 0 <= b < big -> rx (a - b) = EFin (rnd (a - b)).
Proof.
  intros Fa Fb Ha Hb. apply (rx_fin _ (Rmax a b)).
  - apply Rabs_le. unfold Rmax. destruct (Rle_dec a b); lra.
  - unfold Rmax. destruct (Rle_dec a b); assumption.
  - unfold Rmax. destruct (Rle_dec a b); lra.
Qed.

Lemma sum_nn x y : Rabs x <= y -> enn (eadd (rx x) (rx y)).
Proof.
  intros H. assert (Y : 0 <= y) by (generalize (Rabs_pos x); lra).
  apply Rabs_le_inv in H.
  assert (K1 : - rnd y <= rnd x) by (rewrite <- rnd_opp; apply rnd_le; lra).
  assert (K2 : rnd x <= rnd y) by (apply rnd_le; lra).
  assert (K3 : 0 <= rnd y) by now apply rnd_nonneg.
  unfold rx. destruct (Rlt_dec (Rabs (rnd y)) big) as [L|L].
  - destruct (Rlt_dec (Rabs (rnd x)) big) as [M|M].
    + cbn. apply rx_nn. lra.
    + exfalso. apply M. apply Rle_lt_trans with (2 := L). rewrite (Rabs_pos_eq _ K3). apply Rabs_le. lra.
  - destruct (Rlt_dec 0 y) as [|N].
    + destruct (Rlt_dec (Rabs (rnd x)) big); [ exact I | ]. destruct (Rlt_dec 0 x); exact I.
    + exfalso. apply L. replace y with 0 by lra. rewrite rnd_0, Rabs_R0. apply big_pos.
Qed.

Lemma enn_inf x : enn (eadd x EPinf).
Proof. destruct x; exact I. Qed.

Lemma inf_sq x y : (x = EPinf \/ x = ENinf \/ x = ENan) -> enn (eadd y (emul x x)).
Proof. intros [->|[->| ->]]; destruct y; exact I. Qed.

Section Par.
Variables (t hn : R) (x0 x1 : ext).
Hypothesis Ft : fmt t.
Hypothesis Pt : 0 < t < big.
Hypothesis Hn : 1 <= hn.
Let q0 := emul x0 x0.
Let q1 := emul x1 x1.
Let z0 := esub (EFin t) q0.
Let z1 := esub (EFin t) q1.
Let h := emul (EFin hn) (esub q1 q0).
Let rad := eadd (emul z0 z1) (emul h h).

Lemma rad_nn : enn rad.
Proof.
  unfold rad.
  destruct (sq_cases x0) as [(a0 & _ & E0 & B0)|[E0|E0]]; fold q0 in E0;
  destruct (sq_cases x1) as [(a1 & _ & E1 & B1)|[E1|E1]]; fold q1 in E1;
    unfold h, z0, z1; rewrite E0, E1;
    try (match goal with |- enn (eadd _ (emul (emul _ ?d) _)) =>
           apply inf_sq; cbn; unfold esgn; destruct (Rlt_dec 0 hn); [ tauto | lra ] end);
    try (apply inf_sq; cbn; tauto).
  set (r0 := rnd (a0 * a0)) in *. set (r1 := rnd (a1 * a1)) in *.
  assert (F0 : fmt r0) by apply fmt_rnd. assert (F1 : fmt r1) by apply fmt_rnd.
  cbn [esub]. rewrite !rx_diff by (assumption || lra). cbn [emul].
  set (y0 := rnd (t - r0)). set (y1 := rnd (t - r1)). set (d := rnd (r1 - r0)).
  destruct (rx (hn * d)) as [k'| | |] eqn:Ek; try (apply inf_sq; tauto).
  apply rx_inv in Ek. subst k'.
  cbn [emul]. set (k := rnd (hn * d)).
  assert (Fd : fmt d) by apply fmt_rnd.
  assert (Kd : Rabs d <= Rabs k).
  { unfold k. destruct (Rle_lt_dec 0 d) as [P|P].
    - assert (d <= rnd (hn * d)) by (rewrite <- (rnd_fmt d Fd) at 1; apply rnd_le; nra).
      rewrite !Rabs_pos_eq; lra.
    - assert (rnd (hn * d) <= d) by (rewrite <- (rnd_fmt d Fd) at 2; apply rnd_le; nra).
      rewrite !Rabs_left; lra. }
  destruct (Rle_lt_dec 0 (y0 * y1)) as [P|P].
  - apply enn_add; apply rx_nn; nra.
  - apply sum_nn.
    assert (Y : Rabs y0 <= Rabs d /\ Rabs y1 <= Rabs d).
    { assert (S0 : t - r0 < 0 -> y0 <= 0) by (intros; apply rnd_nonpos; lra).
      assert (S1 : 0 <= t - r0 -> 0 <= y0) by (intros; apply rnd_nonneg; lra).
      assert (S2 : t - r1 < 0 -> y1 <= 0) by (intros; apply rnd_nonpos; lra).
      assert (S3 : 0 <= t - r1 -> 0 <= y1) by (intros; apply rnd_nonneg; lra).
      destruct (Rlt_le_dec (t - r0) 0) as [A|A]; destruct (Rlt_le_dec (t - r1) 0) as [B|B].
      - specialize (S0 A). specialize (S2 B). nra.
      - specialize (S0 A). specialize (S3 B).
        assert (d <= y0) by (apply rnd_le; lra).
        assert (y1 <= - d) by (unfold d; rewrite <- rnd_opp; apply rnd_le; lra).
        rewrite (Rabs_left1 y0), (Rabs_left1 d), (Rabs_pos_eq y1) by lra. lra.
      - specialize (S1 A). specialize (S2 B).
        assert (y0 <= d) by (apply rnd_le; lra).
        assert (- d <= y1) by (unfold d; rewrite <- rnd_opp; apply rnd_le; lra).
        rewrite (Rabs_pos_eq y0), (Rabs_pos_eq d), (Rabs_left1 y1) by lra. lra.
      - specialize (S1 A). specialize (S3 B). nra. }
    rewrite Rabs_mult. replace (k * k) with (Rabs k * Rabs k) by (rewrite <- Rabs_mult; apply Rabs_pos_eq; nra).
    apply Rmult_le_compat; try apply Rabs_pos; lra.
Qed.

(** the denominator of sigma *)
Lemma den_pos xi w : enn xi -> enn w -> forall p,
  (forall r, p = EFin r -> fmt r /\ 0 < t + r) ->
  (forall r, w = EFin r -> fmt r) -> (forall r, xi = EFin r -> fmt r) ->
  enz (eadd (eadd (eadd (EFin t) p) w) xi).
Proof.
  intros Nx Nw p Hp Fw Fx.
  destruct (eadd (eadd (eadd (EFin t) p) w) xi) as [v| | |] eqn:E; try reflexivity.
  apply eadd_fin in E. destruct E as (r & x & E & -> & ->).
  apply eadd_fin in E. destruct E as (s & y & E & -> & ->).
  destruct p as [p| | |]; try discriminate E.
  destruct (Hp p eq_refl) as [Fp Pp]. cbn in E. apply rx_inv in E. subst s.
  cbn in Nx, Nw. specialize (Fw _ eq_refl). specialize (Fx _ eq_refl).
  assert (S0 : 0 < rnd (t + p)) by now apply rnd_plus_pos.
  assert (S1 : 0 < rnd (rnd (t + p) + y)) by (apply rnd_plus_pos; [ apply fmt_rnd | exact Fw | lra ]).
  assert (S2 : 0 < rnd (rnd (rnd (t + p) + y) + x)) by (apply rnd_plus_pos; [ apply fmt_rnd | exact Fx | lra ]).
  apply enz_fin. lra.
Qed.

Lemma den_bias xi w : enn w -> (forall r, w = EFin r -> fmt r) ->
  (forall r, xi = EFin r -> exists rr, rad = EFin rr /\ r = rnd (R_sqrt.sqrt rr)) ->
  eltb x1 x0 = false -> eltb (EFin 0) x1 && eleb (EFin t) q1 = false ->
  bpow radix2 (-400) <= t ->
  enz (eadd (eadd (eadd (EFin t) (emul x0 x1)) w) xi).
Proof.
  intros Nw Fw Hxi Hord Hb Lt.
  destruct (eadd (eadd (eadd (EFin t) (emul x0 x1)) w) xi) as [v| | |] eqn:E; try reflexivity.
  apply eadd_fin in E. destruct E as (r & x & E & -> & ->).
  apply eadd_fin in E. destruct E as (s & y & E & -> & ->).
  destruct (emul x0 x1) as [p| | |] eqn:Em; try discriminate E.
  cbn in E. apply rx_inv in E. subst s.
  apply emul_fin in Em. destruct Em as (a0 & a1 & E0 & E1 & ->).
  destruct (Hxi x eq_refl) as (rr & Er & ->).
  cbn in Nw. specialize (Fw _ eq_refl).
  assert (Fx : fmt (rnd (R_sqrt.sqrt rr))) by apply fmt_rnd.
  assert (Px : 0 <= rnd (R_sqrt.sqrt rr)) by (apply rnd_nonneg, sqrt_pos).
  set (P := rnd (a0 * a1)) in *. set (x := rnd (R_sqrt.sqrt rr)) in *.
  assert (FP : fmt P) by apply fmt_rnd.
  apply enz_fin. apply Rgt_not_eq, Rlt_gt.
  assert (Key : 0 < rnd (t + P) + x).
  { destruct (Rlt_le_dec 0 (t + P)) as [L|L].
    { assert (0 < rnd (t + P)) by (now apply rnd_plus_pos). lra. }
    assert (A : a0 * a1 < 0).
    { destruct (Rlt_le_dec (a0 * a1) 0) as [|N]; [ assumption | ].
      assert (0 <= P) by now apply rnd_nonneg. lra. }
    rewrite E0, E1 in Hord. cbn in Hord. destruct (Rlt_dec a1 a0) as [|O]; [ discriminate | ].
    assert (A1 : 0 < a1) by nra. assert (A0 : a0 < 0) by nra.
    rewrite E1 in Hb. cbn [eltb] in Hb. destruct (Rlt_dec 0 a1); [ | lra ]. cbn [andb] in Hb.
    unfold rad in Er. apply eadd_fin in Er. destruct Er as (m1 & m2 & Ez & Eh & ->).
    apply emul_fin in Ez. destruct Ez as (y0 & y1 & Ez0 & Ez1 & ->).
    apply emul_fin in Eh. destruct Eh as (k & k' & Eh & Eh' & ->).
    assert (k' = k) by congruence. subst k'. clear Eh'.
    unfold h in Eh. apply emul_fin in Eh. destruct Eh as (hn' & d & Ehn & Ed & ->).
    injection Ehn as <-.
    apply esub_fin in Ed. destruct Ed as (r1 & r0 & Eq1 & Eq0 & ->).
    assert (Q1 : r1 = rnd (a1 * a1)).
    { unfold q1 in Eq1. rewrite E1 in Eq1. cbn in Eq1. now apply rx_inv. }
    assert (Q0 : r0 = rnd (- a0 * - a0)).
    { unfold q0 in Eq0. rewrite E0 in Eq0. cbn in Eq0. apply rx_inv in Eq0. rewrite Eq0. f_equal. ring. }
    unfold z0 in Ez0. rewrite Eq0 in Ez0. cbn in Ez0. apply rx_inv in Ez0.
    unfold z1 in Ez1. rewrite Eq1 in Ez1. cbn in Ez1. apply rx_inv in Ez1.
    fold q1 in Hb. rewrite Eq1 in Hb. cbn in Hb. destruct (Rle_dec t r1) as [|B]; [ discriminate | ].
    assert (PP : P = - rnd (- a0 * a1)).
    { unfold P. rewrite <- rnd_opp. f_equal. ring. }
    assert (G := par_gt t a1 (- a0) hn Ft A1 ltac:(lra) Hn Lt ltac:(lra) ltac:(lra)).
    cbv zeta in G. rewrite <- Q0, <- Q1, <- Ez0, <- Ez1 in G.
    replace (rnd (r0 - r1)) with (- rnd (r1 - r0)) in G by (rewrite <- rnd_opp; f_equal; ring).
    replace (rnd (hn * - rnd (r1 - r0))) with (- rnd (hn * rnd (r1 - r0))) in G
      by (rewrite <- rnd_opp; f_equal; ring).
    replace (- rnd (hn * rnd (r1 - r0)) * - rnd (hn * rnd (r1 - r0)))
      with (rnd (hn * rnd (r1 - r0)) * rnd (hn * rnd (r1 - r0))) in G by ring.
    fold x in G.
    replace (t + P) with (- (rnd (- a0 * a1) - t)) by lra. rewrite rnd_opp. lra. }
  assert (S1 : rnd (t + P) <= rnd (rnd (t + P) + y)).
  { rewrite <- (rnd_fmt _ (fmt_rnd (t + P))) at 1. apply rnd_le. lra. }
  apply rnd_plus_pos; [ apply fmt_rnd | exact Fx | lra ].
Qed.
End Par.

Lemma par_fast_ok n (c : core FA) (x0 x1 T p eta : num FA) t : (2 <= n)%nat -> core_ok n c -> ev T = EFin t -> 0 < t ->
  let h := amul (a:=FA) (half_n c) (asub (amul x1 x1) (amul x0 x0)) in
  let xi := PrimFloat.sqrt (aadd (a:=FA) (amul (asub T (amul x0 x0)) (asub T (amul x1 x1))) (amul h h)) in
  enz (ev (aadd (a:=FA) (aadd (aadd T p) (amul (half_n c) (amul (aadd x0 x1) (aadd x0 x1)))) xi)) ->
  exists r, core_parallel_bias_cut_fast c x0 x1 T p eta = Ok r.
Proof.
  intros Hn Hc E P h xi Hd. unfold core_parallel_bias_cut_fast.
  fold h.
  assert (N2 : 2 <= INR n) by (apply (le_INR 2); exact Hn).
  destruct (ok_half _ _ Hc) as (hn & Eh & Hh).
  rewrite fpsqrt.
  2:{ cbn [aadd amul asub FA] in *. rewrite ev_add, !ev_mul, !ev_sub, !ev_mul, E. unfold h.
      rewrite !ev_mul, !ev_sub, !ev_mul, Eh.
      apply rad_nn; [ exact (ev_fmt _ _ E) | | lra ].
      generalize (ev_big _ _ E). rewrite Rabs_pos_eq by lra. lra. }
  cbn [bind]. fold xi.
  destruct (fl_div (amul (a:=FA) atwo eta) _ Hd) as [z Hz]. cbn [aadd amul FA] in *. rewrite Hz. cbn [bind].
  destruct (fl_div xi (n_f c)) as [z2 ->].
  { rewrite (ok_nf _ _ Hc). apply enz_fin. lra. }
  cbn [bind].
  match goal with |- context [pdiv ?a T] => destruct (fl_div a T) as [z3 ->] end.
  { rewrite E. apply enz_fin. lra. }
  cbn [bind]. eexists. reflexivity.
Qed.

Lemma w_nn (c : core FA) n (x : num FA) : core_ok n c -> enn (ev (amul (a:=FA) (half_n c) (amul x x))).
Proof.
  intros Hc. cbn [amul FA]. rewrite !ev_mul. destruct (ok_half _ _ Hc) as (hn & -> & ->).
  apply enn_mul; [ cbn; generalize (pos_INR n); lra | apply enn_sqr ].
Qed.

Lemma xi_cases (x : num FA) r : ev (PrimFloat.sqrt x) = EFin r -> enn (ev x) ->
  exists rr, ev x = EFin rr /\ r = rnd (R_sqrt.sqrt rr).
Proof.
  intros H N. destruct (ev x) as [a| | |] eqn:E; cbn in N; try tauto.
  - exists a. split; [ reflexivity | ]. rewrite (ev_sqrt _ _ E N) in H. congruence.
  - rewrite (ev_sqrt_inf _ E) in H. discriminate.
  - rewrite (ev_sqrt_nan _ E) in H. discriminate.
Qed.

Lemma parallel_ok n (c : calc FA) (b0 b1 T : num FA) t : (2 <= n)%nat -> core_ok n (c_helper c) ->
  ev T = EFin t -> bpow radix2 (-400) <= t ->
  calc_parallel c b0 b1 T = Err AssertionError \/ exists r, calc_parallel c b0 b1 T = Ok r.
Proof.
  intros Hn Hc E Lt. assert (P : 0 < t) by (generalize (bpow_gt_0 radix2 (-400)); lra).
  unfold calc_parallel.
  destruct (altb (a:=FA) b1 b0) eqn:Hord; [ right; eexists; reflexivity | ].
  destruct (altb (a:=FA) azero b1 && aleb (a:=FA) T (amul b1 b1)) eqn:Hb.
  { exact (bias_ok c b0 T t E P). }
  right. unfold core_parallel_bias_cut.
  assert (N2 : 2 <= INR n) by (apply (le_INR 2); exact Hn).
  destruct (ok_half _ _ Hc) as (hn & Eh & Hh).
  change (PrimFloat.ltb b1 b0 = false) in Hord. rewrite ev_ltb in Hord.
  change (PrimFloat.ltb PrimFloat.zero b1 && PrimFloat.leb T (b1 * b1)%float = false) in Hb.
  rewrite ev_ltb, ev_leb, ev_zero, ev_mul, E in Hb.
  assert (Bt : 0 < t < big) by (generalize (ev_big _ _ E); rewrite Rabs_pos_eq by lra; lra).
  assert (Hn1 : 1 <= hn) by lra.
  edestruct (par_fast_ok n (c_helper c) b0 b1 T (amul (a:=FA) b0 b1)) as [r Hr];
    [ exact Hn | exact Hc | exact E | exact P | | rewrite Hr; eexists; reflexivity ].
  assert (W := w_nn (c_helper c) n (aadd (a:=FA) b0 b1) Hc).
  cbn [aadd amul asub FA] in *.
  assert (R : enn (ev ((T - b0 * b0) * (T - b1 * b1) +
      (half_n (c_helper c) * (b1 * b1 - b0 * b0)) * (half_n (c_helper c) * (b1 * b1 - b0 * b0)))%float)).
  { rewrite ev_add, !ev_mul, !ev_sub, !ev_mul, E, Eh.
    apply rad_nn; [ exact (ev_fmt _ _ E) | exact Bt | exact Hn1 ]. }
  rewrite ev_add, ev_add, ev_add, (ev_mul b0 b1), E.
  apply (den_bias t hn (ev b0) (ev b1) (ev_fmt _ _ E) Bt Hn1).
  - exact W.
  - intros r. apply ev_fmt.
  - intros r Hr. apply xi_cases in Hr; [ | exact R ]. destruct Hr as (rr & Err & ->).
    exists rr. split; [ | reflexivity ]. rewrite <- Err.
    rewrite ev_add, !ev_mul, !ev_sub, !ev_mul, E, Eh. reflexivity.
  - exact Hord.
  - exact Hb.
  - exact Lt.
Qed.

Lemma parallelq_ok n (c : calc FA) (b0 b1 T : num FA) t : (2 <= n)%nat -> core_ok n (c_helper c) ->
  ev (c_n_f c) = EFin (INR n) -> ev T = EFin t -> 0 < t ->
  exists r, calc_parallel_q c b0 b1 T = Ok r.
Proof.
  intros Hn Hc Nf E P. unfold calc_parallel_q.
  destruct (altb (a:=FA) b1 b0) eqn:Hord; [ eexists; reflexivity | ].
  destruct (altb (a:=FA) azero b1 && aleb (a:=FA) T (amul b1 b1)) eqn:Hb.
  { exact (biasq_ok n c b0 T t ltac:(lia) Nf E P). }
  destruct (aleb (a:=FA) (aadd T (amul (c_n_f c) (amul b0 b1))) azero) eqn:L; [ eexists; reflexivity | ].
  change (PrimFloat.leb (T + c_n_f c * (b0 * b1))%float PrimFloat.zero = false) in L.
  rewrite ev_leb, ev_add, ev_mul, ev_zero, E, Nf in L.
  assert (N2 : 2 <= INR n) by (apply (le_INR 2); exact Hn).
  destruct (ok_half _ _ Hc) as (hn & Eh & Hh).
  assert (Bt : 0 < t < big) by (generalize (ev_big _ _ E); rewrite Rabs_pos_eq by lra; lra).
  edestruct (par_fast_ok n (c_helper c) b0 b1 T (amul (a:=FA) b0 b1)) as [r Hr];
    [ exact Hn | exact Hc | exact E | exact P | | rewrite Hr; eexists; reflexivity ].
  assert (W := w_nn (c_helper c) n (aadd (a:=FA) b0 b1) Hc).
  cbn [aadd amul asub FA] in *.
  assert (R : enn (ev ((T - b0 * b0) * (T - b1 * b1) +
      (half_n (c_helper c) * (b1 * b1 - b0 * b0)) * (half_n (c_helper c) * (b1 * b1 - b0 * b0)))%float)).
  { rewrite ev_add, !ev_mul, !ev_sub, !ev_mul, E, Eh.
    apply rad_nn; [ exact (ev_fmt _ _ E) | exact Bt | lra ]. }
  rewrite ev_add, ev_add, ev_add, E.
  apply (den_pos t (ev_fmt _ _ E)).
  - now apply enn_sqrt.
  - exact W.
  - intros r Er. split; [ exact (ev_fmt _ _ Er) | ].
    rewrite Er in L. apply (eta_pos n t r); [ lia | exact (ev_fmt _ _ E) | exact P | exact (ev_fmt _ _ Er) | exact L ].
  - intros r. apply ev_fmt.
  - intros r. apply ev_fmt.
Qed.

(** ** central parallel cuts *)

Lemma eadd_nn_nz x v : enn x -> fmt v -> 0 < v -> enz (eadd x (EFin v)).
Proof.
  intros Y F P. destruct x as [b| | |]; cbn in Y |- *; try reflexivity; try tauto.
  apply epn_nz, epos_epn, (rx_ge _ v); [ exact F | exact P | lra ].
Qed.

Lemma sqrt_half : 5 / 8 <= R_sqrt.sqrt (1 / 2).
Proof.
  rewrite <- (sqrt_Rsqr (5 / 8)) by lra. apply sqrt_le_1_alt. unfold Rsqr. lra.
Qed.

Lemma fmt_58 : fmt (5 / 8).
Proof. replace (5 / 8) with (IZR 5 * bpow radix2 (-3)) by (cbn; field). apply fmt_F2R; lia. Qed.

Lemma par_central_ok n (c : core FA) (b1 T : num FA) t : (2 <= n)%nat -> core_ok n c ->
  ev T = EFin t -> 0 < t -> eleb (EFin t) (emul (ev b1) (ev b1)) = false ->
  exists r, core_parallel_central_cut c b1 T = Ok r.
Proof.
  intros Hn Hc E P Hb. unfold core_parallel_central_cut. cbn [amul aadd asub FA].
  assert (N2 : 2 <= INR n) by (apply (le_INR 2); exact Hn).
  destruct (ok_half _ _ Hc) as (hn & Eh & Hh).
  destruct (ok_inv _ _ Hc) as (vi & Ei & _ & Hi).
  destruct (fpdiv (b1 * b1)%float T) as [D V]; [ rewrite E; apply enz_fin; lra | ].
  rewrite D. cbn [bind]. rewrite ev_mul, E in V. clear D.
  set (a := (b1 * b1 / T)%float) in *. set (k := (half_n c * a)%float).
  (* the quotient is NaN or lies in [0, 1] *)
  assert (A : ev a = ENan \/ exists q, ev a = EFin q /\ 0 <= q <= 1).
  { destruct (sq_cases (ev b1)) as [(b & _ & E1 & B1)|[E1|E1]]; rewrite E1 in V, Hb.
    - right. cbn in Hb. destruct (Rle_dec t (rnd (b * b))) as [|N]; [ discriminate | ].
      cbn [ediv] in V. destruct (rx_fin_le (rnd (b * b) / t) 1) as [R1 R2].
      + unfold Rdiv. apply Rmult_le_pos; [ lra | ]. left. now apply Rinv_0_lt_compat.
      + apply Rmult_le_reg_r with t; [ exact P | ]. unfold Rdiv. rewrite Rmult_assoc, Rinv_l; lra.
      + exact fmt_1.
      + generalize (int_big 1 ltac:(lia)). rewrite Rabs_R1. tauto.
      + eexists. split; [ rewrite V; exact R1 | exact R2 ].
    - cbn in Hb. discriminate.
    - left. exact V. }
  assert (S : enn (ev (aone (a:=FA) - a + k * k)%float) /\
     (ev (k + PrimFloat.sqrt (aone (a:=FA) - a + k * k))%float = ENan \/
      ev (k + PrimFloat.sqrt (aone (a:=FA) - a + k * k))%float = EPinf \/
      exists r, ev (k + PrimFloat.sqrt (aone (a:=FA) - a + k * k))%float = EFin r /\ 1 / 2 < r)).
  { destruct A as [A|(q & A & Hq)].
    - assert (X : ev (aone (a:=FA) - a + k * k)%float = ENan).
      { rewrite ev_add, ev_sub, A, ev_one. reflexivity. }
      split; [ rewrite X; exact I | ]. left.
      assert (Y : ev k = ENan) by (unfold k; rewrite ev_mul, A, Eh; reflexivity).
      rewrite ev_add, Y. reflexivity.
    - assert (Fq : fmt q) by exact (ev_fmt _ _ A).
      assert (Ek : ev k = rx (hn * q)) by (unfold k; rewrite ev_mul, A, Eh; reflexivity).
      assert (Dn : ev (aone (a:=FA) - a)%float = EFin (rnd (1 - q)) /\ 0 <= rnd (1 - q) <= 1).
      { rewrite ev_sub, ev_one, A. cbn [esub]. apply rx_fin_le; [ lra | lra | exact fmt_1 | ].
        generalize (int_big 1 ltac:(lia)). rewrite Rabs_R1. tauto. }
      destruct Dn as [Dn Dr].
      assert (X : enn (ev (aone (a:=FA) - a + k * k)%float)).
      { rewrite ev_add, Dn, ev_mul. apply enn_add; [ cbn; lra | apply enn_sqr ]. }
      split; [ exact X | ].
      assert (Kn : enn (ev k)) by (rewrite Ek; apply rx_nn; nra).
      assert (Sn := enn_sqrt _ X).
      rewrite ev_add. destruct (ev k) as [kv| | |] eqn:Ekv; cbn in Kn; try tauto.
      2:{ right. left. destruct (ev (PrimFloat.sqrt _)) as [sv| | |] eqn:Es; cbn in Sn; try tauto; try reflexivity.
          (* NaN cannot be *)
          exfalso. rewrite ev_add, Dn, ev_mul, Ekv in X.
          assert (Z : ev (aone (a:=FA) - a + k * k)%float = EPinf) by (rewrite ev_add, Dn, ev_mul, Ekv; reflexivity).
          rewrite (ev_sqrt_inf _ Z) in Es. discriminate. }
      destruct (ev (PrimFloat.sqrt (aone (a:=FA) - a + k * k)%float)) as [sv| | |] eqn:Es; cbn in Sn; try tauto.
      cbn [eadd].
      assert (G : exists g, fmt g /\ 1 / 2 < g /\ g <= kv + sv).
      { destruct (Rle_lt_dec q (1 / 2)) as [Q|Q].
        - exists (5 / 8). split; [ exact fmt_58 | ]. split; [ lra | ].
          destruct (xi_cases _ _ Es X) as (rr & Er & ->).
          assert (1 / 2 <= rr).
          { rewrite ev_add, Dn, ev_mul, Ekv in Er. cbn [emul] in Er. apply eadd_fin in Er.
            destruct Er as (u1 & u2 & U1 & U2 & ->). injection U1 as <-. apply rx_inv in U2.
            assert (H12 : fmt (1 / 2)) by (apply (fmt_half 1); lia).
            assert (0 <= u2) by (rewrite U2; apply rnd_nonneg; nra).
            assert (1 / 2 <= rnd (1 - q)) by (rewrite <- (rnd_fmt _ H12) at 1; apply rnd_le; lra).
            rewrite <- (rnd_fmt _ H12) at 1. apply rnd_le. lra. }
          assert (5 / 8 <= rnd (R_sqrt.sqrt rr)); [ | lra ].
          rewrite <- (rnd_fmt _ fmt_58) at 1. apply rnd_le. apply Rle_trans with (1 := sqrt_half).
          now apply sqrt_le_1_alt.
        - exists q. split; [ exact Fq | ]. split; [ exact Q | ].
          symmetry in Ek. apply rx_inv in Ek. assert (q <= kv); [ | lra ].
          rewrite Ek. rewrite <- (rnd_fmt _ Fq) at 1. apply rnd_le. nra. }
      destruct G as (g & Fg & G1 & G2).
      right. unfold rx. destruct (Rlt_dec _ _).
      + right. eexists. split; [ reflexivity | ].
        apply Rlt_le_trans with g; [ exact G1 | ]. rewrite <- (rnd_fmt _ Fg) at 1. now apply rnd_le.
      + left. destruct (Rlt_dec 0 (kv + sv)); [ reflexivity | lra ]. }
  destruct S as [S1 S2].
  rewrite fpsqrt by exact S1. cbn [bind].
  set (r := (k + PrimFloat.sqrt (aone (a:=FA) - a + k * k))%float) in *.
  assert (R1 : enz (ev (r + aone (a:=FA))%float)).
  { rewrite ev_add, ev_one. apply eadd_nn_nz; [ | exact fmt_1 | lra ].
    destruct S2 as [->|[->|(v & -> & Hv)]]; cbn; lra || exact I. }
  assert (R2 : enz (ev (r - inv_n c)%float)).
  { rewrite ev_sub, Ei. destruct S2 as [->|[->|(v & Ev & Hv)]]; try reflexivity.
    rewrite Ev. cbn. apply rx_nz.
    assert (0 < rnd (v - vi)); [ | lra ].
    apply rnd_minus_pos; [ exact (ev_fmt _ _ Ev) | exact (ev_fmt _ _ Ei) | lra ]. }
  destruct (fl_div b1 (r + aone (a:=FA))%float R1) as [y1 ->]. cbn [bind].
  destruct (fl_div (atwo (A:=FA)) (r + aone (a:=FA))%float R1) as [y2 ->]. cbn [bind].
  destruct (fl_div r (r - inv_n c)%float R2) as [y3 ->]. cbn [bind].
  eexists. reflexivity.
Qed.
