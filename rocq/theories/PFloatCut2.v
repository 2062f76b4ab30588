(** The three cut strategies in double arithmetic: errors and NoSoln. *)
From Coq Require Import Reals ZArith Lia Lra Psatz Bool Floats List.
From Flocq Require Import Core.Core.
From Verif Require Import Arith Vec ModelCalc ModelEll SpecDrivers SpecFloating SpecCut.
From Verif Require Import PFloat PFloatSign PFloatCalc PFloatErr PFloatPar PFloatCut.
Import ListNotations.
Local Open Scope R_scope.

Lemma fcalc_ok n p c : fcalc_for n p c -> (Z.of_nat n < 2 ^ 53)%Z ->
  (2 <= n)%nat /\ core_ok n (c_helper c) /\ ev (c_n_f c) = EFin (INR n) /\ use_parallel_cut c = p.
Proof.
  intros (c0 & H & ->) Hb.
  assert (Hn : (2 <= n)%nat).
  { unfold calc_init in H. destruct (Nat.leb_spec 2 n); [ assumption | discriminate ]. }
  split; [ exact Hn | ]. destruct (calc_init_ok n Hn Hb) as (c & Ec & Nf & _ & Ok0).
  assert (c = c0) by congruence. subst c0. cbn. split; [ exact Ok0 | ]. split; [ | reflexivity ].
  rewrite Nf. apply ev_ofnat. lia.
Qed.

(** a result that is not an arithmetic error *)
Definition nomath {X} (r : res X) : Prop := r <> Err ValueError /\ r <> Err ZeroDivision.

Lemma nomath_ok {X} (x : X) : nomath (Ok x).
Proof. split; discriminate. Qed.
Lemma nomath_ex {X} (r : res X) : (exists x, r = Ok x) -> nomath r.
Proof. intros [x ->]. apply nomath_ok. Qed.
Lemma nomath_as {X} (r : res X) : r = Err AssertionError \/ (exists x, r = Ok x) -> nomath r.
Proof. intros [->|H]; [ split; discriminate | now apply nomath_ex ]. Qed.

Lemma bp_powerRZ e : bpow radix2 e = powerRZ 2 e.
Proof.
  destruct e as [|p|p]; cbn [bpow powerRZ].
  - reflexivity.
  - change (IZR (Z.pow_pos radix2 p)) with (IZR (Z.pow_pos 2 p)).
    rewrite Zpower_pos_nat, Zpower_nat_Z, <- pow_IZR. reflexivity.
  - change (IZR (Z.pow_pos radix2 p)) with (IZR (Z.pow_pos 2 p)).
    rewrite Zpower_pos_nat, Zpower_nat_Z, <- pow_IZR. reflexivity.
Qed.

Lemma central_single_ok (c : calc FA) T t : ev T = EFin t -> 0 < t ->
  nomath (let* tau := psqrt (A:=FA) T in Ok (Success, Some (core_central_cut (c_helper c) tau))).
Proof. intros E P. rewrite fpsqrt by (rewrite E; cbn; lra). cbn [bind]. apply nomath_ok. Qed.

Lemma nomath_double n p c k beta (T : num FA) : fcalc_for n p c -> (Z.of_nat n < 2 ^ 53)%Z ->
  ffinite T -> fpos T ->
  (powerRZ 2 (-400) <= fval T \/ k <> OpBias \/ exists b, beta = CSingle b) ->
  nomath (fstrat_of k c beta T).
Proof.
  intros Hc Hb Ft Pt Hyp. destruct (fcalc_ok n p c Hc Hb) as (Hn & Co & Nf & _).
  apply ev_fin_iff in Ft. set (t := fval T) in *.
  apply fpos_ev in Pt. rewrite Ft in Pt. cbn in Pt.
  destruct k; cbn [fstrat_of].
  - (* bias *)
    destruct beta as [b|l]; cbn [calc_single_or_parallel].
    { apply nomath_as, (bias_ok c b T t Ft Pt). }
    destruct Hyp as [L|[N|[b N]]]; [ | congruence | discriminate ].
    rewrite <- bp_powerRZ in L.
    destruct (Nat.ltb (length l) 2 || negb (use_parallel_cut c)).
    { destruct l as [|[b|] l]; cbn; try (split; discriminate).
      apply nomath_as, (bias_ok c b T t Ft Pt). }
    destruct l as [|o0 [|[b1|] l]]; try (split; discriminate).
    destruct o0 as [b0|]; cbn; [ | split; discriminate ].
    apply nomath_as, (parallel_ok n c b0 b1 T t Hn Co Ft L).
  - (* central *)
    destruct beta as [b|l]; cbn [calc_single_or_parallel_central_cut].
    { now apply (central_single_ok c T t). }
    destruct (Nat.ltb (length l) 2 || negb (use_parallel_cut c)).
    { now apply (central_single_ok c T t). }
    destruct l as [|o0 [|[b1|] l]]; try (split; discriminate).
    destruct (altb (a:=FA) b1 azero); [ apply nomath_ok | ].
    destruct (aleb (a:=FA) T (amul b1 b1)) eqn:L; [ now apply (central_single_ok c T t) | ].
    change (PrimFloat.leb T (b1 * b1)%float = false) in L. rewrite ev_leb, ev_mul, Ft in L.
    destruct (par_central_ok n (c_helper c) b1 T t Hn Co Ft Pt L) as [r ->]. apply nomath_ok.
  - (* discrete *)
    destruct beta as [b|l]; cbn [calc_single_or_parallel_q].
    { apply nomath_ex, (biasq_ok n c b T t ltac:(lia) Nf Ft Pt). }
    destruct (Nat.ltb (length l) 2 || negb (use_parallel_cut c)).
    { destruct l as [|[b|] l]; cbn; try (split; discriminate).
      apply nomath_ex, (biasq_ok n c b T t ltac:(lia) Nf Ft Pt). }
    destruct l as [|o0 [|[b1|] l]]; try (split; discriminate).
    destruct o0 as [b0|]; cbn; [ | split; discriminate ].
    apply nomath_ex, (parallelq_ok n c b0 b1 T t Hn Co Nf Ft Pt).
Qed.

Lemma no_math_error_double n p c k beta (T : num FA) : fcalc_for n p c -> (Z.of_nat n < 2 ^ 53)%Z ->
  ffinite T -> powerRZ 2 (-400) <= fval T ->
  fstrat_of k c beta T <> Err ValueError /\ fstrat_of k c beta T <> Err ZeroDivision.
Proof.
  intros Hc Hb Ft L. apply (nomath_double n p c k beta T Hc Hb Ft); [ | now left ].
  apply fpos_ev. rewrite (proj1 (ev_fin_iff _) Ft). cbn.
  apply Rlt_le_trans with (2 := L). rewrite <- bp_powerRZ. apply bpow_gt_0.
Qed.

Lemma no_math_error_double_any n p c k beta (T : num FA) : fcalc_for n p c -> (Z.of_nat n < 2 ^ 53)%Z ->
  ffinite T -> fpos T -> k <> OpBias \/ (exists b, beta = CSingle b) ->
  fstrat_of k c beta T <> Err ValueError /\ fstrat_of k c beta T <> Err ZeroDivision.
Proof. intros Hc Hb Ft Pt H. apply (nomath_double n p c k beta T Hc Hb Ft Pt). now right. Qed.

(** ** NoSoln *)

Lemma some_triple_nosoln (r : res (triple FA)) o : some_triple r = Ok (NoSoln, o) -> False.
Proof. destruct r; cbn; discriminate. Qed.

Lemma ltb_real x y : ffinite x -> ffinite y -> PrimFloat.ltb x y = true -> fval x < fval y.
Proof.
  intros Fx Fy. rewrite ev_ltb, (proj1 (ev_fin_iff x) Fx), (proj1 (ev_fin_iff y) Fy). cbn.
  destruct (Rlt_dec (fval x) (fval y)); [ tauto | discriminate ].
Qed.

Lemma bias_nosoln (c : calc FA) (b T : num FA) o t0 : ffinite b -> ffinite T ->
  calc_bias_cut c b T = Ok (NoSoln, o) -> t0 * t0 <= fval T -> t0 <= - fval b -> False.
Proof.
  intros Fb Ft H Ht Hc. unfold calc_bias_cut in H.
  destruct (aleb (a:=FA) azero b) eqn:L; [ | discriminate ].
  change (PrimFloat.leb PrimFloat.zero b = true) in L.
  destruct (altb (a:=FA) T (amul b b)) eqn:M.
  2:{ revert H. destruct (psqrt T); cbn [bind]; [ intros H; now apply some_triple_nosoln in H | discriminate ]. }
  change (PrimFloat.ltb T (b * b)%float = true) in M.
  rewrite ev_leb, ev_zero, (proj1 (ev_fin_iff b) Fb) in L. cbn in L.
  destruct (Rle_dec 0 (fval b)) as [Pb|]; [ | discriminate ].
  rewrite ev_ltb, ev_mul, (proj1 (ev_fin_iff b) Fb), (proj1 (ev_fin_iff T) Ft) in M. cbn [emul] in M.
  assert (K : fval b * fval b <= fval T) by nra.
  assert (FT : fmt (fval T)) by exact (ev_fmt _ _ (proj1 (ev_fin_iff T) Ft)).
  assert (BT : fval T < big).
  { generalize (ev_big _ _ (proj1 (ev_fin_iff T) Ft)) (Rle_abs (fval T)). lra. }
  destruct (rx_fin_le (fval b * fval b) (fval T) ltac:(nra) K FT BT) as [R1 R2]. rewrite R1 in M.
  cbn in M. destruct (Rlt_dec (fval T) (rnd (fval b * fval b))); [ lra | discriminate ].
Qed.

Lemma biasq_nosoln (c : calc FA) (b T : num FA) o t0 : ffinite b -> ffinite T -> fpos T ->
  calc_bias_cut_q c b T = Ok (NoSoln, o) -> t0 * t0 <= fval T -> t0 <= - fval b -> False.
Proof.
  intros Fb Ft Pt H Ht Hc. unfold calc_bias_cut_q in H.
  assert (Et := proj1 (ev_fin_iff T) Ft). assert (Eb := proj1 (ev_fin_iff b) Fb).
  apply fpos_ev in Pt. rewrite Et in Pt. cbn in Pt.
  rewrite fpsqrt in H by (rewrite Et; cbn; lra). cbn [bind] in H.
  destruct (altb (a:=FA) (PrimFloat.sqrt T) b) eqn:M.
  2:{ destruct (aleb (a:=FA) _ azero) in H; [ discriminate | now apply some_triple_nosoln in H ]. }
  change (PrimFloat.ltb (PrimFloat.sqrt T) b = true) in M.
  rewrite ev_ltb, (ev_sqrt _ _ Et), Eb in M by lra.
  cbn in M. destruct (Rlt_dec (rnd (R_sqrt.sqrt (fval T))) (fval b)) as [L|]; [ | discriminate ].
  assert (Fb' : fmt (fval b)) by exact (ev_fmt _ _ Eb).
  assert (Bs : R_sqrt.sqrt (fval T) < fval b).
  { destruct (Rlt_le_dec (R_sqrt.sqrt (fval T)) (fval b)) as [|N]; [ assumption | ].
    apply rnd_le in N. rewrite (rnd_fmt _ Fb') in N. lra. }
  assert (S0 := sqrt_pos (fval T)). assert (S1 := sqrt_sqrt (fval T) ltac:(lra)). nra.
Qed.

Lemma nosoln_double n p c k beta (T : num FA) o t0 : fcalc_for n p c -> (Z.of_nat n < 2 ^ 53)%Z ->
  ffinite T -> fpos T -> cut_finite beta ->
  fstrat_of k c beta T = Ok (NoSoln, o) ->
  t0 * t0 <= fval T -> cut_holds k p (cut_real beta) t0 -> False.
Proof.
  intros Hc Hb Ft Pt Fb H Ht [C0 C1]. destruct (fcalc_ok n p c Hc Hb) as (Hn & Co & Nf & Hp).
  destruct k; cbn [fstrat_of] in H.
  - destruct beta as [b|l]; cbn [calc_single_or_parallel] in H.
    { exact (bias_nosoln c b T o t0 Fb Ft H Ht C0). }
    rewrite Hp in H. cbn in Fb.
    destruct (Nat.ltb (length l) 2 || negb p) eqn:El.
    { destruct l as [|[b|] l]; cbn in H; try discriminate.
      exact (bias_nosoln c b T o t0 (Fb b (or_introl eq_refl)) Ft H Ht C0). }
    destruct l as [|o0 [|[b1|] l]]; try discriminate.
    destruct o0 as [b0|]; cbn in H; [ | discriminate ].
    assert (Ep : p = true) by (destruct p; [ reflexivity | cbn in El; discriminate ]).
    rewrite Ep in C1. cbn in C0, C1.
    assert (F0 : ffinite b0) by (apply Fb; now left). assert (F1 : ffinite b1) by (apply Fb; right; now left).
    unfold calc_parallel in H. destruct (altb (a:=FA) b1 b0) eqn:L.
    { change (PrimFloat.ltb b1 b0 = true) in L. apply ltb_real in L; [ lra | exact F1 | exact F0 ]. }
    destruct (altb (a:=FA) azero b1 && aleb (a:=FA) T (amul b1 b1)).
    { exact (bias_nosoln c b0 T o t0 F0 Ft H Ht C0). }
    now apply some_triple_nosoln in H.
  - assert (Cen : (let* tau := psqrt (A:=FA) T in Ok (Success, Some (core_central_cut (c_helper c) tau))) = Ok (NoSoln, o) -> False).
    { destruct (psqrt (A:=FA) T); cbn; discriminate. }
    destruct beta as [b|l]; cbn [calc_single_or_parallel_central_cut] in H; [ exact (Cen H) | ].
    rewrite Hp in H. cbn in Fb.
    destruct (Nat.ltb (length l) 2 || negb p) eqn:El; [ exact (Cen H) | ].
    destruct l as [|o0 [|[b1|] l]]; try discriminate.
    assert (Ep : p = true) by (destruct p; [ reflexivity | cbn in El; discriminate ]).
    rewrite Ep in C1. cbn in C0, C1.
    destruct (altb (a:=FA) b1 azero) eqn:L.
    { change (PrimFloat.ltb b1 PrimFloat.zero = true) in L. apply ltb_real in L.
      - change (fval PrimFloat.zero) with 0 in L. lra.
      - apply Fb. right. now left.
      - exact I. }
    destruct (aleb (a:=FA) T (amul b1 b1)); [ exact (Cen H) | now apply some_triple_nosoln in H ].
  - destruct beta as [b|l]; cbn [calc_single_or_parallel_q] in H.
    { exact (biasq_nosoln c b T o t0 Fb Ft Pt H Ht C0). }
    rewrite Hp in H. cbn in Fb.
    destruct (Nat.ltb (length l) 2 || negb p) eqn:El.
    { destruct l as [|[b|] l]; cbn in H; try discriminate.
      exact (biasq_nosoln c b T o t0 (Fb b (or_introl eq_refl)) Ft Pt H Ht C0). }
    destruct l as [|o0 [|[b1|] l]]; try discriminate.
    destruct o0 as [b0|]; cbn in H; [ | discriminate ].
    assert (Ep : p = true) by (destruct p; [ reflexivity | cbn in El; discriminate ]).
    rewrite Ep in C1. cbn in C0, C1.
    assert (F0 : ffinite b0) by (apply Fb; now left). assert (F1 : ffinite b1) by (apply Fb; right; now left).
    unfold calc_parallel_q in H. destruct (altb (a:=FA) b1 b0) eqn:L.
    { change (PrimFloat.ltb b1 b0 = true) in L. apply ltb_real in L; [ lra | exact F1 | exact F0 ]. }
    destruct (altb (a:=FA) azero b1 && aleb (a:=FA) T (amul b1 b1)).
    { exact (biasq_nosoln c b0 T o t0 F0 Ft Pt H Ht C0). }
    destruct (aleb (a:=FA) _ azero) in H; [ discriminate | now apply some_triple_nosoln in H ].
Qed.

(** a cut that misses by more than the rounding is reported *)
Lemma bias_nosoln_complete n p c (b T : num FA) : fcalc_for n p c -> (Z.of_nat n < 2 ^ 53)%Z ->
  ffinite T -> powerRZ 2 (-400) <= fval T -> ffinite b -> 0 <= fval b ->
  fval T * (1 + 4 * u53) < fval b * fval b ->
  calc_bias_cut c b T = Ok (NoSoln, None).
Proof.
  intros Hc Hb Ft Lt Fb Pb Hm. unfold calc_bias_cut.
  assert (Et := proj1 (ev_fin_iff T) Ft). assert (Eb := proj1 (ev_fin_iff b) Fb).
  assert (L : aleb (a:=FA) azero b = true).
  { change (PrimFloat.leb PrimFloat.zero b = true). rewrite ev_leb, ev_zero, Eb. cbn.
    destruct (Rle_dec 0 (fval b)); [ reflexivity | contradiction ]. }
  rewrite L.
  assert (M : altb (a:=FA) T (amul b b) = true).
  { change (PrimFloat.ltb T (b * b)%float = true). rewrite ev_ltb, ev_mul, Et, Eb. cbn [emul].
    unfold u53 in Hm. rewrite <- bp_powerRZ in Hm, Lt. fold uu in Hm.
    generalize uu_pos uu_small. intros U0 U1.
    assert (T0 : 0 < fval T) by (generalize (bpow_gt_0 radix2 (-400)); lra).
    assert (N : bpow radix2 (-1022) <= Rabs (fval b * fval b)).
    { rewrite Rabs_pos_eq by nra. apply Rle_trans with (fval T); [ | nra ].
      apply Rle_trans with (2 := Lt). apply bpow_le. lia. }
    assert (R := err_n _ N). apply Rabs_bnd in R; [ | nra ].
    assert (K : fval T < rnd (fval b * fval b)) by nra.
    unfold rx. destruct (Rlt_dec (Rabs (rnd (fval b * fval b))) big).
    - cbn. destruct (Rlt_dec (fval T) (rnd (fval b * fval b))); [ reflexivity | contradiction ].
    - destruct (Rlt_dec 0 (fval b * fval b)); [ reflexivity | nra ]. }
  rewrite M. reflexivity.
Qed.
