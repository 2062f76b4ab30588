(** [bsearch] on integers of any size. *)
From Coq Require Import List Arith ZArith Bool Lia Reals Lra.
From Flocq Require Import Core.Core.
From Verif Require Import Arith ModelCalc ModelCut ModelInt SpecDrivers PDrivers PDrivers2 PBsInt.
Import ListNotations.
Local Open Scope Z_scope.

Definition r53 (x : R) : R := round radix2 (FLT_exp (-1074) 53) ZnearestE x.

Lemma zfloat_small z : Z.abs z <= 2 ^ 53 -> zfloat z = z.
Proof.
  intros H. unfold zfloat.
  destruct (Z.leb_spec (Z.log2 (Z.abs z) - 52) 0) as [L|L]; [reflexivity|].
  assert (Hz : 0 < Z.abs z) by (destruct (Z.eq_dec (Z.abs z) 0) as [E|E]; [rewrite E in L; cbn in L; lia | lia]).
  pose proof (Z.log2_spec (Z.abs z) Hz) as [S _].
  assert (53 <= Z.log2 (Z.abs z)) by lia.
  assert (2 ^ 53 <= 2 ^ Z.log2 (Z.abs z)) by (apply Z.pow_le_mono_r; lia).
  assert (E : Z.abs z = 2 ^ 53) by lia.
  rewrite E. change (Z.log2 (2 ^ 53) - 52) with 1. change (2 ^ 1) with 2.
  assert (A : z = 2 ^ 53 \/ z = - 2 ^ 53) by lia.
  destruct A as [A|A]; rewrite A; vm_compute; reflexivity.
Qed.

(** the rounding is that of IEEE doubles *)
Lemma mag_Z z : z <> 0 -> mag radix2 (IZR z) = (Z.log2 (Z.abs z) + 1)%Z :> Z.
Proof.
  intros H. apply mag_unique. rewrite <- abs_IZR.
  pose proof (Z.log2_spec (Z.abs z) ltac:(lia)) as [S1 S2].
  pose proof (Z.log2_nonneg (Z.abs z)).
  replace (Z.log2 (Z.abs z) + 1 - 1) with (Z.log2 (Z.abs z)) by lia.
  rewrite <- !IZR_Zpower by lia.
  split; [apply IZR_le; exact S1 | apply IZR_lt]. exact S2.
Qed.

Lemma near_div z p : 0 < p ->
  ZnearestE (IZR z / IZR p) =
  match Z.compare (2 * (z mod p)) p with
  | Lt => z / p
  | Gt => z / p + 1
  | Eq => if Z.even (z / p) then z / p else z / p + 1
  end.
Proof.
  intros P. unfold Znearest. rewrite Zfloor_div by lia.
  assert (PR : (0 < IZR p)%R) by (apply IZR_lt; lia).
  assert (F : (IZR z / IZR p - IZR (z / p) = IZR (z mod p) / IZR p)%R).
  { rewrite (Z_div_mod_eq_full z p) at 1. rewrite plus_IZR, mult_IZR. field. lra. }
  rewrite F.
  assert (C : Zceil (IZR z / IZR p) = z / p + 1 \/ z mod p = 0).
  { destruct (Z.eq_dec (z mod p) 0) as [E|E]; [right; exact E|left].
    rewrite Zceil_floor_neq; rewrite Zfloor_div by lia; [reflexivity|].
    intros A. assert (IZR (z mod p) / IZR p = 0)%R by lra.
    apply E. apply eq_IZR. unfold Rdiv in H. apply Rmult_integral in H. destruct H as [H|H]; [exact H|].
    exfalso. apply Rinv_neq_0_compat in H; [exact H|lra]. }
  pose proof (Z.mod_pos_bound z p P) as B.
  destruct (Z.compare_spec (2 * (z mod p)) p) as [E|E|E].
  - rewrite Rcompare_Eq.
    + destruct C as [C|C]; [|lia]. rewrite C. destruct (Z.even (z / p)); reflexivity.
    + apply IZR_eq in E. rewrite mult_IZR in E. apply Rmult_eq_reg_r with (IZR p); [|lra]. field_simplify; lra.
  - rewrite Rcompare_Lt; [reflexivity|].
    apply IZR_lt in E. rewrite mult_IZR in E. apply Rmult_lt_reg_r with (IZR p); [lra|]. field_simplify; lra.
  - rewrite Rcompare_Gt; [destruct C as [C|C]; [exact C|lia]|].
    apply IZR_lt in E. rewrite mult_IZR in E. apply Rmult_lt_reg_r with (IZR p); [lra|]. field_simplify; lra.
Qed.

Lemma zfloat_round z : IZR (zfloat z) = r53 (IZR z).
Proof.
  unfold r53. unfold zfloat.
  destruct (Z.leb_spec (Z.log2 (Z.abs z) - 52) 0) as [L|L].
  - symmetry. apply round_generic; [apply valid_rnd_N|]. apply generic_format_FLT.
    exists (Float radix2 z 0); [unfold F2R; cbn; ring| |cbn; lia].
    cbn [Fnum]. destruct (Z.eq_dec z 0) as [->|Hz]; [cbn; lia|].
    pose proof (Z.log2_spec (Z.abs z) ltac:(lia)) as [_ S].
    assert (2 ^ Z.succ (Z.log2 (Z.abs z)) <= 2 ^ 53) by (apply Z.pow_le_mono_r; lia).
    change (Zpower radix2 53) with (2 ^ 53). lia.
  - assert (Hz : z <> 0) by (intros ->; cbn in L; lia).
    unfold round, scaled_mantissa, cexp. rewrite mag_Z by exact Hz.
    set (e := Z.log2 (Z.abs z) - 52) in *.
    replace (FLT_exp (-1074) 53 (Z.log2 (Z.abs z) + 1)) with e by (unfold FLT_exp, e in *; lia).
    assert (P : 0 < 2 ^ e) by (apply Z.pow_pos_nonneg; lia).
    assert (Hb : bpow radix2 e = IZR (2 ^ e)) by (rewrite <- IZR_Zpower by lia; reflexivity).
    rewrite bpow_opp, Hb. fold (IZR z / IZR (2 ^ e))%R. rewrite near_div by exact P.
    unfold F2R. cbn [Fnum Fexp]. rewrite Hb, <- mult_IZR. f_equal.
    destruct (Z.compare (2 * (z mod 2 ^ e)) (2 ^ e)); [destruct (Z.even (z / 2 ^ e))| |]; reflexivity.
Qed.

Lemma r53_half x : r53 (IZR x / 2) = (r53 (IZR x) / 2)%R.
Proof.
  destruct (Z.eq_dec x 0) as [->|Hx].
  { unfold r53. replace (0 / 2)%R with 0%R by field. rewrite round_0 by apply valid_rnd_N. field. }
  pose proof (mag_Z x Hx) as Hm. pose proof (Z.log2_nonneg (Z.abs x)).
  assert (HR : IZR x <> 0%R) by (apply IZR_neq; exact Hx).
  assert (E2 : (IZR x / 2 = IZR x * bpow radix2 (-1))%R) by (cbn; field).
  assert (Hm2 : mag radix2 (IZR x / 2) = (Z.log2 (Z.abs x))%Z :> Z).
  { rewrite E2, mag_mult_bpow by exact HR. lia. }
  unfold r53, round, scaled_mantissa, cexp, F2R. cbn [Fnum Fexp]. rewrite Hm2, Hm.
  set (k := Z.log2 (Z.abs x)) in *.
  replace (FLT_exp (-1074) 53 k) with (k - 53) by (unfold FLT_exp; lia).
  replace (FLT_exp (-1074) 53 (k + 1)) with (k - 53 + 1) by (unfold FLT_exp; lia).
  rewrite E2, !Rmult_assoc, <- bpow_plus.
  replace (-1 + - (k - 53)) with (- (k - 53 + 1)) by lia.
  rewrite (bpow_plus _ (k - 53) 1). cbn [bpow]. change (IZR (Z.pow_pos radix2 1)) with 2%R. field.
Qed.

(** the two formulas, as the double operations of the code *)
Lemma mid_py_double l u :
  mid_py l u = Ztrunc (r53 (r53 (IZR l) + r53 (IZR (u - l) / 2))).
Proof.
  unfold mid_py.
  assert (E : (r53 (IZR l) + r53 (IZR (u - l) / 2) = IZR (2 * zfloat l + zfloat (u - l)) / 2)%R).
  { rewrite r53_half, <- !zfloat_round, plus_IZR, mult_IZR. field. }
  rewrite E, r53_half, <- zfloat_round.
  set (s := zfloat (2 * zfloat l + zfloat (u - l))).
  symmetry. rewrite Z.quot_div by lia. change (Z.abs 2) with 2. change (Z.sgn 2) with 1.
  unfold Ztrunc. destruct (Rlt_bool_spec (IZR s / 2) 0) as [N|N].
  - assert (s < 0) by (apply lt_IZR; lra).
    unfold Zceil. replace (- (IZR s / 2))%R with (IZR (- s) / IZR 2)%R by (rewrite opp_IZR; field).
    rewrite Zfloor_div by lia. rewrite Z.abs_neq, Z.sgn_neg by lia. lia.
  - assert (0 <= s) by (apply le_IZR; lra). rewrite Zfloor_div by lia.
    rewrite Z.abs_eq by lia. destruct (Z.eq_dec s 0) as [->|]; [reflexivity|]. rewrite Z.sgn_pos by lia. lia.
Qed.

Lemma narrow_py_double tn td l u :
  narrow_py tn td l u = true <-> (r53 (IZR (u - l) / 2) < IZR tn / IZR (Zpos td))%R.
Proof.
  unfold narrow_py. rewrite Z.ltb_lt, r53_half, <- zfloat_round.
  assert (T : (0 < IZR (Z.pos td))%R) by (apply IZR_lt; lia).
  set (w := zfloat (u - l)). split; intros H.
  - apply IZR_lt in H. rewrite !mult_IZR in H. apply Rmult_lt_reg_r with (IZR (Z.pos td)); [exact T|].
    unfold Rdiv at 2. rewrite Rmult_assoc, Rinv_l by lra. lra.
  - apply lt_IZR. rewrite !mult_IZR. apply Rmult_lt_compat_r with (r := IZR (Z.pos td)) in H; [|exact T].
    unfold Rdiv at 2 in H. rewrite Rmult_assoc, Rinv_l in H by lra. lra.
Qed.

(** ** Below 2^52 nothing is rounded *)
Lemma mid_py_exact l u : Z.abs l <= 2 ^ 52 -> Z.abs u <= 2 ^ 52 -> mid_py l u = mid_int l u.
Proof.
  intros Hl Hu. unfold mid_py, mid_int.
  assert (2 ^ 53 = 2 * 2 ^ 52) by reflexivity.
  rewrite (zfloat_small (u - l)), (zfloat_small l) by lia.
  replace (2 * l + (u - l)) with (l + u) by lia. rewrite zfloat_small by lia. reflexivity.
Qed.

Lemma narrow_py_exact tn td l u : Z.abs l <= 2 ^ 52 -> Z.abs u <= 2 ^ 52 ->
  narrow_py tn td l u = narrow_int tn td l u.
Proof.
  intros Hl Hu. unfold narrow_py, narrow_int.
  assert (2 ^ 53 = 2 * 2 ^ 52) by reflexivity.
  rewrite zfloat_small by lia. reflexivity.
Qed.

Lemma mid_int_box l u b : Z.abs l <= b -> Z.abs u <= b -> Z.abs (mid_int l u) <= b.
Proof.
  intros Hl Hu. unfold mid_int. pose proof (Z.quot_abs (l + u) 2 ltac:(lia)) as E.
  change (Z.abs 2) with 2 in E. rewrite <- E, Z.quot_div_nonneg by lia.
  apply Z.div_le_upper_bound; lia.
Qed.

Lemma bsearch_loop_py {B} (f : B -> Z -> B * res bool) tn td maxit fuel : forall niter o l u,
  Z.abs l <= 2 ^ 52 -> Z.abs u <= 2 ^ 52 ->
  bsearch_loop f (narrow_py tn td) mid_py maxit fuel niter o l u =
  bsearch_loop f (narrow_int tn td) mid_int maxit fuel niter o l u.
Proof.
  induction fuel as [|fuel IH]; intros niter o l u Hl Hu; cbn [bsearch_loop]; [reflexivity|].
  rewrite narrow_py_exact, mid_py_exact by assumption.
  destruct (narrow_int tn td l u); [reflexivity|].
  pose proof (mid_int_box l u _ Hl Hu) as Hm.
  destruct (f o (mid_int l u)) as [o1 [[|]|e]]; [apply IH|apply IH|]; auto.
Qed.

Lemma bsearch_py_small {B} (f : B -> Z -> B * res bool) tn td maxit o l u :
  Z.abs l <= 2 ^ 52 -> Z.abs u <= 2 ^ 52 ->
  bsearch f (narrow_py tn td) mid_py maxit o l u = bsearch f (narrow_int tn td) mid_int maxit o l u.
Proof. intros Hl Hu. apply bsearch_loop_py; assumption. Qed.

(** ** Any size *)
Lemma zfloat_err z m : 53 <= m -> Z.abs z <= 2 ^ m -> 2 * Z.abs (zfloat z - z) <= 2 ^ (m - 53).
Proof.
  intros Hm Hz. unfold zfloat.
  destruct (Z.leb_spec (Z.log2 (Z.abs z) - 52) 0) as [L|L].
  { rewrite Z.sub_diag. change (2 * Z.abs 0) with 0. apply Z.pow_nonneg. lia. }
  assert (Hp : 0 < Z.abs z) by (destruct (Z.eq_dec (Z.abs z) 0) as [E|E]; [rewrite E in L; cbn in L; lia | lia]).
  set (e := Z.log2 (Z.abs z) - 52) in *.
  assert (P : 0 < 2 ^ e) by (apply Z.pow_pos_nonneg; lia).
  pose proof (Z_div_mod_eq_full z (2 ^ e)) as D. pose proof (Z.mod_pos_bound z (2 ^ e) P) as B.
  pose proof (Z.log2_le_mono _ _ Hz) as Hl. rewrite Z.log2_pow2 in Hl by lia.
  set (q := z / 2 ^ e) in *. set (r := z mod 2 ^ e) in *.
  destruct (Z.eq_dec (Z.log2 (Z.abs z)) m) as [Em|Em].
  - (* |z| = 2^m is a double *)
    pose proof (Z.log2_spec (Z.abs z) Hp) as [S1 _]. rewrite Em in S1.
    assert (A : Z.abs z = 2 ^ m) by lia.
    assert (Ed : 2 ^ m = 2 ^ 52 * 2 ^ e) by (rewrite <- Z.pow_add_r by lia; f_equal; unfold e; lia).
    assert (R0 : r = 0).
    { unfold r. apply Z.mod_divide; [lia|]. apply Z.divide_abs_r. rewrite A, Ed. exists (2 ^ 52). ring. }
    rewrite R0 in *. replace (2 * 0) with 0 by lia.
    destruct (Z.compare_spec 0 (2 ^ e)) as [E|E|E]; try lia.
  - assert (Ho : 2 ^ e <= 2 ^ (m - 53)) by (apply Z.pow_le_mono_r; unfold e; lia).
    destruct (Z.compare_spec (2 * r) (2 ^ e)) as [E|E|E]; [destruct (Z.even q)| |]; nia.
Qed.

Lemma r53_mono x y : (x <= y)%R -> (r53 x <= r53 y)%R.
Proof. intros H. apply round_le; [apply FLT_exp_valid; unfold Prec_gt_0; lia|apply valid_rnd_N|exact H]. Qed.

Lemma zfloat_mono x y : x <= y -> zfloat x <= zfloat y.
Proof. intros H. apply le_IZR. rewrite !zfloat_round. apply r53_mono, IZR_le, H. Qed.

Lemma zfloat_opp z : zfloat (- z) = - zfloat z.
Proof. apply eq_IZR. rewrite opp_IZR, !zfloat_round, opp_IZR. apply round_NE_opp. Qed.

(** one tie above a power of two falls back on it *)
Lemma zfloat_tie m : 53 <= m -> zfloat (2 ^ m + 2 ^ (m - 53)) = 2 ^ m.
Proof.
  intros Hm. unfold zfloat.
  assert (P0 : 0 < 2 ^ (m - 53)) by (apply Z.pow_pos_nonneg; lia).
  assert (Em : 2 ^ m = 2 ^ 53 * 2 ^ (m - 53)) by (rewrite <- Z.pow_add_r by lia; f_equal; lia).
  rewrite Z.abs_eq by lia.
  assert (L : Z.log2 (2 ^ m + 2 ^ (m - 53)) = m).
  { apply Z.log2_unique; [lia|]. rewrite Z.pow_succ_r by lia. rewrite Em.
    assert (2 ^ 53 = 9007199254740992) by reflexivity. nia. }
  rewrite L. destruct (Z.leb_spec (m - 52) 0); [lia|].
  assert (E2 : 2 ^ (m - 52) = 2 * 2 ^ (m - 53)) by (rewrite <- Z.pow_succ_r by lia; f_equal; lia).
  assert (E3 : 2 ^ m = 2 ^ 52 * 2 ^ (m - 52)) by (rewrite <- Z.pow_add_r by lia; f_equal; lia).
  assert (Q : (2 ^ m + 2 ^ (m - 53)) / 2 ^ (m - 52) = 2 ^ 52).
  { symmetry. apply Z.div_unique with (r := 2 ^ (m - 53)); [left; lia|]. lia. }
  assert (R : (2 ^ m + 2 ^ (m - 53)) mod 2 ^ (m - 52) = 2 ^ (m - 53)).
  { symmetry. apply Z.mod_unique with (q := 2 ^ 52); [left; lia|]. lia. }
  rewrite Q, R, E2, Z.compare_refl. change (Z.even (2 ^ 52)) with true. cbv iota. lia.
Qed.

Lemma zfloat_box z m : 53 <= m -> Z.abs z <= 2 ^ m + 2 ^ (m - 53) -> Z.abs (zfloat z) <= 2 ^ m.
Proof.
  intros Hm Hz. pose proof (zfloat_tie m Hm) as T.
  apply Z.abs_le. split.
  - pose proof (zfloat_mono (- (2 ^ m + 2 ^ (m - 53))) z ltac:(lia)) as A. rewrite zfloat_opp, T in A. exact A.
  - pose proof (zfloat_mono z (2 ^ m + 2 ^ (m - 53)) ltac:(lia)) as A. rewrite T in A. exact A.
Qed.

Lemma mid_py_near l u k : 53 <= k -> Z.abs l <= 2 ^ k -> Z.abs u <= 2 ^ k ->
  Z.abs (mid_py l u) <= 2 ^ k /\ Z.abs (2 * mid_py l u - (l + u)) <= 2 ^ (k - 51) + 1.
Proof.
  intros Hk Hl Hu. unfold mid_py.
  assert (K1 : 2 ^ (k + 1) = 2 * 2 ^ k) by (rewrite Z.add_1_r, Z.pow_succ_r by lia; reflexivity).
  pose proof (zfloat_err l k Hk Hl) as E1.
  pose proof (zfloat_err (u - l) (k + 1) ltac:(lia) ltac:(lia)) as E2.
  replace (k + 1 - 53) with (Z.succ (k - 53)) in E2 by lia. rewrite Z.pow_succ_r in E2 by lia.
  set (p := 2 ^ (k - 53)) in *. assert (P0 : 0 < p) by (apply Z.pow_pos_nonneg; lia).
  assert (K2 : 2 ^ (k - 51) = 4 * p).
  { replace (k - 51) with (Z.succ (Z.succ (k - 53))) by lia. rewrite !Z.pow_succ_r by lia. unfold p. lia. }
  assert (Kk : 2 ^ k = 2 ^ 53 * p) by (unfold p; rewrite <- Z.pow_add_r by lia; f_equal; lia).
  set (s := 2 * zfloat l + zfloat (u - l)).
  assert (Hs : Z.abs (s - (l + u)) <= 2 * p) by (unfold s; lia).
  assert (K3 : 2 ^ (k + 1 - 53) = 2 * p).
  { replace (k + 1 - 53) with (Z.succ (k - 53)) by lia. rewrite Z.pow_succ_r by lia. reflexivity. }
  assert (Hb : Z.abs (zfloat s) <= 2 ^ (k + 1)) by (apply zfloat_box; [lia|]; rewrite K3; lia).
  assert (E3 : 2 * Z.abs (zfloat s - s) <= 2 ^ (k + 2 - 53)).
  { apply zfloat_err; [lia|]. replace (k + 2) with (Z.succ (k + 1)) by lia. rewrite Z.pow_succ_r by lia.
    assert (2 ^ 53 = 9007199254740992) by reflexivity. nia. }
  replace (k + 2 - 53) with (k - 51) in E3 by lia.
  pose proof (Z.quot_rem' (zfloat s) 2) as D.
  assert (Rm : Z.abs (Z.rem (zfloat s) 2) <= 1) by (pose proof (Z.rem_bound_abs (zfloat s) 2 ltac:(lia)); lia).
  split; [|lia].
  destruct (Z.le_gt_cases 0 (zfloat s)) as [N|N].
  - pose proof (Z.rem_nonneg (zfloat s) 2 ltac:(lia) N). lia.
  - pose proof (Z.rem_nonpos (zfloat s) 2 ltac:(lia) ltac:(lia)). lia.
Qed.

Section AnySize.
Context {B : Type}.
Variable f : B -> Z -> B * res bool.
Variable t : Z.
Hypothesis f_thr : forall o x, snd (f o x) = Ok (t <=? x).
Variable tn : Z.
Variable td : positive.
Hypothesis tol : 2 * tn <= Zpos td.

Lemma narrow_py_no l u : l < u -> narrow_py tn td l u = false.
Proof.
  intros H. unfold narrow_py. apply Z.ltb_ge.
  assert (1 <= zfloat (u - l)).
  { pose proof (zfloat_mono 1 (u - l) ltac:(lia)) as A. change (zfloat 1) with 1 in A. exact A. }
  nia.
Qed.

Lemma bsearch_loop_any maxit k fuel : 53 <= k -> forall niter o l u,
  l < t <= u -> Z.abs l <= 2 ^ k -> Z.abs u <= 2 ^ k ->
  exists o' v, bsearch_loop f (narrow_py tn td) mid_py maxit fuel niter o l u = (o', Ok (v, maxit)) /\
    t <= v <= 2 ^ k /\ 2 ^ Z.of_nat fuel * (v - t - 2 ^ (k - 51)) <= u - l.
Proof.
  intros Hk.
  cut (forall niter o l u, l < t <= u -> Z.abs l <= 2 ^ k -> Z.abs u <= 2 ^ k ->
    exists o' v, bsearch_loop f (narrow_py tn td) mid_py maxit fuel niter o l u = (o', Ok (v, maxit)) /\
    t <= v <= 2 ^ k /\ 2 ^ Z.of_nat fuel * (v - t + 1 - (2 ^ (k - 51) + 1)) <= u - l - (2 ^ (k - 51) + 1)).
  { intros H niter o l u H1 H2 H3. destruct (H niter o l u H1 H2 H3) as (o' & v & E & V & W).
    exists o', v. split; [exact E|]. split; [exact V|].
    assert (0 < 2 ^ (k - 51)) by (apply Z.pow_pos_nonneg; lia).
    replace (v - t - 2 ^ (k - 51)) with (v - t + 1 - (2 ^ (k - 51) + 1)) by lia. lia. }
  set (eps := 2 ^ (k - 51) + 1).
  induction fuel as [|fuel IH]; intros niter o l u Ht Hl Hu; cbn [bsearch_loop].
  - exists o, u. split; [reflexivity|]. split; [lia|]. change (2 ^ Z.of_nat 0) with 1. lia.
  - rewrite narrow_py_no by lia.
    destruct (mid_py_near l u k Hk Hl Hu) as (M1 & M2). fold eps in M2.
    pose proof (f_thr o (mid_py l u)) as Hf. destruct (f o (mid_py l u)) as [o1 r]. cbn [snd] in Hf. subst r.
    assert (Hp : 2 ^ Z.of_nat (S fuel) = 2 * 2 ^ Z.of_nat fuel)
      by (rewrite Nat2Z.inj_succ, Z.pow_succ_r by lia; reflexivity).
    destruct (Z.leb_spec t (mid_py l u)) as [A|A].
    + destruct (IH (niter + 1) o1 l (mid_py l u) ltac:(lia) Hl M1) as (o' & v & E & V & W).
      exists o', v. split; [exact E|]. split; [exact V|]. rewrite Hp. lia.
    + destruct (IH (niter + 1) o1 (mid_py l u) u ltac:(lia) M1 Hu) as (o' & v & E & V & W).
      exists o', v. split; [exact E|]. split; [exact V|]. rewrite Hp. lia.
Qed.

Lemma bsearch_any maxit k o l u : 53 <= k -> l < t <= u -> Z.abs l <= 2 ^ k -> Z.abs u <= 2 ^ k ->
  exists o' v, bsearch f (narrow_py tn td) mid_py maxit o l u = (o', Ok (v, maxit)) /\
    t <= v <= 2 ^ k /\ 2 ^ Z.of_nat (Z.to_nat maxit) * (v - t - 2 ^ (k - 51)) <= u - l.
Proof. intros Hk. apply bsearch_loop_any. exact Hk. Qed.
End AnySize.

(** ** What goes wrong above 2^53 *)
Lemma stuck_loop tn td maxit fuel : 2 * tn <= Zpos td -> forall niter o,
  bsearch_loop (fun (o : nat) x => (S o, Ok (2 ^ 53 + 1 <=? x))) (narrow_py tn td) mid_py maxit fuel niter o
    (2 ^ 53) (2 ^ 53 + 2) = ((fuel + o)%nat, Ok (2 ^ 53 + 2, maxit)).
Proof.
  intros Ht. induction fuel as [|fuel IH]; intros niter o; cbn [bsearch_loop]; [reflexivity|].
  rewrite narrow_py_no by (assumption || lia).
  change (mid_py (2 ^ 53) (2 ^ 53 + 2)) with (2 ^ 53).
  change (2 ^ 53 + 1 <=? 2 ^ 53) with false. cbv iota. rewrite IH. f_equal. lia.
Qed.

Lemma big_stuck :
  exists l u t : Z, l < t < u /\
  forall tn td maxit, 2 * tn <= Zpos td ->
  bsearch (fun (o : nat) x => (S o, Ok (t <=? x))) (narrow_py tn td) mid_py maxit O l u =
  (Z.to_nat maxit, Ok (u, maxit)).
Proof.
  exists (2 ^ 53), (2 ^ 53 + 2), (2 ^ 53 + 1). split; [lia|]. intros tn td maxit Ht.
  unfold bsearch. rewrite stuck_loop by exact Ht. rewrite Nat.add_0_r. reflexivity.
Qed.

Lemma big_outside :
  exists l u t : Z, l < t <= u /\
  exists o v, bsearch (fun (o : nat) x => (S o, Ok (t <=? x))) (narrow_py 1 10 ) mid_py 1 O l u = (o, Ok (v, 1)) /\ u < v.
Proof.
  exists (2 ^ 54 + 6), (2 ^ 54 + 7), (2 ^ 54 + 7). split; [lia|].
  exists 1%nat, (2 ^ 54 + 8). split; [vm_compute; reflexivity|lia].
Qed.

(** no intermediate value leaves the range of doubles *)
Lemma mid_py_range l u : Z.abs l <= 2 ^ 1022 -> Z.abs u <= 2 ^ 1022 ->
  Z.abs (zfloat l) <= 2 ^ 1022 /\ Z.abs (zfloat (u - l)) <= 2 ^ 1023 /\
  Z.abs (zfloat (2 * zfloat l + zfloat (u - l))) <= 2 ^ 1023.
Proof.
  set (k := 1022). intros Hl Hu.
  assert (Hk : 53 <= k) by (unfold k; lia).
  assert (K1 : 2 ^ 1023 = 2 * 2 ^ k) by (unfold k; rewrite <- Z.pow_succ_r by lia; reflexivity).
  assert (P : 0 < 2 ^ (k - 53)) by (apply Z.pow_pos_nonneg; lia).
  split; [apply zfloat_box; lia|].
  change 1023 with (k + 1) in *. clearbody k.
  pose proof (zfloat_err l k Hk Hl) as E1.
  pose proof (zfloat_err (u - l) (k + 1) ltac:(lia) ltac:(lia)) as E2.
  assert (K3 : 2 ^ (k + 1 - 53) = 2 * 2 ^ (k - 53)).
  { replace (k + 1 - 53) with (Z.succ (k - 53)) by lia. rewrite Z.pow_succ_r by lia. reflexivity. }
  split; (apply zfloat_box; [lia|]); rewrite ?K3 in *; lia.
Qed.

Lemma abs_bp z k : 0 <= k -> Z.abs z <= 2 ^ k -> (Rabs (IZR z) <= bpow radix2 k)%R.
Proof. intros Hk H. rewrite <- abs_IZR, <- IZR_Zpower by exact Hk. apply IZR_le. exact H. Qed.

Lemma py_doubles : forall l u,
  let rnd := round radix2 (FLT_exp (-1074) 53) ZnearestE in
  mid_py l u = Ztrunc (rnd (rnd (IZR l) + rnd (IZR (u - l) / 2))%R) /\
  (forall tn td, narrow_py tn td l u = true <-> (rnd (IZR (u - l) / 2) < IZR tn / IZR (Zpos td))%R) /\
  (Z.abs l <= 2 ^ 1022 -> Z.abs u <= 2 ^ 1022 ->
   (Rabs (rnd (IZR l)) <= bpow radix2 1022)%R /\
   (Rabs (rnd (IZR (u - l) / 2)) <= bpow radix2 1022)%R /\
   (Rabs (rnd (rnd (IZR l) + rnd (IZR (u - l) / 2))) <= bpow radix2 1022)%R).
Proof.
  intros l u rnd. split; [exact (mid_py_double l u)|]. split; [intros tn td; exact (narrow_py_double tn td l u)|].
  intros Hl Hu. destruct (mid_py_range l u Hl Hu) as (A1 & A2 & A3).
  change rnd with r53.
  assert (E : (r53 (IZR l) + r53 (IZR (u - l) / 2) = IZR (2 * zfloat l + zfloat (u - l)) / 2)%R).
  { rewrite r53_half, <- !zfloat_round, plus_IZR, mult_IZR. field. }
  rewrite E, !r53_half, <- !zfloat_round.
  assert (H2 : forall z, Z.abs z <= 2 ^ 1023 -> (Rabs (IZR z / 2) <= bpow radix2 1022)%R).
  { intros z Hz. unfold Rdiv. rewrite Rabs_mult, (Rabs_pos_eq (/ 2)) by lra.
    pose proof (abs_bp z 1023 ltac:(lia) Hz) as B.
    replace 1023 with (1022 + 1) in B by lia. rewrite bpow_plus in B. change (bpow radix2 1) with 2%R in B. lra. }
  split; [apply abs_bp; [lia|exact A1]|]. split; apply H2; assumption.
Qed.
