(** [bsearch] on integers, any tolerance. *)
From Coq Require Import List Arith ZArith Bool Lia Reals Lra.
From Verif Require Import Arith ModelCalc ModelCut SpecDrivers PDrivers PDrivers2.
Import ListNotations.

Section BSIntTol.
Open Scope Z_scope.
Context {B : Type}.
Variable f : B -> Z -> B * res bool.
Variable t : Z.
Hypothesis f_thr : forall o x, snd (f o x) = Ok (t <=? x).
Variable tn : Z.
Variable td : positive.

Lemma bs_int_width (l : list (Z * res bool)) lo up : lo < t <= up ->
  bs_queries_ok (narrow_int tn td) mid_int l lo up ->
  Forall (fun q => snd q = Ok (t <=? fst q)) l ->
  lo_end l lo < t <= up_end l up /\ up_end l up <= up /\
  2 ^ Z.of_nat (length l) * (up_end l up - lo_end l lo - 1) <= up - lo - 1.
Proof.
  intros H. induction l as [|[x r] l IH]; intros Hq Ha.
  - cbn [lo_end up_end length]. change (2 ^ Z.of_nat 0) with 1. lia.
  - destruct Hq as (Hx & _ & Hq). inversion Ha as [|? ? E Ha']; subst. cbn [fst snd] in E.
    destruct (IH Hq Ha') as (I1 & I2 & I3).
    set (lo' := lo_end l lo) in *. set (up' := up_end l up) in *.
    pose proof (mid_int_bounds td lo' up' ltac:(lia)) as Hm. rewrite E.
    assert (Hp : 2 ^ Z.of_nat (length ((mid_int lo' up', Ok (t <=? mid_int lo' up')) :: l)) = 2 * 2 ^ Z.of_nat (length l)).
    { cbn [length]. rewrite Nat2Z.inj_succ, Z.pow_succ_r by lia. reflexivity. }
    assert (0 < 2 ^ Z.of_nat (length l)) by (apply Z.pow_pos_nonneg; lia).
    rewrite Hp. destruct (Z.leb_spec t (mid_int lo' up')); cbn [lo_end up_end]; fold lo' up'.
    + split; [lia|]. split; [lia|]. nia.
    + split; [lia|]. split; [lia|]. nia.
Qed.

Lemma bsearch_int_tol maxit o lower upper o' v k : lower < t <= upper -> 0 <= maxit ->
  bsearch f (narrow_int tn td) mid_int maxit o lower upper = (o', Ok (v, k)) ->
  t <= v <= upper /\
  (k < maxit -> (v - t + 1) * Zpos td < 2 * tn) /\
  (forall j : nat, Z.of_nat j < maxit ->
     (upper - lower - 1 + 2 ^ Z.of_nat j) * Zpos td < 2 * tn * 2 ^ Z.of_nat j -> k <= Z.of_nat j).
Proof.
  intros Ht Hmax H.
  destruct (bsearch_run_spec _ _ _ _ _ _ _ _ _ H) as (l & Hl & Hlen & Hq & Hv & Ha & Hk).
  pose proof (bsearch_loop_answers _ _ _ _ _ _ _ _ _ _ _ _ _ Hl (Forall_nil _)) as Hans.
  assert (Hth : Forall (fun q => snd q = Ok (t <=? fst q)) l).
  { eapply Forall_impl; [|exact Hans]. intros q (o1 & o2 & Hf). pose proof (f_thr o1 (fst q)) as E.
    rewrite Hf in E. exact E. }
  destruct (bs_int_width l lower upper Ht Hq Hth) as (W1 & W2 & _). rewrite <- Hv in W1, W2.
  split; [lia|]. split.
  - intros Hkm. destruct Hk as [(Hk1 & Hn & _)|(Hk1 & _)]; [|lia].
    unfold narrow_int in Hn. apply Z.ltb_lt in Hn. pose proof (Pos2Z.is_pos td). nia.
  - intros j Hj Hs. destruct (Z_le_gt_dec k (Z.of_nat j)) as [|Hgt]; [assumption|exfalso].
    assert (Hlj : (j < length l)%nat).
    { destruct Hk as [(Hk1 & _ & _)|(Hk1 & Hk2)]; [lia|]. rewrite Hk2. lia. }
    clear - Ht Hq Hth Hs Hlj.
    induction l as [|[x r] l IH]; cbn [length] in Hlj; [lia|].
    inversion Hth as [|? ? E Hth']; subst. destruct Hq as (_ & Hn & Hq).
    destruct (Nat.eq_dec j (length l)) as [->|Hne]; [|apply IH; auto; lia].
    destruct (bs_int_width l lower upper Ht Hq Hth') as (W1 & W2 & W3).
    unfold narrow_int in Hn. apply Z.ltb_ge in Hn.
    assert (0 < 2 ^ Z.of_nat (length l)) by (apply Z.pow_pos_nonneg; lia). pose proof (Pos2Z.is_pos td).
    set (P := 2 ^ Z.of_nat (length l)) in *. set (w := up_end l upper - lo_end l lower) in *.
    assert (P * (w * Zpos td) >= P * (2 * tn)) by nia.
    assert (P * w * Zpos td <= (upper - lower - 1 + P) * Zpos td) by (apply Z.mul_le_mono_nonneg_r; lia).
    nia.
Qed.
End BSIntTol.

(** the two integer formulas, read over the reals *)
Lemma narrow_int_R tn td l u :
  narrow_int tn td l u = true <-> ((IZR u - IZR l) / 2 < IZR tn / IZR (Zpos td))%R.
Proof.
  unfold narrow_int. rewrite Z.ltb_lt.
  assert (Hd : (0 < IZR (Zpos td))%R) by (apply IZR_lt; reflexivity).
  assert (E : ((IZR u - IZR l) / 2 * (2 * IZR (Zpos td)) = IZR ((u - l) * Zpos td))%R)
    by (rewrite mult_IZR, minus_IZR; field).
  assert (E2 : (IZR tn / IZR (Zpos td) * (2 * IZR (Zpos td)) = IZR (2 * tn))%R) by (rewrite mult_IZR; field; lra).
  split; intros H.
  - apply Rmult_lt_reg_r with (2 * IZR (Zpos td))%R; [lra|]. rewrite E, E2. apply IZR_lt. lia.
  - apply lt_IZR. rewrite <- E, <- E2. apply Rmult_lt_compat_r; lra.
Qed.

Lemma mid_int_R l u :
  let x := (IZR l + (IZR u - IZR l) / 2)%R in
  ((0 <= x)%R -> (0 <= IZR (mid_int l u))%R /\ (IZR (mid_int l u) <= x < IZR (mid_int l u) + 1)%R) /\
  ((x < 0)%R -> (IZR (mid_int l u) <= 0)%R /\ (IZR (mid_int l u) - 1 < x <= IZR (mid_int l u))%R).
Proof.
  intros x. assert (Ex : (2 * x = IZR (l + u))%R) by (unfold x; rewrite plus_IZR; field).
  unfold mid_int. pose proof (Z.quot_rem' (l + u) 2) as Hq.
  set (m := Z.quot (l + u) 2) in *. set (r := Z.rem (l + u) 2) in *.
  assert (Er : (2 * x = 2 * IZR m + IZR r)%R) by (rewrite Ex, Hq, plus_IZR, mult_IZR; ring).
  assert (Hab : (Z.abs r < Z.abs 2)%Z) by (apply Z.rem_bound_abs; lia).
  split; intros H.
  - assert (0 <= l + u)%Z by (apply le_IZR; lra).
    assert (0 <= r)%Z by (apply Z.rem_nonneg; lia).
    assert (0 <= m)%Z by (apply Z.quot_pos; lia).
    assert (r <= 1)%Z by lia.
    assert (0 <= IZR m)%R by (apply IZR_le; assumption). assert (0 <= IZR r <= 1)%R by (split; apply IZR_le; assumption). lra.
  - assert (l + u < 0)%Z by (apply lt_IZR; lra).
    assert (r <= 0)%Z by (apply Z.rem_nonpos; lia).
    assert (m <= 0)%Z by lia.
    assert (-1 <= r)%Z by lia.
    assert (IZR m <= 0)%R by (apply IZR_le; assumption). assert (-1 <= IZR r <= 0)%R by (split; apply IZR_le; assumption). lra.
Qed.

Lemma bs_int_formulas (tn : Z) (td : positive) l u :
  (narrow_int tn td l u = true <-> ((IZR u - IZR l) / 2 < IZR tn / IZR (Zpos td))%R) /\
  (let x := (IZR l + (IZR u - IZR l) / 2)%R in
   ((0 <= x)%R -> (0 <= IZR (mid_int l u))%R /\ (IZR (mid_int l u) <= x < IZR (mid_int l u) + 1)%R) /\
   ((x < 0)%R -> (IZR (mid_int l u) <= 0)%R /\ (IZR (mid_int l u) - 1 < x <= IZR (mid_int l u))%R)).
Proof. split; [apply narrow_int_R|apply mid_int_R]. Qed.
