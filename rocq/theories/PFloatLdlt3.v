(** A symmetric matrix that is close, entry by entry, to [L D L^T] is close to
    it as a quadratic form: the real algebra behind the analysis of
    [LDLTMgr.factor] in doubles. *)
From Coq Require Import Reals List Arith Lia Lra Psatz Bool.
From Verif Require Import Spec SpecStable PSum PStable PLdlt2.
Local Open Scope R_scope.

Lemma sumn_abs n f : Rabs (sumn n f) <= sumn n (fun k => Rabs (f k)).
Proof.
  induction n as [|n IH]; cbn [sumn]; [rewrite Rabs_R0; lra|].
  eapply Rle_trans; [apply Rabs_triang|]. lra.
Qed.

Lemma sumn_sqr n f : sumn n f * sumn n f <= INR n * sumn n (fun i => f i * f i).
Proof.
  pose proof (cauchy_schwarz n (fun _ => 1) f) as H. unfold dot in H.
  rewrite (sumn_ext n (fun i => 1 * f i) f) in H by (intros; ring).
  rewrite (sumn_ext n (fun _ => 1 * 1) (fun _ => 1)) in H by (intros; ring).
  rewrite sumn_const in H. rewrite Rmult_1_r in H. exact H.
Qed.

Lemma quad_ldl N (l : nat -> nat -> R) D v :
  sumn N (fun i => sumn N (fun j => sumn N (fun k => D k * lowf l i k * lowf l j k) * (v i * v j))) =
  sumn N (fun k => D k * (tL N l v k * tL N l v k)).
Proof.
  transitivity (sumn N (fun i => sumn N (fun j => sumn N (fun k => D k * ((lowf l i k * v i) * (lowf l j k * v j)))))).
  - apply sumn_ext. intros i Hi. apply sumn_ext. intros j Hj.
    rewrite <- sumn_scal_r. apply sumn_ext. intros. ring.
  - rewrite (sumn_ext N _ (fun i => sumn N (fun k => sumn N (fun j => D k * ((lowf l i k * v i) * (lowf l j k * v j))))))
      by (intros; apply sumn_swap).
    rewrite sumn_swap. apply sumn_ext. intros k Hk. unfold tL.
    rewrite <- sumn_scal_r, <- sumn_scal. apply sumn_ext. intros i Hi.
    rewrite <- !sumn_scal. reflexivity.
Qed.

(** the same sum, for any rectangular array *)
Lemma quad_cong N (p : nat -> nat -> R) w v :
  sumn N (fun i => sumn N (fun j => sumn N (fun k => p i k * w k * p j k) * (v i * v j))) =
  sumn N (fun k => w k * (sumn N (fun i => p i k * v i) * sumn N (fun i => p i k * v i))).
Proof.
  transitivity (sumn N (fun i => sumn N (fun j => sumn N (fun k => w k * ((p i k * v i) * (p j k * v j)))))).
  - apply sumn_ext. intros i Hi. apply sumn_ext. intros j Hj.
    rewrite <- sumn_scal_r. apply sumn_ext. intros. ring.
  - rewrite (sumn_ext N _ (fun i => sumn N (fun k => sumn N (fun j => w k * ((p i k * v i) * (p j k * v j))))))
      by (intros; apply sumn_swap).
    rewrite sumn_swap. apply sumn_ext. intros k Hk.
    rewrite <- sumn_scal_r, <- sumn_scal. apply sumn_ext. intros i Hi.
    rewrite <- !sumn_scal. reflexivity.
Qed.

Section Near.
Variables (N : nat) (A l : nat -> nat -> R) (D w z : nat -> R) (kp lam e0 rel : R).
Let p (i k : nat) : R := Rabs (lowf l i k) + lam.
Let St (i : nat) : R := sumn N (fun k => w k * (p i k * p i k)).
Let T (i : nat) : R := sumn N (fun k => w k * (lowf l i k * lowf l i k)).
Let W : R := sumn N w.
Hypothesis Hsym : symmetric N A.
Hypothesis Hw : forall k, (k < N)%nat -> 0 <= w k.
Hypothesis Hk : 0 <= kp <= / 8.
Hypothesis Hl : 0 <= lam <= / 8.
Hypothesis He : 0 <= e0.
Hypothesis HE : forall i c, (c <= i < N)%nat ->
  Rabs (A i c - sumn N (fun k => D k * lowf l i k * lowf l c k)) <= kp * sumn N (fun k => p i k * w k * p c k) + e0.
Hypothesis Hz : forall i, (i < N)%nat -> z i <= 0 /\ (w i = 0 \/ z i = 0) /\
  sumn N (fun k => D k * lowf l i k * lowf l i k) = T i + z i.
Hypothesis Hrel : INR N * kp * (1 + lam) <= rel * (1 - kp * (1 + lam)).
Hypothesis Hsmall : INR N * lam <= / 8.
Hypothesis Hrel1 : rel <= 1.

Lemma near_quad v : Rabs (quad N A v - sumn N (fun k => D k * (tL N l v k * tL N l v k))) <=
  INR N * kp * sumn N (fun i => St i * (v i * v i)) + INR N * e0 * dot N v v.
Proof.
  assert (HE' : forall i j, (i < N)%nat -> (j < N)%nat ->
    Rabs (A i j - sumn N (fun k => D k * lowf l i k * lowf l j k)) <= kp * sumn N (fun k => p i k * w k * p j k) + e0).
  { intros i j Hi Hj. destruct (le_lt_dec j i) as [H|H]; [apply HE; lia|].
    rewrite Hsym by assumption. specialize (HE j i ltac:(lia)).
    rewrite (sumn_ext N (fun k => D k * lowf l i k * lowf l j k) (fun k => D k * lowf l j k * lowf l i k)) by (intros; ring).
    rewrite (sumn_ext N (fun k => p i k * w k * p j k) (fun k => p j k * w k * p i k)) by (intros; ring). exact HE. }
  rewrite <- quad_ldl. unfold quad. rewrite bil_sum.
  rewrite <- sumn_minus. eapply Rle_trans; [apply sumn_abs|].
  apply Rle_trans with (sumn N (fun i => sumn N (fun j =>
     kp * (sumn N (fun k => p i k * w k * p j k) * (Rabs (v i) * Rabs (v j))) + e0 * (Rabs (v i) * Rabs (v j))))).
  { apply sumn_le. intros i Hi. rewrite <- sumn_minus. eapply Rle_trans; [apply sumn_abs|].
    apply sumn_le. intros j Hj. specialize (HE' i j Hi Hj).
    set (E := sumn N (fun k => D k * lowf l i k * lowf l j k)) in *.
    set (Q := sumn N (fun k => p i k * w k * p j k)) in *.
    match goal with |- Rabs ?t <= _ => replace t with ((A i j - E) * (v i * v j)) by ring end.
    rewrite !Rabs_mult. pose proof (Rabs_pos (v i)) as P1. pose proof (Rabs_pos (v j)) as P2.
    apply Rle_trans with ((kp * Q + e0) * (Rabs (v i) * Rabs (v j))); [|lra].
    apply Rmult_le_compat_r; [apply Rmult_le_pos; assumption|exact HE']. }
  rewrite (sumn_ext N _ (fun i => kp * sumn N (fun j => sumn N (fun k => p i k * w k * p j k) * (Rabs (v i) * Rabs (v j))) +
     e0 * (sumn N (fun j => Rabs (v j)) * Rabs (v i)))).
  2:{ intros i Hi. rewrite sumn_plus, !sumn_scal. ring. }
  rewrite sumn_plus, !sumn_scal, (quad_cong N p w (fun i => Rabs (v i))). apply Rplus_le_compat.
  - replace (INR N * kp * sumn N (fun i => St i * (v i * v i))) with (kp * (INR N * sumn N (fun i => St i * (v i * v i)))) by ring.
    apply Rmult_le_compat_l; [lra|].
    apply Rle_trans with (sumn N (fun k => w k * (INR N * sumn N (fun i => (p i k * Rabs (v i)) * (p i k * Rabs (v i)))))).
    + apply sumn_le. intros k Hk'. apply Rmult_le_compat_l; [apply Hw, Hk'|apply sumn_sqr].
    + right. rewrite <- sumn_scal. unfold St.
      transitivity (sumn N (fun k => sumn N (fun i => INR N * (w k * (p i k * p i k) * (v i * v i))))).
      * apply sumn_ext. intros k Hk'. rewrite <- !sumn_scal. apply sumn_ext. intros i Hi.
        replace (p i k * Rabs (v i) * (p i k * Rabs (v i))) with (p i k * p i k * (Rabs (v i) * Rabs (v i))) by ring.
        rewrite <- Rabs_mult, (Rabs_pos_eq (v i * v i)) by apply Rle_0_sqr. ring.
      * rewrite sumn_swap. apply sumn_ext. intros i Hi. rewrite <- sumn_scal_r, <- sumn_scal. reflexivity.
  - replace (INR N * e0 * dot N v v) with (e0 * (INR N * dot N v v)) by ring.
    apply Rmult_le_compat_l; [lra|]. eapply Rle_trans; [apply sumn_sqr|]. right. f_equal.
    unfold dot. apply sumn_ext. intros i Hi. rewrite <- Rabs_mult. apply Rabs_pos_eq, Rle_0_sqr.
Qed.

Lemma T_ge i : (i < N)%nat -> 0 <= T i /\ w i <= T i.
Proof.
  intros Hi. assert (G : forall k, (k < N)%nat -> 0 <= w k * (lowf l i k * lowf l i k))
    by (intros k Hk'; apply Rmult_le_pos; [apply Hw, Hk'|apply Rle_0_sqr]).
  split; [apply sumn_ge_0, G|].
  destruct (sumn_term_le N _ G) as [_ H]. specialize (H i Hi). cbv beta in H. rewrite lowf_eq in H. unfold T. lra.
Qed.

Lemma St_le i : (i < N)%nat -> St i <= (1 + lam) * T i + 2 * lam * W.
Proof.
  intros Hi. unfold St, T, W. rewrite <- !sumn_scal, <- sumn_plus. apply sumn_le. intros k Hk'.
  specialize (Hw k Hk'). unfold p. set (x := lowf l i k).
  assert (Ex : x * x = Rabs x * Rabs x) by (rewrite <- Rabs_mult; symmetry; apply Rabs_pos_eq, Rle_0_sqr).
  rewrite Ex. set (y := Rabs x). replace ((1 + lam) * (w k * (y * y)) + 2 * lam * w k) with (w k * ((1 + lam) * (y * y) + 2 * lam)) by ring.
  apply Rmult_le_compat_l; [exact Hw|]. pose proof (Rle_0_sqr (y - 1)) as Q. unfold Rsqr in Q. nra.
Qed.

Lemma W_ge : 0 <= W.
Proof. apply sumn_ge_0, Hw. Qed.

Lemma diag_le i : (i < N)%nat -> Rabs (A i i - (T i + z i)) <= kp * St i + e0.
Proof.
  intros Hi. destruct (Hz i Hi) as (_ & _ & Ez). rewrite <- Ez.
  eapply Rle_trans; [apply HE; lia|]. apply Rplus_le_compat_r. apply Rmult_le_compat_l; [lra|]. right. unfold St.
  apply sumn_ext. intros. ring.
Qed.

Lemma T_le i : (i < N)%nat -> T i * (1 - kp * (1 + lam)) <= A i i - z i + 2 * kp * lam * W + e0.
Proof.
  intros Hi. pose proof (diag_le i Hi) as H. pose proof (St_le i Hi) as H1.
  assert (H0 := Rle_abs (- (A i i - (T i + z i)))). rewrite Rabs_Ropp in H0. assert (kp * St i <= kp * ((1 + lam) * T i + 2 * lam * W)) by (apply Rmult_le_compat_l; lra). lra.
Qed.

Let trA : R := sumn N (fun i => Rabs (A i i)).

Lemma W_le : W <= 2 * (trA + INR N * e0).
Proof.
  assert (G : W * (1 - kp * (1 + lam)) <= trA + INR N * (2 * kp * lam * W + e0)).
  { unfold W at 1. rewrite <- sumn_scal_r. unfold trA. rewrite <- sumn_const, <- sumn_plus. apply sumn_le. intros i Hi.
    destruct (Hz i Hi) as (_ & [E|E] & _).
    - rewrite E. pose proof (Rabs_pos (A i i)). pose proof W_ge. assert (0 <= kp * lam * W) by (repeat apply Rmult_le_pos; lra). lra.
    - pose proof (T_le i Hi) as H. rewrite E in H. pose proof (Rle_abs (A i i)). destruct (T_ge i Hi) as [_ HT].
      assert (w i * (1 - kp * (1 + lam)) <= T i * (1 - kp * (1 + lam))) by (apply Rmult_le_compat_r; nra). lra. }
  pose proof W_ge as HW.
  assert (K1 : INR N * (2 * kp * lam * W) <= / 32 * W).
  { replace (INR N * (2 * kp * lam * W)) with ((2 * kp) * (INR N * lam) * W) by ring. apply Rmult_le_compat_r; [exact HW|].
    pose proof (pos_INR N). apply Rle_trans with (2 * / 8 * (/ 8)); [|lra]. apply Rmult_le_compat; try lra. apply Rmult_le_pos; lra. }
  assert (K2 : W * (kp * (1 + lam)) <= W * (/ 4)) by (apply Rmult_le_compat_l; nra).
  lra.
Qed.

Definition near_abs : R := INR N * e0 + rel * e0 + (2 * rel + 2 * INR N) * (kp * lam) * (2 * (trA + INR N * e0)).

(** the two forms agree up to a small multiple of the diagonal *)
Lemma near_form v : Rabs (quad N A v - sumn N (fun k => D k * (tL N l v k * tL N l v k))) <=
  rel * sumn N (fun i => (A i i - z i) * (v i * v i)) + near_abs * dot N v v.
Proof.
  eapply Rle_trans; [apply near_quad|].
  assert (HSt : forall i, (i < N)%nat -> INR N * kp * St i <= rel * (A i i - z i) + rel * e0 + (2 * rel + 2 * INR N) * (kp * lam) * W).
  { intros i Hi. pose proof (St_le i Hi) as H1. pose proof (T_le i Hi) as H2. destruct (T_ge i Hi) as [H3 _]. pose proof W_ge as HW.
    pose proof (pos_INR N) as HN.
    assert (Q : INR N * kp * St i <= INR N * kp * ((1 + lam) * T i + 2 * lam * W)) by (apply Rmult_le_compat_l; [apply Rmult_le_pos; lra|exact H1]).
    assert (Hden : 0 < 1 - kp * (1 + lam)) by nra.
    assert (Hrelp : 0 <= rel).
    { destruct (Rle_dec 0 rel) as [|Hn]; [assumption|exfalso]. assert (0 <= INR N * kp * (1 + lam)) by (repeat apply Rmult_le_pos; lra). nra. }
    assert (Q2 : INR N * kp * (1 + lam) * T i <= rel * (1 - kp * (1 + lam)) * T i) by (apply Rmult_le_compat_r; assumption).
    assert (Q3 : rel * (T i * (1 - kp * (1 + lam))) <= rel * (A i i - z i + 2 * kp * lam * W + e0)) by (apply Rmult_le_compat_l; assumption).
    nra. }
  assert (Hrelp : N = 0%nat \/ 0 <= rel).
  { destruct (Nat.eq_dec N 0) as [|Hne]; [left; assumption|right].
    destruct (Rle_dec 0 rel) as [|Hn]; [assumption|exfalso]. pose proof (pos_INR N).
    assert (0 <= INR N * kp * (1 + lam)) by (repeat apply Rmult_le_pos; lra).
    assert (Hden : 0 < 1 - kp * (1 + lam)) by nra. nra. }
  destruct Hrelp as [HN0|Hrelp].
  { unfold dot, near_abs. rewrite HN0. cbn [sumn]. lra. }
  apply Rle_trans with (sumn N (fun i => (rel * (A i i - z i) + rel * e0 + (2 * rel + 2 * INR N) * (kp * lam) * W + INR N * e0) * (v i * v i))).
  - rewrite <- sumn_scal. unfold dot. rewrite <- sumn_scal, <- sumn_plus. apply sumn_le. intros i Hi.
    specialize (HSt i Hi). pose proof (Rle_0_sqr (v i)) as Q. unfold Rsqr in Q.
    assert (INR N * kp * St i * (v i * v i) <= (rel * (A i i - z i) + rel * e0 + (2 * rel + 2 * INR N) * (kp * lam) * W) * (v i * v i)) by (apply Rmult_le_compat_r; assumption).
    lra.
  - rewrite (sumn_ext N _ (fun i => rel * ((A i i - z i) * (v i * v i)) + (rel * e0 + (2 * rel + 2 * INR N) * (kp * lam) * W + INR N * e0) * (v i * v i))) by (intros; ring).
    rewrite sumn_plus, !sumn_scal. apply Rplus_le_compat_l. apply Rmult_le_compat_r; [apply dot_self_ge_0|].
    unfold near_abs. pose proof W_le. pose proof (pos_INR N).
    assert ((2 * rel + 2 * INR N) * (kp * lam) * W <= (2 * rel + 2 * INR N) * (kp * lam) * (2 * (trA + INR N * e0))).
    { apply Rmult_le_compat_l; [|assumption]. repeat apply Rmult_le_pos; lra. }
    lra.
Qed.
End Near.
