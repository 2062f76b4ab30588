(** Finite trigonometric sums. *)
From Coq Require Import Reals List Arith Lia Lra Psatz.
From Verif Require Import Spec PSum.
Local Open Scope R_scope.

(** [2 pi k t / m] *)
Definition ang (m k t : nat) : R := 2 * PI * INR (k * t) / INR m.

Lemma ang_comm m k t : ang m k t = ang m t k.
Proof. unfold ang. rewrite Nat.mul_comm. reflexivity. Qed.
Lemma ang_0 m t : ang m 0 t = 0.
Proof. unfold ang. cbn [Nat.mul INR]. unfold Rdiv. ring. Qed.
Lemma ang_refl m k t : (0 < m)%nat -> (k <= m)%nat -> ang m (m - k) t = 2 * INR t * PI - ang m k t.
Proof.
  intros Hm Hk. unfold ang. rewrite !mult_INR, minus_INR by exact Hk. field. apply not_0_INR. lia.
Qed.
Lemma cos_2kPI k : cos (2 * INR k * PI) = 1.
Proof. rewrite <- (Rplus_0_l (2 * INR k * PI)), cos_period. apply cos_0. Qed.
Lemma sin_2kPI k : sin (2 * INR k * PI) = 0.
Proof. rewrite <- (Rplus_0_l (2 * INR k * PI)), sin_period. apply sin_0. Qed.
Lemma cos_refl x k : cos (2 * INR k * PI - x) = cos x.
Proof. rewrite cos_minus, cos_2kPI, sin_2kPI. ring. Qed.
Lemma sin_refl x k : sin (2 * INR k * PI - x) = - sin x.
Proof. rewrite sin_minus, cos_2kPI, sin_2kPI. ring. Qed.
Lemma cos_ang_refl m k t : (0 < m)%nat -> (k <= m)%nat -> cos (ang m (m - k) t) = cos (ang m k t).
Proof. intros. rewrite ang_refl by assumption. apply cos_refl. Qed.
Lemma sin_ang_refl m k t : (0 < m)%nat -> (k <= m)%nat -> sin (ang m (m - k) t) = - sin (ang m k t).
Proof. intros. rewrite ang_refl by assumption. apply sin_refl. Qed.

Lemma tele_cos m th : 2 * sin (th / 2) * sumn m (fun k => cos (INR k * th)) = sin (INR m * th - th / 2) + sin (th / 2).
Proof.
  induction m as [|m IH]; cbn [sumn].
  - cbn [INR]. replace (0 * th - th / 2) with (- (th / 2)) by field. rewrite sin_neg. ring.
  - rewrite Rmult_plus_distr_l, IH, S_INR.
    replace ((INR m + 1) * th - th / 2) with (INR m * th + th / 2) by field.
    rewrite sin_minus, sin_plus. ring.
Qed.
Lemma tele_sin m th : 2 * sin (th / 2) * sumn m (fun k => sin (INR k * th)) = cos (th / 2) - cos (INR m * th - th / 2).
Proof.
  induction m as [|m IH]; cbn [sumn].
  - cbn [INR]. replace (0 * th - th / 2) with (- (th / 2)) by field. rewrite cos_neg. ring.
  - rewrite Rmult_plus_distr_l, IH, S_INR.
    replace ((INR m + 1) * th - th / 2) with (INR m * th + th / 2) by field.
    rewrite cos_minus, cos_plus. ring.
Qed.

Section Sums.
Variable m : nat.
Hypothesis Hm : (0 < m)%nat.

Lemma half_sin d : (0 < d < m)%nat -> sin (ang m d 1 / 2) <> 0.
Proof.
  intros Hd. assert (0 < sin (ang m d 1 / 2)); [|lra].
  assert (0 < INR m) by (apply lt_0_INR; lia). assert (0 < INR d) by (apply lt_0_INR; lia). assert (INR d < INR m) by (apply lt_INR; lia).
  pose proof PI_RGT_0.
  unfold ang. rewrite Nat.mul_1_r. replace (2 * PI * INR d / INR m / 2) with (PI * (INR d / INR m)) by (field; lra).
  assert (0 < INR d / INR m) by (apply Rdiv_lt_0_compat; lra).
  assert (INR d / INR m < 1) by (apply (Rmult_lt_reg_r (INR m)); [lra|]; unfold Rdiv; rewrite Rmult_assoc, Rinv_l by lra; lra).
  apply sin_gt_0; nra.
Qed.
Lemma ang_mul k d : ang m k d = INR k * ang m d 1.
Proof. unfold ang. rewrite Nat.mul_1_r, mult_INR. field. apply not_0_INR. lia. Qed.
Lemma ang_full d : INR m * ang m d 1 = 2 * INR d * PI.
Proof. unfold ang. rewrite Nat.mul_1_r. field. apply not_0_INR. lia. Qed.

Lemma sum_cos d : (0 < d < m)%nat -> sumn m (fun k => cos (ang m k d)) = 0.
Proof.
  intros Hd. rewrite (sumn_ext m _ (fun k => cos (INR k * ang m d 1))) by (intros; rewrite ang_mul; reflexivity).
  pose proof (tele_cos m (ang m d 1)) as T. rewrite ang_full, sin_refl in T. pose proof (half_sin d Hd).
  apply Rmult_eq_reg_l with (2 * sin (ang m d 1 / 2)); [|lra]. rewrite T. ring.
Qed.
Lemma sum_sin d : (d < m)%nat -> sumn m (fun k => sin (ang m k d)) = 0.
Proof.
  intros Hd. destruct (Nat.eq_dec d 0) as [->|N].
  - apply sumn_0. intros. rewrite ang_comm, ang_0. apply sin_0.
  - rewrite (sumn_ext m _ (fun k => sin (INR k * ang m d 1))) by (intros; rewrite ang_mul; reflexivity).
    pose proof (tele_sin m (ang m d 1)) as T. rewrite ang_full, cos_refl in T. assert (H : (0 < d < m)%nat) by lia. pose proof (half_sin d H).
    apply Rmult_eq_reg_l with (2 * sin (ang m d 1 / 2)); [|lra]. rewrite T. ring.
Qed.

Lemma ang_diff k s t : (s <= t)%nat -> ang m k t - ang m k s = ang m k (t - s).
Proof. intros H. unfold ang. rewrite !mult_INR, minus_INR by exact H. field. apply not_0_INR. lia. Qed.

Definition delta (s t : nat) : R := if Nat.eqb s t then 1 else 0.
Lemma orth_cos s t : (s < m)%nat -> (t < m)%nat -> sumn m (fun k => cos (ang m k t - ang m k s)) = INR m * delta s t.
Proof.
  intros Hs Ht. unfold delta. destruct (Nat.eqb_spec s t) as [->|N].
  - rewrite (sumn_ext m _ (fun _ => 1)) by (intros; rewrite Rminus_diag_eq by reflexivity; apply cos_0). rewrite sumn_const. ring.
  - rewrite Rmult_0_r. destruct (Nat.lt_ge_cases s t).
    + rewrite (sumn_ext m _ (fun k => cos (ang m k (t - s)))) by (intros; rewrite ang_diff by lia; reflexivity). apply sum_cos. lia.
    + rewrite (sumn_ext m _ (fun k => cos (ang m k (s - t)))).
      * apply sum_cos. lia.
      * intros. rewrite <- (ang_diff _ t s) by lia. rewrite <- cos_neg. f_equal. ring.
Qed.
Lemma orth_sin s t : (s < m)%nat -> (t < m)%nat -> sumn m (fun k => sin (ang m k t - ang m k s)) = 0.
Proof.
  intros Hs Ht. destruct (Nat.lt_ge_cases s t).
  - rewrite (sumn_ext m _ (fun k => sin (ang m k (t - s)))) by (intros; rewrite ang_diff by lia; reflexivity). apply sum_sin. lia.
  - rewrite (sumn_ext m _ (fun k => - sin (ang m k (s - t)))).
    + rewrite sumn_opp, sum_sin by lia. ring.
    + intros. rewrite <- (ang_diff _ t s) by lia. rewrite <- sin_neg. f_equal. ring.
Qed.

(** a sum over the non-zero indices, read backwards *)
Lemma sum_back f : sumn m f = f O + sumn (m - 1) (fun i => f (m - 1 - i)%nat).
Proof.
  assert (E : exists q, m = S q) by (exists (m - 1)%nat; lia). destruct E as (q & E). rewrite E.
  rewrite sumn_S_l. f_equal. replace (S q - 1)%nat with q by lia. rewrite <- (sumn_rev q (fun i => f (S i))). apply sumn_ext. intros i Hi. f_equal. lia.
Qed.
Lemma sum_odd f : f O = 0 -> (forall k, (0 < k < m)%nat -> f (m - k)%nat = - f k) -> sumn m f = 0.
Proof.
  intros H0 H. assert (E : sumn m f = - sumn m f); [|lra].
  assert (X : sumn m f = f O + sumn (m - 1) (fun i => f (S i))).
  { replace m with (S (m - 1)) at 1 by lia. apply sumn_S_l. }
  rewrite X at 2. rewrite (sum_back f), H0, Ropp_plus_distr, <- sumn_opp. f_equal; [ring|].
  apply sumn_ext. intros i Hi. rewrite <- H by lia. f_equal. lia.
Qed.
Lemma sum_reflect f : (forall k, (0 < k < m)%nat -> f (m - k)%nat = f k) -> forall g, sumn m (fun k => f k * g k) = f O * g O + sumn (m - 1) (fun i => f (S i) * g (m - S i)%nat).
Proof.
  intros H g. rewrite (sum_back (fun k => f k * g k)). f_equal. apply sumn_ext. intros i Hi. f_equal; [rewrite <- H by lia; f_equal; lia|f_equal; lia].
Qed.

(** discrete Fourier inversion *)
Lemma invert (x : nat -> R) t : (t < m)%nat ->
  sumn m (fun k => cos (ang m k t) * sumn m (fun s => x s * cos (ang m k s)) + sin (ang m k t) * sumn m (fun s => x s * sin (ang m k s))) = INR m * x t.
Proof.
  intros Ht. rewrite (sumn_ext m _ (fun k => sumn m (fun s => x s * cos (ang m k t - ang m k s)))).
  - rewrite sumn_swap. rewrite (sumn_ext m _ (fun s => (INR m * x s) * delta s t)).
    + apply sumn_delta_r. exact Ht.
    + intros s Hs. rewrite sumn_scal. rewrite orth_cos by assumption. ring.
  - intros k Hk. rewrite <- !sumn_scal, <- sumn_plus. apply sumn_ext. intros s _. rewrite cos_minus. ring.
Qed.
End Sums.
