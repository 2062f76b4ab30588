(** Algebra of a triangular factorisation. *)
From Coq Require Import Reals List Arith Lia Lra Psatz Bool.
From Verif Require Import Spec SpecStable PSum PStable.
Local Open Scope R_scope.

(** [l] holds unit lower triangular entries below the diagonal, pivots on it
    and their products above it; they factor [a]. *)
Definition fac (p : nat) (a l : nat -> nat -> R) : Prop :=
  (forall c r, (c < r < p)%nat -> l c r = l r c * l c c) /\
  (forall c r, (c < r < p)%nat -> a r c = sumn c (fun k => l r k * l k c) + l c r) /\
  (forall r, (r < p)%nat -> a r r = sumn r (fun k => l r k * l k r) + l r r).

Lemma sumn_cut n m f : (m <= n)%nat -> (forall k, (m <= k < n)%nat -> f k = 0) -> sumn n f = sumn m f.
Proof.
  intros Hm H. replace n with (m + (n - m))%nat by lia. rewrite sumn_split.
  rewrite (sumn_0 (n - m)); [ring|]. intros i Hi. apply H. lia.
Qed.

Section Fac.
Variables (p : nat) (a l : nat -> nat -> R).
Hypothesis Hf : fac p a l.

Lemma fac_low r c : (c <= r < p)%nat -> a r c = sumn p (fun k => l k k * lowf l r k * lowf l c k).
Proof.
  intros H. destruct Hf as (H1 & H2 & H3).
  rewrite (sumn_cut p (S c)); [|lia|intros k Hk; rewrite (lowf_gt l c k) by lia; ring].
  cbn [sumn]. rewrite lowf_eq.
  rewrite (sumn_ext c _ (fun k => l r k * l k c)).
  - destruct (Nat.eq_dec c r) as [->|Hne].
    + rewrite lowf_eq. rewrite H3 by lia. ring.
    + rewrite lowf_lt by lia. rewrite H2, (H1 c r) by lia. ring.
  - intros k Hk. rewrite !lowf_lt by lia. rewrite (H1 k c) by lia. ring.
Qed.

Hypothesis Hs : symmetric p a.

Lemma fac_all r c : (r < p)%nat -> (c < p)%nat -> a r c = sumn p (fun k => l k k * lowf l r k * lowf l c k).
Proof.
  intros Hr Hc. destruct (le_lt_dec c r) as [H|H]; [apply fac_low; lia|].
  rewrite Hs by assumption. rewrite fac_low by lia. apply sumn_ext. intros. ring.
Qed.

Lemma fac_quad x : quad p a x = sumn p (fun k => l k k * (tL p l x k * tL p l x k)).
Proof.
  unfold quad. rewrite bil_sum.
  transitivity (sumn p (fun i => sumn p (fun j => sumn p (fun k => l k k * ((lowf l i k * x i) * (lowf l j k * x j)))))).
  - apply sumn_ext. intros i Hi. apply sumn_ext. intros j Hj. rewrite (fac_all i j Hi Hj).
    rewrite <- sumn_scal, <- sumn_scal_r. apply sumn_ext. intros. ring.
  - rewrite (sumn_ext p _ (fun i => sumn p (fun k => sumn p (fun j => l k k * ((lowf l i k * x i) * (lowf l j k * x j))))))
      by (intros; apply sumn_swap).
    rewrite sumn_swap. apply sumn_ext. intros k Hk. unfold tL.
    rewrite <- sumn_scal_r, <- sumn_scal. apply sumn_ext. intros i Hi.
    rewrite <- !sumn_scal. reflexivity.
Qed.

Lemma tL_split x k : (k < p)%nat -> tL p l x k = x k + sumn (p - S k) (fun i => l (S k + i)%nat k * x (S k + i)%nat).
Proof.
  intros Hk. unfold tL. replace p with (S k + (p - S k))%nat at 1 by lia. rewrite sumn_split. f_equal.
  - cbn [sumn]. rewrite sumn_0; [rewrite lowf_eq; ring|]. intros i Hi. rewrite lowf_gt by lia. ring.
  - apply sumn_ext. intros i Hi. rewrite lowf_lt by lia. reflexivity.
Qed.

Lemma tL_inj x : (forall k, (k < p)%nat -> tL p l x k = 0) -> forall i, (i < p)%nat -> x i = 0.
Proof.
  intros H. assert (G : forall m i, (p - m <= i < p)%nat -> x i = 0).
  { induction m as [|m IH]; intros i Hi; [lia|].
    destruct (Nat.eq_dec i (p - S m)) as [E|E]; [|apply IH; lia].
    specialize (H i ltac:(lia)). rewrite tL_split in H by lia. rewrite sumn_0 in H; [lra|].
    intros j Hj. rewrite IH by lia. ring. }
  intros i Hi. apply (G p). lia.
Qed.

Lemma fac_posdef : (forall k, (k < p)%nat -> 0 < l k k) -> posdef p a.
Proof.
  intros Hd x (i & Hi & Hx). rewrite fac_quad.
  assert (Hge : forall k, (k < p)%nat -> 0 <= l k k * (tL p l x k * tL p l x k)).
  { intros k Hk. apply Rmult_le_pos; [left; apply Hd, Hk|apply Rle_0_sqr]. }
  destruct (Rle_lt_or_eq_dec 0 _ (sumn_ge_0 p _ Hge)) as [H|H]; [exact H|exfalso].
  apply Hx. apply (tL_inj x); [|exact Hi]. intros k Hk. symmetry in H.
  pose proof (sumn_eq_0 p _ Hge H k Hk) as E. specialize (Hd k Hk).
  apply Rmult_integral in E. destruct E as [E|E]; [lra|]. apply Rmult_integral in E. tauto.
Qed.

(** a vector with [L^T v] the last unit vector *)
Lemma fac_witness m x : p = S m -> x m = 1 -> (forall k, (k < m)%nat -> tL p l x k = 0) -> quad p a x = l m m.
Proof.
  intros Ep Hx H. rewrite fac_quad, Ep. cbn [sumn]. rewrite <- Ep. rewrite sumn_0.
  - rewrite tL_split by lia. replace (p - S m)%nat with O by lia. cbn [sumn]. rewrite Hx. ring.
  - intros k Hk. rewrite H by exact Hk. ring.
Qed.
End Fac.
