(** Proofs about [inverse_spectral_fact]. *)
From Coq Require Import Reals List Arith Lia Lra.
From Verif Require Import Arith Vec ModelSpectral Spec SpecSpectral PSum PVec PLdlt PLdlt3.
Import ListNotations.
Local Open Scope R_scope.

Lemma map_seq_entry (f : nat -> R) n i : (i < n)%nat -> nth i (map f (seq 0 n)) 0 = f i.
Proof. intros H. rewrite (nth_map_gen f _ i O 0) by (rewrite seq_length; exact H). rewrite seq_nth by exact H. reflexivity. Qed.

Lemma inverse_ok (h : vec RA) : h <> [] -> exists r, inverse_spectral_fact h = Ok r /\ length r = length h /\
  forall k, (k < length h)%nat -> fv r k = autocorr (length h) (fv h) k.
Proof.
  intros Hh. unfold inverse_spectral_fact, convolve.
  remember (length h) as n eqn:En.
  assert (Hn : (1 <= n)%nat) by (subst n; destruct h; [congruence|cbn; lia]).
  assert (Hr : length (rev h) = n) by (subst n; apply rev_length).
  destruct h as [|h0 t] eqn:Eh; [congruence|]. rewrite <- Eh in *. clear Hh.
  destruct (rev h) as [|r0 rt] eqn:Er; [cbn in Hr; lia|]. rewrite <- Er in *. cbn [bind].
  eexists. split; [reflexivity|]. rewrite Hr. rewrite <- ?En.
  split.
  - rewrite skipn_length, map_length, seq_length. lia.
  - intros k Hk. unfold fv at 1. rewrite nth_skip.
    rewrite (map_seq_entry _ (n + n - 1) (n - 1 + k)) by lia.
    replace (n - 1 + k - (n - 1))%nat with k by lia.
    replace (Nat.min (S (n - 1 + k)) n) with n by lia.
    transitivity (sumn (n - k) (fun i => fv h (k + i) * fv (rev h) (n - 1 + k - (k + i)))).
    { exact (vsum_seq (fun i => fv h i * fv (rev h) (n - 1 + k - i)) k (n - k)). }
    unfold autocorr. apply sumn_ext. intros i Hi.
    assert (E : fv (rev h) (n - 1 + k - (k + i)) = fv h i).
    { unfold fv. assert (Hl : (n - 1 + k - (k + i) < @length R h)%nat) by (change (@length R h) with (@length (num RA) h); rewrite <- En; lia).
      transitivity (nth (n - S (n - 1 + k - (k + i))) h 0); [pose proof (rev_nth (A:=R) h 0 Hl) as Q; change (@length R h) with (@length (num RA) h) in Q; rewrite <- En in Q; exact Q|]. f_equal. lia. }
    rewrite E, (Nat.add_comm k i). ring.
Qed.

Lemma inverse_empty : inverse_spectral_fact (A:=RA) [] = Err ValueError.
Proof. reflexivity. Qed.

(** Sum of a product over all pairs, ordered by the distance of the indices. *)
Lemma pair_sum (h : nat -> R) (c : nat -> R) n :
  sumn n (fun i => h i * h i * c O) + 2 * sumn n (fun i => sumn i (fun j => h j * h i * c (i - j)%nat))
  = autocorr n h O * c O + 2 * sumn (n - 1) (fun k => autocorr n h (S k) * c (S k)).
Proof.
  induction n as [|n IH].
  - unfold autocorr. cbn. ring.
  - assert (E0 : autocorr (S n) h O = autocorr n h O + h n * h n).
    { unfold autocorr. rewrite !Nat.sub_0_r. cbn [sumn]. rewrite Nat.add_0_r. reflexivity. }
    assert (E1 : sumn (S n - 1) (fun k => autocorr (S n) h (S k) * c (S k)) =
                 sumn (n - 1) (fun k => autocorr n h (S k) * c (S k)) +
                 sumn n (fun j => h j * h n * c (n - j)%nat)).
    { replace (S n - 1)%nat with n by lia.
      rewrite <- (sumn_rev n (fun j => h j * h n * c (n - j)%nat)).
      assert (EL : sumn (n - 1) (fun k => autocorr n h (S k) * c (S k)) = sumn n (fun k => autocorr n h (S k) * c (S k))).
      { destruct n as [|n']; [reflexivity|]. cbn [sumn]. replace (S n' - 1)%nat with n' by lia.
        assert (Z : autocorr (S n') h (S n') = 0) by (unfold autocorr; rewrite Nat.sub_diag; reflexivity).
        rewrite Z. ring. }
      rewrite EL, <- sumn_plus. apply sumn_ext. intros k Hk.
      unfold autocorr. replace (S n - S k)%nat with (S (n - S k)) by lia. cbn [sumn].
      replace (n - S k + S k)%nat with n by lia. replace (n - (n - 1 - k))%nat with (S k) by lia.
      replace (n - S k)%nat with (n - 1 - k)%nat by lia. ring. }
    rewrite E1, E0. cbn [sumn]. lra.
Qed.

Lemma square_sum n (a : nat -> R) : sumn n a * sumn n a = sumn n (fun i => a i * a i) + 2 * sumn n (fun i => sumn i (fun j => a j * a i)).
Proof.
  induction n as [|n IH]; [cbn; ring|]. cbn [sumn]. rewrite sumn_scal_r. 
  replace ((sumn n a + a n) * (sumn n a + a n)) with (sumn n a * sumn n a + 2 * (sumn n a * a n) + a n * a n) by ring.
  rewrite IH. ring.
Qed.

Lemma power_identity n (h r : nat -> R) w : (1 <= n)%nat -> (forall k, (k < n)%nat -> r k = autocorr n h k) ->
  power_spectrum n r w = resp_re n h w * resp_re n h w + resp_im n h w * resp_im n h w.
Proof.
  intros Hn Hr. unfold power_spectrum, resp_re, resp_im. rewrite !square_sum.
  pose proof (pair_sum h (fun k => cos (INR k * w)) n) as P. cbv beta in P.
  change (INR 0) with 0 in P. rewrite Rmult_0_l, cos_0 in P.
  rewrite Hr by lia.
  assert (E : sumn (n - 1) (fun k => r (S k) * cos (INR (S k) * w)) = sumn (n - 1) (fun k => autocorr n h (S k) * cos (INR (S k) * w))).
  { apply sumn_ext. intros k Hk. rewrite Hr by lia. reflexivity. }
  rewrite E. rewrite Rmult_1_r in P. rewrite <- P.
  assert (E1 : sumn n (fun i => h i * h i * 1) = sumn n (fun i => h i * cos (INR i * w) * (h i * cos (INR i * w))) + sumn n (fun i => h i * sin (INR i * w) * (h i * sin (INR i * w)))).
  { rewrite <- sumn_plus. apply sumn_ext. intros i _. pose proof (sin2_cos2 (INR i * w)) as S. unfold Rsqr in S.
    transitivity (h i * h i * (sin (INR i * w) * sin (INR i * w) + cos (INR i * w) * cos (INR i * w))); [rewrite S; ring|ring]. }
  assert (E2 : sumn n (fun i => sumn i (fun j => h j * h i * cos (INR (i - j) * w))) =
    sumn n (fun i => sumn i (fun j => h j * cos (INR j * w) * (h i * cos (INR i * w)))) +
    sumn n (fun i => sumn i (fun j => h j * sin (INR j * w) * (h i * sin (INR i * w))))).
  { rewrite <- sumn_plus. apply sumn_ext. intros i _. rewrite <- sumn_plus. apply sumn_ext. intros j Hj.
    rewrite minus_INR by lia. replace ((INR i - INR j) * w) with (INR i * w - INR j * w) by ring.
    rewrite cos_minus. ring. }
  rewrite E1, E2. ring.
Qed.

Lemma inverse_power (h r : vec RA) w : inverse_spectral_fact h = Ok r ->
  power_spectrum (length h) (fv r) w =
    resp_re (length h) (fv h) w * resp_re (length h) (fv h) w + resp_im (length h) (fv h) w * resp_im (length h) (fv h) w /\
  0 <= power_spectrum (length h) (fv r) w.
Proof.
  intros H. assert (Hh : h <> []) by (intros ->; rewrite inverse_empty in H; discriminate).
  destruct (inverse_ok h Hh) as (r' & E & _ & Hr). rewrite E in H. injection H as <-.
  assert (P := power_identity (length h) (fv h) (fv r') w). 
  rewrite P; [|destruct h; [congruence|cbn; lia]|exact Hr]. split; [reflexivity|].
  pose proof (Rle_0_sqr (resp_re (length h) (fv h) w)) as S1. pose proof (Rle_0_sqr (resp_im (length h) (fv h) w)) as S2.
  unfold Rsqr in *. apply Rplus_le_le_0_compat; assumption.
Qed.
