(** Spectral factorisation: the whole function. *)
From Coq Require Import Reals List Arith Lia Lra Psatz Bool.
From Verif Require Import Arith Vec ModelFactor ModelSpectral Spec SpecSpectral PSum PCalc PVec PFourier PFactor PSpectral.
Import ListNotations.
Local Open Scope R_scope.

Lemma hundred_R : hundred (A:=RA) = 100.
Proof. change (INR 100 = 100). rewrite INR_IZR_INZ. reflexivity. Qed.
Lemma neg_tol_R : neg_tol (A:=RA) = - (1 / 10000).
Proof. unfold neg_tol. rewrite hundred_R. cbn. lra. Qed.
Lemma floor_val_R : floor_val (A:=RA) = 1 / 10000000000.
Proof. unfold floor_val. rewrite hundred_R. cbn. lra. Qed.
Lemma half_R : ahalf (A:=RA) = 1 / 2.
Proof. unfold ahalf, atwo. cbn. lra. Qed.

(** ** The sampled response *)
Lemma responses_length m (r : vec RA) : length (responses RW m r) = m.
Proof. unfold responses, outer. rewrite mvmul_length, !map_length, seq_length. reflexivity. Qed.

Lemma responses_entry m (r : vec RA) i : (0 < m)%nat -> r <> [] -> (i < m)%nat ->
  fv (responses RW m r) i = power_spectrum (length r) (fv r) (grid m i).
Proof.
  intros Hm Hr Hi. assert (Hn : (0 < length r)%nat) by (destruct r; [congruence|cbn; lia]).
  unfold responses, mvmul, fv at 1, outer. rewrite !map_map.
  rewrite (nth_map_gen _ _ _ O) by (rewrite seq_length; exact Hi). rewrite seq_nth by exact Hi.
  set (row := map _ (vscale _ _)).
  assert (Lr : length row = (length r - 1)%nat) by (unfold row; rewrite map_length, vscale_length, map_length, seq_length; reflexivity).
  assert (Er : forall k, (k < length r - 1)%nat -> nth k row 0 = 2 * cos (INR (S k) * grid m i)).
  { intros k Hk. unfold row. rewrite (nth_map_gen _ _ _ (0 : num RA)) by (rewrite vscale_length, map_length, seq_length; exact Hk).
    unfold vscale. rewrite (nth_map_gen _ _ _ (0 : num RA)) by (rewrite map_length, seq_length; exact Hk).
    rewrite (nth_map_gen _ _ _ O) by (rewrite seq_length; exact Hk). rewrite seq_nth by exact Hk.
    change (2 * cos (INR (0 + i) * (2 * PI / INR m) * INR (1 + k)) = 2 * cos (INR (S k) * grid m i)). f_equal. f_equal.
    unfold grid. cbn [plus]. field. apply not_0_INR. lia. }
  rewrite (vdot_R (length r)); [|transitivity (S (length r - 1)); [exact (f_equal S Lr)|lia]|reflexivity].
  unfold dot, power_spectrum. replace (length r) with (S (length r - 1)) at 1 by lia. rewrite sumn_S_l.
  f_equal; [unfold fv; cbn; ring|]. rewrite <- sumn_scal. apply sumn_ext. intros k Hk.
  change (fv (aone :: row) (S k)) with (nth k row 0). rewrite Er by lia. ring.
Qed.

Lemma grid_refl m i w : (0 < m)%nat -> (i <= m)%nat -> cos (INR w * grid m (m - i)) = cos (INR w * grid m i).
Proof.
  intros Hm Hi. rewrite !ang_grid by exact Hm. apply cos_ang_refl; assumption.
Qed.
Lemma power_even n r m i : (0 < m)%nat -> (i <= m)%nat -> power_spectrum n r (grid m (m - i)) = power_spectrum n r (grid m i).
Proof. intros Hm Hi. unfold power_spectrum. f_equal. f_equal. apply sumn_ext. intros k _. rewrite grid_refl by assumption. reflexivity. Qed.

(** ** The clamp *)
Lemma vmin_ok (v : vec RA) : v <> [] -> (forall i, (i < length v)%nat -> vmin v <= fv v i) /\ exists i, (i < length v)%nat /\ fv v i = vmin v.
Proof.
  destruct v as [|x t]; [congruence|]. intros _. cbn [vmin]. revert x.
  induction t as [|y t IH] using rev_ind; intros x.
  - cbn. split; [intros [|i] Hi; [apply Rle_refl|lia]|exists O; split; [lia|reflexivity]].
  - rewrite fold_left_app. cbn [fold_left]. destruct (IH x) as (A & i0 & Hi0 & E0). set (lo := fold_left _ t x) in *.
    change (altb (a:=RA) y lo) with (Rltb y lo). assert (L : length (x :: t ++ [y]) = S (S (length t))) by (cbn; rewrite app_length; cbn; lia).
    assert (Ey : fv (x :: t ++ [y]) (S (length t)) = y) by (unfold fv; cbn [nth]; rewrite app_nth2, Nat.sub_diag by lia; reflexivity).
    assert (Et : forall i, (i < S (length t))%nat -> fv (x :: t ++ [y]) i = fv (x :: t) i).
    { intros [|i] Hi; [reflexivity|]. unfold fv. cbn [nth]. apply app_nth1. apply Nat.succ_lt_mono. exact Hi. }
    rewrite L. cbn [length] in A, Hi0. change (num RA) with R in *. destruct (Rltb_spec y lo) as [H|H].
    + split; [|exists (S (length t)); split; [lia|exact Ey]]. intros i Hi. destruct (Nat.eq_dec i (S (length t))) as [->|N]; [rewrite Ey; apply Rle_refl|].
      rewrite Et by lia. specialize (A i ltac:(lia)). change (num RA) with R in *. lra.
    + split; [|exists i0; split; [lia|rewrite Et by lia; exact E0]]. intros i Hi. destruct (Nat.eq_dec i (S (length t))) as [->|N]; [rewrite Ey; change (num RA) with R in *; lra|].
      rewrite Et by lia. apply A. lia.
Qed.

Lemma clamped_ok (v : vec RA) : v <> [] ->
  (exists L, clamped v = Ok L /\ length L = length v /\ levelled (length v) (fv v) (fv L)) \/
  (clamped v = Err RuntimeError /\ exists i, (i < length v)%nat /\ fv v i <= - (1 / 10000)).
Proof.
  intros Hv. destruct (vmin_ok v Hv) as (A & i0 & Hi0 & E0). unfold clamped.
  change (aleb (a:=RA) (vmin v) azero) with (Rleb (vmin v) 0). rewrite neg_tol_R. change (altb (a:=RA) (- (1 / 10000)) (vmin v)) with (Rltb (- (1 / 10000)) (vmin v)). destruct (Rleb_spec (vmin v) 0) as [H|H].
  - destruct (Rltb_spec (- (1 / 10000)) (vmin v)) as [H2|H2].
    + left. eexists. split; [reflexivity|]. split; [unfold vmaximum; rewrite map_length; reflexivity|]. right.
      split; [intros i Hi; specialize (A i Hi); change (num RA) with R in *; lra|]. split; [exists i0; split; [exact Hi0|rewrite E0; exact H]|].
      intros i Hi. unfold vmaximum, fv at 1. rewrite (nth_map_gen _ _ _ (0 : num RA)) by exact Hi. change (nth i v (0 : num RA)) with (fv v i).
      rewrite floor_val_R. change (altb (a:=RA) (fv v i) (1 / 10000000000)) with (Rltb (fv v i) (1 / 10000000000)).
      destruct (Rltb_spec (fv v i) (1 / 10000000000)); [rewrite Rmax_right; [reflexivity|lra]|rewrite Rmax_left; [reflexivity|lra]].
    + right. split; [reflexivity|]. exists i0. split; [exact Hi0|]. rewrite E0. change (num RA) with R in *. lra.
  - left. exists v. split; [reflexivity|]. split; [reflexivity|]. left. intros i Hi. split; [|reflexivity]. specialize (A i Hi). change (num RA) with R in *. lra.
Qed.

Lemma levelled_pos m P L i : levelled m P L -> (i < m)%nat -> 0 < L i.
Proof.
  intros [H|(_ & _ & H)] Hi; [destruct (H i Hi) as (H1 & ->); exact H1|]. rewrite (H i Hi). pose proof (Rmax_r (P i) (1 / 10000000000)). lra.
Qed.
Lemma levelled_eq m P L i j : levelled m P L -> (i < m)%nat -> (j < m)%nat -> P i = P j -> L i = L j.
Proof.
  intros [H|(_ & _ & H)] Hi Hj E; [destruct (H i Hi) as (_ & ->); destruct (H j Hj) as (_ & ->); exact E|]. rewrite (H i Hi), (H j Hj), E. reflexivity.
Qed.
Lemma levelled_low m P L i : levelled m P L -> (i < m)%nat -> - (1 / 10000) < P i.
Proof. intros [H|(H & _)] Hi; [destruct (H i Hi); lra|apply H, Hi]. Qed.

Lemma half_log_entry (v : vec RA) i : (i < length v)%nat -> 0 < fv v i -> fv (half_log RW v) i = 1 / 2 * ln (fv v i).
Proof.
  intros Hi Hp. unfold half_log, fv at 1. rewrite (nth_map_gen _ _ _ (0 : num RA)) by exact Hi. change (nth i v (0 : num RA)) with (fv v i).
  rewrite half_R. unfold aabs. change (altb (a:=RA) (fv v i) azero) with (Rltb (fv v i) 0). destruct (Rltb_spec (fv v i) 0); [change (num RA) with R in *; lra|]. reflexivity.
Qed.
Lemma resample_entry n (v : vec RA) i : (i < n)%nat -> fv (resample n v) i = fv v (i * 100).
Proof. intros Hi. unfold resample, fv at 1. rewrite (nth_map_gen _ _ _ O) by (rewrite seq_length; exact Hi). rewrite seq_nth by exact Hi. reflexivity. Qed.
Lemma resample_length n (v : vec RA) : length (resample n v) = n.
Proof. unfold resample. rewrite map_length, seq_length. reflexivity. Qed.
Lemma grid_fine n k : (0 < n)%nat -> grid (100 * n) (k * 100) = grid n k.
Proof. intros Hn. unfold grid. rewrite !mult_INR. field. split; apply not_0_INR; lia. Qed.

Lemma resp_re_refl d c m t : (0 < m)%nat -> (t <= m)%nat -> resp_re d c (grid m (m - t)) = resp_re d c (grid m t).
Proof. intros Hm Ht. unfold resp_re. apply sumn_ext. intros k _. rewrite grid_refl by assumption. reflexivity. Qed.
Lemma resp_im_refl d c m t : (0 < m)%nat -> (t <= m)%nat -> resp_im d c (grid m (m - t)) = - resp_im d c (grid m t).
Proof. intros Hm Ht. unfold resp_im. rewrite <- sumn_opp. apply sumn_ext. intros k _. rewrite !ang_grid by exact Hm. rewrite sin_ang_refl by assumption. ring. Qed.
Lemma resp_im_0 d c m : (0 < m)%nat -> resp_im d c (grid m 0) = 0.
Proof. intros Hm. apply sumn_0. intros k _. rewrite ang_grid, ang_0, sin_0 by exact Hm. ring. Qed.

(** ** The impulse response *)
Lemma spectral_outcome (r : vec RA) : r <> [] ->
  (exists h, spectral_fact RW r = Ok h /\ length h = length r /\
    exists level, levelled (100 * length r) (fun i => power_spectrum (length r) (fv r) (grid (100 * length r) i)) level /\
    exists c, (forall i, (i < 100 * length r)%nat -> exp (2 * resp_re (50 * length r + 1) c (grid (100 * length r) i)) = level i) /\
    forall k, (k < length r)%nat ->
      resp_re (length r) (fv h) (grid (length r) k) =
        exp_re (resp_re (50 * length r + 1) c (grid (length r) k)) (resp_im (50 * length r + 1) c (grid (length r) k)) /\
      resp_im (length r) (fv h) (grid (length r) k) =
        exp_im (resp_re (50 * length r + 1) c (grid (length r) k)) (resp_im (50 * length r + 1) c (grid (length r) k))) \/
  (spectral_fact RW r = Err RuntimeError /\
   exists i, (i < 100 * length r)%nat /\ power_spectrum (length r) (fv r) (grid (100 * length r) i) <= - (1 / 10000)).
Proof.
  intros Hr. assert (Hn : (0 < length r)%nat) by (destruct r; [congruence|cbn; lia]).
  assert (Eq : spectral_fact RW r = let* R := clamped (responses RW (100 * length r) r) in
    Ok (impulse RW (resample (length r) (half_log RW R)) (resample (length r) (hilbert RW (half_log RW R))))) by (destruct r; [congruence|reflexivity]).
  rewrite Eq. clear Eq. set (n := length r) in *. set (m := (100 * n)%nat). assert (Hm : (0 < m)%nat) by (unfold m; lia).
  assert (Lm : length (responses RW m r) = m) by apply responses_length.
  assert (Ne : responses RW m r <> []) by (intros E; rewrite E in Lm; cbn in Lm; lia).
  destruct (clamped_ok _ Ne) as [(L & E & LL & Hlev)|(E & i & Hi & H)].
  2:{ right. rewrite E. split; [reflexivity|]. rewrite Lm in Hi. exists i. split; [exact Hi|]. rewrite responses_entry in H by assumption. exact H. }
  left. rewrite E. cbn [bind]. rewrite Lm in LL, Hlev. change (@length (num RA) L = m) in LL.
  set (P := fun i => power_spectrum n (fv r) (grid m i)) in *.
  assert (Hlev' : levelled m P (fv L)).
  { destruct Hlev as [Hl|(Hl1 & (i & Hi & Hl2) & Hl3)]; [left|right].
    - intros i Hi. destruct (Hl i Hi) as (A & B). rewrite responses_entry in A, B by assumption. split; assumption.
    - split; [intros j Hj; specialize (Hl1 j Hj); rewrite responses_entry in Hl1 by assumption; exact Hl1|].
      split; [exists i; rewrite responses_entry in Hl2 by assumption; split; assumption|].
      intros j Hj. specialize (Hl3 j Hj). rewrite responses_entry in Hl3 by assumption. exact Hl3. }
  clear Hlev. rename Hlev' into Hlev. set (al := half_log RW L).
  assert (La : length al = m) by (unfold al, half_log; rewrite map_length; exact LL).
  assert (Ea : forall i, (i < m)%nat -> fv al i = 1 / 2 * ln (fv L i)).
  { intros i Hi. apply half_log_entry; [rewrite LL; exact Hi|apply (levelled_pos m P _ i Hlev Hi)]. }
  set (hf := (50 * n)%nat). assert (Em : m = (2 * hf)%nat) by (unfold m, hf; lia). assert (H1 : (1 <= hf)%nat) by (unfold hf; lia).
  assert (Hev : forall k, (0 < k < 2 * hf)%nat -> fv al (2 * hf - k) = fv al k).
  { intros k Hk. rewrite <- Em in *. rewrite !Ea by lia. f_equal. f_equal. apply (levelled_eq m P _ _ _ Hlev); [lia|lia|]. apply power_even; lia. }
  set (c := ceps hf (fv al)).
  assert (Ec : forall i, (i < m)%nat -> fv al i = resp_re (hf + 1) c (grid m i)).
  { intros i Hi. unfold resp_re. replace (hf + 1)%nat with (S hf) by lia. rewrite (ceps_cos hf (fv al) H1 Hev i) by (rewrite <- Em; exact Hi).
    apply sumn_ext. intros k _. rewrite <- Em, ang_grid by exact Hm. rewrite ang_comm. reflexivity. }
  assert (Es : forall i, (i < m)%nat -> fv (hilbert RW al) i = - resp_im (hf + 1) c (grid m i)).
  { intros i Hi. rewrite (hilbert_ok hf al i H1 (eq_trans La Em) Hev) by lia. unfold resp_im. replace (hf + 1)%nat with (S hf) by lia.
    f_equal. apply sumn_ext. intros k _. rewrite <- Em, ang_grid by exact Hm. rewrite ang_comm. reflexivity. }
  set (a1 := resample n al). set (p1 := resample n (hilbert RW al)).
  assert (L1 : length a1 = n) by apply resample_length. assert (L2 : length p1 = n) by apply resample_length.
  assert (E1 : forall k, (k < n)%nat -> fv a1 k = resp_re (hf + 1) c (grid n k)).
  { intros k Hk. unfold a1. rewrite resample_entry by exact Hk. rewrite Ec by (unfold m; lia). unfold m. rewrite grid_fine by exact Hn. reflexivity. }
  assert (E2 : forall k, (k < n)%nat -> fv p1 k = - resp_im (hf + 1) c (grid n k)).
  { intros k Hk. unfold p1. rewrite resample_entry by exact Hk. rewrite Es by (unfold m; lia). unfold m. rewrite grid_fine by exact Hn. reflexivity. }
  eexists. split; [reflexivity|]. split; [rewrite impulse_length; [exact L1|rewrite L2; exact L1]|].
  exists (fv L). split; [exact Hlev|]. exists c. split.
  - intros i Hi. rewrite <- Ec by exact Hi. rewrite Ea by exact Hi. replace (2 * (1 / 2 * ln (fv L i))) with (ln (fv L i)) by field.
    apply exp_ln. apply (levelled_pos m P _ i Hlev Hi).
  - intros k Hk. destruct (impulse_ok n a1 p1 Hn L1 L2) with (k:=k) as (R1 & R2).
    + intros j Hj. rewrite !E1 by lia. apply resp_re_refl; lia.
    + intros j Hj. rewrite !E2 by lia. rewrite resp_im_refl by lia. ring.
    + rewrite E2 by lia. rewrite resp_im_0 by lia. ring.
    + exact Hk.
    + rewrite E1, E2 in R1, R2 by exact Hk. rewrite Ropp_involutive in R1, R2. split; [exact R1|exact R2].
Qed.
