(** Spectral factorisation: instances. *)
From Coq Require Import Reals List Arith Lia Lra Psatz Bool ZArith.
From Verif Require Import Arith Vec ModelFactor ModelSpectral Spec SpecSpectral PSum PCalc PVec PFourier PFactor PSpectral PFactor2 PFactor3.
Import ListNotations.
Local Open Scope R_scope.

Lemma power2 (a b : R) w : power_spectrum 2 (fv (@cons R a [b])) w = a + 2 * (b * cos w).
Proof. unfold power_spectrum, fv. cbn [Nat.sub sumn nth]. rewrite Rmult_1_l. ring. Qed.

(** the autocorrelation of (2, 1) *)
Definition r52 : vec RA := @cons R 5 [2].
Lemma r52_pos : positive_samples r52.
Proof. intros i _. change (length r52) with 2%nat. unfold r52. rewrite power2. pose proof (COS_bound (grid (100 * 2) i)). lra. Qed.

Lemma sin_kPI k : sin (INR k * PI) = 0.
Proof. apply sin_eq_0_1. exists (Z.of_nat k). rewrite <- INR_IZR_INZ. reflexivity. Qed.
Lemma grid20 : grid 2 0 = 0. Proof. unfold grid. cbn. lra. Qed.
Lemma grid21 : grid 2 1 = PI. Proof. unfold grid. cbn. lra. Qed.

(** two taps in closed form *)
Lemma two_taps (r0 r1 : R) : positive_samples (@cons R r0 [r1]) ->
  exists h, spectral_fact RW (@cons R r0 [r1]) = Ok h /\
  h = @cons R ((sqrt (r0 + 2 * r1) + sqrt (r0 - 2 * r1)) / 2) [(sqrt (r0 + 2 * r1) - sqrt (r0 - 2 * r1)) / 2].
Proof.
  intros Hp. set (r := @cons R r0 [r1] : vec RA) in *.
  destruct (spectral_total r ltac:(discriminate)) as [(h & E)|E].
  2:{ apply spectral_error in E; [|discriminate]. destruct E as (i & Hi & H). specialize (Hp i Hi). change (num RA) with R in *. lra. }
  exists h. split; [exact E|]. destruct (spectral_cepstrum r h E) as (Lh & lev & Hl & c & H1 & H2).
  change (length r) with 2%nat in *.
  assert (Hlev : forall k, (k < 2)%nat -> lev (100 * k)%nat = r0 + 2 * (r1 * cos (grid 2 k))).
  { intros k Hk. destruct Hl as [Hl|(_ & (i & Hi & N) & _)].
    - destruct (Hl (100 * k)%nat ltac:(lia)) as (_ & ->). rewrite (Nat.mul_comm 100 k), grid_fine by lia. apply power2.
    - specialize (Hp i Hi). cbv beta in N. change (length r) with 2%nat in Hp. lra. }
  assert (Hexp : forall k, (k < 2)%nat -> exp (resp_re (50 * 2 + 1) c (grid 2 k)) = sqrt (r0 + 2 * (r1 * cos (grid 2 k)))).
  { intros k Hk. rewrite <- Hlev by exact Hk. rewrite <- H1 by lia. rewrite (Nat.mul_comm 100 k), grid_fine by lia.
    set (a := resp_re _ c _). replace (2 * a) with (a + a) by ring. rewrite exp_plus. rewrite sqrt_square; [reflexivity|apply Rlt_le, exp_pos]. }
  assert (Him : forall k, (k < 2)%nat -> resp_im (50 * 2 + 1) c (grid 2 k) = 0).
  { intros [|[|k]] Hk; [apply resp_im_0; lia| |lia]. apply sumn_0. intros j _. rewrite grid21, sin_kPI. ring. }
  assert (Hre : forall k, (k < 2)%nat -> resp_re 2 (fv h) (grid 2 k) = sqrt (r0 + 2 * (r1 * cos (grid 2 k)))).
  { intros k Hk. destruct (H2 k Hk) as (-> & _). unfold exp_re. rewrite Him, Hexp by exact Hk. rewrite cos_0. ring. }
  pose proof (Hre 0%nat ltac:(lia)) as A0. pose proof (Hre 1%nat ltac:(lia)) as A1. rewrite grid20, cos_0 in A0. rewrite grid21, cos_PI in A1.
  destruct h as [|a [|b [|]]]; try discriminate. unfold resp_re, fv in A0, A1. cbn [sumn nth] in A0, A1. cbn [INR] in A0, A1.
  rewrite ?Rmult_0_l, ?Rmult_1_l, ?cos_0, ?cos_PI in A0, A1. replace (r0 + 2 * (r1 * 1)) with (r0 + 2 * r1) in A0 by ring. replace (r0 + 2 * (r1 * -1)) with (r0 - 2 * r1) in A1 by ring.
  change (num RA) with R in *. rewrite cos_PI in A1. f_equal; [|f_equal]; lra.
Qed.
Lemma r52_fact : spectral_fact RW r52 = Ok (@cons R 2 [1]).
Proof.
  destruct (two_taps 5 2 r52_pos) as (h & E & Hh). unfold r52. rewrite E, Hh. replace (5 + 2 * 2) with (3 * 3) by lra. replace (5 - 2 * 2) with (1 * 1) by lra.
  rewrite !sqrt_square by lra. repeat (f_equal; try lra).
Qed.

(** a spectrum that is not positive at a sample *)
Definition r01 : vec RA := @cons R 0 [1].
Lemma r01_bad : exists i, (i < 100 * length r01)%nat /\ power_spectrum (length r01) (fv r01) (grid (100 * length r01) i) <= - (1 / 10000).
Proof.
  exists (1 * 100)%nat. change (length r01) with 2%nat. split; [lia|]. rewrite grid_fine by lia. unfold r01. rewrite power2, grid21, cos_PI. lra.
Qed.

(** a slightly negative spectrum is accepted *)
Definition rneg : vec RA := @cons R 2 [1 + 1/100000].
Lemma no_factor (r : vec RA) w (h q : vec RA) : power_spectrum (length r) (fv r) w < 0 -> inverse_spectral_fact h = Ok q -> q <> r.
Proof.
  intros H E ->. assert (Hh : h <> []) by (intros ->; discriminate). destruct (inverse_ok h Hh) as (q & Eq & Lq & _). rewrite E in Eq. injection Eq as <-.
  destruct (inverse_power h r w E) as (_ & P). rewrite <- Lq in P. change (num RA) with R in *. lra.
Qed.
Lemma rneg_accepted : (exists h, spectral_fact RW rneg = Ok h) /\ power_spectrum 2 (fv rneg) PI < 0.
Proof.
  split; [|unfold rneg; rewrite power2, cos_PI; lra].
  destruct (spectral_total rneg ltac:(discriminate)) as [H|E]; [exact H|]. apply spectral_error in E; [|discriminate]. destruct E as (i & _ & H).
  change (length rneg) with 2%nat in H. unfold rneg in H. rewrite power2 in H. pose proof (COS_bound (grid (100 * 2) i)). nra.
Qed.

(** a spectrum that is positive at all samples and negative in between *)
Definition rgap : vec RA := @cons R (50005/100000) [75/10000; 1/4].
Lemma gap_power w : power_spectrum 3 (fv rgap) w = (cos w + 5/1000) * (cos w + 1/100).
Proof.
  unfold power_spectrum, fv, rgap. cbn [Nat.sub sumn nth]. replace (INR 2 * w) with (2 * w) by (cbn [INR]; ring). rewrite cos_2a_cos.
  replace (INR 1 * w) with w by (cbn [INR]; ring). ring_simplify. lra.
Qed.
Lemma sin_mult k x : 0 <= x -> INR k * x <= PI -> 0 <= sin (INR k * x) <= INR k * sin x.
Proof.
  intros Hx. induction k as [|k IH]; intros Hk.
  - cbn [INR]. rewrite Rmult_0_l, sin_0. lra.
  - rewrite S_INR in *. assert (0 <= INR k) by apply pos_INR. assert (0 <= INR k * x) by nra.
    assert (K : INR k * x <= PI) by lra. specialize (IH K). split; [apply sin_ge_0; lra|].
    replace ((INR k + 1) * x) with (INR k * x + x) by ring. rewrite sin_plus. assert (S : 0 <= sin x) by (apply sin_ge_0; lra).
    pose proof (COS_bound x). pose proof (COS_bound (INR k * x)). nra.
Qed.
Lemma sin150 : 1 / 50 <= sin (PI / 150).
Proof.
  pose proof PI_RGT_0. assert (E : INR 25 = 25) by (rewrite INR_IZR_INZ; reflexivity).
  destruct (sin_mult 25 (PI / 150)) as (_ & H1); [lra|rewrite E; lra|]. rewrite E in H1. replace (25 * (PI / 150)) with (PI / 6) in H1 by field. rewrite sin_PI6 in H1. lra.
Qed.
Lemma grid_300 i : grid 300 i = INR i * (PI / 150).
Proof. unfold grid. assert (E : INR 300 = 300) by (rewrite INR_IZR_INZ; reflexivity). rewrite E. field. Qed.
Lemma cos_300 i : (i <= 150)%nat -> 0 <= cos (grid 300 i) \/ cos (grid 300 i) <= - (1 / 50).
Proof.
  intros Hi. pose proof PI_RGT_0. rewrite grid_300. assert (P := pos_INR i). assert (Hi' : INR i <= 150) by (replace 150 with (INR 150) by (rewrite INR_IZR_INZ; reflexivity); apply le_INR, Hi).
  destruct (Nat.le_gt_cases i 75) as [L|L].
  - left. assert (INR i <= 75) by (replace 75 with (INR 75) by (rewrite INR_IZR_INZ; reflexivity); apply le_INR, L). apply cos_ge_0; nra.
  - right. assert (G : 76 <= INR i) by (replace 76 with (INR 76) by (rewrite INR_IZR_INZ; reflexivity); apply le_INR; lia).
    assert (D : cos (INR i * (PI / 150)) <= cos (PI / 2 + PI / 150)) by (apply cos_decr_1; nra).
    rewrite cos_plus, cos_PI2, sin_PI2 in D. pose proof sin150. lra.
Qed.
Lemma rgap_pos : positive_samples rgap.
Proof.
  intros i Hi. change (length rgap) with 3%nat in *. change (100 * 3)%nat with 300%nat in *.
  assert (H : exists j, (j <= 150)%nat /\ power_spectrum 3 (fv rgap) (grid 300 i) = power_spectrum 3 (fv rgap) (grid 300 j)).
  { destruct (Nat.le_gt_cases i 150) as [L|L]; [exists i; auto|]. exists (300 - i)%nat. split; [lia|]. symmetry. apply power_even; lia. }
  destruct H as (j & Hj & ->). rewrite gap_power. destruct (cos_300 j Hj); nra.
Qed.
Lemma rgap_negative : exists w, power_spectrum 3 (fv rgap) w < 0.
Proof. exists (acos (- (75/10000))). rewrite gap_power, cos_acos by lra. lra. Qed.
Lemma rgap_ok : exists h, spectral_fact RW rgap = Ok h.
Proof.
  destruct (spectral_total rgap ltac:(discriminate)) as [H|E]; [exact H|]. apply spectral_error in E; [|discriminate]. destruct E as (i & Hi & H). pose proof (rgap_pos i Hi) as Q. change (num RA) with R in *. lra.
Qed.
Lemma rgap_no_filter : forall h q : vec RA, inverse_spectral_fact h = Ok q -> q <> rgap.
Proof. intros h q E. destruct rgap_negative as (w & Hw). apply (no_factor rgap w h q Hw E). Qed.

Lemma invalid_accepted : exists r h : vec RA, spectral_fact RW r = Ok h /\ positive_samples r /\
  (exists w, power_spectrum (length r) (fv r) w < 0) /\ forall h' q, inverse_spectral_fact h' = Ok q -> q <> r.
Proof. destruct rgap_ok as (h & E). exists rgap, h. split; [exact E|]. split; [exact rgap_pos|]. split; [exact rgap_negative|exact rgap_no_filter]. Qed.
Lemma negative_accepted : exists r h i, spectral_fact RW r = Ok h /\ (i < 100 * length r)%nat /\
  power_spectrum (length r) (fv r) (grid (100 * length r) i) < 0 /\ forall h' q, inverse_spectral_fact h' = Ok q -> q <> r.
Proof.
  destruct rneg_accepted as ((h & E) & P). exists rneg, h, (1 * 100)%nat. split; [exact E|]. change (length rneg) with 2%nat. split; [lia|].
  rewrite grid_fine, grid21 by lia. split; [exact P|]. intros h' q. apply (no_factor rneg PI h' q P).
Qed.

(** the column form of [r52] *)
Lemma column_wrong : exists (r h : vec RA) H, spectral_fact RW r = Ok h /\ inverse_spectral_fact h = Ok r /\ spectral_fact_column RW r = Ok H /\
  forall k, (k < length r)%nat ->
    autocorr (length r) (fun t => fm H k t) 0 <> fv r 0 /\ autocorr (length r) (fun t => fm H t k) 0 <> fv r 0.
Proof.
  exists r52, (@cons R 2 [1]). destruct (column_outcome r52 ltac:(discriminate)) as [(H & E & _ & lev & Hl & HH)|(_ & E)]; [|rewrite r52_fact in E; discriminate].
  exists H. split; [exact r52_fact|]. split; [apply (spectral_short r52 _ r52_fact r52_pos); cbn; lia|]. split; [exact E|].
  change (length r52) with 2%nat in *.
  assert (Hlev : forall k, (k < 2)%nat -> lev (100 * k)%nat = 5 + 2 * (2 * cos (grid 2 k))).
  { intros k Hk. destruct Hl as [Hl|(_ & (i & Hi & N) & _)].
    - destruct (Hl (100 * k)%nat ltac:(lia)) as (_ & ->). rewrite (Nat.mul_comm 100 k), grid_fine by lia. apply power2.
    - specialize (r52_pos i Hi). intros Q. cbv beta in N. change (length r52) with 2%nat in Q. lra. }
  assert (E0 : forall t, (t < 2)%nat -> fm H 0 t = 3/2).
  { intros t Ht. rewrite HH by lia. rewrite Hlev by lia. rewrite grid20, cos_0. replace (5 + 2 * (2 * 1)) with (3 * 3) by lra. rewrite sqrt_square by lra. cbn [INR]. lra. }
  assert (E1 : forall t, (t < 2)%nat -> fm H 1 t = 1/2).
  { intros t Ht. rewrite HH by lia. rewrite Hlev by lia. rewrite grid21, cos_PI. replace (5 + 2 * (2 * -1)) with (1 * 1) by lra. rewrite sqrt_square by lra. cbn [INR]. lra. }
  intros k Hk. unfold autocorr. cbn [Nat.sub sumn Nat.add]. change (fv r52 0) with 5. destruct k as [|[|k]]; [| |lia]; rewrite ?E0, ?E1 by lia; split; lra.
Qed.

(** two sequences that differ only beyond degree 50 *)
Lemma ex_phase : let c := fun k : nat => / INR (S k) in let c' := fun k : nat => if Nat.ltb k 51 then / INR (S k) else 0 in
  c 51%nat <> c' 51%nat /\
  forall i, (i < 100 * 1)%nat ->
    exp (2 * resp_re (50 * 1 + 1) c (grid (100 * 1) i)) = exp (2 * resp_re (50 * 1 + 1) c' (grid (100 * 1) i)).
Proof.
  cbv zeta. split.
  - change (Nat.ltb 51 51) with false. cbv iota. apply Rinv_neq_0_compat, not_0_INR. discriminate.
  - intros i _. apply (f_equal (fun z => exp (2 * z))). unfold resp_re. apply sumn_ext. intros k Hk.
    destruct (Nat.ltb_spec k 51) as [_|Hge]; [reflexivity|exfalso; revert Hk Hge; clear; lia].
Qed.
