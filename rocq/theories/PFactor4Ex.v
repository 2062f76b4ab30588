(** Cases for the accuracy of the spectral factorisation. *)
From Coq Require Import Reals List Arith Lia Lra Psatz Bool.
From Verif Require Import Arith Vec ModelFactor ModelSpectral Spec SpecSpectral PSum PCalc PVec PFourier PFactor PSpectral PFactor2 PFactor3 PFactorEx PLogSeries PFactor4.
Import ListNotations.
Local Open Scope R_scope.

(** zeros [exp(j pi/3)/2] and its conjugate *)
Definition h3 : vec RA := @cons R 1 [-1/2; 1/4].

Lemma h3_min : minimum_phase (1/2) 3 (fv h3).
Proof.
  exists 1, [], [(1/2, PI/3)]. split; [lra|]. split; [intros a []|]. split; [intros z [<-|[]]; cbn; rewrite Rabs_pos_eq; lra|].
  split; [cbn; lia|]. intros w. unfold resp_re, resp_im, h3, fv. cbn [sumn nth zeros map flat_map app factored fst snd INR].
  assert (C : forall x, cos (x - - (PI/3)) = cos (x + PI/3)) by (intros; f_equal; ring).
  assert (D : forall x, sin (x - - (PI/3)) = sin (x + PI/3)) by (intros; f_equal; ring).
  rewrite C, D, !cos_minus, !sin_minus, !cos_plus, !sin_plus, cos_PI3, sin_PI3. rewrite !Rmult_1_l, !Rmult_0_l, cos_0, sin_0.
  replace ((1 + 1) * w) with (2 * w) by ring. rewrite cos_2a, sin_2a.
  assert (S3 : sqrt 3 * sqrt 3 = 3) by (apply sqrt_sqrt; lra). pose proof (sin2_cos2 w) as S. unfold Rsqr in S.
  set (c := cos w) in *. set (s := sin w) in *. set (t := sqrt 3) in *. clearbody c s t.
  assert (A : t * t * (c * c - s * s) = 3 * (c * c - s * s)) by (rewrite S3; ring). assert (B : t * t * (s * c) = 3 * (s * c)) by (rewrite S3; ring). split; lra.
Qed.

Lemma h3_error : fact_error (1/2) 3 <= 1 / 2 ^ 139.
Proof.
  unfold fact_error. change (50 * 3 + 1)%nat with (12 + 139)%nat. rewrite pow_add.
  replace (INR (100 * 3 + 1)) with 301 by (rewrite INR_IZR_INZ; reflexivity). replace (INR (3 - 1)) with 2 by (cbn; lra).
  assert (E : (1/2) ^ 139 = 1 / 2 ^ 139) by (unfold Rdiv; rewrite !Rmult_1_l; apply pow_inv).
  rewrite E. assert (0 < 1 / 2 ^ 139) by (apply Rdiv_lt_0_compat; [lra|apply pow_lt; lra]). set (y := 1 / 2 ^ 139) in *. clearbody y. 
  replace (301 * (2 * ((1 / 2) ^ 12 * y / (1 - 1 / 2)))) with (1204 * (1/2) ^ 12 * y) by field. cbn [pow]. lra.
Qed.

Lemma h3_case : minimum_phase (1/2) (length h3) (fv h3) /\ (exists r, inverse_spectral_fact h3 = Ok r) /\ fact_error (1/2) (length h3) <= 1 / 2 ^ 139.
Proof.
  split; [exact h3_min|]. split; [|exact h3_error]. destruct (inverse_ok h3 ltac:(discriminate)) as (r & E & _). exists r. exact E.
Qed.

Lemma h12_not_recovered : exists h r g : vec RA, inverse_spectral_fact h = Ok r /\ positive_samples r /\ spectral_fact RW r = Ok g /\
  fv h 0 = 1 /\ fv h 1 = 2 /\ fv g 0 = 2 /\ fv g 1 = 1.
Proof.
  exists (@cons R 1 [2]), r52, (@cons R 2 [1]). split; [|split; [exact r52_pos|split; [exact r52_fact|repeat split]]].
  destruct (inverse_ok (@cons R 1 [2]) ltac:(discriminate)) as (r & E & L & H). rewrite E. f_equal. apply list_ext_R; [rewrite L; reflexivity|].
  intros i Hi. change (i < 2)%nat in Hi. rewrite H by exact Hi. destruct i as [|[|i]]; [| |lia]; unfold autocorr; cbn; lra.
Qed.
