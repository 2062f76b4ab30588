(** C27 for the ellipsoids themselves (the determinant), C24: omega, and C21, C25, C26 for [EllStable]. *)
From Coq Require Import Reals List Arith Lra Lia.
From Verif Require Import Arith Vec ModelCalc ModelEll ModelStable Spec SpecDrivers SpecCut SpecEll SpecStable SpecConverge SpecDet
  PCalc PCalcEx PCalc2 PEll PEll2 PEll3 PEllEx PStable5 PSearchEx PStableEx PDet PVolume PVolume2 PDet2 PMinVol2 PMinVolEx.
Import ListNotations.
Local Open Scope R_scope.

(** the determinant is the usual one *)
Example det_2 : forall M, det 2 M = M 0%nat 0%nat * M 1%nat 1%nat - M 1%nat 0%nat * M 0%nat 1%nat.
Proof. intros M. cbn. ring. Qed.
Example det_3 : forall M, det 3 M =
  M 0%nat 0%nat * M 1%nat 1%nat * M 2%nat 2%nat + M 0%nat 1%nat * M 1%nat 2%nat * M 2%nat 0%nat
  + M 0%nat 2%nat * M 1%nat 0%nat * M 2%nat 1%nat - M 0%nat 2%nat * M 1%nat 1%nat * M 2%nat 0%nat
  - M 0%nat 1%nat * M 1%nat 0%nat * M 2%nat 2%nat - M 0%nat 0%nat * M 1%nat 2%nat * M 2%nat 1%nat.
Proof. intros M. cbn. ring. Qed.

Theorem C27_det_product : forall n M X, symmetric n M -> posdef n M ->
  det n (fun i j => sumn n (fun k => M i k * X k j)) = det n M * det n X.
Proof. exact det_mul_pd. Qed.
Print Assumptions C27_det_product.

(** C27 for [Ell]: an accepted cut multiplies the squared volume by the factor; a deep one by at most
    exp(-1/(n+1)). *)
Theorem C27_volume_init : forall n v x0 (e : ell RA),
  ell_init v x0 = Ok e -> vec_wf n x0 ->
  match v with VScalar _ => True | VDiag d => length d = n end -> sqvol n e = vol0 n v.
Proof. exact sqvol_init. Qed.
Print Assumptions C27_volume_init.

Theorem C27_volume_step : forall n p e k (ct : cut RA) e1,
  psd_ell n p e -> ell_update k ct e = (e1, Ok Success) ->
  exists rho sigma delta,
    strat_of k (helper e) (snd ct) (cut_tsq n e ct) = Ok (Success, Some (rho, sigma, delta)) /\
    sqvol n e1 = delta ^ n * (1 - sigma) * sqvol n e.
Proof. exact sqvol_step. Qed.
Print Assumptions C27_volume_step.

Theorem C27_volume_positive : forall n p e, pd_ell n p e -> 0 < sqvol n e.
Proof. exact sqvol_pos. Qed.
Print Assumptions C27_volume_positive.

Theorem C27_volume_shrinks : forall n p e k (ct : cut RA) e1,
  pd_ell n p e -> ell_update k ct e = (e1, Ok Success) -> deep k (snd ct) ->
  sqvol n e1 <= exp (- / (INR n + 1)) * sqvol n e /\ sqvol n e1 < sqvol n e.
Proof. exact sqvol_shrinks. Qed.
Print Assumptions C27_volume_shrinks.

Theorem C27_volume_run : forall n p e l e',
  pd_ell n p e -> ell_run e l e' ->
  (forall e0 k ct, In (e0, k, ct, Ok Success) l -> deep k (snd ct) /\ cut_proper n k p e0 ct) ->
  sqvol n e' <= exp (- INR (accepted l) / (INR n + 1)) * sqvol n e.
Proof. exact sqvol_run. Qed.
Print Assumptions C27_volume_run.

Example C27_volume_case : ell_init (@VScalar RA 4) (@cons R 0 [0]) = Ok e4 /\ pd_ell 2 true e4 /\
  ell_update OpBias ct1 e4 = (e4', Ok Success) /\ deep OpBias (snd ct1) /\ ell_run e4 run1 e4' /\ accepted run1 = 1%nat /\
  (forall e0 k ct, In (e0, k, ct, Ok Success) run1 -> deep k (snd ct) /\ cut_proper 2 k true e0 ct) /\
  sqvol 2 e4 = 16 /\ sqvol 2 e4' = 16 / 9.
Proof.
  assert (D : deep OpBias (snd ct1)) by (right; exists 1; split; [reflexivity|lra]).
  assert (V : sqvol 2 e4 = 16) by (etransitivity; [apply (sqvol_init 2 (@VScalar RA 4) (@cons R 0 [0]) e4 e4_init eq_refl I)|]; cbn; ring).
  split; [apply e4_init|]. split; [apply e4_pd|]. split; [apply e4_update1|]. split; [exact D|].
  split; [apply run1_ok|]. split; [reflexivity|]. split.
  { intros e0 k ct [H|[H|[]]]; [discriminate|]. injection H as <- <- <-. split; [exact D|apply ct1_proper]. }
  split; [exact V|].
  destruct (sqvol_step 2 true e4 OpBias ct1 e4' (pd_psd _ _ _ e4_pd) e4_update1) as (r & s & d & Es & ->).
  change ct1 with (g1, @CSingle RA 1) in Es. rewrite e4_tsq in Es. cbn [snd] in Es. change (helper e4) with (calc_R true 2) in Es.
  rewrite ex_single in Es by discriminate. injection Es as <- <- <-. rewrite V. cbn. field.
Qed.

(** C27: no ellipsoid around the kept part is smaller than the one the update leaves, and no other is as small. *)
Theorem C27_smallest : forall n p e k (ct : cut RA) e1,
  pd_ell n p e -> ell_update k ct e = (e1, Ok Success) ->
  bias_cond n k p (snd ct) (cut_tsq n e ct) ->
  (k <> OpCentral -> forall b0, first_beta (snd ct) = Some b0 -> b0 * b0 <= cut_tsq n e ct) ->
  forall c' k' M', symmetric n M' -> posdef n M' -> 0 < k' ->
  (forall x, ell_in n e x -> cut_sat n k p e ct x -> in_ellipsoid n c' k' M' x) ->
  sqvol n e1 <= det n (fun i j => k' * M' i j) /\
  (sqvol n e1 = det n (fun i j => k' * M' i j) ->
   (forall i j, (i < n)%nat -> (j < n)%nat -> k' * M' i j = kappa e1 * fm (mq e1) i j) /\
   (forall i, (i < n)%nat -> c' i = fv (xc e1) i)).
Proof. exact step_smallest. Qed.
Print Assumptions C27_smallest.

Theorem C27_smallest_deep : forall n p e k (ct : cut RA) e1,
  pd_ell n p e -> ell_update k ct e = (e1, Ok Success) ->
  deep k (snd ct) -> (exists x, ell_in n e x /\ cut_sat n k p e ct x) ->
  forall c' k' M', symmetric n M' -> posdef n M' -> 0 < k' ->
  (forall x, ell_in n e x -> cut_sat n k p e ct x -> in_ellipsoid n c' k' M' x) ->
  sqvol n e1 <= det n (fun i j => k' * M' i j) /\
  (sqvol n e1 = det n (fun i j => k' * M' i j) ->
   (forall i j, (i < n)%nat -> (j < n)%nat -> k' * M' i j = kappa e1 * fm (mq e1) i j) /\
   (forall i, (i < n)%nat -> c' i = fv (xc e1) i)).
Proof. exact step_smallest_deep. Qed.
Print Assumptions C27_smallest_deep.

(** two ellipsoids around the kept part of [e4]: [e4] itself and the new one *)
Example C27_smallest_case : pd_ell 2 true e4 /\ ell_update OpBias ct1 e4 = (e4', Ok Success) /\
  bias_cond 2 OpBias true (snd ct1) (cut_tsq 2 e4 ct1) /\ deep OpBias (snd ct1) /\
  (forall b0, first_beta (snd ct1) = Some b0 -> b0 * b0 <= cut_tsq 2 e4 ct1) /\
  (exists x, ell_in 2 e4 x /\ cut_sat 2 OpBias true e4 ct1 x) /\
  symmetric 2 (fm (mq e4)) /\ posdef 2 (fm (mq e4)) /\ 0 < kappa e4 /\
  (forall x, ell_in 2 e4 x -> cut_sat 2 OpBias true e4 ct1 x -> in_ellipsoid 2 (fv (xc e4)) (kappa e4) (fm (mq e4)) x) /\
  symmetric 2 (fm (mq e4')) /\ posdef 2 (fm (mq e4')) /\ 0 < kappa e4' /\
  (forall x, ell_in 2 e4 x -> cut_sat 2 OpBias true e4 ct1 x -> in_ellipsoid 2 (fv (xc e4')) (kappa e4') (fm (mq e4')) x).
Proof.
  split; [apply e4_pd|]. split; [apply e4_update1|]. split; [apply single_cond|].
  split; [right; exists 1; split; [reflexivity|lra]|].
  split; [intros b0 E; injection E as <-; unfold ct1; rewrite e4_tsq; lra|].
  split; [destruct ct1_proper as (x & _ & H1 & H2 & _); exists x; auto|].
  pose proof e4_pd as (_ & _ & _ & H1 & H2 & H3). pose proof e4'_pd as (_ & _ & _ & H4 & H5 & H6).
  split; [exact H1|]. split; [exact H2|]. split; [exact H3|]. split; [intros x H _; exact H|].
  split; [exact H4|]. split; [exact H5|]. split; [exact H6|].
  intros x Hx Hs. apply (step_contain 2 true e4 OpBias ct1 e4' x (pd_psd _ _ _ e4_pd) e4_update1 (single_cond _ _ _ _ _) Hx Hs).
Qed.

(** Consequences: keeping less never costs volume, so the parallel rule is never worse than the single one. *)
Theorem C27_monotone : forall n p p' e e' k k' (ct ct' : cut RA) e1 e1',
  pd_ell n p e -> pd_ell n p' e' ->
  ell_update k ct e = (e1, Ok Success) -> ell_update k' ct' e' = (e1', Ok Success) ->
  bias_cond n k p (snd ct) (cut_tsq n e ct) ->
  (k <> OpCentral -> forall b0, first_beta (snd ct) = Some b0 -> b0 * b0 <= cut_tsq n e ct) ->
  bias_cond n k' p' (snd ct') (cut_tsq n e' ct') -> cut_proper n k' p' e' ct' ->
  (forall x, ell_in n e x -> cut_sat n k p e ct x -> ell_in n e' x /\ cut_sat n k' p' e' ct' x) ->
  sqvol n e1 <= sqvol n e1'.
Proof. exact step_monotone. Qed.
Print Assumptions C27_monotone.

Theorem C27_parallel_helps : forall n e k (ct : cut RA) e1 e2,
  pd_ell n true e -> ell_update k ct e = (e1, Ok Success) ->
  ell_update k ct (ell_set_parallel e false) = (e2, Ok Success) -> deep k (snd ct) -> cut_proper n k true e ct ->
  sqvol n e1 <= sqvol n e2.
Proof. exact parallel_helps. Qed.
Print Assumptions C27_parallel_helps.

Example C27_parallel_case : pd_ell 2 true e4 /\ (exists e1, ell_update OpBias ctpar e4 = (e1, Ok Success)) /\
  (exists e2, ell_update OpBias ctpar (ell_set_parallel e4 false) = (e2, Ok Success)) /\
  deep OpBias (snd ctpar) /\ cut_proper 2 OpBias true e4 ctpar.
Proof.
  split; [apply e4_pd|]. split; [apply ctpar_update|]. split; [apply ctpar_off|].
  split; [right; exists 1; split; [reflexivity|lra]|apply ctpar_proper].
Qed.

(** Not so when the first plane lies beyond the ellipsoid: the disc of radius 2 and the planes at 5/2 and -1/2. *)
Theorem C27_far_plane_refuted : exists (e : ell RA) ct e1 c' k' M',
  pd_ell 2 true e /\ ell_update OpQ ct e = (e1, Ok Success) /\ bias_cond 2 OpQ true (snd ct) (cut_tsq 2 e ct) /\
  cut_proper 2 OpQ true e ct /\ symmetric 2 M' /\ posdef 2 M' /\ 0 < k' /\
  (forall x, ell_in 2 e x -> cut_sat 2 OpQ true e ct x -> in_ellipsoid 2 c' k' M' x) /\
  det 2 (fun i j => k' * M' i j) < sqvol 2 e1.
Proof. exact far_plane. Qed.
Print Assumptions C27_far_plane_refuted.

(** C27 for [EllStable], and the two classes agree on the volume. *)
Theorem C27_stable_volume_shrinks : forall n p s k (ct : cut RA) s1,
  stable_ok n p s -> s_no_defer_trick s = false -> 0 < s_kappa s ->
  stable_update k ct s = (s1, Ok Success) -> deep k (snd ct) ->
  (exists rho sigma delta, strat_of k (s_helper s) (snd ct) (s_tsq s1) = Ok (Success, Some (rho, sigma, delta)) /\
     sqvol_s n s1 = delta ^ n * (1 - sigma) * sqvol_s n s) /\
  sqvol_s n s1 <= exp (- / (INR n + 1)) * sqvol_s n s /\ sqvol_s n s1 < sqvol_s n s.
Proof. exact sqvol_s_shrinks. Qed.
Print Assumptions C27_stable_volume_shrinks.

Theorem C27_same_volume : forall n p e s,
  pd_ell n p e -> stable_ok n p s -> agree n e s -> sqvol n e = sqvol_s n s.
Proof. exact sqvol_agree. Qed.
Print Assumptions C27_same_volume.

Theorem C27_stable_smallest : forall n p s k (ct : cut RA) s1,
  stable_ok n p s -> s_no_defer_trick s = false -> 0 < s_kappa s ->
  stable_update k ct s = (s1, Ok Success) -> bias_cond n k p (snd ct) (s_tsq s1) ->
  (k <> OpCentral -> forall b0, first_beta (snd ct) = Some b0 -> b0 * b0 <= s_tsq s1) ->
  forall c' k' M', symmetric n M' -> posdef n M' -> 0 < k' ->
  (forall x, stable_in n s x -> cut_holds k p (snd ct) (cutval n (fv (fst ct)) (fv (s_xc s)) x) -> in_ellipsoid n c' k' M' x) ->
  sqvol_s n s1 <= det n (fun i j => k' * M' i j) /\
  (sqvol_s n s1 = det n (fun i j => k' * M' i j) ->
   (forall x, in_ellipsoid n c' k' M' x <-> stable_in n s1 x) /\
   (forall i, (i < n)%nat -> c' i = fv (s_xc s1) i)).
Proof. exact stable_smallest. Qed.
Print Assumptions C27_stable_smallest.

Example C27_stable_case : stable_ok 2 true s4 /\ s_no_defer_trick s4 = false /\ 0 < s_kappa s4 /\
  (exists s1, stable_update OpBias ct1 s4 = (s1, Ok Success) /\ bias_cond 2 OpBias true (snd ct1) (s_tsq s1) /\
     forall b0, first_beta (snd ct1) = Some b0 -> b0 * b0 <= s_tsq s1) /\ deep OpBias (snd ct1) /\
  pd_ell 2 true e4 /\ agree 2 e4 s4 /\ sqvol_s 2 s4 = 16.
Proof.
  destruct s4_agree as (H1 & H2 & _).
  split; [exact H1|]. split; [reflexivity|]. split; [cbn; lra|].
  split.
  { destruct s4_update1 as (s1 & H & _ & Ha). exists s1. split; [exact H|]. split; [apply single_cond|].
    intros b0 E. injection E as <-. destruct Ha as (_ & _ & <- & _). unfold e4'. rewrite <- e4_w, (new_tsq 2 e4 g1), e4_w. cbn. lra. }
  split; [right; exists 1; split; [reflexivity|lra]|]. split; [apply e4_pd|]. split; [exact H2|].
  rewrite <- (sqvol_agree 2 true e4 s4 e4_pd H1 H2). apply C27_volume_case.
Qed.

(** C24: omega is positive for every non-zero gradient; NoEffect comes only from the discrete rule. *)
Theorem C24_omega_positive : forall n p (e : ell RA) k (ct : cut RA) e1 o,
  pd_ell n p e -> vec_wf n (fst ct) -> nonzero n (fv (fst ct)) -> ell_update k ct e = (e1, o) ->
  0 < quad n (fm (mq e)) (fv (fst ct)) /\ 0 < cut_tsq n e ct /\
  (o = Ok NoEffect -> k = OpQ /\ strat_of OpQ (helper e) (snd ct) (cut_tsq n e ct) = Ok (NoEffect, None)).
Proof. exact pd_omega_use. Qed.
Print Assumptions C24_omega_positive.

Example C24_omega_case : pd_ell 2 true e4 /\ vec_wf 2 (fst ct1) /\ nonzero 2 (fv (fst ct1)) /\
  ell_update OpBias ct1 e4 = (e4', Ok Success).
Proof. split; [apply e4_pd|]. split; [reflexivity|]. split; [apply g1_nonzero|apply e4_update1]. Qed.

(** C21, C25, C26 for [EllStable] *)
Theorem C21_containment_run_stable : forall n p s l s' x,
  stable_ok n p s -> s_no_defer_trick s = false -> stable_run s l s' ->
  (forall s0 k ct o, In (s0, k, ct, o) l -> o <> Err ZeroDivision) ->
  (forall s0 k ct, In (s0, k, ct, Ok Success) l ->
     bias_cond n k p (snd ct) (s_tsq (fst (stable_update k ct s0))) /\
     cut_holds k p (snd ct) (cutval n (fv (fst ct)) (fv (s_xc s0)) x)) ->
  stable_in n s x -> stable_ok n p s' /\ stable_in n s' x.
Proof. exact stable_run_contain. Qed.
Print Assumptions C21_containment_run_stable.

Theorem C25_new_centre_stable : forall n p s k (ct : cut RA) s1 x,
  stable_ok n p s -> s_no_defer_trick s = false -> 0 < s_kappa s ->
  stable_update k ct s = (s1, Ok Success) -> bias_cond n k p (snd ct) (s_tsq s1) ->
  stable_in n s x -> cut_holds k p (snd ct) (cutval n (fv (fst ct)) (fv (s_xc s)) x) ->
  cut_holds k p (snd ct) (cutval n (fv (fst ct)) (fv (s_xc s)) (fv (s_xc s1))).
Proof. exact stable_centre. Qed.
Print Assumptions C25_new_centre_stable.

Theorem C26_tsq_attained_stable : forall n p s k (ct : cut RA) s1 o,
  stable_ok n p s -> 0 < s_kappa s -> vec_wf n (fst ct) -> nonzero n (fv (fst ct)) ->
  stable_update k ct s = (s1, o) ->
  exists x, stable_in n s x /\
    cutval n (fv (fst ct)) (fv (s_xc s)) x * cutval n (fv (fst ct)) (fv (s_xc s)) x = s_tsq s1.
Proof. exact stable_tsq_max. Qed.
Print Assumptions C26_tsq_attained_stable.

Example C21_case_stable : exists s1, stable_ok 2 true s4 /\ s_no_defer_trick s4 = false /\ 0 < s_kappa s4 /\
  stable_update OpBias ct1 s4 = (s1, Ok Success) /\ stable_run s4 [(s4, OpBias, ct1, Ok Success)] s1 /\
  bias_cond 2 OpBias true (snd ct1) (s_tsq s1) /\ stable_in 2 s4 (pt (-1) 1) /\
  cut_holds OpBias true (snd ct1) (cutval 2 (fv (fst ct1)) (fv (s_xc s4)) (pt (-1) 1)) /\
  vec_wf 2 (fst ct1) /\ nonzero 2 (fv (fst ct1)).
Proof.
  destruct s4_agree as (H1 & _). destruct s4_update1 as (s1 & H & _). exists s1.
  split; [exact H1|]. split; [reflexivity|]. split; [cbn; lra|]. split; [exact H|].
  split; [eapply srun_cons; [exact H|apply srun_nil]|]. split; [apply single_cond|]. split; [apply s4_in; lra|].
  split; [|split; [reflexivity|apply g1_nonzero]].
  cbn [fst snd ct1]. rewrite g1_cutval. unfold cut_holds; cbn [first_beta second_beta].
  change (pt (-1) 1 0%nat) with (-1). change (fv (s_xc s4) 0%nat) with 0. split; [lra|exact I].
Qed.
