(** Properties of [Ell]. *)
From Coq Require Import Reals List Arith Lra Lia.
From Verif Require Import Arith Vec ModelCalc ModelEll SpecDrivers Spec SpecCut SpecEll
  PCalc PCalcEx PEll PEll2 PEll3 PEllEx.
Import ListNotations.
Local Open Scope R_scope.

(** C20.  The hypothesis [psd_ell] is met by everything the constructor builds
    ([C24_init]) and is kept by every update; [bias_cond] concerns only
    two-sided cuts given to [update_bias_cut] and holds when [beta0 >= 0]. *)
Theorem C20_containment : forall n p e k ct e1 x,
  psd_ell n p e ->
  ell_update k ct e = (e1, Ok Success) ->
  bias_cond n k p (snd ct) (cut_tsq n e ct) ->
  ell_in n e x -> cut_sat n k p e ct x ->
  psd_ell n p e1 /\ ell_in n e1 x.
Proof. exact step_contain. Qed.
Print Assumptions C20_containment.

Example C20_case : psd_ell 2 true e4 /\ ell_update OpBias ct1 e4 = (e4', Ok Success) /\
  bias_cond 2 OpBias true (snd ct1) (cut_tsq 2 e4 ct1) /\
  ell_in 2 e4 (pt (-1) 1) /\ cut_sat 2 OpBias true e4 ct1 (pt (-1) 1).
Proof.
  split; [apply pd_psd, e4_pd|]. split; [apply e4_update1|]. split; [apply single_cond|].
  split; [apply e4_in; lra|]. unfold cut_sat. cbn [fst snd ct1]. rewrite e4_cutval.
  split; cbn [first_beta second_beta]; lra.
Qed.

(** C21: any sequence of calls, of whatever outcome. *)
Theorem C21_containment_run : forall n p e l e' x,
  psd_ell n p e -> ell_run e l e' ->
  (forall e0 k ct, In (e0, k, ct, Ok Success) l ->
     bias_cond n k p (snd ct) (cut_tsq n e0 ct) /\ cut_sat n k p e0 ct x) ->
  ell_in n e x -> ell_in n e' x.
Proof. exact run_contain. Qed.
Print Assumptions C21_containment_run.

Example C21_case : psd_ell 2 true e4 /\ ell_run e4 run1 e4' /\ ell_in 2 e4 (pt (-1) 1) /\
  forall e0 k ct, In (e0, k, ct, Ok Success) run1 ->
     bias_cond 2 k true (snd ct) (cut_tsq 2 e0 ct) /\ cut_sat 2 k true e0 ct (pt (-1) 1).
Proof.
  split; [apply pd_psd, e4_pd|]. split; [apply run1_ok|]. split; [apply e4_in; lra|].
  intros e0 k ct [H|[H|[]]]; [discriminate|]. injection H as <- <- <-. split; [apply single_cond|].
  apply C20_case.
Qed.

(** C22 *)
Theorem C22_nosoln_truthful : forall n p e k ct e1,
  psd_ell n p e -> ell_update k ct e = (e1, Ok NoSoln) ->
  forall x, ell_in n e x -> ~ cut_sat n k p e ct x.
Proof. exact step_nosoln. Qed.
Print Assumptions C22_nosoln_truthful.

Example C22_case : psd_ell 2 true e4 /\ exists e1, ell_update OpBias ct3 e4 = (e1, Ok NoSoln).
Proof. split; [apply pd_psd, e4_pd|]. eexists. apply e4_update3. Qed.

(** C23: no hypothesis on the object at all. *)
Theorem C23_refused_unchanged : forall k ct (e e1 : ell RA) o,
  ell_update k ct e = (e1, o) -> o <> Ok Success ->
  xc e1 = xc e /\ mq e1 = mq e /\ kappa e1 = kappa e /\
  helper e1 = helper e /\ no_defer_trick e1 = no_defer_trick e.
Proof. exact update_unchanged. Qed.
Print Assumptions C23_refused_unchanged.

Example C23_case :
  ell_update OpBias ct3 e4 = (set_tsq e4 (4 : num RA), Ok NoSoln) /\
  ell_update OpBias ct0 e4 = (e4, Err ValueError).
Proof. split; [apply e4_update3|apply e4_update0]. Qed.

(** C24 *)
Theorem C24_init : forall n v x0 (e : ell RA),
  ell_init v x0 = Ok e -> vec_wf n x0 -> val_pos n v -> pd_ell n true e.
Proof. exact init_pd. Qed.
Print Assumptions C24_init.

Theorem C24_init_semidefinite : forall n v x0 (e : ell RA),
  ell_init v x0 = Ok e -> vec_wf n x0 -> val_nonneg n v -> psd_ell n true e.
Proof. exact init_psd. Qed.
Print Assumptions C24_init_semidefinite.

Theorem C24_stays_positive_definite : forall n p e l e',
  pd_ell n p e -> ell_run e l e' ->
  (forall e0 k ct, In (e0, k, ct, Ok Success) l -> cut_proper n k p e0 ct) ->
  pd_ell n p e'.
Proof. exact run_pd. Qed.
Print Assumptions C24_stays_positive_definite.

Example C24_case : ell_init (@VScalar RA 4) (@cons R 0 [0]) = Ok e4 /\
  ell_run e4 run1 e4' /\
  forall e0 k ct, In (e0, k, ct, Ok Success) run1 -> cut_proper 2 k true e0 ct.
Proof.
  split; [apply e4_init|]. split; [apply run1_ok|].
  intros e0 k ct [H|[H|[]]]; [discriminate|]. injection H as <- <- <-. apply ct1_proper.
Qed.

(** C25 *)
Theorem C25_new_centre_satisfies_cut : forall n p e k ct e1 x,
  pd_ell n p e -> ell_update k ct e = (e1, Ok Success) ->
  bias_cond n k p (snd ct) (cut_tsq n e ct) ->
  ell_in n e x -> cut_sat n k p e ct x ->
  cut_sat n k p e ct (fv (xc e1)).
Proof. exact step_centre. Qed.
Print Assumptions C25_new_centre_satisfies_cut.

Example C25_case : pd_ell 2 true e4 /\ ell_update OpBias ct1 e4 = (e4', Ok Success) /\
  bias_cond 2 OpBias true (snd ct1) (cut_tsq 2 e4 ct1) /\
  ell_in 2 e4 (pt (-1) 1) /\ cut_sat 2 OpBias true e4 ct1 (pt (-1) 1).
Proof. split; [apply e4_pd|]. apply C20_case. Qed.

(** C26 *)
Theorem C26_tsq_is_max : forall n p e k ct e1 o,
  pd_ell n p e -> vec_wf n (fst ct) -> nonzero n (fv (fst ct)) ->
  ell_update k ct e = (e1, o) ->
  (forall x, ell_in n e x ->
     cutval n (fv (fst ct)) (fv (xc e)) x * cutval n (fv (fst ct)) (fv (xc e)) x <= tsq e1) /\
  exists x, ell_in n e x /\
     cutval n (fv (fst ct)) (fv (xc e)) x * cutval n (fv (fst ct)) (fv (xc e)) x = tsq e1.
Proof. exact step_tsq. Qed.
Print Assumptions C26_tsq_is_max.

Example C26_case : pd_ell 2 true e4 /\ vec_wf 2 (fst ct1) /\ nonzero 2 (fv (fst ct1)) /\
  ell_update OpBias ct1 e4 = (e4', Ok Success).
Proof.
  split; [apply e4_pd|]. split; [reflexivity|]. split; [apply g1_nonzero|apply e4_update1].
Qed.

(** C28: as long as the scale of the object without the flag does not become
    zero (which happens only when a cut touches the ellipsoid in one point). *)
Theorem C28_no_defer_trick : forall n p e l,
  psd_ell n p e -> kappa e <> 0 ->
  let a := ell_set_no_defer e false in
  let b := ell_set_no_defer e true in
  (forall l1 l2, l = l1 ++ l2 -> kappa (fst (ell_seq l1 a)) <> 0) ->
  snd (ell_seq l a) = snd (ell_seq l b) /\
  xc (fst (ell_seq l a)) = xc (fst (ell_seq l b)) /\
  tsq (fst (ell_seq l a)) = tsq (fst (ell_seq l b)) /\
  (0 < kappa e -> 0 < kappa (fst (ell_seq l a)) ->
   forall x, ell_in n (fst (ell_seq l a)) x <-> ell_in n (fst (ell_seq l b)) x).
Proof. exact no_defer_equiv. Qed.
Print Assumptions C28_no_defer_trick.

Example C28_case : psd_ell 2 true e4 /\ kappa e4 <> 0 /\
  forall l1 l2, [(OpBias, ct1)] = l1 ++ l2 ->
    kappa (fst (ell_seq l1 (ell_set_no_defer e4 false))) <> 0.
Proof.
  split; [apply pd_psd, e4_pd|]. assert (Hk : kappa e4 <> 0) by (cbn; lra). split; [exact Hk|].
  intros [|x [|y l1]] l2 H; [exact Hk| |discriminate]. injection H as <- _.
  change (ell_set_no_defer e4 false) with e4. cbn [ell_seq]. rewrite e4_update1. cbn [fst].
  fold e4'. rewrite e4'_kappa. lra.
Qed.

(** C29 *)
Theorem C29_straddling_bias_cut_loses_points : forall n p (e : ell RA) (ct : cut RA) b0 b1,
  pd_ell n p e -> vec_wf n (fst ct) -> nonzero n (fv (fst ct)) ->
  first_beta (snd ct) = Some b0 -> second_beta p (snd ct) = Some b1 ->
  b0 <= b1 -> b1 * b1 < cut_tsq n e ct -> cut_tsq n e ct + INR n * (b0 * b1) < 0 ->
  (exists e1, ell_update_bias_cut ct e = (e1, Ok Success) /\
     exists x, ell_in n e x /\ cut_sat n OpBias p e ct x /\ ~ ell_in n e1 x) /\
  (exists e1, ell_update_q ct e = (e1, Ok NoEffect)).
Proof. exact straddle_loses. Qed.
Print Assumptions C29_straddling_bias_cut_loses_points.

Example C29_case : pd_ell 2 true e4 /\ nonzero 2 (fv (fst straddle)) /\
  first_beta (snd straddle) = Some (-3/2) /\ second_beta true (snd straddle) = Some (3/2) /\
  3/2 * (3/2) < cut_tsq 2 e4 straddle /\ cut_tsq 2 e4 straddle + INR 2 * (-3/2 * (3/2)) < 0.
Proof.
  split; [apply e4_pd|]. split; [apply g1_nonzero|]. split; [reflexivity|]. split; [reflexivity|].
  unfold straddle. rewrite e4_tsq, INR_2. lra.
Qed.

(** C33, the part about [Ell]. *)
Theorem C33_zero_gradient_ell : forall k (g : vec RA) beta (e : ell RA),
  ~ nonzero (length g) (fv g) -> ell_update k (g, beta) e = (e, Err ValueError).
Proof. exact zero_gradient. Qed.
Print Assumptions C33_zero_gradient_ell.

Example C33_case_ell : ~ nonzero 2 (fv [0; 0]).
Proof. intros (i & Hi & H). apply H. destruct i as [|[|i]]; [reflexivity|reflexivity|lia]. Qed.

(** C61 *)
Theorem C61_missing_cut_accepted : forall n p (e : ell RA) k (ct : cut RA) b0 b1,
  pd_ell n p e -> k <> OpCentral ->
  vec_wf n (fst ct) -> nonzero n (fv (fst ct)) ->
  first_beta (snd ct) = Some b0 -> second_beta p (snd ct) = Some b1 ->
  b0 <= b1 -> b1 < - sqrt (cut_tsq n e ct) ->
  (forall x, ell_in n e x -> ~ cut_sat n k p e ct x) /\
  exists e1, ell_update k ct e = (e1, Ok Success) /\
    (no_defer_trick e = false -> kappa e1 < 0) /\
    (no_defer_trick e = false -> b0 < b1 ->
       forall (g2 : vec RA) b2, vec_wf n g2 -> nonzero n (fv g2) ->
       exists e2, ell_update_central_cut (g2, CSingle b2) e1 = (e2, Err ValueError)).
Proof. exact miss_accepted. Qed.
Print Assumptions C61_missing_cut_accepted.

Theorem C61_shallow_cut_asserts : forall n p (e : ell RA) (ct : cut RA) b0 b1,
  pd_ell n p e -> vec_wf n (fst ct) -> nonzero n (fv (fst ct)) ->
  first_beta (snd ct) = Some b0 -> second_beta p (snd ct) = Some b1 ->
  b0 < 0 -> sqrt (cut_tsq n e ct) <= b1 ->
  exists e1, ell_update_bias_cut ct e = (e1, Err AssertionError).
Proof. exact shallow_assert. Qed.
Print Assumptions C61_shallow_cut_asserts.

Example C61_case : pd_ell 2 true e4 /\ nonzero 2 (fv (fst missing)) /\
  first_beta (snd missing) = Some (-4) /\ second_beta true (snd missing) = Some (-3) /\
  -4 <= -3 /\ -3 < - sqrt (cut_tsq 2 e4 missing).
Proof.
  split; [apply e4_pd|]. split; [apply g1_nonzero|]. split; [reflexivity|]. split; [reflexivity|].
  unfold missing. rewrite e4_tsq, sqrt_4. lra.
Qed.
