(** Properties C30-C33 of [EllStable], and C20, C22, C34 and C36 for it. *)
From Coq Require Import Reals List ZArith Lra.
From Verif Require Import Arith Vec ModelCalc ModelEll ModelStable ModelCut ModelSpaces
  SpecDrivers Spec SpecCut SpecEll SpecStable SpecSearch.
From Verif Require Import PEll2 PEll3 PEllEx PSearchEx PStable5 PSearchStable PStableEx.
Import ListNotations.
Local Open Scope R_scope.

(** C30: built from the same arguments and given the same calls, both classes
    answer the same, and stand for the same ellipsoid. *)
Theorem C30_same_from_constructor : forall n v x0 (e : ell RA) l,
  ell_init v x0 = Ok e -> vec_wf n x0 -> val_pos n v -> grads_nonzero l -> grads_fit n l ->
  (forall l1 l2, l = l1 ++ l2 -> pd_ell n true (fst (ell_seq l1 e))) ->
  exists s, stable_init v x0 = Ok s /\
    snd (ell_seq l e) = snd (stable_seq l s) /\
    xc (fst (ell_seq l e)) = s_xc (fst (stable_seq l s)) /\
    kappa (fst (ell_seq l e)) = s_kappa (fst (stable_seq l s)) /\
    tsq (fst (ell_seq l e)) = s_tsq (fst (stable_seq l s)) /\
    forall x, ell_in n (fst (ell_seq l e)) x <-> stable_in n (fst (stable_seq l s)) x.
Proof. exact init_run_agree. Qed.
Print Assumptions C30_same_from_constructor.

(** From any pair of agreeing objects, whatever the parallel flag. *)
Theorem C30_same_run : forall n p (e : ell RA) (s : stable RA) l,
  stable_sound n p s -> agree n e s -> no_defer_trick e = false -> grads_nonzero l -> grads_fit n l ->
  (forall l1 l2, l = l1 ++ l2 -> pd_ell n p (fst (ell_seq l1 e))) ->
  snd (ell_seq l e) = snd (stable_seq l s) /\ agree n (fst (ell_seq l e)) (fst (stable_seq l s)) /\
  forall x, ell_in n (fst (ell_seq l e)) x <-> stable_in n (fst (stable_seq l s)) x.
Proof. exact run_agree. Qed.
Print Assumptions C30_same_run.

(** The constructors refuse the same arguments. *)
Theorem C30_same_refusal : forall v (x0 : vec RA) x, ell_init v x0 = Err x <-> stable_init v x0 = Err x.
Proof. exact init_fail. Qed.
Print Assumptions C30_same_refusal.

Example C30_case : ell_init (@VScalar RA 4) (@cons R 0 [0]) = Ok e4 /\
  val_pos 2 (@VScalar RA 4) /\ grads_nonzero [(OpBias, ct1)] /\ grads_fit 2 [(OpBias, ct1)] /\
  (forall l1 l2, [(OpBias, ct1)] = l1 ++ l2 -> pd_ell 2 true (fst (ell_seq l1 e4))) /\
  snd (ell_seq [(OpBias, ct1)] e4) = [Ok Success].
Proof.
  split; [apply e4_init|]. split; [cbn; lra|]. split; [apply ct1_nonzero|].
  split; [intros k ct [[= <- <-]|[]]; reflexivity|]. split; [apply run_pd_example|].
  cbn [ell_seq]. rewrite e4_update1. reflexivity.
Qed.
Example C30_case_agree : stable_sound 2 true s4 /\ agree 2 e4 s4.
Proof. split; [split|]; apply s4_agree. Qed.
Example C30_case_refusal : ell_init (@VScalar RA 4) (@cons R 0 []) = Err AssertionError.
Proof. apply small_init. Qed.

(** The containment and "no solution" statements hold for [EllStable] by
    itself, for every well-formed object. *)
Theorem C20_containment_stable : forall n p s k ct s1 x,
  stable_ok n p s -> s_no_defer_trick s = false ->
  stable_update k ct s = (s1, Ok Success) -> bias_cond n k p (snd ct) (s_tsq s1) ->
  stable_in n s x -> cut_holds k p (snd ct) (cutval n (fv (fst ct)) (fv (s_xc s)) x) ->
  stable_ok n p s1 /\ s_no_defer_trick s1 = false /\ stable_in n s1 x.
Proof. exact stable_contain. Qed.
Print Assumptions C20_containment_stable.

Theorem C22_nosoln_truthful_stable : forall n p s k ct s1,
  stable_ok n p s -> stable_update k ct s = (s1, Ok NoSoln) ->
  forall x, stable_in n s x -> ~ cut_holds k p (snd ct) (cutval n (fv (fst ct)) (fv (s_xc s)) x).
Proof. exact stable_nosoln. Qed.
Print Assumptions C22_nosoln_truthful_stable.

(** C23 for [EllStable]: outside [Success] and a division by zero nothing but
    scratch entries above the diagonal and [tsq] change. *)
Theorem C23_refused_unchanged_stable : forall n p s k ct s1 o,
  stable_ok n p s -> stable_update k ct s = (s1, o) ->
  o <> Ok Success -> o <> Err ZeroDivision ->
  stable_ok n p s1 /\ s_xc s1 = s_xc s /\ s_kappa s1 = s_kappa s /\ s_helper s1 = s_helper s /\
  s_no_defer_trick s1 = s_no_defer_trick s /\
  (forall i j, (j <= i < n)%nat -> fm (s_mq s1) i j = fm (s_mq s) i j) /\
  (forall x, stable_in n s1 x <-> stable_in n s x).
Proof. exact stable_unchanged. Qed.
Print Assumptions C23_refused_unchanged_stable.

(** C26 for [EllStable] *)
Theorem C26_tsq_bounds_stable : forall n p s k ct s1 o x,
  stable_ok n p s -> stable_update k ct s = (s1, o) -> vec_wf n (fst ct) -> stable_in n s x ->
  cutval n (fv (fst ct)) (fv (s_xc s)) x * cutval n (fv (fst ct)) (fv (s_xc s)) x <= s_tsq s1.
Proof. exact stable_near. Qed.
Print Assumptions C26_tsq_bounds_stable.

Example C20_case_stable : stable_ok 2 true s4 /\ s_no_defer_trick s4 = false /\
  (exists s1, stable_update OpBias ct1 s4 = (s1, Ok Success)) /\
  stable_in 2 s4 (pt (-1) 1) /\
  cut_holds OpBias true (snd ct1) (cutval 2 (fv (fst ct1)) (fv (s_xc s4)) (pt (-1) 1)) /\
  exists s1, stable_update OpBias ct3 s4 = (s1, Ok NoSoln).
Proof.
  split; [apply s4_agree|]. split; [reflexivity|].
  split; [destruct s4_update1 as (s1 & H & _); exists s1; exact H|].
  split; [apply s4_in; lra|]. split; [|apply s4_update3; discriminate].
  cbn [fst snd ct1]. rewrite g1_cutval. unfold cut_holds; cbn [first_beta second_beta].
  change (pt (-1) 1 0%nat) with (-1). change (fv (s_xc s4) 0%nat) with 0. split; [lra|exact I].
Qed.

(** C31, refuted: with the flag on, an accepted cut loses a point of the
    ellipsoid that satisfies the cut. *)
Theorem C31_no_defer_refuted : exists s ct s1 x,
  stable_ok 2 true s /\ s_no_defer_trick s = true /\
  stable_update OpCentral ct s = (s1, Ok Success) /\
  stable_in 2 s x /\ cut_holds OpCentral true (snd ct) (cutval 2 (fv (fst ct)) (fv (s_xc s)) x) /\
  ~ stable_in 2 s1 x.
Proof. exact flag_loses_point. Qed.
Print Assumptions C31_no_defer_refuted.

(** C32, refuted: an update that stops with a division by zero has already
    moved the centre. *)
Theorem C32_exception_safety_refuted : exists s ct s1 x,
  stable_ok 2 true s /\ s_no_defer_trick s = false /\
  stable_update OpBias ct s = (s1, Err x) /\ s_xc s1 <> s_xc s.
Proof. exact stable_centre_moves. Qed.
Print Assumptions C32_exception_safety_refuted.

(** In general: a cut that touches the ellipsoid in one point is accepted by
    [Ell], and stops [EllStable] after the centre was moved onto the cut. *)
Theorem C32_touching_cut_fails : forall n p (e : ell RA) (s : stable RA) k (g : vec RA) (b : R),
  pd_ell n p e -> stable_ok n p s -> agree n e s -> vec_wf n g -> nonzero n (fv g) -> k <> OpCentral ->
  0 < b -> b * b = cut_tsq n e (g, @CSingle RA b) ->
  (exists e1, ell_update k (g, @CSingle RA b) e = (e1, Ok Success)) /\
  exists s1, stable_update k (g, @CSingle RA b) s = (s1, Err ZeroDivision) /\
    cutval n (fv g) (fv (s_xc s)) (fv (s_xc s1)) = - b.
Proof. exact touching. Qed.
Print Assumptions C32_touching_cut_fails.

Example C32_case : pd_ell 2 true e4 /\ stable_ok 2 true s4 /\ agree 2 e4 s4 /\
  nonzero 2 (fv g1) /\ 2 * 2 = cut_tsq 2 e4 (g1, @CSingle RA 2).
Proof.
  split; [apply e4_pd|]. split; [apply s4_agree|]. split; [apply s4_agree|]. split; [apply g1_nonzero|].
  rewrite e4_tsq. lra.
Qed.

(** C33 for [EllStable]: a zero gradient is not refused as by [Ell]; a central
    cut divides by zero, a deep one is reported as "no solution". *)
Theorem C33_stable_zero_central : forall n p s (g : vec RA) b,
  stable_ok n p s -> vec_wf n g -> ~ nonzero n (fv g) ->
  exists s1, stable_update OpCentral (g, CSingle b) s = (s1, Err ZeroDivision) /\ s_xc s1 = s_xc s.
Proof. exact stable_zero_central. Qed.
Print Assumptions C33_stable_zero_central.

Theorem C33_stable_zero_deep : forall n p s (g : vec RA) (b : R),
  stable_ok n p s -> vec_wf n g -> ~ nonzero n (fv g) -> 0 < b ->
  exists s1, stable_update OpBias (g, @CSingle RA b) s = (s1, Ok NoSoln) /\ s_xc s1 = s_xc s.
Proof. exact stable_zero_deep. Qed.
Print Assumptions C33_stable_zero_deep.

Example C33_case_stable : stable_ok 2 true s4 /\ vec_wf 2 (@cons R 0 [0]) /\ ~ nonzero 2 (fv (@cons R 0 [0])).
Proof.
  split; [apply s4_agree|]. split; [reflexivity|]. intros (i & Hi & H). apply H.
  destruct i as [|[|i]]; [reflexivity|reflexivity|]. do 2 apply le_S_n in Hi. inversion Hi.
Qed.

(** C34 for [EllStable]; the final object is only covered when the run ends
    without an exception. *)
Theorem C34_feas_keeps_feasible_points_stable :
  forall n p (opt : options RA) (Orc : Type) (f : Orc -> vec RA -> Orc * res (option (cut RA)))
    (S : (nat -> R) -> Prop) o (e : stable RA) o' e' l u r,
  stable_sound n p e -> feas_oracle n p S f o ->
  cutting_plane_feas (logged_feas f) (logged_space (stable_space RA)) opt (o, []) (e, [])
    = ((o', l), (e', u), r) ->
  forall z, S z -> stable_in n e z ->
  ((exists v, r = Ok v) -> stable_in n e' z) /\ ~ said_nosoln u /\
  (forall m, r = Ok (None, m) -> Forall2 (fun q ev => confined n z (fst q) ev) l u).
Proof. exact stable_feas_kept. Qed.
Print Assumptions C34_feas_keeps_feasible_points_stable.

Theorem C34_nosoln_means_infeasible_stable :
  forall n p (opt : options RA) (Orc : Type) (f : Orc -> vec RA -> Orc * res (option (cut RA)))
    (S : (nat -> R) -> Prop) o (e : stable RA) o' e' l u r,
  stable_sound n p e -> feas_oracle n p S f o ->
  cutting_plane_feas (logged_feas f) (logged_space (stable_space RA)) opt (o, []) (e, [])
    = ((o', l), (e', u), r) ->
  said_nosoln u -> forall z, stable_in n e z -> ~ S z.
Proof. exact stable_feas_infeasible. Qed.
Print Assumptions C34_nosoln_means_infeasible_stable.

Theorem C34_small_means_thin_stable :
  forall n p (opt : options RA) (Orc : Type) (f : Orc -> vec RA -> Orc * res (option (cut RA)))
    (S : (nat -> R) -> Prop) o (e : stable RA) o' e' l u m,
  stable_sound n p e -> feas_oracle n p S f o ->
  cutting_plane_feas (logged_feas f) (logged_space (stable_space RA)) opt (o, []) (e, [])
    = ((o', l), (e', u), Ok (None, m)) ->
  stopped_small opt u ->
  forall z, S z -> stable_in n e z -> exists x a l' ev u', l = (x, a) :: l' /\ u = ev :: u' /\
    cutval n (fv (fst (ev_cut ev))) (fv x) z * cutval n (fv (fst (ev_cut ev))) (fv x) z < tolerance opt.
Proof. exact stable_feas_small. Qed.
Print Assumptions C34_small_means_thin_stable.

Example C34_case_stable : stable_sound 2 true s4 /\
  (exists l u e',
   cutting_plane_feas (logged_feas (half_feas 3)) (logged_space (stable_space RA)) opt5 (tt, []) (s4, [])
     = ((tt, l), (e', u), Ok (None, 0%Z)) /\ said_nosoln u) /\
  (half 1 (pt (-2) 0) /\ stable_in 2 s4 (pt (-2) 0) /\ exists l u e',
   cutting_plane_feas (logged_feas (half_feas 1)) (logged_space (stable_space RA)) opt5 (tt, []) (s4, [])
     = ((tt, l), (e', u), Ok (None, 0%Z)) /\ stopped_small opt5 u).
Proof.
  split; [split; apply s4_agree|]. split; [exact s4_half3_run|].
  split; [unfold half, pt, fv; cbn; lra|]. split; [apply s4_in; lra|exact s4_half1_run].
Qed.

(** C36 for [EllStable] *)
Theorem C36_optim_keeps_better_points_stable :
  forall n p (opt : options RA) (Orc G : Type)
    (f : Orc -> vec RA -> G -> Orc * res (cut RA * option G)) (S : G -> (nat -> R) -> Prop)
    o (e : stable RA) g o' e' l u x g' k,
  stable_sound n p e -> optim_oracle n p S f o g ->
  cutting_plane_optim (logged_optim f) (logged_space (stable_space RA)) opt (o, []) (e, []) g
    = ((o', l), (e', u), Ok (x, g', k)) ->
  forall z, S g' z -> S g z /\ (stable_in n e z ->
    stable_in n e' z /\ ~ said_nosoln u /\
    Forall2 (fun q ev => confined n z (fst (fst q)) ev) l u).
Proof. exact stable_optim_kept. Qed.
Print Assumptions C36_optim_keeps_better_points_stable.

Theorem C36_nosoln_means_optimal_stable :
  forall n p (opt : options RA) (Orc G : Type)
    (f : Orc -> vec RA -> G -> Orc * res (cut RA * option G)) (S : G -> (nat -> R) -> Prop)
    o (e : stable RA) g o' e' l u x g' k,
  stable_sound n p e -> optim_oracle n p S f o g ->
  cutting_plane_optim (logged_optim f) (logged_space (stable_space RA)) opt (o, []) (e, []) g
    = ((o', l), (e', u), Ok (x, g', k)) ->
  said_nosoln u -> forall z, stable_in n e z -> ~ S g' z.
Proof. exact stable_optim_optimal. Qed.
Print Assumptions C36_nosoln_means_optimal_stable.

Theorem C36_q_keeps_better_points_stable :
  forall n p (opt : options RA) (Orc G : Type)
    (f : Orc -> vec RA -> G -> bool -> Orc * res (cut RA * vec RA * option G * bool))
    (S : G -> (nat -> R) -> Prop) o (e : stable RA) g o' e' l u x g' k,
  stable_sound n p e -> optim_q_oracle n p S f o g ->
  cutting_plane_optim_q (logged_q f) (logged_space (stable_space RA)) opt (o, []) (e, []) g
    = ((o', l), (e', u), Ok (x, g', k)) ->
  forall z, S g' z -> S g z /\ (stable_in n e z ->
    stable_in n e' z /\ ~ said_nosoln u /\
    Forall2 (fun q ev => confined n z (fst (fst (fst q))) ev) l u).
Proof. exact stable_optim_q_kept. Qed.
Print Assumptions C36_q_keeps_better_points_stable.

Theorem C36_q_nosoln_means_optimal_stable :
  forall n p (opt : options RA) (Orc G : Type)
    (f : Orc -> vec RA -> G -> bool -> Orc * res (cut RA * vec RA * option G * bool))
    (S : G -> (nat -> R) -> Prop) o (e : stable RA) g o' e' l u x g' k,
  stable_sound n p e -> optim_q_oracle n p S f o g ->
  cutting_plane_optim_q (logged_q f) (logged_space (stable_space RA)) opt (o, []) (e, []) g
    = ((o', l), (e', u), Ok (x, g', k)) ->
  said_nosoln u -> forall z, stable_in n e z -> ~ S g' z.
Proof. exact stable_optim_q_optimal. Qed.
Print Assumptions C36_q_nosoln_means_optimal_stable.

Example C36_case_stable : stable_sound 2 true s4 /\
  optim_oracle 2 true below min_z0 tt (-3) /\ optim_q_oracle 2 true below min_z0_q tt (-3) /\
  (exists l u e',
   cutting_plane_optim (logged_optim min_z0) (logged_space (stable_space RA)) opt5 (tt, []) (s4, []) (-3)
     = ((tt, l), (e', u), Ok (None, -3, 0%Z)) /\ said_nosoln u) /\
  exists l u e',
   cutting_plane_optim_q (logged_q min_z0_q) (logged_space (stable_space RA)) opt5 (tt, []) (s4, []) (-3)
     = ((tt, l), (e', u), Ok (None, -3, 0%Z)) /\ said_nosoln u.
Proof.
  split; [split; apply s4_agree|]. split; [apply min_oracle|]. split; [apply min_q_oracle|].
  split; [exact s4_min_run|exact s4_min_q_run].
Qed.
