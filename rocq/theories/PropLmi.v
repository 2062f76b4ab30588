(** Properties C42-C47: the linear matrix inequality oracles. *)
From Coq Require Import Reals List Arith Lia Lra ZArith.
From Verif Require Import Arith Vec ModelCalc ModelEll ModelStable ModelLdlt ModelLmi ModelCut ModelSpaces
  SpecDrivers Spec SpecCut SpecEll SpecSearch SpecStable SpecLdlt.
From Verif Require Import PEll2 PEllEx PSearchEx PStableEx PLmi PLmi2 PLmi3.
Import ListNotations.
Local Open Scope R_scope.

(** C42: None means positive definite, and only that; no exception; the data
    is not changed. *)
Theorem C42_lmi_decides : forall m (o : lmi RA) x o' r,
  lmi_wf m o -> lmi_assess_feas o x = (o', r) ->
  (exists a, r = Ok a) /\ (r = Ok None <-> posdef m (lmi_at (mat_f o) (mat_f0 o) (fv x))) /\
  lmi_wf m o' /\ mat_f o' = mat_f o /\ mat_f0 o' = mat_f0 o.
Proof. exact lmi_decides. Qed.
Print Assumptions C42_lmi_decides.

(** Constructing the oracle from symmetric matrices gives such an object. *)
Theorem C42_init : forall m (f : list (mat RA)) (b : mat RA), sym_mat m b -> Forall (sym_mat m) f ->
  lmi_wf m (lmi_init f b) /\ mat_f (lmi_init f b) = f /\ mat_f0 (lmi_init f b) = b.
Proof. exact lmi_init_wf. Qed.
Print Assumptions C42_init.

Example C42_case : lmi_wf 2 doc_lmi /\
  posdef 2 (lmi_at (mat_f doc_lmi) (mat_f0 doc_lmi) (fv [0; 0])) /\
  ~ posdef 2 (lmi_at (mat_f doc_lmi) (mat_f0 doc_lmi) (fv [3; 0])).
Proof. exact (conj doc_lmi_wf (conj doc_lmi_in doc_lmi_out)). Qed.

(** C43: the cuts are deep or neutral and keep every solution of the
    non-strict inequality. *)
Theorem C43_lmi_cut_valid : forall m (o : lmi RA) x o' g be,
  lmi_wf m o -> lmi_assess_feas o x = (o', Ok (Some (g, be))) ->
  length g = length (mat_f o) /\ exists ep, be = @CSingle RA ep /\ 0 <= ep /\
  (forall y, possemidef m (lmi_at (mat_f o) (mat_f0 o) y) -> cutval (length (mat_f o)) (fv g) (fv x) y + ep <= 0).
Proof. exact lmi_cut. Qed.
Print Assumptions C43_lmi_cut_valid.

Example C43_case : lmi_wf 2 doc_lmi /\
  exists o' g be, lmi_assess_feas doc_lmi (@cons R 3 [0]) = (o', Ok (Some (g, be))).
Proof. exact (conj doc_lmi_wf doc_lmi_cut). Qed.

(** C44: the homogeneous oracle; with more variables than matrices it raises. *)
Theorem C44_lmi0_decides : forall m (o : lmi0 RA) x o' r,
  lmi0_wf m o -> (length x <= length (mat0_f o))%nat -> lmi0_assess_feas o x = (o', r) ->
  (exists a, r = Ok a) /\ (r = Ok None <-> posdef m (lmi0_at (mat0_f o) (fv x))) /\
  lmi0_wf m o' /\ mat0_f o' = mat0_f o.
Proof. exact lmi0_decides. Qed.
Print Assumptions C44_lmi0_decides.

Theorem C44_lmi0_cut_valid : forall m (o : lmi0 RA) x o' g be,
  lmi0_wf m o -> (length x <= length (mat0_f o))%nat ->
  lmi0_assess_feas o x = (o', Ok (Some (g, be))) ->
  length g = length (mat0_f o) /\ exists ep, be = @CSingle RA ep /\ 0 <= ep /\
  (forall y, possemidef m (lmi0_at (mat0_f o) y) -> cutval (length (mat0_f o)) (fv g) (fv x) y + ep <= 0).
Proof. exact lmi0_cut. Qed.
Print Assumptions C44_lmi0_cut_valid.

Theorem C44_init : forall m (f : list (mat RA)), f <> [] -> Forall (sym_mat m) f ->
  exists o, lmi0_init f = Ok o /\ lmi0_wf m o /\ mat0_f o = f.
Proof. exact lmi0_init_wf. Qed.
Print Assumptions C44_init.

Theorem C44_init_empty : lmi0_init (A:=RA) [] = Err IndexError.
Proof. exact eq_refl. Qed.
Print Assumptions C44_init_empty.

Theorem C44_lmi0_too_many_variables : forall m (o : lmi0 RA) x,
  lmi0_wf m o -> (0 < m)%nat -> (length (mat0_f o) < length x)%nat ->
  lmi0_assess_feas o x = (o, Err IndexError).
Proof. exact lmi0_too_long. Qed.
Print Assumptions C44_lmi0_too_many_variables.

(** without rows nothing is read, every point is accepted *)
Theorem C44_lmi0_no_rows : forall (o : lmi0 RA) x, lmi0_wf 0 o -> snd (lmi0_assess_feas o x) = Ok None.
Proof. exact lmi0_no_rows. Qed.
Print Assumptions C44_lmi0_no_rows.

Example C44_no_rows_case : exists o, lmi0_init (A:=RA) [[]] = Ok o /\ lmi0_wf 0 o.
Proof.
  destruct (C44_init 0 [[]]) as (o & H & W & _); [discriminate| |exact (ex_intro _ o (conj H W))].
  constructor; [|constructor]. split; [split; [reflexivity|]|]; intros i; intros; exfalso; lia.
Qed.

Example C44_case : lmi0_wf 2 doc_lmi0 /\
  exists o' g be, lmi0_assess_feas doc_lmi0 (@cons R (-1) [0]) = (o', Ok (Some (g, be))).
Proof. exact (conj doc_lmi0_wf doc_lmi0_cut). Qed.

(** C45: over any arithmetic (so also for floats) the two implementations
    answer every sequence of questions alike, whatever is left in their
    factorisation managers. *)
Theorem C45_old_oracle_same : forall (A : Arith) m (qs : list (vec A)) (o o' : lmi A),
  lmi_shape m o -> lmi_shape m o' -> mat_f o' = mat_f o -> mat_f0 o' = mat_f0 o ->
  Forall (fun x => length x = length (mat_f o)) qs ->
  answers lmi_old_assess_feas o' qs = answers lmi_assess_feas o qs.
Proof. exact (fun A m qs o o' H1 H2 H3 H4 => lmi_old_same m qs o o' (conj H1 (conj H2 (conj H3 H4)))). Qed.
Print Assumptions C45_old_oracle_same.

(** Outside that range the older implementation raises. *)
Theorem C45_old_too_many_variables : forall (A : Arith) (o : lmi A) x, (length (mat_f o) < length x)%nat ->
  lmi_old_assess_feas o x = (o, Err IndexError).
Proof. exact lmi_old_too_long. Qed.
Print Assumptions C45_old_too_many_variables.

Example C45_case : lmi_shape 2 doc_lmi /\ Forall (fun x => length x = length (mat_f doc_lmi)) [@cons R 3 [0]; @cons R 0 [0]].
Proof.
  destruct doc_lmi_wf as ((B & _) & F & L). split; [|repeat constructor].
  split; [exact B|]. split; [|exact L]. eapply Forall_impl; [|exact F]. intros a H. apply H.
Qed.

(** C46: a vanishing gradient with a positive violation proves infeasibility,
    but the run with [Ell] ends in an exception. *)
Theorem C46_zero_gradient_infeasible : forall m (o : lmi RA) x o' g ep,
  lmi_wf m o -> lmi_assess_feas o x = (o', Ok (Some (g, @CSingle RA ep))) ->
  (forall k, (k < length (mat_f o))%nat -> fv g k = 0) -> 0 < ep ->
  forall y, ~ possemidef m (lmi_at (mat_f o) (mat_f0 o) y).
Proof. exact lmi_zero_grad. Qed.
Print Assumptions C46_zero_gradient_infeasible.

Theorem C46_run_raises : forall opt (e : ell RA), (0 < budget opt)%nat -> vec_wf 2 (xc e) -> exists o' e',
  cutting_plane_feas lmi_assess_feas (ell_space RA) opt bad_lmi e = (o', e', Err ValueError).
Proof. exact bad_lmi_crash. Qed.
Print Assumptions C46_run_raises.

Example C46_case : lmi_wf 1 bad_lmi /\ vec_wf 2 (xc e4) /\
  exists o' g ep, lmi_assess_feas bad_lmi (xc e4) = (o', Ok (Some (g, @CSingle RA ep))) /\
  length g = 2%nat /\ ~ nonzero 2 (fv g) /\ 0 < ep.
Proof. exact (conj bad_lmi_wf (conj eq_refl (bad_lmi_call (xc e4) eq_refl))). Qed.

(** C47: end to end. *)
Theorem C47_accepted_is_solution : forall (St : Type) (sp : space_ops RA St (vec RA) (cut RA)) opt m
    (o : lmi RA) s o' s' x k,
  lmi_wf m o -> cutting_plane_feas lmi_assess_feas sp opt o s = (o', s', Ok (Some x, k)) ->
  posdef m (lmi_at (mat_f o) (mat_f0 o) (fv x)).
Proof. exact @lmi_accepted. Qed.
Print Assumptions C47_accepted_is_solution.

Theorem C47_nosoln_means_infeasible : forall m n p opt (o : lmi RA) (e : ell RA) o' e' l u r,
  lmi_wf m o -> length (mat_f o) = n -> psd_ell n p e ->
  cutting_plane_feas (logged_feas lmi_assess_feas) (logged_space (ell_space RA)) opt (o, []) (e, []) = ((o', l), (e', u), r) ->
  said_nosoln u -> forall y, ell_in n e y -> ~ possemidef m (lmi_at (mat_f o) (mat_f0 o) y).
Proof. exact lmi_ell_infeasible. Qed.
Print Assumptions C47_nosoln_means_infeasible.

Theorem C47_small_means_thin : forall m n p opt (o : lmi RA) (e : ell RA) o' e' l u k,
  lmi_wf m o -> length (mat_f o) = n -> psd_ell n p e ->
  cutting_plane_feas (logged_feas lmi_assess_feas) (logged_space (ell_space RA)) opt (o, []) (e, [])
    = ((o', l), (e', u), Ok (None, k)) ->
  stopped_small opt u -> forall y, ell_in n e y -> possemidef m (lmi_at (mat_f o) (mat_f0 o) y) ->
  exists x a l' ev u', l = (x, a) :: l' /\ u = ev :: u' /\
    cutval n (fv (fst (ev_cut ev))) (fv x) y * cutval n (fv (fst (ev_cut ev))) (fv x) y < tolerance opt.
Proof. exact lmi_ell_small. Qed.
Print Assumptions C47_small_means_thin.

Theorem C47_nosoln_means_infeasible_stable : forall m n p opt (o : lmi RA) (e : stable RA) o' e' l u r,
  lmi_wf m o -> length (mat_f o) = n -> stable_sound n p e ->
  cutting_plane_feas (logged_feas lmi_assess_feas) (logged_space (stable_space RA)) opt (o, []) (e, []) = ((o', l), (e', u), r) ->
  said_nosoln u -> forall y, stable_in n e y -> ~ possemidef m (lmi_at (mat_f o) (mat_f0 o) y).
Proof. exact lmi_stable_infeasible. Qed.
Print Assumptions C47_nosoln_means_infeasible_stable.

(** [x0 < -3] against the disc of radius 2 *)
Example C47_case : lmi_wf 1 far_lmi /\ length (mat_f far_lmi) = 2%nat /\ psd_ell 2 true e4 /\
  exists o' l u e',
  cutting_plane_feas (logged_feas lmi_assess_feas) (logged_space (ell_space RA)) opt5 (far_lmi, []) (e4, [])
    = ((o', l), (e', u), Ok (None, 0%Z)) /\ said_nosoln u.
Proof. exact (conj far_lmi_wf (conj eq_refl (conj (pd_psd _ _ _ e4_pd) far_run))). Qed.
