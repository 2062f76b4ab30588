(** Properties C92-C94: the drafts [ell1d.tpy], [lmi2_oracle.tpy] and
    [lmi3_oracle.tpy]. *)
From Coq Require Import Reals List Arith Lra.
From Verif Require Import Arith Vec ModelCalc ModelEll ModelLdlt ModelLmi ModelDraft Spec SpecLdlt SpecDraft SpecFloating.
From Verif Require Import PLmi3 PDraft PDraftEx.
Import ListNotations.
Local Open Scope R_scope.

(** C92: the interval.  Unless the gradient vanishes, an update cuts exactly:
    the new interval is the part of the old one on the right side of the cut. *)
Theorem C92_init : forall (l u y : R), in_interval (ell1d_init (A:=RA) l u) y <-> l <= y <= u.
Proof. exact interval_init. Qed.
Print Assumptions C92_init.

Theorem C92_update_exact : forall (grad beta : R) central (e : ell1d RA), 0 <= d_rd e ->
  grad <> 0 \/ central = false /\ beta <> 0 ->
  exists e' st, ell1d_update (A:=RA) grad beta central e = (e', Ok st) /\ d_tsq e' = Rsqr (d_rd e * grad) /\
  let b := if central then 0 else beta in
  match st with
  | Success => 0 <= d_rd e' /\ forall y, in_interval e' y <-> in_interval e y /\ half_line e grad b y
  | NoSoln => d_rd e' = d_rd e /\ d_xc e' = d_xc e /\ forall y, in_interval e y -> ~ half_line e grad b y
  | NoEffect => d_rd e' = d_rd e /\ d_xc e' = d_xc e /\ forall y, in_interval e y -> half_line e grad b y
  | Unknown => False
  end.
Proof. exact ell1d_exact. Qed.
Print Assumptions C92_update_exact.

Theorem C92_halves : forall (grad beta : R) central (e e' : ell1d RA), 0 <= d_rd e -> central = true \/ 0 <= beta ->
  ell1d_update (A:=RA) grad beta central e = (e', Ok Success) -> 2 * d_rd e' <= d_rd e.
Proof. exact ell1d_halves. Qed.
Print Assumptions C92_halves.

(** A zero gradient with [beta = 0] says nothing, yet half the interval goes. *)
Theorem C92_zero_gradient_refuted : exists (e : ell1d RA) e' y, 0 <= d_rd e /\
  ell1d_update (A:=RA) 0 0 false e = (e', Ok Success) /\
  in_interval e y /\ half_line e 0 0 y /\ ~ in_interval e' y.
Proof. exact ell1d_zero. Qed.
Print Assumptions C92_zero_gradient_refuted.

(** In doubles the constructor already loses an end point. *)
Theorem C92_init_double_refuted : exists l u : num FA, ffinite l /\ ffinite u /\ fval l < fval u /\
  let e := ell1d_init l u in ffinite (d_rd e) /\ ffinite (d_xc e) /\ fval (d_xc e) + fval (d_rd e) < fval u.
Proof. exact init_loses. Qed.
Print Assumptions C92_init_double_refuted.

Example C92_case : 0 <= d_rd e01 /\ exists e', ell1d_update (A:=RA) 1 (1/4) false e01 = (e', Ok Success).
Proof. exact e01_case. Qed.

(** C93: the two-sided inequality.  The answer is None exactly strictly
    inside; otherwise a parallel cut that keeps every solution. *)
Theorem C93_lmi2_decides : forall m (o : lmi RA) x o' r,
  lmi_wf m o -> length x = length (mat_f o) -> lmi2_assess_feas o x = (o', r) ->
  (exists a, r = Ok a) /\
  (r = Ok None <-> posdef m (lmi0_at (mat_f o) (fv x)) /\ posdef m (lmi_at (mat_f o) (mat_f0 o) (fv x))) /\
  lmi_wf m o' /\ mat_f o' = mat_f o /\ mat_f0 o' = mat_f0 o.
Proof. exact lmi2_decides. Qed.
Print Assumptions C93_lmi2_decides.

Theorem C93_lmi2_cut_valid : forall m (o : lmi RA) x o' g be,
  lmi_wf m o -> length x = length (mat_f o) -> lmi2_assess_feas o x = (o', Ok (Some (g, be))) ->
  length g = length (mat_f o) /\ exists b0 b1, be = CList (A:=RA) [Some b0; Some b1] /\ 0 <= b0 /\
  forall y, lmi2_sol m (mat_f o) (mat_f0 o) y -> sat_parallel (length (mat_f o)) (fv g) (fv x) b0 b1 y.
Proof. exact lmi2_cut. Qed.
Print Assumptions C93_lmi2_cut_valid.

Theorem C93_init : forall m (f : list (mat RA)) (u : mat RA), sym_mat m u -> Forall (sym_mat m) f ->
  lmi_wf m (lmi2_init f u) /\ mat_f (lmi2_init f u) = f /\ mat_f0 (lmi2_init f u) = u.
Proof. exact lmi_init_wf. Qed.
Print Assumptions C93_init.

Example C93_case : lmi_wf 2 doc_lmi /\ lmi2_sol 2 (mat_f doc_lmi) (mat_f0 doc_lmi) (fv [1; 0]) /\
  (exists o' g be, lmi2_assess_feas doc_lmi (@cons R 3 [0]) = (o', Ok (Some (g, be)))) /\
  (exists o' g be, lmi2_assess_feas doc_lmi (@cons R (-1) [0]) = (o', Ok (Some (g, be)))).
Proof. exact (conj doc_lmi_wf (conj doc_lmi2_sol (conj doc_lmi2_cut doc_lmi2_cut0))). Qed.

(** C94: the inequality turned round, [B <= F(x)]. *)
Theorem C94_lmi3_decides : forall m b (o : lmi RA) x o' r,
  sym_mat m b -> lmi_wf m o -> mat_f0 o = map (map Ropp) b ->
  length x = length (mat_f o) -> lmi3_assess_feas o x = (o', r) ->
  (exists a, r = Ok a) /\ (r = Ok None <-> posdef m (lmi3_at (mat_f o) b (fv x))) /\
  lmi_wf m o' /\ mat_f o' = mat_f o /\ mat_f0 o' = mat_f0 o.
Proof. exact lmi3_decides. Qed.
Print Assumptions C94_lmi3_decides.

Theorem C94_lmi3_cut_valid : forall m b (o : lmi RA) x o' g be,
  sym_mat m b -> lmi_wf m o -> mat_f0 o = map (map Ropp) b ->
  length x = length (mat_f o) -> lmi3_assess_feas o x = (o', Ok (Some (g, be))) ->
  length g = length (mat_f o) /\ exists ep, be = CSingle (A:=RA) ep /\ 0 <= ep /\
  forall y, possemidef m (lmi3_at (mat_f o) b y) -> sat_single (length (mat_f o)) (fv g) (fv x) ep y.
Proof. exact lmi3_cut. Qed.
Print Assumptions C94_lmi3_cut_valid.

Theorem C94_init : forall m (f : list (mat RA)) (b : mat RA), sym_mat m b -> Forall (sym_mat m) f ->
  lmi_wf m (lmi3_init f b) /\ mat_f (lmi3_init f b) = f /\ mat_f0 (lmi3_init f b) = map (map Ropp) b.
Proof. exact lmi3_init_wf. Qed.
Print Assumptions C94_init.

(** Both drafts raise when there are more variables than matrices. *)
Theorem C94_too_many_variables : forall m (o : lmi RA) x, lmi_wf m o -> (0 < m)%nat -> (length (mat_f o) < length x)%nat ->
  lmi2_assess_feas o x = (o, Err IndexError) /\ lmi3_assess_feas o x = (o, Err IndexError).
Proof. exact drafts_too_long. Qed.
Print Assumptions C94_too_many_variables.

(** With matrices of no rows there is nothing to violate, and [mat_f] is never
    looked into: every point is accepted, of whatever length. *)
Theorem C94_no_rows : forall (o : lmi RA) x, lmi_wf 0 o ->
  snd (lmi2_assess_feas o x) = Ok None /\ snd (lmi3_assess_feas o x) = Ok None.
Proof. exact drafts_no_rows. Qed.
Print Assumptions C94_no_rows.

Example C94_no_rows_case : lmi_wf 0 (lmi2_init (A:=RA) [[]] []).
Proof. exact drafts_no_rows_case. Qed.

Example C94_case : lmi_wf 2 doc_lmi3 /\ mat_f0 doc_lmi3 = map (map Ropp) [[2; 0]; [0; 2]] /\
  exists o' g be, lmi3_assess_feas doc_lmi3 (@cons R 1 [0]) = (o', Ok (Some (g, be))).
Proof. exact (conj (proj1 doc_lmi3_wf) (conj (proj1 (proj2 doc_lmi3_wf)) doc_lmi3_cut)). Qed.
