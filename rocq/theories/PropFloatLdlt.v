(** Properties C88-C91: the factorisation and the LMI oracles in doubles. *)
From Coq Require Import Reals List Arith Floats.
From Verif Require Import Arith Vec ModelCalc ModelEll ModelLdlt ModelLmi Spec SpecLdlt SpecFloating SpecFloatLdlt.
From Verif Require Import PFloatLdlt5 PFloatLmi PFloatLdltEx.
Import ListNotations.
Local Open Scope R_scope.

(** C88. In doubles "factor returns True" does not mean positive definite: the
    test [diag <= 0] is False for NaN.  A symmetric matrix of finite doubles with
    an eigenvalue below -2^499 is accepted. *)
Theorem C88_factor_decides_double_refuted : exists (a : mat FA) s v,
  square_mat 3 a /\ symmetric 3 (ffm a) /\ (forall i j, (i < 3)%nat -> (j < 3)%nat -> ffinite (mget a i j)) /\
  s = ldlt_init 3 /\ snd (factorize a s) = true /\ nonzero 3 v /\ quad 3 (ffm a) v <= - 2 ^ 499 * dot 3 v v.
Proof. exact ex_nan_accept. Qed.
Print Assumptions C88_factor_decides_double_refuted.

(** ... and so the LMI oracle can call an infeasible point feasible *)
Theorem C88_lmi_decides_double_refuted : exists (f : list (mat FA)) b x v,
  flmi_wf 3 (lmi_init f b) /\ length x = length f /\
  (forall i j, (i < 3)%nat -> (j < 3)%nat -> ffinite (mget b i j)) /\
  snd (lmi_assess_feas (lmi_init f b) x) = Ok None /\ nonzero 3 v /\ quad 3 (flmi_at f b x) v < 0.
Proof. exact ex_nan_lmi. Qed.
Print Assumptions C88_lmi_decides_double_refuted.

(** C89. If the pivots visited are finite, True means positive semidefinite up
    to a margin proportional to the diagonal and False means not positive
    definite by more than this margin. *)
Theorem C89_accept_nearly_psd : forall n g (s s1 : ldlt FA) A,
  shape n s -> INR n <= 1000000 -> matrix_of n g A ->
  factor g s = (s1, true) -> pivots_finite n s1 ->
  forall v, 0 <= quad n A v + ldlt_tol n A v.
Proof. exact accept_near. Qed.
Print Assumptions C89_accept_nearly_psd.

Theorem C89_reject_nearly_not_pd : forall n g (s s1 : ldlt FA) A,
  shape n s -> INR n <= 1000000 -> matrix_of n g A ->
  factor g s = (s1, false) -> pivots_finite n s1 ->
  exists v, nonzero n v /\ quad n A v <= ldlt_tol n A v.
Proof. exact reject_near. Qed.
Print Assumptions C89_reject_nearly_not_pd.

Example C89_accept_case : exists s1, factor (fun i j => mget pd2 i j) (ldlt_init 2) = (s1, true) /\ pivots_finite 2 s1 /\
  matrix_of 2 (fun i j => mget pd2 i j) (ffm pd2) /\ shape (A:=FA) 2 (ldlt_init 2) /\ INR 2 <= 1000000.
Proof. exact ex_accept. Qed.
Example C89_reject_case : exists s1, factor (fun i j => mget nd2 i j) (ldlt_init 2) = (s1, false) /\ pivots_finite 2 s1 /\
  matrix_of 2 (fun i j => mget nd2 i j) (ffm nd2) /\ shape (A:=FA) 2 (ldlt_init 2) /\ INR 2 <= 1000000.
Proof. exact ex_reject. Qed.

(** C90. The LMI oracle in doubles: the same for the exact matrix [B - sum x_k F_k]. *)
Theorem C90_lmi_accept_double : forall m (o : lmi FA) x S,
  flmi_wf m o -> length x = length (mat_f o) -> INR m <= 1000000 -> INR (length x) <= 1000000 ->
  flmi_size m (mat_f o) (mat_f0 o) x S ->
  forall o', lmi_assess_feas o x = (o', Ok None) -> pivots_finite m (ldlt_mgr o') ->
  above m (- flmi_margin m (length x) S) (flmi_at (mat_f o) (mat_f0 o) x).
Proof. exact flmi_accept. Qed.
Print Assumptions C90_lmi_accept_double.

Theorem C90_lmi_reject_double : forall m (o : lmi FA) x S,
  flmi_wf m o -> length x = length (mat_f o) -> INR m <= 1000000 -> INR (length x) <= 1000000 ->
  flmi_size m (mat_f o) (mat_f0 o) x S ->
  forall o' c, lmi_assess_feas o x = (o', Ok (Some c)) -> pivots_finite m (ldlt_mgr o') ->
  exists v, nonzero m v /\
    quad m (flmi_at (mat_f o) (mat_f0 o) x) v <= flmi_margin m (length x) S * dot m v v.
Proof. exact flmi_reject. Qed.
Print Assumptions C90_lmi_reject_double.

Example C90_case : flmi_wf 2 (lmi_init [id2] pd2b) /\ flmi_size 2 [id2] pd2b [0.5%float] 4 /\ flmi_size 2 [id2] pd2b [2%float] 4 /\
  (exists o, lmi_assess_feas (lmi_init [id2] pd2b) [0.5%float] = (o, Ok None) /\ pivots_finite 2 (ldlt_mgr o)) /\
  (exists o g ep, lmi_assess_feas (lmi_init [id2] pd2b) [2%float] = (o, Ok (Some (g, CSingle ep))) /\ pivots_finite 2 (ldlt_mgr o)).
Proof. exact ex_flmi. Qed.
Example C90_margin_case : flmi_margin 2 1 4 <= / 10 ^ 12.
Proof. exact ex_margin. Qed.

(** C91. In doubles too every cut of the LMI oracles is deep or neutral: the
    offset is a number and at least zero. *)
Theorem C91_lmi_cut_nonneg_double : forall m (o : lmi FA) x o' g be, shape m (ldlt_mgr o) ->
  lmi_assess_feas o x = (o', Ok (Some (g, be))) -> exists ep, be = CSingle ep /\ fnonneg ep.
Proof. exact flmi_cut_nonneg. Qed.
Print Assumptions C91_lmi_cut_nonneg_double.

Theorem C91_lmi_old_cut_nonneg_double : forall m (o : lmi FA) x o' g be, shape m (ldlt_mgr o) ->
  lmi_old_assess_feas o x = (o', Ok (Some (g, be))) -> exists ep, be = CSingle ep /\ fnonneg ep.
Proof. exact flmi_old_cut_nonneg. Qed.
Print Assumptions C91_lmi_old_cut_nonneg_double.

Theorem C91_lmi0_cut_nonneg_double : forall m (o : lmi0 FA) x o' g be, shape m (ldlt0_mgr o) ->
  lmi0_assess_feas o x = (o', Ok (Some (g, be))) -> exists ep, be = CSingle ep /\ fnonneg ep.
Proof. exact flmi0_cut_nonneg. Qed.
Print Assumptions C91_lmi0_cut_nonneg_double.

Example C91_case : shape 2 (ldlt_mgr (lmi_init [id2] pd2b)) /\
  (exists g ep, snd (lmi_assess_feas (lmi_init [id2] pd2b) [2%float]) = Ok (Some (g, CSingle ep))) /\
  (exists g ep, snd (lmi_old_assess_feas (lmi_init [id2] pd2b) [2%float]) = Ok (Some (g, CSingle ep))) /\
  exists o, lmi0_init [id2] = Ok o /\ shape 2 (ldlt0_mgr o) /\
    exists g ep, snd (lmi0_assess_feas o [(-1)%float]) = Ok (Some (g, CSingle ep)).
Proof. exact ex_cuts. Qed.
