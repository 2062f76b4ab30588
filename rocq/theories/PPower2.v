(** What the stopping tests of the power iterations guarantee, monotonicity
    and rate of convergence. *)
From Coq Require Import Reals List Arith ZArith Lia Lra Psatz Bool.
From Verif Require Import Arith Vec ModelPower Spec SpecCG SpecPower PCalc PSum PVec PCG PCG2 PPower.
Import ListNotations.
Local Open Scope R_scope.

(** ** Residuals *)
Lemma mv_bound n M a d i : (i < n)%nat -> (forall j, (j < n)%nat -> Rabs (M i j) <= a) ->
  Rabs (mv n M d i) <= a * norm1 n d.
Proof.
  intros Hi B. unfold mv, norm1. rewrite <- sumn_scal.
  assert (T : forall m f, Rabs (sumn m f) <= sumn m (fun j => Rabs (f j))).
  { induction m as [|m IH]; intros f; simpl; [rewrite Rabs_R0; lra|].
    eapply Rle_trans; [apply Rabs_triang|]. specialize (IH f). lra. }
  eapply Rle_trans; [apply T|]. apply sumn_le. intros j Hj. rewrite Rabs_mult.
  apply Rmult_le_compat_r; [apply Rabs_pos|apply B, Hj].
Qed.

Lemma norm_le_max n d c : 0 <= c -> (forall i, (i < n)%nat -> Rabs (d i) <= c) -> norm n d <= sqrt (INR n) * c.
Proof.
  intros C B. unfold norm. rewrite <- (sqrt_Rsqr c C), <- sqrt_mult_alt by apply pos_INR. apply sqrt_le_1_alt.
  unfold dot. rewrite <- sumn_const. apply sumn_le. intros i Hi. specialize (B i Hi). unfold Rsqr.
  pose proof (Rabs_pos (d i)). replace (d i * d i) with (Rabs (d i) * Rabs (d i)) by (rewrite <- Rabs_mult; apply Rabs_right; nra). nra.
Qed.

Lemma norm1_le_norm n d : norm1 n d <= sqrt (INR n) * norm n d.
Proof.
  pose proof (cauchy_schwarz n (fun _ => 1) (fun i => Rabs (d i))) as C.
  assert (E1 : dot n (fun _ => 1) (fun i => Rabs (d i)) = norm1 n d) by (apply sumn_ext; intros; ring).
  assert (E2 : dot n (fun _ => 1) (fun _ => 1) = INR n) by (unfold dot; rewrite sumn_const; ring).
  assert (E3 : dot n (fun i => Rabs (d i)) (fun i => Rabs (d i)) = dot n d d).
  { apply sumn_ext. intros. rewrite <- Rabs_mult. apply Rabs_right. nra. }
  rewrite E1, E2, E3 in C. unfold norm. rewrite <- sqrt_mult_alt by apply pos_INR.
  rewrite <- (sqrt_Rsqr (norm1 n d)) by apply norm1_ge_0. apply sqrt_le_1_alt. exact C.
Qed.

Lemma norm_le_norm1 n d : norm n d <= norm1 n d.
Proof.
  unfold norm. rewrite <- (sqrt_Rsqr (norm1 n d)) by apply norm1_ge_0. apply sqrt_le_1_alt.
  unfold dot, norm1, Rsqr. induction n as [|n IH]; simpl; [lra|].
  set (s := sumn n (fun i => Rabs (d i))) in *. assert (0 <= s) by (apply sumn_ge_0; intros; apply Rabs_pos).
  pose proof (Rabs_pos (d n)). replace (d n * d n) with (Rabs (d n) * Rabs (d n)) by (rewrite <- Rabs_mult; apply Rabs_right; nra). nra.
Qed.

(** the Rayleigh quotient has the smallest residual *)
Lemma rayleigh_best n M u nu : dot n u u = 1 ->
  norm n (fun i => mv n M u i - quad n M u * u i) <= norm n (fun i => mv n M u i - nu * u i).
Proof.
  intros U. apply sqrt_le_1_alt.
  assert (E : forall c, dot n (fun i => mv n M u i - c * u i) (fun i => mv n M u i - c * u i) =
    dot n (mv n M u) (mv n M u) - 2 * c * quad n M u + c * c).
  { intros c. rewrite dot_minus_l, !dot_minus_r, !dot_scal_l, !dot_scal_r, U.
    rewrite (dot_comm n (mv n M u) u). unfold quad, bil. ring. }
  rewrite !E. set (q := quad n M u). pose proof (Rle_0_sqr (q - nu)). unfold Rsqr in *. lra.
Qed.

Lemma residual_general n M a w w' nu tol : nonzero n w' -> 0 <= a ->
  (forall i j, (i < n)%nat -> (j < n)%nat -> Rabs (M i j) <= a) ->
  (forall i, (i < n)%nat -> mv n M w i = nu * w' i) -> close_up_to_sign n tol w' w ->
  norm n (fun i => mv n M (unit2 n w') i - quad n M (unit2 n w') * unit2 n w' i) <= sqrt (INR n) * (a * tol) / norm n w'.
Proof.
  intros N A B E C. pose proof (norm_pos _ _ N) as P.
  assert (H : exists c, forall i, (i < n)%nat -> Rabs (mv n M w' i - c * w' i) <= a * tol).
  { destruct C as [C|C].
    - exists nu. intros i Hi. rewrite <- (E i Hi), <- mv_minus.
      eapply Rle_trans; [apply (mv_bound n M a); auto|]. apply Rmult_le_compat_l; assumption.
    - exists (- nu). intros i Hi. replace (mv n M w' i - - nu * w' i) with (mv n M w' i + mv n M w i) by (rewrite E by exact Hi; ring).
      rewrite <- mv_plus. eapply Rle_trans; [apply (mv_bound n M a); auto|]. apply Rmult_le_compat_l; assumption. }
  destruct H as (c & H). eapply Rle_trans; [apply (rayleigh_best n M _ c), unit2_dot, N|].
  unfold Rdiv. rewrite Rmult_assoc. assert (T : 0 <= tol).
  { destruct C as [C|C]; (eapply Rle_trans; [apply norm1_ge_0|exact C]). }
  apply norm_le_max.
  { apply Rmult_le_pos; [apply Rmult_le_pos; assumption|]. left. apply Rinv_0_lt_compat, P. }
  intros i Hi. assert (U : mv n M (unit2 n w') i = / norm n w' * mv n M w' i).
  { rewrite <- mv_scal. apply mv_ext; intros; [reflexivity|]. unfold unit2. field. lra. }
  rewrite U. unfold unit2.
  replace (/ norm n w' * mv n M w' i - c * (w' i / norm n w')) with ((mv n M w' i - c * w' i) * / norm n w') by (field; lra).
  rewrite Rabs_mult, (Rabs_right (/ norm n w')).
  - apply Rmult_le_compat_r; [left; apply Rinv_0_lt_compat, P|apply H, Hi].
  - left. apply Rinv_0_lt_compat, P.
Qed.

Lemma unit2_ext n f g : (forall i, (i < n)%nat -> f i = g i) -> forall i, (i < n)%nat -> unit2 n f i = unit2 n g i.
Proof. intros E i Hi. unfold unit2. rewrite (norm_ext n f g E), E by exact Hi. reflexivity. Qed.

Lemma unit2_norm n f : nonzero n f -> norm n (unit2 n f) = 1.
Proof. intros N. unfold norm. rewrite unit2_dot by exact N. apply sqrt_1. Qed.

Lemma nonzero_scal n c f : c <> 0 -> nonzero n f -> nonzero n (fun i => c * f i).
Proof. intros C (i & Hi & N). exists i. split; [exact Hi|]. apply Rmult_integral_contrapositive_currified; assumption. Qed.
Lemma nonzero_ext n f g : (forall i, (i < n)%nat -> f i = g i) -> nonzero n f -> nonzero n g.
Proof. intros E (i & Hi & N). exists i. split; [exact Hi|]. rewrite <- E by exact Hi. exact N. Qed.
Lemma unit2_nonzero n f : nonzero n f -> nonzero n (unit2 n f).
Proof.
  intros N. pose proof (norm_pos _ _ N). apply (nonzero_ext n (fun i => / norm n f * f i)).
  - intros. unfold unit2. field. lra.
  - apply nonzero_scal; [|exact N]. apply Rinv_neq_0_compat. lra.
Qed.
Lemma unit1_nonzero n f : nonzero n f -> nonzero n (unit1 n f).
Proof.
  intros N. pose proof (norm1_pos _ _ N). apply (nonzero_ext n (fun i => / norm1 n f * f i)).
  - intros. unfold unit1. field. lra.
  - apply nonzero_scal; [|exact N]. apply Rinv_neq_0_compat. lra.
Qed.
Lemma unit2_scal n c f : 0 < c -> nonzero n f -> forall i, unit2 n (fun i => c * f i) i = unit2 n f i.
Proof. intros C N i. pose proof (norm_pos _ _ N). unfold unit2. rewrite norm_scal, Rabs_right by lra. field. lra. Qed.
Lemma unit2_unit1 n f : nonzero n f -> forall i, (i < n)%nat -> unit2 n (unit1 n f) i = unit2 n f i.
Proof.
  intros N i Hi. pose proof (norm1_pos _ _ N). rewrite (unit2_ext n _ (fun i => / norm1 n f * f i)) by (first [exact Hi|intros; unfold unit1; field; lra]).
  apply unit2_scal; [apply Rinv_0_lt_compat; lra|exact N].
Qed.
Lemma unit2_unit2 n f : nonzero n f -> forall i, (i < n)%nat -> unit2 n (unit2 n f) i = unit2 n f i.
Proof. intros N i Hi. unfold unit2 at 1. rewrite unit2_norm by exact N. field. Qed.
Lemma unit1_norm1 n f : nonzero n f -> norm1 n (unit1 n f) = 1.
Proof.
  intros N. pose proof (norm1_pos _ _ N). rewrite (norm1_ext n _ (fun i => / norm1 n f * f i)) by (intros; unfold unit1; field; lra).
  rewrite norm1_scal, Rabs_right; [field; lra|]. left. apply Rinv_0_lt_compat. lra.
Qed.

Lemma mv_unit2 n M f i : mv n M (unit2 n f) i = / norm n f * mv n M f i.
Proof. rewrite <- mv_scal. apply mv_ext; intros; [reflexivity|]. unfold unit2, Rdiv. ring. Qed.
Lemma mv_unit1 n M f i : mv n M (unit1 n f) i = / norm1 n f * mv n M f i.
Proof. rewrite <- mv_scal. apply mv_ext; intros; [reflexivity|]. unfold unit1, Rdiv. ring. Qed.

Definition resid n M u := norm n (fun i => mv n M u i - quad n M u * u i).

Lemma resid_ext n M u v : (forall i, (i < n)%nat -> u i = v i) -> resid n M u = resid n M v.
Proof.
  intros E. apply norm_ext. intros i Hi. rewrite (mv_ext n M M u v) by auto. rewrite E by exact Hi.
  unfold quad. rewrite (bil_ext n M M u u v v) by auto. reflexivity.
Qed.

Lemma stop_l2_resid n M x tol a k : 0 <= a -> (forall i j, (i < n)%nat -> (j < n)%nat -> Rabs (M i j) <= a) ->
  nonzero n (pw n M x k) -> nonzero n (pw n M x (S k)) -> stop_l2 n M x tol k ->
  resid n M (unit2 n (pw n M x (S k))) <= sqrt (INR n) * (a * tol).
Proof.
  intros A B N N' St. pose proof (norm_pos _ _ N). pose proof (norm_pos _ _ N').
  rewrite (resid_ext n M _ (unit2 n (unit2 n (pw n M x (S k))))) by (intros; symmetry; apply unit2_unit2; assumption).
  eapply Rle_trans.
  - apply (residual_general n M a (unit2 n (pw n M x k)) (unit2 n (pw n M x (S k))) (norm n (pw n M x (S k)) / norm n (pw n M x k)) tol);
      [apply unit2_nonzero, N'|exact A|exact B| |exact St].
    intros i Hi. rewrite mv_unit2. unfold unit2. change (mv n M (pw n M x k)) with (pw n M x (S k)). field. lra.
  - rewrite unit2_norm by exact N'. right. field.
Qed.

Lemma stop_l1_resid n M x tol a k : 0 <= a -> (forall i j, (i < n)%nat -> (j < n)%nat -> Rabs (M i j) <= a) ->
  nonzero n (pw n M x k) -> nonzero n (pw n M x (S k)) -> stop_l1 n M x tol k ->
  resid n M (unit2 n (pw n M x (S k))) <= INR n * (a * tol).
Proof.
  intros A B N N' St. pose proof (norm1_pos _ _ N). pose proof (norm1_pos _ _ N').
  assert (T : 0 <= tol). { destruct St as [C|C]; (eapply Rle_trans; [apply norm1_ge_0|exact C]). }
  rewrite (resid_ext n M _ (unit2 n (unit1 n (pw n M x (S k))))) by (intros; symmetry; apply unit2_unit1; assumption).
  eapply Rle_trans.
  - apply (residual_general n M a (unit1 n (pw n M x k)) (unit1 n (pw n M x (S k))) (norm1 n (pw n M x (S k)) / norm1 n (pw n M x k)) tol);
      [apply unit1_nonzero, N'|exact A|exact B| |exact St].
    intros i Hi. rewrite mv_unit1. unfold unit1. change (mv n M (pw n M x k)) with (pw n M x (S k)). field. lra.
  - pose proof (norm_pos _ _ (unit1_nonzero _ _ N')) as Q. pose proof (norm1_le_norm n (unit1 n (pw n M x (S k)))) as L.
    rewrite unit1_norm1 in L by exact N'. set (z := norm n (unit1 n (pw n M x (S k)))) in *.
    apply Rmult_le_reg_r with z; [exact Q|]. unfold Rdiv. rewrite Rmult_assoc, Rinv_l, Rmult_1_r by lra.
    pose proof (sqrt_pos (INR n)) as SP. rewrite <- (sqrt_sqrt (INR n) (pos_INR n)) at 2.
    assert (0 <= a * tol) by (apply Rmult_le_pos; assumption).
    replace (sqrt (INR n) * sqrt (INR n) * (a * tol) * z) with (sqrt (INR n) * (a * tol) * (sqrt (INR n) * z)) by ring.
    rewrite <- (Rmult_1_r (sqrt (INR n) * (a * tol))) at 1. apply Rmult_le_compat_l; [apply Rmult_le_pos; assumption|exact L].
Qed.

(** ** Monotone Rayleigh quotients *)
Lemma rayleigh_step n M v : symmetric n M -> possemidef n M -> nonzero n v -> nonzero n (mv n M v) ->
  rayleigh n M v <= rayleigh n M (mv n M v).
Proof.
  intros S Ps N N'. unfold rayleigh. set (w := mv n M v).
  pose proof (dot_self_pos _ _ N) as B0. pose proof (dot_self_pos _ _ N') as B2. fold w in B2.
  assert (E2 : bil n M v w = dot n w w).
  { rewrite bil_symm by exact S. reflexivity. }
  pose proof (cauchy_schwarz n v w) as C1. change (dot n v w) with (quad n M v) in C1.
  pose proof (cauchy_schwarz_form n M v w S Ps) as C2. rewrite E2 in C2.
  pose proof (Ps v) as P1. pose proof (Ps w) as P3.
  set (b0 := dot n v v) in *. set (b1 := quad n M v) in *. set (b2 := dot n w w) in *. set (b3 := quad n M w) in *.
  apply Rmult_le_reg_r with (b0 * b2); [nra|].
  replace (b1 / b0 * (b0 * b2)) with (b1 * b2) by (field; lra). replace (b3 / b2 * (b0 * b2)) with (b3 * b0) by (field; lra).
  destruct (Req_dec b1 0) as [Z|Nz]; [rewrite Z; nra|]. assert (0 < b1) by lra.
  apply Rmult_le_reg_l with b1; [assumption|]. nra.
Qed.

Lemma rayleigh_mono n M x : symmetric n M -> possemidef n M -> forall k j, (j <= k)%nat ->
  (forall i, (i <= k)%nat -> nonzero n (pw n M x i)) -> rayleigh n M (pw n M x j) <= rayleigh n M (pw n M x k).
Proof.
  intros S Ps. induction k as [|k IH]; intros j Hj Nz.
  - replace j with 0%nat by lia. lra.
  - destruct (Nat.eq_dec j (Datatypes.S k)) as [->|]; [lra|]. eapply Rle_trans; [apply (IH j); [lia|]; intros; apply Nz; lia|].
    apply rayleigh_step; try assumption; [apply Nz; lia|]. apply (Nz (Datatypes.S k)). lia.
Qed.
