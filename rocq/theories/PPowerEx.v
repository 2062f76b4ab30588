(** Concrete cases for the power iterations. *)
From Coq Require Import Reals List Arith ZArith Lia Lra Psatz Bool.
From Verif Require Import Arith Vec ModelPower Spec SpecCG SpecPower PCalc PSum PVec PCG PCG2 PPower PPower2 PPower3 PPower4.
Import ListNotations.
Local Open Scope R_scope.

Definition m22 (a b c d : R) : list (list R) := [[a; b]; [c; d]].
Lemma m22_wf a b c d : mat_wf 2 (m22 a b c d).
Proof. split; [reflexivity|]. intros i Hi. destruct i as [|[|i]]; [reflexivity|reflexivity|lia]. Qed.
Lemma v2_wf (a b : R) : vec_wf 2 [a; b]. Proof. reflexivity. Qed.
Lemma m22_sym a b d : symmetric 2 (fm (m22 a b b d)).
Proof. intros i j Hi Hj. destruct i as [|[|i]], j as [|[|j]]; try lia; reflexivity. Qed.

(** ** Exchanging two coordinates: a value that is no eigenvalue *)
Definition swp := m22 0 1 1 0.
Definition e1 : list R := [1; 0].

Lemma swap_pw k : forall i, (i < 2)%nat -> pw 2 (fm swp) (fv e1) k i = if Nat.even k then fv [1; 0] i else fv [0; 1] i.
Proof.
  induction k as [|k IH]; intros i Hi; [reflexivity|]. rewrite Nat.even_succ, <- Nat.negb_even. simpl pw. unfold mv, sumn.
  rewrite !IH by lia. destruct (Nat.even k); destruct i as [|[|i]]; try lia; cbn; ring.
Qed.
Lemma swap_quad u : quad 2 (fm swp) u = 2 * (u 0%nat * u 1%nat).
Proof. unfold quad, bil, dot, mv, sumn. cbn. ring. Qed.
Lemma swap_dot u : dot 2 u u = u 0%nat * u 0%nat + u 1%nat * u 1%nat.
Proof. unfold dot, sumn. ring. Qed.
Lemma swap_ray k : rayleigh 2 (fm swp) (pw 2 (fm swp) (fv e1) k) = 0.
Proof. unfold rayleigh. rewrite swap_quad, !swap_pw by lia. destruct (Nat.even k); cbn; unfold Rdiv; ring. Qed.
Lemma swap_not_eigen : ~ eigenvalue 2 (fm swp) 0.
Proof.
  intros (v & (i & Hi & N) & E). pose proof (E 0%nat ltac:(lia)) as E0. pose proof (E 1%nat ltac:(lia)) as E1.
  unfold mv, sumn in E0, E1. cbn in E0, E1. destruct i as [|[|i]]; [apply N; lra|apply N; lra|lia].
Qed.
Lemma swap_nonzero k : nonzero 2 (pw 2 (fm swp) (fv e1) k).
Proof.
  destruct (Nat.even k) eqn:E.
  - exists 0%nat. split; [lia|]. rewrite swap_pw, E by lia. cbn. lra.
  - exists 1%nat. split; [lia|]. rewrite swap_pw, E by lia. cbn. lra.
Qed.
Lemma swap_norm k : norm 2 (pw 2 (fm swp) (fv e1) k) = 1.
Proof. unfold norm. rewrite swap_dot, !swap_pw by lia. destruct (Nat.even k); cbn; match goal with |- sqrt ?e = 1 => replace e with 1 by ring end; apply sqrt_1. Qed.
Lemma swap_resid k : norm 2 (fun i => mv 2 (fm swp) (unit2 2 (pw 2 (fm swp) (fv e1) k)) i - 0 * unit2 2 (pw 2 (fm swp) (fv e1) k) i) = 1.
Proof.
  etransitivity; [|exact (swap_norm (S k))]. apply norm_ext. intros i Hi. rewrite mv_unit2, swap_norm, Rinv_1.
  change (pw 2 (fm swp) (fv e1) (S k) i) with (mv 2 (fm swp) (pw 2 (fm swp) (fv e1) k) i). set (z := mv _ _ _ _).
  set (y := unit2 _ _ _). clearbody z y. ring.
Qed.

Lemma swap_run maxit (tol : R) : (0 < maxit)%Z -> 0 <= tol ->
  exists r, power_iteration2 (A:=RA) swp e1 maxit tol = Ok r /\ p_niter r = 0%Z /\ p_ld r = 0 /\
    residual 2 (fm swp) (fv (p_vec r)) (p_ld r) = 1.
Proof.
  intros Hm Ht. pose proof (pow2_reported 2 swp e1 maxit tol (m22_wf _ _ _ _) (v2_wf _ _)) as R.
  destruct (power_iteration2 (A:=RA) swp e1 maxit tol) as [r|e].
  - exists r. split; [reflexivity|]. destruct R as (m & Rn & N & _ & Ev & Ld).
    assert (St : stop_ray 2 (fm swp) (fv e1) tol 0). { unfold stop_ray. rewrite !swap_ray. rewrite Rminus_0_r, Rabs_R0. exact Ht. }
    rewrite swap_ray in Ld. rewrite Ld. split.
    + destruct Rn as [(k & _ & -> & _ & _ & Ns)|(-> & _ & Ns)].
      * destruct k; [reflexivity|]. exfalso. apply (Ns 0%nat); [lia|exact St].
      * exfalso. apply (Ns 0%nat); [lia|exact St].
    + split; [reflexivity|]. unfold residual. rewrite <- (swap_resid m). apply norm_ext. intros i Hi.
      rewrite (mv_ext 2 (fm swp) (fm swp) (fv (p_vec r)) (unit2 2 (pw 2 (fm swp) (fv e1) m))) by auto. rewrite Ev by exact Hi. reflexivity.
  - exfalso. destruct R as (_ & j & _ & Z & _). exact (nonzero_not_zero _ _ (swap_nonzero j) Z).
Qed.

Lemma swap_refuted : exists (M : mat RA) (x : vec RA), mat_wf 2 M /\ vec_wf 2 x /\ symmetric 2 (fm M) /\ nonzero 2 (fv x) /\
  forall maxit (tol big : R), (0 < maxit)%Z -> 0 <= tol ->
  exists r, power_iteration2 M x maxit tol = Ok r /\ power_iteration3 (A:=RA) big M x maxit tol = Ok r /\
    p_niter r = 0%Z /\ ~ eigenvalue 2 (fm M) (p_ld r) /\ residual 2 (fm M) (fv (p_vec r)) (p_ld r) = 1.
Proof.
  exists swp, e1. split; [apply m22_wf|]. split; [apply v2_wf|]. split; [apply m22_sym|]. split; [exact (swap_nonzero 0)|].
  intros maxit tol big Hm Ht. destruct (swap_run maxit tol Hm Ht) as (r & E & A & B & C). exists r. split; [exact E|].
  split; [rewrite (pow23_same 2 swp e1 maxit tol (m22_wf _ _ _ _) (v2_wf _ _)); exact E|]. split; [exact A|].
  split; [rewrite B; exact swap_not_eigen|exact C].
Qed.

(** ** A dominant eigenvalue that is not the largest *)
Definition neg3 := m22 (-3) 0 0 1.
Definition ones2 : list R := [1; 1].
Definition b1 : nat -> R := fv [1; 0].

Lemma diag_dom (a d mu : R) : Rabs d = mu -> mu < Rabs a -> dominant 2 (fm (m22 a 0 0 d)) b1 a mu.
Proof.
  intros E L. split; [unfold dot, sumn; cbn; ring|]. split.
  { intros i Hi. destruct i as [|[|i]]; [| |lia]; unfold mv, sumn; cbn; ring. }
  split; [pose proof (Rabs_pos d); lra|]. intros w O. unfold dot, mv, sumn in *. cbn in *.
  assert (W : w 0%nat = 0) by lra. rewrite W. rewrite <- E.
  replace (Rabs d * Rabs d) with (d * d) by (rewrite <- Rabs_mult; symmetry; apply Rabs_right; nra). right. ring.
Qed.

Lemma neg3_dom : dominant 2 (fm neg3) b1 (-3) 1.
Proof. apply diag_dom; [apply Rabs_R1|rewrite Rabs_left by lra; lra]. Qed.
Lemma neg3_start : dot 2 (fv ones2) b1 = 1. Proof. unfold dot, sumn; cbn; ring. Qed.
Lemma neg3_tan : tan2 2 (fv ones2) b1 = 1.
Proof. unfold tan2. rewrite neg3_start. unfold dot, sumn; cbn. field. Qed.
Lemma neg3_eigen : eigenvalue 2 (fm neg3) 1.
Proof.
  exists (fv [0; 1]). split; [exists 1%nat; split; [lia|cbn; lra]|].
  intros i Hi. destruct i as [|[|i]]; [| |lia]; unfold mv, sumn; cbn; ring.
Qed.

Lemma steps_pos maxit niter stop m : (0 < maxit)%Z -> pow_run stop maxit m niter -> (1 <= m)%nat.
Proof. intros H [(k & -> & _)|(-> & _)]; lia. Qed.

Lemma neg3_value stop maxit (r : res (pow_result (A:=RA))) o : (0 < maxit)%Z -> reported 2 neg3 ones2 stop maxit r -> r = Ok o -> p_ld o < 0.
Proof.
  intros Hm R Er. rewrite Er in R. destruct R as (m & Rn & _ & _ & _ & ->). pose proof (steps_pos _ _ _ _ Hm Rn) as M1.
  pose proof (value_rate 2 (fm neg3) (fv ones2) b1 (-3) 1 (m22_sym _ _ _) neg3_dom) as V. rewrite neg3_start in V.
  specialize (V ltac:(lra) m). rewrite neg3_tan, Rmult_1_r, (Rabs_left (-3)) in V by lra.
  replace (1 / - -3) with (1 / 3) in V by field.
  assert (Q : (1 / 3) ^ (2 * m) <= 1 / 9).
  { replace (2 * m)%nat with (2 + 2 * (m - 1))%nat by lia. rewrite pow_add.
    assert (P1 : (1 / 3) ^ (2 * (m - 1)) <= 1) by (eapply Rle_trans; [apply (pow_incr _ 1); lra|rewrite pow1; lra]).
    assert (P0 : 0 <= (1 / 3) ^ (2 * (m - 1))) by (apply pow_le; lra).
    replace ((1 / 3) ^ 2) with (1 / 9) by (simpl; field). lra. }
  pose proof (Rle_abs (rayleigh 2 (fm neg3) (pw 2 (fm neg3) (fv ones2) m) - -3)). lra.
Qed.

Lemma largest_refuted : exists (M : mat RA) (x : vec RA) v, mat_wf 2 M /\ vec_wf 2 x /\ symmetric 2 (fm M) /\
  dominant 2 (fm M) v (-3) 1 /\ dot 2 (fv x) v <> 0 /\ eigenvalue 2 (fm M) 1 /\
  forall maxit (tol big : R), (0 < maxit)%Z ->
    exists r1 r2 r3 r4, power_iteration M x maxit tol = Ok r1 /\ power_iteration2 M x maxit tol = Ok r2 /\
      power_iteration3 (A:=RA) big M x maxit tol = Ok r3 /\ power_iteration4 M x maxit tol = Ok r4 /\
      p_ld r1 < 0 /\ p_ld r2 < 0 /\ p_ld r3 < 0 /\ p_ld r4 < 0.
Proof.
  exists neg3, ones2, b1. pose proof (m22_wf (-3) 0 0 1) as W. pose proof (v2_wf 1 1) as X.
  pose proof (m22_sym (-3) 0 1) as S. pose proof neg3_dom as D.
  assert (N : dot 2 (fv ones2) b1 <> 0) by (rewrite neg3_start; lra).
  repeat (split; [assumption|]). split; [exact neg3_eigen|]. intros maxit tol big Hm.
  destruct (pow1_rate 2 neg3 ones2 maxit tol W X b1 _ _ S D N) as (r1 & E1 & _).
  destruct (pow2_rate 2 neg3 ones2 maxit tol W X b1 _ _ S D N) as (r2 & E2 & _).
  destruct (pow3_rate 2 neg3 ones2 maxit tol W X b1 _ _ S D N big) as (r3 & E3 & _).
  destruct (pow4_rate 2 neg3 ones2 maxit tol W X b1 _ _ S D N) as (r4 & E4 & _).
  exists r1, r2, r3, r4. repeat (split; [assumption|]).
  split; [exact (neg3_value _ _ _ _ Hm (pow1_reported 2 neg3 ones2 maxit tol W X) E1)|].
  split; [exact (neg3_value _ _ _ _ Hm (pow2_reported 2 neg3 ones2 maxit tol W X) E2)|].
  split; [exact (neg3_value _ _ _ _ Hm (pow3_reported 2 neg3 ones2 maxit tol W X big) E3)|].
  exact (neg3_value _ _ _ _ Hm (pow4_reported 2 neg3 ones2 maxit tol W X) E4).
Qed.

(** a start orthogonal to the dominant eigenvector *)
Definition d21 := m22 2 0 0 1.
Definition e2 : list R := [0; 1].
Lemma d21_pw k : forall i, (i < 2)%nat -> pw 2 (fm d21) (fv e2) k i = fv e2 i.
Proof. induction k as [|k IH]; intros i Hi; [reflexivity|]. simpl pw. unfold mv, sumn. rewrite !IH by lia. destruct i as [|[|i]]; try lia; cbn; ring. Qed.
Lemma d21_ray k : rayleigh 2 (fm d21) (pw 2 (fm d21) (fv e2) k) = 1.
Proof. unfold rayleigh, quad, bil, dot, mv, sumn. rewrite !d21_pw by lia. cbn. field. Qed.
Lemma d21_nonzero k : nonzero 2 (pw 2 (fm d21) (fv e2) k).
Proof. exists 1%nat. split; [lia|]. rewrite d21_pw by lia. cbn. lra. Qed.
Lemma d21_value stop maxit r : reported 2 d21 e2 stop maxit r -> exists o, r = Ok o /\ p_ld o = 1.
Proof.
  destruct r as [o|e].
  - intros (m & _ & _ & _ & _ & E). exists o. split; [reflexivity|]. rewrite E. apply d21_ray.
  - intros (_ & j & _ & Z & _). exfalso. exact (nonzero_not_zero _ _ (d21_nonzero j) Z).
Qed.
Lemma d21_eigen : eigenvalue 2 (fm d21) 2.
Proof.
  exists (fv [1; 0]). split; [exists 0%nat; split; [lia|cbn; lra]|].
  intros i Hi. destruct i as [|[|i]]; [| |lia]; unfold mv, sumn; cbn; ring.
Qed.
Lemma orthogonal_refuted : exists (M : mat RA) (x : vec RA), mat_wf 2 M /\ vec_wf 2 x /\ symmetric 2 (fm M) /\ posdef 2 (fm M) /\
  nonzero 2 (fv x) /\ eigenvalue 2 (fm M) 2 /\
  forall maxit (tol big : R),
    exists r1 r2 r3 r4, power_iteration M x maxit tol = Ok r1 /\ power_iteration2 M x maxit tol = Ok r2 /\
      power_iteration3 (A:=RA) big M x maxit tol = Ok r3 /\ power_iteration4 M x maxit tol = Ok r4 /\
      p_ld r1 = 1 /\ p_ld r2 = 1 /\ p_ld r3 = 1 /\ p_ld r4 = 1.
Proof.
  exists d21, e2. pose proof (m22_wf 2 0 0 1) as W. pose proof (v2_wf 0 1) as X.
  split; [exact W|]. split; [exact X|]. split; [apply m22_sym|]. split.
  { intros u (i & Hi & N). unfold quad, bil, dot, mv, sumn. cbn. destruct i as [|[|i]]; [| |lia]; nra. }
  split; [exact (d21_nonzero 0)|]. split; [exact d21_eigen|]. intros maxit tol big.
  destruct (d21_value _ _ _ (pow1_reported 2 d21 e2 maxit tol W X)) as (r1 & E1 & L1).
  destruct (d21_value _ _ _ (pow2_reported 2 d21 e2 maxit tol W X)) as (r2 & E2 & L2).
  destruct (d21_value _ _ _ (pow3_reported 2 d21 e2 maxit tol W X big)) as (r3 & E3 & L3).
  destruct (d21_value _ _ _ (pow4_reported 2 d21 e2 maxit tol W X)) as (r4 & E4 & L4).
  exists r1, r2, r3, r4. repeat (split; [assumption|]). assumption.
Qed.

(** ** A matrix with known eigenvectors, for the rate and the bounds *)
Definition k25 := m22 34 12 12 41.
Definition v34 : nat -> R := fv [3/5; 4/5].
Lemma k25_dom : dominant 2 (fm k25) v34 50 25.
Proof.
  split; [unfold dot, sumn; cbn; field|]. split.
  { intros i Hi. destruct i as [|[|i]]; [| |lia]; unfold mv, sumn; cbn; field. }
  split; [rewrite Rabs_right by lra; lra|]. intros w O. unfold dot, mv, sumn in *. cbn in *.
  assert (W : w 0%nat = - (4/3) * w 1%nat) by lra. rewrite W. right. field.
Qed.
Lemma k25_start : dot 2 (fv e1) v34 = 3/5. Proof. unfold dot, sumn; cbn; field. Qed.
Lemma k25_tan : tan2 2 (fv e1) v34 = 16/9.
Proof. unfold tan2. rewrite k25_start. unfold dot, sumn; cbn. field. Qed.
Lemma k25_quad u : quad 2 (fm k25) u = 25 * dot 2 u u + (3 * u 0%nat + 4 * u 1%nat) * (3 * u 0%nat + 4 * u 1%nat).
Proof. unfold quad, bil, dot, mv, sumn. cbn. ring. Qed.
Lemma k25_psd : possemidef 2 (fm k25).
Proof. intros u. rewrite k25_quad. pose proof (dot_self_ge_0 2 u). pose proof (Rle_0_sqr (3 * u 0%nat + 4 * u 1%nat)) as H'. unfold Rsqr in H'. lra. Qed.
Lemma k25_top u : quad 2 (fm k25) u <= 50 * dot 2 u u.
Proof.
  rewrite k25_quad, swap_dot. set (a := u 0%nat). set (b := u 1%nat).
  pose proof (Rle_0_sqr (4 * a - 3 * b)) as H. unfold Rsqr in H. lra.
Qed.

(** seven rounds suffice for a tolerance of 1/20 *)
Lemma k25_case : exists r, power_iteration (A:=RA) k25 e1 100 (1/20) = Ok r /\ (p_niter r <= 7)%Z /\
  pow_accuracy 2 (fv e1) v34 50 25 (pow_steps 100 (p_niter r)) (fv (p_vec r)) (p_ld r) /\
  residual 2 (fm k25) (fv (p_vec r)) (p_ld r) <= sqrt 2 * (41 * (1/20)) /\ 34 <= p_ld r <= 50.
Proof.
  pose proof (m22_wf 34 12 12 41) as W. pose proof (v2_wf 1 0) as X.
  destruct (pow1_rate 2 k25 e1 100 (1/20) W X v34 50 25 (m22_sym _ _ _) k25_dom) as (r & E & A & St); [rewrite k25_start; lra|].
  exists r. split; [exact E|]. assert (H7 : (p_niter r <= 7)%Z).
  { apply (St 7%nat). rewrite k25_tan, (Rabs_right 50) by lra.
    replace (16/9) with ((4/3) * (4/3)) by field. rewrite sqrt_square by lra. change (INR 2) with 2.
    assert (sqrt 2 <= 3/2). { replace (3/2) with (sqrt ((3/2) * (3/2))) by (apply sqrt_square; lra). apply sqrt_le_1_alt. lra. }
    simpl. lra. }
  split; [exact H7|]. split; [exact A|]. split.
  - assert (B : forall i j, (i < 2)%nat -> (j < 2)%nat -> Rabs (fm k25 i j) <= 41).
    2:{ pose proof (pow1_residual 2 k25 e1 100 (1/20) W X 41 r B E ltac:(lia)) as H. change (INR 2) with 2 in H. exact H. }
    intros i j Hi Hj. destruct i as [|[|i]], j as [|[|j]]; try lia; cbn; rewrite Rabs_right; lra.
  - assert (Q : rayleigh 2 (fm k25) (fv e1) = 34) by (unfold rayleigh, quad, bil, dot, mv, sumn; cbn; field).
    rewrite <- Q. exact (pow_between 2 k25 e1 100 (1/20) 50 r W X (m22_sym _ _ _) k25_psd k25_top (or_introl E)).
Qed.

(** a nilpotent matrix breaks down in the second round *)
Definition nil2 := m22 0 1 0 0.
Lemma nil2_case (tol : R) : tol < 0 -> power_iteration (A:=RA) nil2 e2 3 tol = Err ZeroDivision.
Proof.
  intros T. pose proof (pow1_reported 2 nil2 e2 3 tol (m22_wf _ _ _ _) (v2_wf _ _)) as R.
  destruct (power_iteration (A:=RA) nil2 e2 3 tol) as [o|e]; [|destruct R as (-> & _); reflexivity].
  exfalso. destruct R as (m & Rn & N & _). assert (M : (m = 3)%nat).
  { destruct Rn as [(k & _ & _ & _ & St & _)|(-> & _)]; [|reflexivity]. exfalso.
    destruct St as [St|St]; [pose proof (norm1_ge_0 2 (fun i => unit2 2 (pw 2 (fm nil2) (fv e2) (S k)) i - unit2 2 (pw 2 (fm nil2) (fv e2) k) i))
      |pose proof (norm1_ge_0 2 (fun i => unit2 2 (pw 2 (fm nil2) (fv e2) (S k)) i + unit2 2 (pw 2 (fm nil2) (fv e2) k) i))]; lra. }
  subst m. destruct (N 2%nat ltac:(lia)) as (i & Hi & Nz). apply Nz.
  destruct i as [|[|i]]; [| |lia]; unfold pw, mv, sumn; cbn; ring.
Qed.
