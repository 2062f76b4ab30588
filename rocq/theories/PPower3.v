(** Rate of convergence of the power iterations. *)
From Coq Require Import Reals List Arith ZArith Lia Lra Psatz Bool.
From Verif Require Import Arith Vec ModelPower Spec SpecCG SpecPower PCalc PSum PVec PCG PCG2 PPower PPower2.
Import ListNotations.
Local Open Scope R_scope.

Section Rate.
Variables (n : nat) (M : nat -> nat -> R) (x v : nat -> R) (lam mu : R).
Hypothesis SY : symmetric n M.
Hypothesis DO : dominant n M v lam mu.
Hypothesis NO : dot n x v <> 0.
Let P k := pw n M x k.
Let a := dot n x v.
Let w k : nat -> R := fun i => P k i - dot n (P k) v * v i.
Let q := mu / Rabs lam.
Let T := tan2 n x v.

Lemma lam_pos : 0 < Rabs lam. Proof. destruct DO as (_ & _ & H & _). lra. Qed.
Lemma lam_nz : lam <> 0. Proof. intros E. pose proof lam_pos as H. rewrite E, Rabs_R0 in H. lra. Qed.
Lemma lam2 : lam * lam = Rabs lam * Rabs lam.
Proof. rewrite <- Rabs_mult. symmetry. apply Rabs_right. nra. Qed.
Lemma q_range : 0 <= q < 1.
Proof.
  destruct DO as (_ & _ & H & _). pose proof lam_pos. unfold q. split.
  - apply Rmult_le_pos; [lra|]. left. apply Rinv_0_lt_compat. lra.
  - apply Rmult_lt_reg_r with (Rabs lam); [lra|]. unfold Rdiv. rewrite Rmult_assoc, Rinv_l by lra. lra.
Qed.

Lemma proj_S k : dot n (P (S k)) v = lam * dot n (P k) v.
Proof.
  destruct DO as (_ & E & _). unfold P at 1. simpl. rewrite dot_comm. change (bil n M v (P k) = lam * dot n (P k) v).
  rewrite bil_symm by exact SY. unfold bil. rewrite (dot_ext n (P k) (mv n M v) (P k) (fun i => lam * v i)) by auto.
  apply dot_scal_r.
Qed.
Lemma proj_k k : dot n (P k) v * dot n (P k) v = (Rabs lam) ^ (2 * k) * (a * a).
Proof.
  induction k as [|k IH]; [simpl; unfold P, a; simpl; ring|]. rewrite proj_S.
  replace (lam * dot n (P k) v * (lam * dot n (P k) v)) with (lam * lam * (dot n (P k) v * dot n (P k) v)) by ring.
  rewrite IH, lam2. replace (2 * S k)%nat with (S (S (2 * k))) by lia. simpl pow. ring.
Qed.
Lemma proj_nz k : dot n (P k) v <> 0.
Proof.
  induction k as [|k IH]; [exact NO|]. rewrite proj_S. apply Rmult_integral_contrapositive_currified; [exact lam_nz|exact IH].
Qed.
Lemma P_nz k : nonzero n (P k).
Proof.
  destruct (zero_or_nonzero n (P k)) as [Z|N]; [|exact N]. exfalso. apply (proj_nz k). unfold dot. apply sumn_0.
  intros i Hi. rewrite Z by exact Hi. ring.
Qed.
Lemma w_orth k : dot n (w k) v = 0.
Proof. destruct DO as (U & _). unfold w. rewrite dot_minus_l, dot_scal_l, U. ring. Qed.
Lemma w_S k i : (i < n)%nat -> w (S k) i = mv n M (w k) i.
Proof.
  intros Hi. destruct DO as (_ & E & _). unfold w. rewrite proj_S, mv_minus, mv_scal, E by exact Hi.
  change (mv n M (P k)) with (P (S k)). ring.
Qed.
Lemma split_dot k : dot n (P k) (P k) = dot n (P k) v * dot n (P k) v + dot n (w k) (w k).
Proof.
  destruct DO as (U & _). unfold w. rewrite dot_minus_l, !dot_minus_r, !dot_scal_l, !dot_scal_r, U, (dot_comm n v (P k)). ring.
Qed.
Lemma w_bound k : dot n (w k) (w k) <= mu ^ (2 * k) * dot n (w 0) (w 0).
Proof.
  destruct DO as (_ & _ & B & C). induction k as [|k IH]; [simpl; lra|].
  rewrite (dot_ext n (w (S k)) (w (S k)) (mv n M (w k)) (mv n M (w k))) by (intros; apply w_S; assumption).
  eapply Rle_trans; [apply C, w_orth|]. replace (2 * S k)%nat with (2 + 2 * k)%nat by lia. rewrite pow_add.
  replace (mu ^ 2 * mu ^ (2 * k) * dot n (w 0) (w 0)) with (mu * mu * (mu ^ (2 * k) * dot n (w 0) (w 0))) by ring.
  apply Rmult_le_compat_l; [nra|exact IH].
Qed.
Lemma T_w0 : dot n (w 0) (w 0) = T * (a * a).
Proof.
  pose proof (split_dot 0) as E. unfold P at 1 2 3 4 in E. simpl in E. unfold T, tan2. fold a in E. fold a.
  assert (a <> 0) by exact NO. field_simplify; [|assumption]. lra.
Qed.
Lemma T_ge_0 : 0 <= T.
Proof.
  pose proof T_w0 as E. pose proof (dot_self_ge_0 n (w 0)) as H. rewrite E in H. assert (a <> 0) by exact NO.
  assert (0 < a * a) by nra. nra.
Qed.

(** the error at step [k] *)
Let e2 k := q ^ (2 * k) * T.

Lemma w_proj k : dot n (w k) (w k) <= e2 k * (dot n (P k) v * dot n (P k) v).
Proof.
  rewrite proj_k. unfold e2. eapply Rle_trans; [apply w_bound|]. rewrite T_w0.
  right. unfold q, Rdiv. rewrite Rpow_mult_distr, pow_inv. field. apply pow_nonzero. pose proof lam_pos. lra.
Qed.
Lemma e2_ge_0 k : 0 <= e2 k.
Proof. unfold e2. apply Rmult_le_pos; [apply pow_le; pose proof q_range; lra|exact T_ge_0]. Qed.

Lemma quad_w k : Rabs (quad n M (w k)) <= mu * dot n (w k) (w k).
Proof.
  destruct DO as (_ & _ & B & C). pose proof (cauchy_schwarz n (w k) (mv n M (w k))) as CS.
  pose proof (C (w k) (w_orth k)) as Cw. change (dot n (w k) (mv n M (w k))) with (quad n M (w k)) in CS.
  pose proof (dot_self_ge_0 n (w k)) as W. set (z := dot n (w k) (w k)) in *. set (y := quad n M (w k)) in *.
  assert (y * y <= (mu * z) * (mu * z)).
  { eapply Rle_trans; [exact CS|]. replace (mu * z * (mu * z)) with (z * (mu * mu * z)) by ring. apply Rmult_le_compat_l; assumption. }
  apply Rsqr_le_abs_0 in H. rewrite (Rabs_right (mu * z)) in H; [exact H|]. apply Rle_ge, Rmult_le_pos; [lra|exact W].
Qed.
Lemma split_quad k : quad n M (P k) = lam * (dot n (P k) v * dot n (P k) v) + quad n M (w k).
Proof.
  destruct DO as (U & E & _). set (c := dot n (P k) v).
  assert (Ev : forall u, bil n M u v = lam * dot n u v).
  { intros u. unfold bil. rewrite (dot_ext n u (mv n M v) u (fun i => lam * v i)) by auto. apply dot_scal_r. }
  assert (Q : quad n M (w k) = quad n M (P k) - 2 * c * (lam * c) + c * c * lam).
  { unfold w, quad. fold c. rewrite bil_minus_l, !bil_minus_r, !bil_scal_l, !bil_scal_r, (bil_symm n M v (P k)) by exact SY.
    rewrite !Ev, U. fold c. ring. }
  rewrite Q. ring.
Qed.

Lemma angle_rate k : 1 - dot n (unit2 n (P k)) v * dot n (unit2 n (P k)) v <= e2 k.
Proof.
  pose proof (norm_pos _ _ (P_nz k)) as N. set (s := norm n (P k)) in *.
  assert (E : dot n (unit2 n (P k)) v = / s * dot n (P k) v).
  { rewrite <- dot_scal_l. apply dot_ext; intros; [unfold unit2; fold s; field; lra|reflexivity]. }
  rewrite E. pose proof (split_dot k) as D. rewrite dot_norm in D. fold s in D.
  pose proof (w_proj k) as W. pose proof (dot_self_ge_0 n (w k)) as W0. pose proof (e2_ge_0 k) as E0.
  set (p := dot n (P k) v * dot n (P k) v) in *. set (om := dot n (w k) (w k)) in *.
  replace (1 - / s * dot n (P k) v * (/ s * dot n (P k) v)) with (om / (s * s)).
  2:{ apply Rmult_eq_reg_r with (s * s); [|nra]. replace (om / (s * s) * (s * s)) with om by (field; lra).
      replace ((1 - / s * dot n (P k) v * (/ s * dot n (P k) v)) * (s * s)) with (s * s - p) by (unfold p; field; lra). lra. }
  apply Rmult_le_reg_r with (s * s); [nra|]. replace (om / (s * s) * (s * s)) with om by (field; lra). nra.
Qed.

Lemma value_rate k : Rabs (rayleigh n M (P k) - lam) <= (mu + Rabs lam) * e2 k.
Proof.
  pose proof (dot_self_pos _ _ (P_nz k)) as N. unfold rayleigh. pose proof (split_dot k) as D. rewrite (split_quad k).
  pose proof (w_proj k) as W. pose proof (dot_self_ge_0 n (w k)) as W0. pose proof (e2_ge_0 k) as E0. pose proof (quad_w k) as Q.
  destruct DO as (_ & _ & B & _). pose proof lam_pos as L.
  set (p := dot n (P k) v * dot n (P k) v) in *. set (om := dot n (w k) (w k)) in *. set (d := dot n (P k) (P k)) in *.
  assert (Pp : 0 <= p) by (unfold p; nra).
  replace ((lam * p + quad n M (w k)) / d - lam) with ((quad n M (w k) - lam * om) * / d).
  2:{ apply Rmult_eq_reg_r with d; [|lra]. replace ((quad n M (w k) - lam * om) * / d * d) with (quad n M (w k) - lam * om) by (field; lra).
      replace (((lam * p + quad n M (w k)) / d - lam) * d) with (lam * p + quad n M (w k) - lam * d) by (field; lra). rewrite D. ring. }
  rewrite Rabs_mult, (Rabs_right (/ d)) by (left; apply Rinv_0_lt_compat; exact N).
  apply Rmult_le_reg_r with d; [exact N|]. rewrite Rmult_assoc, Rinv_l, Rmult_1_r by lra.
  eapply Rle_trans; [unfold Rminus; apply Rabs_triang|]. rewrite Rabs_Ropp, Rabs_mult, (Rabs_right om) by lra.
  apply Rle_trans with ((mu + Rabs lam) * om); [lra|]. rewrite Rmult_assoc. apply Rmult_le_compat_l; [lra|]. nra.
Qed.

Lemma e2_anti j k : (j <= k)%nat -> e2 k <= e2 j.
Proof.
  intros H. unfold e2. apply Rmult_le_compat_r; [exact T_ge_0|]. pose proof q_range.
  replace (2 * k)%nat with (2 * j + 2 * (k - j))%nat by lia. rewrite pow_add.
  assert (0 <= q ^ (2 * j)) by (apply pow_le; lra).
  assert (Q1 : q ^ (2 * (k - j)) <= 1) by (rewrite <- (pow1 (2 * (k - j))); apply pow_incr; lra). nra.
Qed.

Lemma stop_ray_rate tol k : (mu + Rabs lam) * (2 * e2 k) <= tol -> stop_ray n M x tol k.
Proof.
  intros H. unfold stop_ray. fold (P k). fold (P (S k)). pose proof (value_rate k) as V. pose proof (value_rate (S k)) as V'.
  pose proof (e2_anti k (S k) (Nat.le_succ_diag_r k)) as A. pose proof lam_pos. destruct DO as (_ & _ & B & _).
  replace (rayleigh n M (P k) - rayleigh n M (P (S k))) with
    ((rayleigh n M (P k) - lam) + - (rayleigh n M (P (S k)) - lam)) by ring.
  eapply Rle_trans; [apply Rabs_triang|]. rewrite Rabs_Ropp.
  assert ((mu + Rabs lam) * e2 (S k) <= (mu + Rabs lam) * e2 k) by (apply Rmult_le_compat_l; lra). lra.
Qed.

(** consecutive normalised iterates, up to the sign of [lam] *)
Let sg := lam / Rabs lam.
Lemma sg_cases : sg = 1 \/ sg = -1.
Proof.
  pose proof lam_pos. unfold sg. destruct (Rle_dec 0 lam) as [L|L].
  - left. rewrite Rabs_right in * by lra. field. lra.
  - right. rewrite Rabs_left in * by lra. field. lra.
Qed.

Lemma step_rate k : norm n (fun i => unit2 n (P (S k)) i - sg * unit2 n (P k) i) <= 2 * sqrt (e2 k).
Proof.
  pose proof (norm_pos _ _ (P_nz k)) as N. pose proof (norm_pos _ _ (P_nz (S k))) as N'.
  pose proof lam_pos as L. destruct DO as (_ & _ & B & C). pose proof (e2_ge_0 k) as E0.
  set (s := norm n (P k)) in *. set (s' := norm n (P (S k))) in *.
  assert (S2 : sg * sg = 1) by (destruct sg_cases as [-> | ->]; ring).
  assert (U : dot n (unit2 n (P k)) (unit2 n (P k)) = 1) by apply unit2_dot, P_nz.
  assert (U' : dot n (unit2 n (P (S k))) (unit2 n (P (S k))) = 1) by apply unit2_dot, P_nz.
  assert (D : dot n (fun i => unit2 n (P (S k)) i - sg * unit2 n (P k) i) (fun i => unit2 n (P (S k)) i - sg * unit2 n (P k) i) =
    2 - 2 * (sg * dot n (unit2 n (P k)) (unit2 n (P (S k))))).
  { rewrite dot_minus_l, !dot_minus_r, !dot_scal_l, !dot_scal_r, U, U', (dot_comm n (unit2 n (P (S k))) (unit2 n (P k))).
    replace (sg * (sg * 1)) with 1 by lra. ring. }
  assert (K : 2 - 2 * (sg * dot n (unit2 n (P k)) (unit2 n (P (S k)))) <= 4 * e2 k).
  { assert (E : dot n (unit2 n (P k)) (unit2 n (P (S k))) = quad n M (P k) / (s * s')).
    { rewrite (dot_ext n (unit2 n (P k)) (unit2 n (P (S k))) (fun i => / s * P k i) (fun i => / s' * P (S k) i))
        by (intros; unfold unit2; fold s; fold s'; field; lra).
      rewrite dot_scal_l, dot_scal_r. change (dot n (P k) (P (S k))) with (quad n M (P k)). field. lra. }
    pose proof (cauchy_schwarz n (unit2 n (P k)) (unit2 n (P (S k)))) as CS. rewrite U, U' in CS.
    pose proof (split_dot k) as D1. pose proof (split_dot (S k)) as D2. rewrite dot_norm in D1, D2. fold s in D1. fold s' in D2.
    rewrite proj_S in D2. pose proof (w_proj k) as W. pose proof (quad_w k) as Q.
    assert (W' : dot n (w (S k)) (w (S k)) <= mu * mu * dot n (w k) (w k)).
    { rewrite (dot_ext n (w (S k)) (w (S k)) (mv n M (w k)) (mv n M (w k))) by (intros; apply w_S; assumption). apply C, w_orth. }
    pose proof (split_quad k) as SQ. pose proof (dot_self_ge_0 n (w k)) as W0.
    assert (Pp : 0 < dot n (P k) v * dot n (P k) v) by (pose proof (proj_nz k); nra).
    replace (lam * dot n (P k) v * (lam * dot n (P k) v)) with (lam * lam * (dot n (P k) v * dot n (P k) v)) in D2 by ring.
    rewrite lam2 in D2.
    set (p := dot n (P k) v * dot n (P k) v) in *. set (om := dot n (w k) (w k)) in *. set (om' := dot n (w (S k)) (w (S k))) in *.
    set (c := dot n (unit2 n (P k)) (unit2 n (P (S k)))) in *.
    destruct (Rle_dec om p) as [Hle|Hgt].
    - (* small angle *)
      assert (Sc : sg * c * (s * s') = Rabs lam * p + sg * quad n M (w k)).
      { rewrite E, SQ. unfold sg at 1. replace (lam / Rabs lam * ((lam * p + quad n M (w k)) / (s * s')) * (s * s')) with
          ((lam * lam) / Rabs lam * p + sg * quad n M (w k)) by (unfold sg; field; lra).
        rewrite lam2. field. lra. }
      assert (Sq : - (mu * om) <= sg * quad n M (w k)).
      { pose proof (Rle_abs (quad n M (w k))). pose proof (Rle_abs (- quad n M (w k))) as Qn. rewrite Rabs_Ropp in Qn. destruct sg_cases as [-> | ->]; lra. }
      assert (Ls : s * s' <= Rabs lam * (p + om)).
      { apply Rsqr_incr_0_var; [|apply Rmult_le_pos; nra]. unfold Rsqr.
        replace (s * s' * (s * s')) with ((s * s) * (s' * s')) by ring. rewrite D1, D2.
        replace (Rabs lam * (p + om) * (Rabs lam * (p + om))) with ((p + om) * (Rabs lam * Rabs lam * (p + om))) by ring.
        apply Rmult_le_compat_l; [nra|]. assert (mu * mu <= Rabs lam * Rabs lam) by nra.
        assert (mu * mu * om <= Rabs lam * Rabs lam * om) by (apply Rmult_le_compat_r; assumption). lra. }
      assert (Hc : Rabs lam * (p - om) <= sg * c * (s * s')).
      { rewrite Sc. assert (mu * om <= Rabs lam * om) by (apply Rmult_le_compat_r; lra). lra. }
      assert (SS : 0 < s * s') by (apply Rmult_lt_0_compat; assumption).
      assert (C0 : 0 <= sg * c). { assert (0 <= Rabs lam * (p - om)) by (apply Rmult_le_pos; lra). nra. }
      assert (H1 : p - om <= sg * c * (p + om)).
      { apply Rmult_le_reg_l with (Rabs lam); [exact L|]. eapply Rle_trans; [exact Hc|].
        replace (Rabs lam * (sg * c * (p + om))) with (sg * c * (Rabs lam * (p + om))) by ring. apply Rmult_le_compat_l; assumption. }
      assert (Hd : (1 - sg * c) * p <= 2 * om).
      { destruct (Rle_dec (sg * c) 1) as [H2|H2]; nra. }
      assert ((1 - sg * c) * p <= 2 * e2 k * p) by lra.
      assert (1 - sg * c <= 2 * e2 k) by (apply Rmult_le_reg_r with p; assumption). lra.
    - assert (1 <= e2 k) by (apply Rnot_le_lt in Hgt; nra).
      assert (-1 <= sg * c) by (destruct sg_cases as [-> | ->]; nra). lra. }
  unfold norm. rewrite D. replace (2 * sqrt (e2 k)) with (sqrt (4 * e2 k)).
  - apply sqrt_le_1_alt. exact K.
  - rewrite sqrt_mult_alt by lra. f_equal. replace 4 with (2 * 2) by ring. apply sqrt_square. lra.
Qed.

Lemma sqrt_e2 k : sqrt (e2 k) = q ^ k * sqrt T.
Proof.
  unfold e2. rewrite sqrt_mult_alt by (apply pow_le; pose proof q_range; lra). f_equal.
  rewrite Nat.mul_comm, pow_mult. simpl. rewrite Rmult_1_r. apply sqrt_square, pow_le. pose proof q_range. lra.
Qed.

Lemma close_sg tol u y : norm1 n (fun i => u i - sg * y i) <= tol -> close_up_to_sign n tol u y.
Proof.
  intros H. destruct sg_cases as [E|E]; rewrite E in H.
  - left. eapply Rle_trans; [|exact H]. right. apply norm1_ext. intros; ring.
  - right. eapply Rle_trans; [|exact H]. right. apply norm1_ext. intros; ring.
Qed.

Lemma step_rate1 k : norm1 n (fun i => unit2 n (P (S k)) i - sg * unit2 n (P k) i) <= sqrt (INR n) * (2 * (q ^ k * sqrt T)).
Proof.
  eapply Rle_trans; [apply norm1_le_norm|]. apply Rmult_le_compat_l; [apply sqrt_pos|]. rewrite <- sqrt_e2. apply step_rate.
Qed.

Lemma stop_l2_rate tol k : 2 * sqrt (INR n) * sqrt T * q ^ k <= tol -> stop_l2 n M x tol k.
Proof.
  intros H. apply close_sg. eapply Rle_trans; [apply step_rate1|]. eapply Rle_trans; [|exact H]. right. ring.
Qed.

Lemma norm1_triang m f g : norm1 m (fun i => f i + g i) <= norm1 m f + norm1 m g.
Proof. unfold norm1. rewrite <- sumn_plus. apply sumn_le. intros. apply Rabs_triang. Qed.

Lemma stop_l1_rate tol k : 4 * sqrt (INR n) * sqrt T * q ^ k <= tol -> stop_l1 n M x tol k.
Proof.
  intros H. apply close_sg. pose proof (norm_pos _ _ (P_nz k)) as N. pose proof (norm_pos _ _ (P_nz (S k))) as N'.
  pose proof (norm1_pos _ _ (P_nz k)) as O. pose proof (norm1_pos _ _ (P_nz (S k))) as O'. fold (P k). fold (P (S k)).
  set (u := unit2 n (P k)). set (u' := unit2 n (P (S k))).
  assert (A : forall i, unit1 n (P k) i = u i / norm1 n u).
  { intros i. assert (E : norm1 n u = norm1 n (P k) / norm n (P k)).
    { unfold u. rewrite (norm1_ext n _ (fun i => / norm n (P k) * P k i)) by (intros; unfold unit2; field; lra).
      rewrite norm1_scal, Rabs_right; [field; lra|left; apply Rinv_0_lt_compat, N]. }
    rewrite E. unfold u, unit2, unit1. field. lra. }
  assert (A' : forall i, unit1 n (P (S k)) i = u' i / norm1 n u').
  { intros i. assert (E : norm1 n u' = norm1 n (P (S k)) / norm n (P (S k))).
    { unfold u'. rewrite (norm1_ext n _ (fun i => / norm n (P (S k)) * P (S k) i)) by (intros; unfold unit2; field; lra).
      rewrite norm1_scal, Rabs_right; [field; lra|left; apply Rinv_0_lt_compat, N']. }
    rewrite E. unfold u', unit2, unit1. field. lra. }
  rewrite (norm1_ext n _ (fun i => u' i / norm1 n u' - sg * (u i / norm1 n u))) by (intros; rewrite A, A'; reflexivity).
  pose proof (step_rate1 k) as St. fold u u' in St. set (d := fun i => u' i - sg * u i) in St.
  assert (L1 : 1 <= norm1 n u) by (rewrite <- (unit2_norm n (P k)) by apply P_nz; apply norm_le_norm1).
  assert (L1' : 1 <= norm1 n u') by (rewrite <- (unit2_norm n (P (S k))) by apply P_nz; apply norm_le_norm1).
  set (b := norm1 n u) in *. set (b' := norm1 n u') in *.
  assert (Sa : Rabs sg = 1) by (destruct sg_cases as [-> | ->]; [apply Rabs_R1|rewrite Rabs_left by lra; lra]).
  (* triangle inequality between the two l1 norms *)
  assert (Bd : Rabs (b - b') <= norm1 n d).
  { assert (H1 : b' <= b + norm1 n d).
    { unfold b', b. rewrite (norm1_ext n u' (fun i => sg * u i + d i)) by (intros; unfold d; ring).
      eapply Rle_trans; [apply norm1_triang|]. rewrite norm1_scal, Sa. lra. }
    assert (H2 : b <= b' + norm1 n d).
    { assert (E : norm1 n (fun i => sg * u i) = b) by (rewrite norm1_scal, Sa; unfold b; ring). rewrite <- E. unfold b'.
      rewrite (norm1_ext n (fun i => sg * u i) (fun i => u' i + -1 * d i)) by (intros; unfold d; ring).
      eapply Rle_trans; [apply norm1_triang|]. rewrite norm1_scal, Rabs_left by lra. lra. }
    apply Rabs_le. lra. }
  rewrite (norm1_ext n _ (fun i => / b' * d i + (sg * (/ b' - / b)) * u i)).
  2:{ intros. unfold d. field. lra. }
  eapply Rle_trans; [apply norm1_triang|]. rewrite !norm1_scal, Rabs_mult, Sa.
  assert (I : / b' <= 1) by (rewrite <- Rinv_1; apply Rinv_le_contravar; lra).
  assert (I0 : 0 < / b') by (apply Rinv_0_lt_compat; lra).
  assert (F : Rabs (/ b' - / b) * b = Rabs (b - b') * / b').
  { rewrite <- (Rabs_right b) at 2 by lra. rewrite <- (Rabs_right (/ b')) at 2 by lra. rewrite <- !Rabs_mult. f_equal. field. lra. }
  fold b. rewrite Rmult_1_l, F, (Rabs_right (/ b')) by lra.
  pose proof (norm1_ge_0 n d) as D0. pose proof (Rabs_pos (b - b')) as D1.
  assert (/ b' * norm1 n d <= norm1 n d) by nra. assert (Rabs (b - b') * / b' <= norm1 n d) by nra. lra.
Qed.
End Rate.

Lemma run_steps stop maxit m niter : pow_run stop maxit m niter -> m = pow_steps maxit niter.
Proof.
  unfold pow_steps. intros [(k & -> & -> & L & _)|(-> & -> & _)].
  - apply Z.ltb_lt in L. rewrite L, Nat2Z.id. reflexivity.
  - rewrite Z.ltb_irrefl. reflexivity.
Qed.
Lemma run_bound stop maxit m niter k : pow_run stop maxit m niter -> stop k -> (niter <= Z.of_nat k)%Z.
Proof.
  intros [(j & _ & -> & _ & _ & Ns)|(E & -> & Ns)] St.
  - destruct (le_lt_dec j k) as [H|H]; [lia|]. exfalso. exact (Ns k H St).
  - destruct (le_lt_dec m k) as [H|H]; [lia|]. exfalso. exact (Ns k H St).
Qed.

Lemma good_rate n (M : mat RA) (x0 : vec RA) v lam mu maxit stop r : symmetric n (fm M) -> dominant n (fm M) v lam mu ->
  dot n (fv x0) v <> 0 -> good n M x0 maxit stop r ->
  exists o, r = Ok o /\ vec_wf n (p_vec o) /\
    1 - dot n (fv (p_vec o)) v * dot n (fv (p_vec o)) v <=
      (mu / Rabs lam) ^ (2 * pow_steps maxit (p_niter o)) * tan2 n (fv x0) v /\
    Rabs (p_ld o - lam) <= (mu + Rabs lam) * ((mu / Rabs lam) ^ (2 * pow_steps maxit (p_niter o)) * tan2 n (fv x0) v) /\
    forall k, stop k -> (p_niter o <= Z.of_nat k)%Z.
Proof.
  intros S D N G. destruct r as [o|e].
  - destruct G as (m & R & _ & (L & E) & Ld). exists o. split; [reflexivity|]. split; [exact L|].
    rewrite <- (run_steps _ _ _ _ R). split; [|split].
    + rewrite (dot_ext n (fv (p_vec o)) v _ v E (fun _ _ => eq_refl)). apply (angle_rate n (fm M) (fv x0) v lam mu); assumption.
    + rewrite Ld. apply value_rate; assumption.
    + intros k. apply (run_bound _ _ _ _ k R).
  - exfalso. destruct G as (_ & j & _ & H & _). apply H. apply (P_nz n (fm M) (fv x0) v lam mu); assumption.
Qed.
