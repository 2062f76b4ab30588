(** Geometry of one ellipsoid step, for matrices as functions. *)
From Coq Require Import Reals List Arith Lia Lra Psatz Bool.
From Verif Require Import Arith Spec PSum PAlg PCalc2.
Import ListNotations.
Local Open Scope R_scope.

(** [M - (s / w) Mg (Mg)^T] and [c - (r / w) Mg] *)
Definition cutM (n : nat) (M : nat -> nat -> R) (g : nat -> R) (w s : R) : nat -> nat -> R :=
  fun i j => M i j - s / w * (mv n M g i * mv n M g j).
Definition cutC (n : nat) (M : nat -> nat -> R) (g c : nat -> R) (w r : R) : nat -> R :=
  fun i => c i - r / w * mv n M g i.

Section Geo.
Variable n : nat.
Variable M : nat -> nat -> R.
Variable g c : nat -> R.
Hypothesis Hsym : symmetric n M.
Let w := quad n M g.

Lemma mv_cutM s y i :
  mv n (cutM n M g w s) y i = mv n M y i - s / w * (mv n M g i * bil n M g y).
Proof.
  unfold cutM. rewrite (bil_symm n M g y Hsym). unfold mv at 1.
  transitivity (sumn n (fun j => M i j * y j) - sumn n (fun j => s / w * mv n M g i * (y j * mv n M g j))).
  - rewrite <- sumn_minus. apply sumn_ext. intros. ring.
  - rewrite sumn_scal. change (sumn n (fun j => y j * mv n M g j)) with (bil n M y g).
    change (sumn n (fun j => M i j * y j)) with (mv n M y i). ring.
Qed.

Lemma bil_cutM s u y :
  bil n (cutM n M g w s) u y = bil n M u y - s / w * (bil n M g u * bil n M g y).
Proof.
  unfold bil at 1.
  rewrite (dot_ext n u _ u (fun i => mv n M y i - (s / w * bil n M g y) * mv n M g i));
    [|auto|intros; rewrite mv_cutM; ring].
  rewrite dot_minus_r, dot_scal_r. fold (bil n M u y). fold (bil n M u g).
  rewrite (bil_symm n M u g Hsym). ring.
Qed.

Lemma quad_cutM s y :
  quad n (cutM n M g w s) y = quad n M y - s / w * (bil n M g y * bil n M g y).
Proof. unfold quad. apply bil_cutM. Qed.

Lemma cutM_sym s : symmetric n (cutM n M g w s).
Proof. intros i j Hi Hj. unfold cutM. rewrite (Hsym i j Hi Hj). ring. Qed.

Lemma cutval_bil x y : (forall i, (i < n)%nat -> x i - c i = mv n M y i) ->
  cutval n g c x = bil n M g y.
Proof. intros H. apply dot_ext; auto. Qed.

Lemma cutval_cutC r : w <> 0 -> cutval n g c (cutC n M g c w r) = - r.
Proof.
  intros Hw. unfold cutval.
  rewrite (dot_ext n g _ g (fun i => (- (r / w)) * mv n M g i)); [|auto|intros; unfold cutC; ring].
  rewrite dot_scal_r. change (dot n g (mv n M g)) with w. field. exact Hw.
Qed.

Hypothesis Hpsd : possemidef n M.

Lemma bil_sq_le y : bil n M g y * bil n M g y <= w * quad n M y.
Proof. apply cauchy_schwarz_form; assumption. Qed.

Lemma cutM_psd s : 0 < w -> s <= 1 -> possemidef n (cutM n M g w s).
Proof.
  intros Hw Hs y. rewrite quad_cutM. pose proof (bil_sq_le y) as H. pose proof (Hpsd y) as Hq.
  set (b := bil n M g y * bil n M g y) in *.
  assert (Hb : 0 <= b) by (unfold b; apply Rle_0_sqr).
  assert (b / w <= quad n M y) by (apply Rmult_le_reg_r with w; [lra|]; unfold Rdiv; rewrite Rmult_assoc, Rinv_l; lra).
  assert (0 <= b / w) by (apply Rle_mult_inv_pos; lra).
  replace (s / w * b) with (s * (b / w)) by (field; lra).
  destruct (Rle_dec 0 s); nra.
Qed.

Lemma cutM_pd s : posdef n M -> 0 < w -> s < 1 -> posdef n (cutM n M g w s).
Proof.
  intros Hpd Hw Hs y Hy. rewrite quad_cutM. pose proof (bil_sq_le y) as H. pose proof (Hpd y Hy) as Hq.
  set (b := bil n M g y * bil n M g y) in *.
  assert (Hb : 0 <= b) by (unfold b; apply Rle_0_sqr).
  assert (b / w <= quad n M y) by (apply Rmult_le_reg_r with w; [lra|]; unfold Rdiv; rewrite Rmult_assoc, Rinv_l; lra).
  assert (0 <= b / w) by (apply Rle_mult_inv_pos; lra).
  replace (s / w * b) with (s * (b / w)) by (field; lra).
  destruct (Rle_dec 0 s); nra.
Qed.

(** the points of an ellipsoid have a bounded linear form *)
Lemma cutval_sq_le k x : in_ellipsoid n c k M x ->
  cutval n g c x * cutval n g c x <= k * w.
Proof.
  intros (y & Hy & Hq). rewrite (cutval_bil x y Hy). pose proof (bil_sq_le y).
  assert (0 <= w) by apply Hpsd. nra.
Qed.

Lemma in_ellipsoid_k k x : in_ellipsoid n c k M x -> 0 <= k.
Proof. intros (y & _ & Hq). pose proof (Hpsd y). lra. Qed.

(** Witness in the new ellipsoid, case sigma <> 1. *)
Definition new_y (y : nat -> R) (r s : R) : nat -> R :=
  fun i => y i + (r + s * bil n M g y) / (w * (1 - s)) * g i.

Lemma new_y_mv x y r s : 0 < w -> s <> 1 ->
  (forall i, (i < n)%nat -> x i - c i = mv n M y i) ->
  forall i, (i < n)%nat ->
  x i - cutC n M g c w r i = mv n (cutM n M g w s) (new_y y r s) i.
Proof.
  intros Hw Hs Hy i Hi. rewrite mv_cutM. unfold new_y, cutC.
  rewrite mv_plus, mv_scal, bil_plus_r, bil_scal_r.
  change (bil n M g g) with w. specialize (Hy i Hi).
  replace (x i) with (c i + mv n M y i) by lra. field. split; lra.
Qed.

Lemma new_y_quad y r s : 0 < w -> s <> 1 ->
  w * (1 - s) * quad n (cutM n M g w s) (new_y y r s) =
  (1 - s) * (w * quad n M y)
  + (1 - s) * (s * (bil n M g y * bil n M g y) + 2 * bil n M g y * r)
  + (r + s * bil n M g y) * (r + s * bil n M g y).
Proof.
  intros Hw Hs. rewrite quad_cutM. unfold new_y.
  rewrite (quad_plus_scal n M y g _ Hsym), bil_plus_r, bil_scal_r.
  change (bil n M g g) with w. fold w. rewrite (bil_symm n M y g Hsym).
  set (t := bil n M g y). set (q := quad n M y). field. split; lra.
Qed.

(** Exact change of the form at a point of the old ellipsoid. *)
Lemma new_y_gap y k r s d a b : 0 < w -> s <> 1 ->
  r = s * (a + b) / 2 ->
  (1 - s) * (d * (k * w) - k * w) = s * (s * (a + b) * (a + b) / 4 - a * b) ->
  w * (1 - s) * (k * d - quad n (cutM n M g w s) (new_y y r s)) =
  (1 - s) * w * (k - quad n M y) - s * ((bil n M g y + a) * (bil n M g y + b)).
Proof.
  intros Hw Hs Hr Hd. rewrite Rmult_minus_distr_l, (new_y_quad y r s Hw Hs).
  set (t := bil n M g y). set (q := quad n M y).
  replace (w * (1 - s) * (k * d)) with ((1 - s) * (d * (k * w) - k * w) + (1 - s) * (k * w)) by ring.
  rewrite Hd. subst r. field.
Qed.

Lemma contain k a b r s d x : 0 < w -> sound (k * w) a b r s d ->
  in_ellipsoid n c k M x -> - b <= cutval n g c x <= - a ->
  in_ellipsoid n (cutC n M g c w r) (k * d) (cutM n M g w s) x.
Proof.
  intros Hw Hs (y & Hy & Hq) Ht. rewrite (cutval_bil x y Hy) in Ht.
  destruct Hs as [(Hs0 & Hr & Hd)|(Hs1 & Hab & Hr & Hd)].
  - exists (new_y y r s). split; [apply new_y_mv; [exact Hw|lra|exact Hy]|].
    assert (Hd' : (1 - s) * (d * (k * w) - k * w) = s * (s * (a + b) * (a + b) / 4 - a * b)).
    { rewrite Hd. field. }
    pose proof (new_y_gap y k r s d a b Hw ltac:(lra) Hr Hd') as G.
    set (t := bil n M g y) in *. set (q := quad n M y) in *.
    set (q' := quad n (cutM n M g w s) (new_y y r s)) in *.
    assert (0 <= (1 - s) * w * (k - q)).
    { apply Rmult_le_pos; [apply Rmult_le_pos|]; lra. }
    assert (0 <= - (s * ((t + a) * (t + b)))).
    { assert ((t + a) * (t + b) <= 0) by nra. nra. }
    assert (0 < w * (1 - s)) by (apply Rmult_lt_0_compat; lra).
    assert (0 <= k * d - q'); [|lra].
    apply Rmult_le_reg_l with (w * (1 - s)); [assumption|]. rewrite Rmult_0_r, G. lra.
  - subst s b r. exists y. assert (Et : bil n M g y = - a) by lra. split.
    + intros i Hi. rewrite mv_cutM, Et. unfold cutC. specialize (Hy i Hi).
      replace (x i) with (c i + mv n M y i) by lra. field. lra.
    + rewrite quad_cutM, Et. set (q := quad n M y) in *.
      apply Rmult_le_reg_l with w; [exact Hw|].
      replace (w * (q - 1 / w * (- a * - a))) with (w * q - a * a) by (field; lra). nra.
Qed.

(** the bound on the linear form is attained *)
Definition extreme (k : R) : nat -> R := fun i => c i + sqrt (k / w) * mv n M g i.

Lemma extreme_in k : 0 < w -> 0 <= k -> in_ellipsoid n c k M (extreme k).
Proof.
  intros Hw Hk. exists (fun i => sqrt (k / w) * g i). split.
  - intros i Hi. unfold extreme. rewrite mv_scal. ring.
  - unfold quad. rewrite bil_scal_l, bil_scal_r. change (bil n M g g) with w.
    replace (sqrt (k / w) * (sqrt (k / w) * w)) with (sqrt (k / w) * sqrt (k / w) * w) by ring.
    rewrite sqrt_sqrt by (apply Rle_mult_inv_pos; lra). right. field. lra.
Qed.

Lemma extreme_val k : cutval n g c (extreme k) = sqrt (k / w) * w.
Proof.
  unfold cutval, extreme.
  rewrite (dot_ext n g _ g (fun i => sqrt (k / w) * mv n M g i)); [|auto|intros; ring].
  rewrite dot_scal_r. reflexivity.
Qed.

Lemma extreme_sq k : 0 < w -> 0 <= k ->
  cutval n g c (extreme k) * cutval n g c (extreme k) = k * w.
Proof.
  intros Hw Hk. rewrite extreme_val.
  replace (sqrt (k / w) * w * (sqrt (k / w) * w)) with (sqrt (k / w) * sqrt (k / w) * w * w) by ring.
  rewrite sqrt_sqrt by (apply Rle_mult_inv_pos; lra). field. lra.
Qed.

End Geo.

(** Semidefinite forms vanish only where the matrix does. *)
Lemma psd_quad_0 n M y : symmetric n M -> possemidef n M -> quad n M y <= 0 ->
  forall i, (i < n)%nat -> mv n M y i = 0.
Proof.
  intros Hs Hp Hq i Hi.
  assert (Hz : forall u, bil n M u y = 0).
  { intros u. pose proof (cauchy_schwarz_form n M u y Hs Hp). pose proof (Hp u). pose proof (Hp y).
    assert (quad n M y = 0) by lra. rewrite H2, Rmult_0_r in H.
    pose proof (Rle_0_sqr (bil n M u y)). unfold Rsqr in *.
    destruct (Req_dec (bil n M u y) 0) as [|N]; [assumption|].
    apply Rsqr_pos_lt in N. unfold Rsqr in N. lra. }
  specialize (Hz (fun j => if Nat.eqb j i then 1 else 0)). unfold bil, dot in Hz.
  rewrite (sumn_delta_l n i (mv n M y) Hi) in Hz. exact Hz.
Qed.

(** Moving the scale into the matrix. *)
Lemma mv_mscal n M k y i : mv n (fun i j => k * M i j) y i = k * mv n M y i.
Proof. unfold mv. rewrite <- sumn_scal. apply sumn_ext. intros. ring. Qed.

Lemma bil_mscal n M k u y : bil n (fun i j => k * M i j) u y = k * bil n M u y.
Proof.
  unfold bil. rewrite <- dot_scal_r. apply dot_ext; auto. intros. apply mv_mscal.
Qed.

Lemma scale_in n c k M x : symmetric n M -> possemidef n M -> in_ellipsoid n c k M x ->
  in_ellipsoid n c 1 (fun i j => k * M i j) x.
Proof.
  intros Hs Hp H. pose proof (in_ellipsoid_k n M c Hp k x H) as Hk.
  destruct H as (y & Hy & Hq). destruct (Req_dec k 0) as [->|Hk0].
  - exists (fun _ => 0). split.
    + intros i Hi. rewrite (Hy i Hi), (psd_quad_0 n M y Hs Hp Hq i Hi), mv_mscal. ring.
    + unfold quad. rewrite bil_mscal. lra.
  - exists (fun i => / k * y i). split.
    + intros i Hi. rewrite mv_mscal, mv_scal, (Hy i Hi). field. exact Hk0.
    + unfold quad. rewrite bil_mscal, bil_scal_l, bil_scal_r. fold (quad n M y).
      apply Rmult_le_reg_l with k; [lra|].
      replace (k * (k * (/ k * (/ k * quad n M y)))) with (quad n M y) by (field; exact Hk0). lra.
Qed.

Lemma scale_out n c k M x : 0 <= k -> in_ellipsoid n c 1 (fun i j => k * M i j) x ->
  in_ellipsoid n c k M x.
Proof.
  intros Hk (y & Hy & Hq). exists (fun i => k * y i). split.
  - intros i Hi. rewrite (Hy i Hi), mv_mscal, mv_scal. reflexivity.
  - unfold quad in *. rewrite bil_mscal in Hq. rewrite bil_scal_l, bil_scal_r. nra.
Qed.

Lemma in_ellipsoid_ext n c k M c' k' M' x :
  (forall i, (i < n)%nat -> c i = c' i) -> k = k' ->
  (forall i j, (i < n)%nat -> (j < n)%nat -> M i j = M' i j) ->
  in_ellipsoid n c k M x -> in_ellipsoid n c' k' M' x.
Proof.
  intros Hc <- HM (y & Hy & Hq). exists y. split.
  - intros i Hi. rewrite <- (Hc i Hi), (Hy i Hi). apply mv_ext; auto.
  - unfold quad in *. rewrite <- (bil_ext n M M' y y y y); auto.
Qed.
