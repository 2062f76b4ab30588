(** The logarithm of [1 - t exp(-j th)], truncated, with its remainder. *)
From Coq Require Import Reals List Arith Lia Lra Psatz.
From Verif Require Import Spec PSum.
Import ListNotations.
Local Open Scope R_scope.

Lemma Rabs_le_inv a b : Rabs a <= b -> - b <= a <= b.
Proof. intros H. pose proof (Rle_abs a). pose proof (Rle_abs (- a)) as H2. rewrite Rabs_Ropp in H2. lra. Qed.

Definition den (t th : R) : R := 1 - 2 * t * cos th + t * t.

Lemma cos_bound th : - 1 <= cos th <= 1.
Proof. split; [apply COS_bound|apply COS_bound]. Qed.
Lemma den_ge t th q : 0 <= q < 1 -> Rabs t <= q -> (1 - q) * (1 - q) <= den t th.
Proof.
  intros Hq Ht. unfold den. pose proof (cos_bound th). apply Rabs_le_inv in Ht.
  destruct (Rle_dec 0 t).
  - assert (t * cos th <= t * 1) by (apply Rmult_le_compat_l; lra). nra.
  - assert (t * cos th <= - t) by nra. nra.
Qed.
Lemma den_pos t th q : 0 <= q < 1 -> Rabs t <= q -> 0 < den t th.
Proof. intros Hq Ht. pose proof (den_ge t th q Hq Ht). nra. Qed.
Lemma den_parts t th : (1 - t * cos th) * (1 - t * cos th) + (t * sin th) * (t * sin th) = den t th.
Proof. unfold den. pose proof (sin2_cos2 th) as S. unfold Rsqr in S. transitivity (1 - 2 * t * cos th + t * t * (sin th * sin th + cos th * cos th)); [ring|rewrite S; ring]. Qed.
Lemma re_pos t th q : 0 <= q < 1 -> Rabs t <= q -> 0 < 1 - t * cos th.
Proof.
  intros Hq Ht. pose proof (cos_bound th). apply Rabs_le_inv in Ht. destruct (Rle_dec 0 t); nra.
Qed.

(** ** The two truncated series and their derivatives *)
Definition cser (N : nat) (th t : R) : R := sumn N (fun k => t ^ S k * cos (INR (S k) * th) / INR (S k)).
Definition sser (N : nat) (th t : R) : R := sumn N (fun k => t ^ S k * sin (INR (S k) * th) / INR (S k)).
Definition cser' (N : nat) (th t : R) : R := sumn N (fun k => t ^ k * cos (INR (S k) * th)).
Definition sser' (N : nat) (th t : R) : R := sumn N (fun k => t ^ k * sin (INR (S k) * th)).

Lemma sum_derive (f g : nat -> R -> R) t N : (forall k, derivable_pt_lim (f k) t (g k t)) ->
  derivable_pt_lim (fun x => sumn N (fun k => f k x)) t (sumn N (fun k => g k t)).
Proof.
  intros H. induction N as [|N IH]; cbn [sumn]; [apply derivable_pt_lim_const|].
  apply (derivable_pt_lim_plus (fun x => sumn N (fun k => f k x)) (f N)); [exact IH|apply H].
Qed.
Lemma term_derive a k t : derivable_pt_lim (fun x => x ^ S k * a / INR (S k)) t (t ^ k * a).
Proof.
  assert (N : INR (S k) <> 0) by (apply not_0_INR; lia).
  replace (t ^ k * a) with ((INR (S k) * t ^ pred (S k)) * (a / INR (S k))) by (cbn [pred]; field; exact N).
  assert (D : derivable_pt_lim (fun x => (a / INR (S k)) * x ^ S k) t ((a / INR (S k)) * (INR (S k) * t ^ pred (S k)))).
  { apply (derivable_pt_lim_scal (fun x => x ^ S k)). apply derivable_pt_lim_pow. }
  intros eps He. destruct (D eps He) as (dl & Hd). exists dl. intros h Hh1 Hh2. specialize (Hd h Hh1 Hh2).
  replace ((((t + h) ^ S k * a / INR (S k) - t ^ S k * a / INR (S k)) / h - INR (S k) * t ^ pred (S k) * (a / INR (S k))))
    with ((a / INR (S k) * (t + h) ^ S k - a / INR (S k) * t ^ S k) / h - a / INR (S k) * (INR (S k) * t ^ pred (S k))) by (field; split; assumption).
  exact Hd.
Qed.
Lemma cser_derive N th t : derivable_pt_lim (cser N th) t (cser' N th t).
Proof. apply (sum_derive (fun k x => x ^ S k * cos (INR (S k) * th) / INR (S k)) (fun k x => x ^ k * cos (INR (S k) * th))). intros k. apply term_derive. Qed.
Lemma sser_derive N th t : derivable_pt_lim (sser N th) t (sser' N th t).
Proof. apply (sum_derive (fun k x => x ^ S k * sin (INR (S k) * th) / INR (S k)) (fun k x => x ^ k * sin (INR (S k) * th))). intros k. apply term_derive. Qed.

Lemma geo_cos N th t : den t th * cser' N th t = cos th - t - t ^ N * (cos (INR (S N) * th) - t * cos (INR N * th)).
Proof.
  unfold cser'. induction N as [|N IH]; cbn [sumn].
  - cbn [pow INR]. rewrite Rmult_0_l, cos_0, !Rmult_1_l. ring.
  - rewrite Rmult_plus_distr_l, IH. unfold den.
    assert (E : cos (INR (S (S N)) * th) = 2 * cos th * cos (INR (S N) * th) - cos (INR N * th)).
    { rewrite !S_INR. replace ((INR N + 1 + 1) * th) with ((INR N + 1) * th + th) by ring. replace (INR N * th) with ((INR N + 1) * th - th) by ring. rewrite cos_plus, cos_minus. ring. }
    rewrite E. cbn [pow]. ring.
Qed.
Lemma geo_sin N th t : den t th * sser' N th t = sin th - t ^ N * (sin (INR (S N) * th) - t * sin (INR N * th)).
Proof.
  unfold sser'. induction N as [|N IH]; cbn [sumn].
  - cbn [pow INR]. rewrite Rmult_0_l, sin_0, !Rmult_1_l. ring.
  - rewrite Rmult_plus_distr_l, IH. unfold den.
    assert (E : sin (INR (S (S N)) * th) = 2 * cos th * sin (INR (S N) * th) - sin (INR N * th)).
    { rewrite !S_INR. replace ((INR N + 1 + 1) * th) with ((INR N + 1) * th + th) by ring. replace (INR N * th) with ((INR N + 1) * th - th) by ring. rewrite sin_plus, sin_minus. ring. }
    rewrite E. cbn [pow]. ring.
Qed.

Lemma chord_re a th t : (cos (a + th) - t * cos a) * (cos (a + th) - t * cos a) <= den t th.
Proof.
  assert (E : den t th = (cos (a + th) - t * cos a) * (cos (a + th) - t * cos a) + (sin (a + th) - t * sin a) * (sin (a + th) - t * sin a)).
  { unfold den. pose proof (sin2_cos2 (a + th)) as S1. pose proof (sin2_cos2 a) as S2. unfold Rsqr in *.
    replace (cos th) with (cos (a + th) * cos a + sin (a + th) * sin a) by (rewrite <- cos_minus; f_equal; ring).
    transitivity ((sin (a + th) * sin (a + th) + cos (a + th) * cos (a + th)) - 2 * t * (cos (a + th) * cos a + sin (a + th) * sin a) + t * t * (sin a * sin a + cos a * cos a)); [rewrite S1, S2; ring|ring]. }
  rewrite E. pose proof (Rle_0_sqr (sin (a + th) - t * sin a)). unfold Rsqr in *. lra.
Qed.
Lemma chord_im a th t : (sin (a + th) - t * sin a) * (sin (a + th) - t * sin a) <= den t th.
Proof.
  pose proof (chord_re (a - PI / 2) th t) as H. replace (a - PI / 2 + th) with (- (PI / 2 - (a + th))) in H by ring.
  replace (a - PI / 2) with (- (PI / 2 - a)) in H by ring. rewrite !cos_neg, !cos_shift in H. exact H.
Qed.

Lemma quot_bound q x D t N : 0 <= q < 1 -> Rabs t <= q -> (1 - q) * (1 - q) <= D -> x * x <= D -> Rabs (t ^ N * x / D) <= q ^ N / (1 - q).
Proof.
  intros Hq Ht HD Hx. assert (0 < D) by nra.
  assert (A : Rabs (x / D) <= 1 / (1 - q)).
  { apply Rsqr_le_abs_0_alt || idtac. apply Rabs_le.
    assert (S : x / D * (x / D) <= 1 / (1 - q) * (1 / (1 - q))).
    { apply (Rmult_le_reg_r (D * D * ((1 - q) * (1 - q)))); [apply Rmult_lt_0_compat; nra|].
      replace (x / D * (x / D) * (D * D * ((1 - q) * (1 - q)))) with (x * x * ((1 - q) * (1 - q))) by (field; lra).
      replace (1 / (1 - q) * (1 / (1 - q)) * (D * D * ((1 - q) * (1 - q)))) with (D * D) by (field; lra).
      apply Rmult_le_compat; [apply Rle_0_sqr|nra|exact Hx|exact HD]. }
    assert (0 < 1 / (1 - q)) by (apply Rdiv_lt_0_compat; lra).
    assert (Rabs (x / D) <= 1 / (1 - q)) by (apply Rsqr_incr_0_var; [rewrite <- Rsqr_abs; exact S|lra]).
    apply Rabs_le_inv. exact H1. }
  replace (t ^ N * x / D) with (t ^ N * (x / D)) by (field; lra). rewrite Rabs_mult.
  replace (q ^ N / (1 - q)) with (q ^ N * (1 / (1 - q))) by (field; lra).
  apply Rmult_le_compat; [apply Rabs_pos|apply Rabs_pos| |exact A].
  rewrite <- RPow_abs. apply pow_incr. split; [apply Rabs_pos|exact Ht].
Qed.

Lemma between q r c : Rabs r <= q -> Rmin 0 r <= c <= Rmax 0 r -> Rabs c <= q.
Proof.
  intros Hr Hc. apply Rabs_le_inv in Hr. apply Rabs_le. unfold Rmin, Rmax in Hc. destruct (Rle_dec 0 r); lra.
Qed.

Lemma log_tail N q r th : 0 <= q < 1 -> Rabs r <= q -> Rabs (1 / 2 * ln (den r th) + cser N th r) <= q ^ S N / (1 - q).
Proof.
  intros Hq Hr.
  set (F := fun t => 1 / 2 * ln (den t th) + cser N th t). set (F' := fun t => 1 / 2 * (/ den t th * (2 * t - 2 * cos th)) + cser' N th t).
  destruct (MVT_abs F F' 0 r) as (c & E & Hc).
  - intros c Hc. pose proof (between q r c Hr Hc) as Ac. pose proof (den_pos c th q Hq Ac) as Dp.
    unfold F, F'. apply (derivable_pt_lim_plus (fun t => 1 / 2 * ln (den t th)) (cser N th)); [|apply cser_derive].
    apply (derivable_pt_lim_scal (fun t => ln (den t th))).
    apply (derivable_pt_lim_comp (fun t => den t th) ln); [|apply derivable_pt_lim_ln; exact Dp].
    unfold den. replace (2 * c - 2 * cos th) with ((0 - 2 * 1 * cos th) + (1 * c + c * 1)) by ring.
    apply (derivable_pt_lim_plus (fun t => 1 - 2 * t * cos th) (fun t => t * t)).
    + apply (derivable_pt_lim_minus (fun _ => 1) (fun t => 2 * t * cos th)); [apply derivable_pt_lim_const|].
      assert (G : derivable_pt_lim (fun t => (2 * cos th) * t) c ((2 * cos th) * 1)) by (apply (derivable_pt_lim_scal (fun t => t)); apply derivable_pt_lim_id).
      intros eps He. destruct (G eps He) as (dl & Hd). exists dl. intros h Hh1 Hh2. specialize (Hd h Hh1 Hh2).
      replace ((2 * (c + h) * cos th - 2 * c * cos th) / h - 2 * 1 * cos th) with ((2 * cos th * (c + h) - 2 * cos th * c) / h - 2 * cos th * 1) by (field; exact Hh1). exact Hd.
    + apply (derivable_pt_lim_mult (fun t => t) (fun t => t)); apply derivable_pt_lim_id.
  - pose proof (between q r c Hr Hc) as Ac. pose proof (den_pos c th q Hq Ac) as Dp.
    assert (F0 : F 0 = 0).
    { unfold F, den, cser. rewrite sumn_0 by (intros k _; cbn [pow]; unfold Rdiv; ring). replace (1 - 2 * 0 * cos th + 0 * 0) with 1 by ring. rewrite ln_1. ring. }
    rewrite F0, !Rminus_0_r in E. change (1 / 2 * ln (den r th) + cser N th r) with (F r). rewrite E.
    assert (EF : F' c = - (c ^ N * (cos (INR (S N) * th) - c * cos (INR N * th)) / den c th)).
    { unfold F'. apply (Rmult_eq_reg_l (den c th)); [|lra]. rewrite Rmult_plus_distr_l, geo_cos. field. lra. }
    rewrite EF, Rabs_Ropp.
    assert (B : Rabs (c ^ N * (cos (INR (S N) * th) - c * cos (INR N * th)) / den c th) <= q ^ N / (1 - q)).
    { apply quot_bound; [exact Hq|exact Ac|apply den_ge; assumption|]. replace (INR (S N) * th) with (INR N * th + th) by (rewrite S_INR; ring). apply chord_re. }
    replace (q ^ S N / (1 - q)) with (q ^ N / (1 - q) * q) by (cbn [pow]; field; lra).
    apply Rmult_le_compat; [apply Rabs_pos|apply Rabs_pos|exact B|exact Hr].
Qed.

Lemma phase_tail N q r th : 0 <= q < 1 -> Rabs r <= q -> Rabs (atan (r * sin th / (1 - r * cos th)) - sser N th r) <= q ^ S N / (1 - q).
Proof.
  intros Hq Hr.
  set (F := fun t => atan (t * sin th / (1 - t * cos th)) - sser N th t). set (F' := fun t => sin th / den t th - sser' N th t).
  destruct (MVT_abs F F' 0 r) as (c & E & Hc).
  - intros c Hc. pose proof (between q r c Hr Hc) as Ac. pose proof (den_pos c th q Hq Ac) as Dp. pose proof (re_pos c th q Hq Ac) as Rp.
    unfold F, F'. apply (derivable_pt_lim_minus (fun t => atan (t * sin th / (1 - t * cos th))) (sser N th)); [|apply sser_derive].
    replace (sin th / den c th) with (1 / (1 + (c * sin th / (1 - c * cos th)) ^ 2) * ((sin th * (1 - c * cos th) - (- cos th) * (c * sin th)) / Rsqr (1 - c * cos th))).
    + apply (derivable_pt_lim_comp (fun t => t * sin th / (1 - t * cos th)) atan).
      * apply (derivable_pt_lim_div (fun t => t * sin th) (fun t => 1 - t * cos th)); [| |lra].
        -- assert (G : derivable_pt_lim (fun t => t * sin th) c (1 * sin th + c * 0)) by (apply (derivable_pt_lim_mult (fun t => t) (fun _ => sin th)); [apply derivable_pt_lim_id|apply derivable_pt_lim_const]).
           replace (1 * sin th + c * 0) with (sin th) in G by ring. exact G.
        -- replace (- cos th) with (0 - (1 * cos th + c * 0)) by ring. apply (derivable_pt_lim_minus (fun _ => 1) (fun t => t * cos th)); [apply derivable_pt_lim_const|].
           apply (derivable_pt_lim_mult (fun t => t) (fun _ => cos th)); [apply derivable_pt_lim_id|apply derivable_pt_lim_const].
      * replace (1 / (1 + (c * sin th / (1 - c * cos th)) ^ 2)) with (/ (1 + (c * sin th / (1 - c * cos th)) ^ 2)) by (unfold Rdiv; ring).
        apply derivable_pt_lim_atan.
    + rewrite <- (den_parts c th) in *. unfold Rsqr. field. repeat split; nra.
  - pose proof (between q r c Hr Hc) as Ac. pose proof (den_pos c th q Hq Ac) as Dp.
    assert (F0 : F 0 = 0).
    { unfold F, sser. rewrite sumn_0 by (intros k _; cbn [pow]; unfold Rdiv; ring). rewrite Rmult_0_l. unfold Rdiv. rewrite Rmult_0_l, atan_0. ring. }
    rewrite F0, !Rminus_0_r in E. change (atan (r * sin th / (1 - r * cos th)) - sser N th r) with (F r). rewrite E.
    assert (EF : F' c = c ^ N * (sin (INR (S N) * th) - c * sin (INR N * th)) / den c th).
    { unfold F'. apply (Rmult_eq_reg_l (den c th)); [|lra]. rewrite Rmult_minus_distr_l, geo_sin. field. lra. }
    rewrite EF.
    assert (B : Rabs (c ^ N * (sin (INR (S N) * th) - c * sin (INR N * th)) / den c th) <= q ^ N / (1 - q)).
    { apply quot_bound; [exact Hq|exact Ac|apply den_ge; assumption|]. replace (INR (S N) * th) with (INR N * th + th) by (rewrite S_INR; ring). apply chord_im. }
    replace (q ^ S N / (1 - q)) with (q ^ N / (1 - q) * q) by (cbn [pow]; field; lra).
    apply Rmult_le_compat; [apply Rabs_pos|apply Rabs_pos|exact B|exact Hr].
Qed.

(** ** Polar form *)
Lemma polar x y : 0 < x -> x = exp (1 / 2 * ln (x * x + y * y)) * cos (atan (y / x)) /\ y = exp (1 / 2 * ln (x * x + y * y)) * sin (atan (y / x)).
Proof.
  intros Hx. assert (P : 0 < x * x + y * y) by nra.
  assert (E : exp (1 / 2 * ln (x * x + y * y)) = sqrt (x * x + y * y)).
  { apply Rsqr_inj; [left; apply exp_pos|apply sqrt_pos|]. unfold Rsqr. rewrite <- exp_plus. replace (1 / 2 * ln (x * x + y * y) + 1 / 2 * ln (x * x + y * y)) with (ln (x * x + y * y)) by field.
    rewrite exp_ln, sqrt_sqrt by lra. reflexivity. }
  assert (S : sqrt (x * x + y * y) = x * sqrt (1 + (y / x)²)).
  { replace (x * x + y * y) with (x * x * (1 + (y / x)²)) by (unfold Rsqr; field; lra).
    rewrite sqrt_mult by (try nra; pose proof (Rle_0_sqr (y / x)); lra). rewrite sqrt_square by lra. reflexivity. }
  assert (N : 0 < sqrt (1 + (y / x)²)) by (apply sqrt_lt_R0; pose proof (Rle_0_sqr (y / x)); lra).
  rewrite E, S, cos_atan, sin_atan. split; field; lra.
Qed.
