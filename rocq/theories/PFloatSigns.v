(** Signs and sizes of what the cut calculators return in double arithmetic. *)
From Coq Require Import Reals ZArith Lia Lra Psatz Bool Floats List.
From Flocq Require Import Core.Core.
From Verif Require Import Arith Vec ModelCalc ModelEll ModelStable SpecDrivers SpecFloating SpecCut.
From Verif Require Import SpecFloatSigns PFloat PFloatSign PFloatCalc PFloatErr PFloatPar PFloatCut PFloatCut2 PFloatAcc PFloatAcc2.
Import ListNotations.
Local Open Scope R_scope.

(** ** Numbers between zero and a power of two *)

Definition bd (x : num FA) (k : Z) : Prop := exists r, ev x = EFin r /\ 0 <= r <= bpow radix2 k.

Lemma bd_weak x j k : bd x j -> (j <= k)%Z -> bd x k.
Proof. intros (r & E & H1 & H2) L. exists r. split; [ exact E | ]. generalize (bp_le _ _ L). lra. Qed.

Lemma fmt_bp k : (-1074 <= k)%Z -> fmt (bpow radix2 k).
Proof. intros H. apply generic_format_FLT_bpow; [ typeclasses eauto | lia ]. Qed.

Lemma rnd_ge k x : (-1074 <= k)%Z -> bpow radix2 k <= x -> bpow radix2 k <= rnd x.
Proof. intros K H. rewrite <- (rnd_fmt _ (fmt_bp k K)). now apply rnd_le. Qed.

Lemma rx_bd r k : 0 <= r <= bpow radix2 k -> (-1074 <= k < 1024)%Z -> rx r = EFin (rnd r) /\ 0 <= rnd r <= bpow radix2 k.
Proof. intros H K. apply rx_fin_le; [ lra | lra | apply fmt_bp; lia | apply big_bound; lia ]. Qed.

Lemma bd_add x y k : bd x k -> bd y k -> (-1074 <= k < 1023)%Z -> bd (aadd (a:=FA) x y) (k + 1).
Proof.
  intros (a & Ea & Ha) (b & Eb & Hb) K.
  destruct (rx_bd (a + b) (k + 1)) as [R1 R2]; [ rewrite bp_S; lra | lia | ].
  eexists. split; [ | exact R2 ]. cbn. rewrite ev_add, Ea, Eb. exact R1.
Qed.

Lemma bd_mul x y j k : bd x j -> bd y k -> (-1074 <= j + k < 1024)%Z -> bd (amul (a:=FA) x y) (j + k).
Proof.
  intros (a & Ea & Ha) (b & Eb & Hb) K.
  destruct (rx_bd (a * b) (j + k)) as [R1 R2]; [ rewrite bpow_plus; nra | lia | ].
  eexists. split; [ | exact R2 ]. cbn. rewrite ev_mul, Ea, Eb. exact R1.
Qed.

Lemma bd_div x y b j k : bd x j -> ev y = EFin b -> bpow radix2 k <= b -> (-1074 <= j - k < 1024)%Z ->
  exists z, pdiv (A:=FA) x y = Ok z /\ bd z (j - k).
Proof.
  intros (a & Ea & Ha) Eb Hb K. assert (Pk := bpow_gt_0 radix2 k).
  assert (B : 0 <= a / b <= bpow radix2 (j - k)).
  { split; [ unfold Rdiv; apply Rmult_le_pos; [ lra | left; apply Rinv_0_lt_compat; lra ] | ].
    apply Rmult_le_reg_r with b; [ lra | ]. unfold Rdiv. rewrite Rmult_assoc, Rinv_l, Rmult_1_r by lra.
    assert (bpow radix2 j = bpow radix2 (j - k) * bpow radix2 k) by (rewrite <- bpow_plus; f_equal; lia).
    assert (Q := bpow_gt_0 radix2 (j - k)). nra. }
  destruct (op_div x y a b (j - k) Ea Eb) as (z & Z1 & Z2); [ lra | rewrite Rabs_pos_eq; lra | lia | ].
  exists z. split; [ exact Z1 | ]. eexists. split; [ exact Z2 | ]. exact (proj2 (rx_bd _ _ B K)).
Qed.

Lemma bd_sub x y a b k : ev x = EFin a -> ev y = EFin b -> 0 <= b <= a -> a <= bpow radix2 k -> (-1074 <= k < 1024)%Z ->
  bd (asub (a:=FA) x y) k.
Proof.
  intros Ea Eb H1 H2 K. destruct (rx_bd (a - b) k) as [R1 R2]; [ lra | lia | ].
  eexists. split; [ | exact R2 ]. cbn. rewrite ev_sub, Ea, Eb. exact R1.
Qed.

Lemma bd_sqrt x j k : bd x j -> (j <= k + k)%Z -> (-1074 <= k)%Z -> 
  psqrt (A:=FA) x = Ok (PrimFloat.sqrt x) /\ bd (PrimFloat.sqrt x) k.
Proof.
  intros (a & Ea & Ha) H K. split; [ apply fpsqrt; rewrite Ea; cbn; lra | ].
  exists (rnd (R_sqrt.sqrt a)). split; [ apply ev_sqrt; [ exact Ea | lra ] | ].
  split; [ apply rnd_nonneg, sqrt_pos | ]. rewrite <- (rnd_fmt _ (fmt_bp k K)). apply rnd_le.
  rewrite <- (sqrt_square (bpow radix2 k)) by apply bpow_ge_0. apply sqrt_le_1_alt.
  rewrite <- bpow_plus. apply Rle_trans with (bpow radix2 j); [ lra | now apply bp_le ].
Qed.

Lemma bd_half x k : bd x k -> (-1074 <= k < 1024)%Z -> bd (adiv (a:=FA) x (atwo (A:=FA))) k.
Proof.
  intros (a & Ea & Ha) K. destruct (rx_bd (a / 2) k) as [R1 R2]; [ lra | lia | ].
  eexists. split; [ | exact R2 ]. cbn [adiv FA]. rewrite ev_div, Ea, ev_two; [ exact R1 | ].
  rewrite ev_two. cbn. destruct (Req_EM_T 2 0); [ lra | reflexivity ].
Qed.

(** ** The square root of a rounded square is not below the number squared *)

Lemma sqrt_rsq b t : fmt b -> fmt t -> 0 <= b -> bpow radix2 (-400) <= t -> rnd (b * b) <= t -> b <= rnd (R_sqrt.sqrt t).
Proof.
  intros Fb Ft Pb Lt H.
  assert (P4 := bpow_gt_0 radix2 (-400)).
  destruct (Rle_lt_dec (b * b) t) as [L|L].
  { rewrite <- (rnd_fmt _ Fb) at 1. apply rnd_le. rewrite <- (sqrt_square b) at 1 by exact Pb. now apply sqrt_le_1_alt. }
  assert (Et : t = rnd (b * b)).
  { apply Rle_antisym; [ | exact H ]. rewrite <- (rnd_fmt _ Ft) at 1. apply rnd_le. lra. }
  assert (Hb : 0 < b) by (destruct Pb as [|<-]; [ assumption | lra ]).
  destruct (Rle_lt_dec b (rnd (R_sqrt.sqrt t))) as [|Lab]; [ assumption | exfalso ].
  set (a := rnd (R_sqrt.sqrt t)) in *.
  set (e := mag radix2 b : Z).
  assert (B1 : bpow radix2 (e - 1) <= b).
  { generalize (bpow_mag_le radix2 b ltac:(lra)). rewrite Rabs_pos_eq by lra. tauto. }
  assert (B2 : b < bpow radix2 e).
  { generalize (bpow_mag_gt radix2 b). rewrite Rabs_pos_eq by lra. tauto. }
  assert (Ee : (-201 <= e)%Z).
  { destruct (Z_le_gt_dec (-201) e) as [|G]; [ assumption | exfalso ].
    assert (bpow radix2 e <= bpow radix2 (-202)) by (apply bp_le; lia).
    assert (bpow radix2 (-400) = bpow radix2 (-202) * bpow radix2 (-202) * 16).
    { rewrite <- bpow_plus. change 16 with (bpow radix2 4). rewrite <- bpow_plus. f_equal. }
    assert (b * b < bpow radix2 (-202) * bpow radix2 (-202)) by (assert (Q := bpow_gt_0 radix2 (-202)); nra).
    assert (Q := bpow_gt_0 radix2 (-202)). nra. }
  assert (Sq : bpow radix2 (e - 1) * bpow radix2 (e - 1) = bpow radix2 (2 * e - 2)) by (apply bp_mul; lia).
  assert (T2 : bpow radix2 (2 * e - 2) <= t).
  { rewrite Et. apply rnd_ge; [ lia | ]. rewrite <- Sq. assert (Q := bpow_gt_0 radix2 (e - 1)). nra. }
  assert (A1 : bpow radix2 (e - 1) <= a).
  { unfold a. apply rnd_ge; [ lia | ]. rewrite <- (sqrt_square (bpow radix2 (e - 1))) by apply bpow_ge_0.
    apply sqrt_le_1_alt. rewrite Sq. exact T2. }
  set (w := bpow radix2 (e - 53)).
  assert (Pw : 0 < w) by apply bpow_gt_0.
  assert (Fa : fmt a) by (apply generic_format_round; typeclasses eauto).
  assert (Step : forall x y, fmt x -> fmt y -> bpow radix2 (e - 1) <= x -> x < bpow radix2 e -> x < y -> x + w <= y).
  { intros x y Fx Fy X1 X2 XY.
    assert (S := succ_le_lt radix2 (FLT_exp (-1074) 53) x y Fx Fy XY).
    assert (X0 : 0 < x) by (generalize (bpow_gt_0 radix2 (e - 1)); lra).
    rewrite succ_eq_pos in S by lra. rewrite ulp_neq_0 in S by lra.
    assert (M : mag radix2 x = e :> Z).
    { apply mag_unique. rewrite Rabs_pos_eq by lra. split; lra. }
    unfold cexp in S. rewrite M in S. unfold FLT_exp in S. replace (Z.max (e - 53) (-1074)) with (e - 53)%Z in S by lia.
    exact S. }
  assert (Ha := Step a b Fa Fb A1 ltac:(lra) Lab).
  assert (Hbn : bpow radix2 (e - 1) + w <= b).
  { apply Step; [ apply fmt_bp; lia | exact Fb | lra | apply bpow_lt; lia | ].
    destruct B1 as [|B1]; [ assumption | exfalso ].
    rewrite <- B1, Sq in Et, L. rewrite rnd_fmt in Et by (apply fmt_bp; lia). lra. }
  (* the rounded root is nearest *)
  assert (Near : R_sqrt.sqrt t <= (a + b) / 2).
  { destruct (round_N_pt radix2 (FLT_exp (-1074) 53) (fun x => negb (Z.even x)) (R_sqrt.sqrt t)) as [_ N].
    assert (N' : Rabs (a - R_sqrt.sqrt t) <= Rabs (b - R_sqrt.sqrt t)) by exact (N b Fb). clear N. rename N' into N.
    destruct (Rle_lt_dec (R_sqrt.sqrt t) ((a + b) / 2)) as [|Q]; [ assumption | exfalso ].
    rewrite (Rabs_left1 (a - R_sqrt.sqrt t)) in N by lra.
    unfold Rabs in N. destruct (Rcase_abs (b - R_sqrt.sqrt t)); lra. }
  (* the rounded square is close *)
  assert (Err : b * b - t <= w * bpow radix2 e / 2).
  { assert (Eu := error_le_half_ulp radix2 (FLT_exp (-1074) 53) (fun x => negb (Z.even x)) (b * b)).
    change (round radix2 (FLT_exp (-1074) 53) (Znearest (fun x => negb (Z.even x))) (b * b)) with (rnd (b * b)) in Eu.
    rewrite <- Et, Rabs_left1 in Eu by lra. rewrite ulp_neq_0 in Eu by nra.
    assert (M : (mag radix2 (b * b) <= 2 * e)%Z).
    { apply mag_le_bpow; [ nra | ]. rewrite Rabs_pos_eq by nra.
      replace (2 * e)%Z with (e + e)%Z by lia. rewrite bpow_plus. nra. }
    assert (U : bpow radix2 (cexp radix2 (FLT_exp (-1074) 53) (b * b)) <= w * bpow radix2 e).
    { unfold w. rewrite <- bpow_plus. apply bp_le. unfold cexp, FLT_exp. lia. }
    lra. }
  assert (S0 := sqrt_pos t).
  assert (Sr : t = R_sqrt.sqrt t * R_sqrt.sqrt t) by (symmetry; apply sqrt_sqrt; lra).
  assert (S1 : R_sqrt.sqrt t <= b - w / 2) by lra.
  assert (S2 : t <= (b - w / 2) * (b - w / 2)) by (rewrite Sr; apply Rmult_le_compat; lra).
  assert (Dbl : bpow radix2 e = 2 * bpow radix2 (e - 1)) by (replace e with (e - 1 + 1)%Z at 1 by lia; apply bp_S).
  rewrite Dbl in Err.
  assert (w * (bpow radix2 (e - 1) + w) <= w * b) by (apply Rmult_le_compat_l; lra).
  nra.
Qed.

(** ** The calculators *)

(** all three results are finite and not negative *)
Definition tri (r : res (stratres FA)) : Prop :=
  match r with
  | Ok (Success, Some (rho, sigma, delta)) => exists k, (k < 1024)%Z /\ bd rho k /\ bd sigma k /\ bd delta k
  | _ => True
  end.

Section Signs.
Variables (n : nat) (c : core FA) (T : num FA) (t : R).
Hypothesis Hn : (2 <= n)%nat.
Hypothesis Hnb : (Z.of_nat n < 2 ^ 53)%Z.
Hypothesis Hc : core_ok n c.
Hypothesis Et : ev T = EFin t.
Hypothesis T1 : bpow radix2 (-200) <= t.
Hypothesis T2 : t <= bpow radix2 200.

Lemma t_pos : 0 < t.
Proof. generalize (bpow_gt_0 radix2 (-200)). lra. Qed.

Lemma t_bd : bd T 200.
Proof. exists t. split; [ exact Et | ]. generalize t_pos. lra. Qed.

Lemma n_bnd : 2 <= INR n <= bpow radix2 53.
Proof.
  split; [ now apply (le_INR 2) | ]. rewrite INR_IZR_INZ. change (bpow radix2 53) with (IZR (2 ^ 53)). apply IZR_le. lia.
Qed.

Lemma n_bd : bd (n_f c) 53.
Proof. exists (INR n). split; [ apply (ok_nf _ _ Hc) | ]. generalize n_bnd. lra. Qed.
Lemma h_bd : bd (half_n c) 52.
Proof.
  destruct (ok_half _ _ Hc) as (h & E & ->). exists (INR n / 2). split; [ exact E | ]. generalize n_bnd.
  replace 53%Z with (52 + 1)%Z by lia. rewrite bp_S. lra.
Qed.
Lemma c0_bd : bd (cst0 c) 0.
Proof. destruct (ok_c0 _ _ Hc) as (v & E & _ & H). exists v. split; [ exact E | ]. change (bpow radix2 0) with 1. lra. Qed.
Lemma c1_bd : bd (cst1 c) 1.
Proof. destruct (ok_c1 _ _ Hc) as (v & E & H & _). exists v. split; [ exact E | ]. change (bpow radix2 1) with 2. lra. Qed.
Lemma c2_bd : bd (cst2 c) 0.
Proof. destruct (ok_c2 _ _ Hc) as (v & E & _ & H). exists v. split; [ exact E | ]. change (bpow radix2 0) with 1. lra. Qed.

Lemma bd_bp0 : bd (aone (a:=FA)) 0.
Proof. exists 1. split; [ exact ev_one | ]. change (bpow radix2 0) with 1. lra. Qed.
Lemma bd_two : bd (atwo (A:=FA)) 1.
Proof. exists 2. split; [ exact ev_two | ]. change (bpow radix2 1) with 2. lra. Qed.

Lemma tau_bd : exists v, psqrt (A:=FA) T = Ok (PrimFloat.sqrt T) /\ ev (PrimFloat.sqrt T) = EFin v /\
  v = rnd (R_sqrt.sqrt t) /\ bpow radix2 (-100) <= v <= bpow radix2 100.
Proof.
  destruct (bd_sqrt T 200 100 t_bd) as [P (v & Ev & Hv)]; try lia. exists v. split; [ exact P | ]. split; [ exact Ev | ].
  assert (Q := ev_sqrt T t Et ltac:(generalize t_pos; lra)). rewrite Ev in Q. injection Q as Q.
  split; [ exact Q | ]. split; [ | lra ]. rewrite Q. apply rnd_ge; [ lia | ].
  rewrite <- (sqrt_square (bpow radix2 (-100))) by apply bpow_ge_0. apply sqrt_le_1_alt.
  rewrite <- bpow_plus. exact T1.
Qed.

(** a deep cut inside the ball *)
Lemma bias_fast_bd beta b tau v : ev beta = EFin b -> 0 <= b <= v -> ev tau = EFin v ->
  bpow radix2 (-100) <= v <= bpow radix2 100 ->
  tri (some_triple (core_bias_cut_fast c beta tau (aadd (a:=FA) tau (amul (n_f c) beta)))).
Proof.
  intros Eb Hb Ev Hv. assert (P1 := bpow_gt_0 radix2 (-100)).
  assert (Bb : bd beta 100) by (exists b; split; [ exact Eb | lra ]).
  assert (Bt : bd tau 100) by (exists v; split; [ exact Ev | lra ]).
  set (eta := aadd (a:=FA) tau (amul (n_f c) beta)).
  assert (Be : bd eta 154).
  { apply (bd_add tau (amul (a:=FA) (n_f c) beta) 153); [ apply (bd_weak _ 100); [ exact Bt | lia ] | | lia ].
    apply (bd_mul _ _ 53 100); [ exact n_bd | exact Bb | lia ]. }
  unfold core_bias_cut_fast.
  (* alpha is between zero and one *)
  assert (A : exists al, pdiv (A:=FA) beta tau = Ok al /\ exists r, ev al = EFin r /\ 0 <= r <= 1).
  { assert (B : 0 <= b / v <= bpow radix2 0).
    { change (bpow radix2 0) with 1. split; [ unfold Rdiv; apply Rmult_le_pos; [ lra | left; apply Rinv_0_lt_compat; lra ] | ].
      apply Rmult_le_reg_r with v; [ lra | ]. unfold Rdiv. rewrite Rmult_assoc, Rinv_l; lra. }
    destruct (op_div beta tau b v 0 Eb Ev) as (z & Z1 & Z2); [ lra | rewrite Rabs_pos_eq; lra | lia | ].
    exists z. split; [ exact Z1 | ]. eexists. split; [ exact Z2 | ].
    exact (proj2 (rx_bd _ 0 B ltac:(lia))). }
  destruct A as (al & -> & r & Er & Hr). cbn [bind].
  assert (D : exists s, ev (aadd (a:=FA) tau beta) = EFin s /\ bpow radix2 (-100) <= s).
  { destruct (bd_add tau beta 100 Bt Bb) as (s & Es & _); [ lia | ]. exists s. split; [ exact Es | ].
    cbn [aadd FA] in Es. rewrite ev_add, Ev, Eb in Es. cbn [eadd] in Es. apply rx_inv in Es. rewrite Es.
    apply rnd_ge; [ lia | lra ]. }
  destruct D as (s & Es & Hs).
  assert (C2e : bd (amul (a:=FA) (cst2 c) eta) 154) by (apply (bd_mul _ _ 0 154); [ exact c2_bd | exact Be | lia ]).
  destruct (bd_div _ _ s 154 (-100) C2e Es Hs) as (sg & -> & Bs); [ lia | ]. cbn [bind some_triple tri].
  exists 300%Z. split; [ lia | ]. split; [ | split ].
  - apply (bd_weak _ 154); [ | lia ]. apply (bd_mul _ _ 0 154); [ exact c0_bd | exact Be | lia ].
  - apply (bd_weak _ _ _ Bs). lia.
  - apply (bd_weak _ 2); [ | lia ]. apply (bd_mul _ _ 1 1); [ | | lia ].
    + apply (bd_mul _ _ 1 0); [ exact c1_bd | | lia ].
      apply (bd_sub _ _ 1 r); [ exact ev_one | exact Er | lra | change (bpow radix2 0) with 1; lra | lia ].
    + apply (bd_add _ _ 0); [ exact bd_bp0 | | lia ]. exists r. split; [ exact Er | ]. change (bpow radix2 0) with 1. lra.
Qed.

(** comparing the squared offset *)
Lemma sq_lt (beta : num FA) b : ev beta = EFin b -> altb (a:=FA) T (amul (a:=FA) beta beta) = false ->
  ev (amul (a:=FA) beta beta) = EFin (rnd (b * b)) /\ 0 <= rnd (b * b) <= t.
Proof.
  intros Eb H. cbn [altb amul FA] in *. rewrite ev_ltb, Et in H.
  destruct (sq_cases (ev beta)) as [(a & E1 & E2 & B)|[E1|E1]].
  - rewrite Eb in E1. injection E1 as <-. rewrite ev_mul in *. rewrite E2 in *. split; [ reflexivity | ].
    cbn in H. destruct (Rlt_dec t (rnd (b * b))); [ discriminate | lra ].
  - rewrite ev_mul, E1 in H. discriminate.
  - exfalso. rewrite Eb in E1. cbn in E1. unfold rx in E1. destruct (Rlt_dec _ _); [ discriminate | ]. destruct (Rlt_dec _ _); discriminate.
Qed.

Lemma sq_le (beta : num FA) b : ev beta = EFin b -> aleb (a:=FA) T (amul (a:=FA) beta beta) = false ->
  ev (amul (a:=FA) beta beta) = EFin (rnd (b * b)) /\ 0 <= rnd (b * b) < t.
Proof.
  intros Eb H. cbn [aleb amul FA] in *. rewrite ev_leb, Et in H.
  destruct (sq_cases (ev beta)) as [(a & E1 & E2 & B)|[E1|E1]].
  - rewrite Eb in E1. injection E1 as <-. rewrite ev_mul in *. rewrite E2 in *. split; [ reflexivity | ].
    cbn in H. destruct (Rle_dec t (rnd (b * b))); [ discriminate | lra ].
  - rewrite ev_mul, E1 in H. discriminate.
  - exfalso. rewrite Eb in E1. cbn in E1. unfold rx in E1. destruct (Rlt_dec _ _); [ discriminate | ]. destruct (Rlt_dec _ _); discriminate.
Qed.

(** an offset whose rounded square does not exceed the limit is below 2^100 *)
Lemma off_bd b : fmt b -> 0 <= b -> rnd (b * b) <= t -> b <= bpow radix2 100.
Proof.
  intros Fb Pb H. assert (L : bpow radix2 (-400) <= t).
  { apply Rle_trans with (2 := T1). apply bp_le. lia. }
  apply Rle_trans with (1 := sqrt_rsq b t Fb (ev_fmt _ _ Et) Pb L H).
  destruct tau_bd as (v & _ & _ & <- & Hv). lra.
Qed.

Lemma bias_bd nf p beta b : ev beta = EFin b -> 0 <= b -> tri (calc_bias_cut (mkCalc (A:=FA) p nf c) beta T).
Proof.
  intros Eb Pb. unfold calc_bias_cut.
  destruct (aleb (a:=FA) azero beta); [ | exact I ].
  destruct (altb (a:=FA) T (amul (a:=FA) beta beta)) eqn:L; [ exact I | ].
  destruct (sq_lt beta b Eb L) as [E1 B1].
  destruct tau_bd as (v & -> & Ev & Hv1 & Hv2). cbn [bind c_helper].
  apply (bias_fast_bd beta b (PrimFloat.sqrt T) v Eb); [ split; [ exact Pb | ] | exact Ev | exact Hv2 ].
  rewrite Hv1. apply sqrt_rsq; [ exact (ev_fmt _ _ Eb) | exact (ev_fmt _ _ Et) | exact Pb | | lra ].
  apply Rle_trans with (2 := T1). apply bp_le. lia.
Qed.

Lemma biasq_bd nf p beta b : nf = n_f c -> ev beta = EFin b -> 0 <= b -> tri (calc_bias_cut_q (mkCalc (A:=FA) p nf c) beta T).
Proof.
  intros -> Eb Pb. unfold calc_bias_cut_q.
  destruct tau_bd as (v & -> & Ev & Hv1 & Hv2). cbn [bind c_helper c_n_f].
  destruct (altb (a:=FA) (PrimFloat.sqrt T) beta) eqn:L; [ exact I | ].
  destruct (aleb (a:=FA) _ azero); [ exact I | ].
  apply (bias_fast_bd beta b (PrimFloat.sqrt T) v Eb); [ split; [ exact Pb | ] | exact Ev | exact Hv2 ].
  cbn [altb FA] in L. rewrite ev_ltb, Ev, Eb in L. cbn in L. destruct (Rlt_dec v b); [ discriminate | lra ].
Qed.

Lemma par_fast_bd (beta0 beta1 : num FA) b0 b1 : ev beta0 = EFin b0 -> ev beta1 = EFin b1 -> 0 <= b0 <= b1 ->
  ev (amul (a:=FA) beta1 beta1) = EFin (rnd (b1 * b1)) -> 0 <= rnd (b1 * b1) <= t ->
  tri (some_triple (core_parallel_bias_cut_fast c beta0 beta1 T (amul (a:=FA) beta0 beta1)
         (aadd (a:=FA) T (amul (n_f c) (amul beta0 beta1))))).
Proof.
  intros E0 E1 Hb Q1 B1. assert (Tp := t_pos).
  assert (O1 : b1 <= bpow radix2 100) by (apply off_bd; [ exact (ev_fmt _ _ E1) | lra | lra ]).
  assert (Bd0 : bd beta0 100) by (exists b0; split; [ exact E0 | lra ]).
  assert (Bd1 : bd beta1 100) by (exists b1; split; [ exact E1 | lra ]).
  assert (R01 : rnd (b0 * b0) <= rnd (b1 * b1)) by (apply rnd_le; nra).
  assert (R00 : 0 <= rnd (b0 * b0)) by (apply rnd_nonneg; nra).
  assert (Q0 : ev (amul (a:=FA) beta0 beta0) = EFin (rnd (b0 * b0))).
  { cbn [amul FA]. rewrite ev_mul, E0. cbn [emul]. apply (proj1 (rx_bd (b0 * b0) 200 ltac:(split; [ nra | ]; 
      replace 200%Z with (100 + 100)%Z by lia; rewrite bpow_plus; nra) ltac:(lia))). }
  unfold core_parallel_bias_cut_fast.
  set (q0 := amul (a:=FA) beta0 beta0) in *. set (q1 := amul (a:=FA) beta1 beta1) in *.
  set (p := amul (a:=FA) beta0 beta1).
  assert (Bp : bd p 200) by (apply (bd_mul _ _ 100 100); [ exact Bd0 | exact Bd1 | lia ]).
  assert (Z0 : bd (asub (a:=FA) T q0) 200) by (apply (bd_sub _ _ t (rnd (b0 * b0)) 200 Et Q0); lra || lia).
  assert (Z1 : bd (asub (a:=FA) T q1) 200) by (apply (bd_sub _ _ t (rnd (b1 * b1)) 200 Et Q1); lra || lia).
  assert (Dq : bd (asub (a:=FA) q1 q0) 200) by (apply (bd_sub _ _ (rnd (b1 * b1)) (rnd (b0 * b0)) 200 Q1 Q0); lra || lia).
  assert (Bh : bd (amul (a:=FA) (half_n c) (asub q1 q0)) 252) by (apply (bd_mul _ _ 52 200); [ exact h_bd | exact Dq | lia ]).
  set (h := amul (a:=FA) (half_n c) (asub q1 q0)) in *.
  assert (Brad : bd (aadd (a:=FA) (amul (asub T q0) (asub T q1)) (amul h h)) 505).
  { apply (bd_add _ _ 504); [ | | lia ].
    - apply (bd_weak _ 400); [ | lia ]. apply (bd_mul _ _ 200 200); [ exact Z0 | exact Z1 | lia ].
    - apply (bd_mul _ _ 252 252); [ exact Bh | exact Bh | lia ]. }
  destruct (bd_sqrt _ _ 253 Brad) as [-> Bxi]; [ lia | lia | ]. cbn [bind].
  set (xi := PrimFloat.sqrt _) in *.
  set (bs := aadd (a:=FA) beta0 beta1).
  assert (Bbs : bd bs 101) by (apply (bd_add _ _ 100); [ exact Bd0 | exact Bd1 | lia ]).
  assert (Bw : bd (amul (a:=FA) (half_n c) (amul bs bs)) 254).
  { apply (bd_mul _ _ 52 202); [ exact h_bd | | lia ]. apply (bd_mul _ _ 101 101); [ exact Bbs | exact Bbs | lia ]. }
  set (w := amul (a:=FA) (half_n c) (amul bs bs)) in *.
  assert (Beta : bd (aadd (a:=FA) T (amul (n_f c) p)) 254).
  { apply (bd_add _ _ 253); [ apply (bd_weak _ 200); [ exact t_bd | lia ] | | lia ].
    apply (bd_mul _ _ 53 200); [ exact n_bd | exact Bp | lia ]. }
  set (eta := aadd (a:=FA) T (amul (n_f c) p)) in *.
  (* the denominator is at least tsq *)
  assert (Up : forall x y k a, bd x k -> bd y k -> (-200 <= k < 1023)%Z -> ev x = EFin a -> t <= a ->
     bd (aadd (a:=FA) x y) (k + 1) /\ exists a', ev (aadd (a:=FA) x y) = EFin a' /\ t <= a').
  { intros x y k a Bx By Hk Ex Ha. assert (S := bd_add x y k Bx By ltac:(lia)). split; [ exact S | ].
    destruct S as (s & Es & _). exists s. split; [ exact Es | ]. destruct By as (y' & Ey & Hy).
    cbn [aadd FA] in Es. rewrite ev_add, Ex, Ey in Es. cbn [eadd] in Es. apply rx_inv in Es. rewrite Es.
    rewrite <- (rnd_fmt _ (ev_fmt _ _ Et)) at 1. apply rnd_le. lra. }
  destruct (Up T p 200%Z t t_bd Bp ltac:(lia) Et ltac:(lra)) as [D1 (a1 & Ea1 & Ha1)].
  destruct (Up _ w 254%Z a1 (bd_weak _ _ 254 D1 ltac:(lia)) Bw ltac:(lia) Ea1 Ha1) as [D2 (a2 & Ea2 & Ha2)].
  destruct (Up _ xi 255%Z a2 D2 (bd_weak _ _ 255 Bxi ltac:(lia)) ltac:(lia) Ea2 Ha2) as [D3 (a3 & Ea3 & Ha3)].
  assert (B2e : bd (amul (a:=FA) (atwo (A:=FA)) eta) 255) by (apply (bd_mul _ _ 1 254); [ exact bd_two | exact Beta | lia ]).
  destruct (bd_div _ _ a3 255 (-200) B2e Ea3 ltac:(lra)) as (sg & -> & Bsg); [ lia | ]. cbn [bind].
  assert (Nn : ev (n_f c) = EFin (INR n)) by apply (ok_nf _ _ Hc).
  destruct (bd_div xi _ (INR n) 253 0 Bxi Nn) as (q & -> & Bq); [ change (bpow radix2 0) with 1; generalize n_bnd; lra | lia | ].
  cbn [bind].
  assert (Bnum : bd (amul (a:=FA) (cst1 c) (aadd (adiv (aadd (asub T q0) (asub T q1)) (atwo (A:=FA))) q)) 255).
  { apply (bd_mul _ _ 1 254); [ exact c1_bd | | lia ]. apply (bd_add _ _ 253); [ | exact Bq | lia ].
    apply (bd_weak _ 201); [ | lia ]. apply bd_half; [ | lia ]. apply (bd_add _ _ 200); [ exact Z0 | exact Z1 | lia ]. }
  destruct (bd_div _ T t 255 (-200) Bnum Et T1) as (dl & Ed & Bdl); [ lia | ].
  rewrite Ed. cbn [bind some_triple tri].
  exists 600%Z. split; [ lia | ]. split; [ | split ].
  - apply (bd_weak _ 556); [ | lia ]. apply bd_half; [ | lia ]. apply (bd_mul _ _ 455 101); [ exact Bsg | exact Bbs | lia ].
  - apply (bd_weak _ _ _ Bsg). lia.
  - apply (bd_weak _ _ _ Bdl). lia.
Qed.

Lemma par_bd nf p (beta0 beta1 : num FA) b0 b1 : ev beta0 = EFin b0 -> ev beta1 = EFin b1 -> 0 <= b0 -> 0 <= b1 ->
  tri (calc_parallel (mkCalc (A:=FA) p nf c) beta0 beta1 T).
Proof.
  intros E0 E1 P0 P1. unfold calc_parallel.
  destruct (altb (a:=FA) beta1 beta0) eqn:L; [ exact I | ].
  destruct (altb (a:=FA) azero beta1 && aleb (a:=FA) T (amul beta1 beta1)) eqn:A; [ now apply (bias_bd nf p beta0 b0) | ].
  assert (Hle : b0 <= b1).
  { cbn [altb FA] in L. rewrite ev_ltb, E0, E1 in L. cbn in L. destruct (Rlt_dec b1 b0); [ discriminate | lra ]. }
  assert (Q : ev (amul (a:=FA) beta1 beta1) = EFin (rnd (b1 * b1)) /\ 0 <= rnd (b1 * b1) <= t).
  { apply andb_false_iff in A. destruct A as [A|A].
    - cbn [altb azero FA] in A. rewrite ev_ltb, E1, ev_zero in A. cbn in A. destruct (Rlt_dec 0 b1); [ discriminate | ].
      assert (b1 = 0) by lra. subst b1. cbn [amul FA]. rewrite ev_mul, E1. cbn [emul].
      destruct (rx_bd (0 * 0) 0) as [R1 R2]; [ change (bpow radix2 0) with 1; lra | lia | ].
      split; [ exact R1 | ]. rewrite Rmult_0_l in *. rewrite rnd_fmt by apply generic_format_0. generalize t_pos. lra.
    - destruct (sq_le beta1 b1 E1 A) as [Q1 Q2]. split; [ exact Q1 | lra ]. }
  destruct Q as [Q1 Q2]. unfold core_parallel_bias_cut. cbn [c_helper].
  apply (par_fast_bd beta0 beta1 b0 b1 E0 E1); [ lra | exact Q1 | exact Q2 ].
Qed.

Lemma parq_bd nf p (beta0 beta1 : num FA) b0 b1 : nf = n_f c -> ev beta0 = EFin b0 -> ev beta1 = EFin b1 -> 0 <= b0 -> 0 <= b1 ->
  tri (calc_parallel_q (mkCalc (A:=FA) p nf c) beta0 beta1 T).
Proof.
  intros -> E0 E1 P0 P1. unfold calc_parallel_q.
  destruct (altb (a:=FA) beta1 beta0) eqn:L; [ exact I | ].
  destruct (altb (a:=FA) azero beta1 && aleb (a:=FA) T (amul beta1 beta1)) eqn:A; [ now apply (biasq_bd (n_f c) p beta0 b0) | ].
  assert (Hle : b0 <= b1).
  { cbn [altb FA] in L. rewrite ev_ltb, E0, E1 in L. cbn in L. destruct (Rlt_dec b1 b0); [ discriminate | lra ]. }
  assert (Q : ev (amul (a:=FA) beta1 beta1) = EFin (rnd (b1 * b1)) /\ 0 <= rnd (b1 * b1) <= t).
  { apply andb_false_iff in A. destruct A as [A|A].
    - cbn [altb azero FA] in A. rewrite ev_ltb, E1, ev_zero in A. cbn in A. destruct (Rlt_dec 0 b1); [ discriminate | ].
      assert (b1 = 0) by lra. subst b1. cbn [amul FA]. rewrite ev_mul, E1. cbn [emul].
      destruct (rx_bd (0 * 0) 0) as [R1 R2]; [ change (bpow radix2 0) with 1; lra | lia | ].
      split; [ exact R1 | ]. rewrite Rmult_0_l in *. rewrite rnd_fmt by apply generic_format_0. generalize t_pos. lra.
    - destruct (sq_le beta1 b1 E1 A) as [Q1 Q2]. split; [ exact Q1 | lra ]. }
  destruct Q as [Q1 Q2]. cbn [c_helper c_n_f]. destruct (aleb (a:=FA) _ azero); [ exact I | ].
  apply (par_fast_bd beta0 beta1 b0 b1 E0 E1); [ lra | exact Q1 | exact Q2 ].
Qed.

Lemma central_bd : tri (let* tau := psqrt (A:=FA) T in Ok (Success, Some (core_central_cut c tau))).
Proof.
  destruct tau_bd as (v & -> & Ev & _ & Hv). cbn [bind core_central_cut tri]. assert (P := bpow_gt_0 radix2 (-100)).
  exists 100%Z. split; [ lia | ]. split; [ | split ].
  - apply (bd_mul _ _ 0 100); [ exact c0_bd | exists v; split; [ exact Ev | lra ] | lia ].
  - apply (bd_weak _ 0); [ exact c2_bd | lia ].
  - apply (bd_weak _ 1); [ exact c1_bd | lia ].
Qed.

Lemma par_central_bd (beta1 : num FA) b1 : ev beta1 = EFin b1 -> 0 <= b1 -> aleb (a:=FA) T (amul beta1 beta1) = false ->
  tri (some_triple (core_parallel_central_cut c beta1 T)).
Proof.
  intros E1 P1 L. destruct (sq_le beta1 b1 E1 L) as [Q1 Q2]. assert (Tp := t_pos).
  assert (O1 : b1 <= bpow radix2 100) by (apply off_bd; [ exact (ev_fmt _ _ E1) | lra | lra ]).
  unfold core_parallel_central_cut.
  assert (B : 0 <= rnd (b1 * b1) / t <= bpow radix2 0).
  { change (bpow radix2 0) with 1. split; [ unfold Rdiv; apply Rmult_le_pos; [ lra | left; apply Rinv_0_lt_compat; lra ] | ].
    apply Rmult_le_reg_r with t; [ lra | ]. unfold Rdiv. rewrite Rmult_assoc, Rinv_l; lra. }
  destruct (op_div _ T _ t 0 Q1 Et) as (al & -> & Ea); [ lra | rewrite Rabs_pos_eq; lra | lia | ].
  assert (Ha := proj2 (rx_bd _ 0 B ltac:(lia))). set (q := rnd (rnd (b1 * b1) / t)) in *. cbn [bind].
  change (bpow radix2 0) with 1 in Ha.
  assert (Ba : bd al 0) by (exists q; split; [ exact Ea | exact Ha ]).
  destruct (ok_half _ _ Hc) as (hn & Eh & Hh). destruct (ok_inv _ _ Hc) as (vi & Ei & _ & Hi).
  assert (Hnb2 := n_bnd).
  assert (Bk : bd (amul (a:=FA) (half_n c) al) 52) by (apply (bd_mul _ _ 52 0); [ exact h_bd | exact Ba | lia ]).
  set (k := amul (a:=FA) (half_n c) al) in *.
  assert (Bo : bd (asub (a:=FA) aone al) 0).
  { apply (bd_sub _ _ 1 q 0 ev_one Ea); [ lra | change (bpow radix2 0) with 1; lra | lia ]. }
  assert (Bk2 : bd (amul (a:=FA) k k) 104) by (apply (bd_mul _ _ 52 52); [ exact Bk | exact Bk | lia ]).
  assert (Br : bd (aadd (a:=FA) (asub aone al) (amul k k)) 105).
  { apply (bd_add _ _ 104); [ apply (bd_weak _ 0); [ exact Bo | lia ] | exact Bk2 | lia ]. }
  destruct (bd_sqrt _ _ 53 Br) as [-> Bs]; [ lia | lia | ]. cbn [bind].
  set (s := PrimFloat.sqrt (aadd (a:=FA) (asub aone al) (amul k k))) in *.
  assert (Brr : bd (aadd (a:=FA) k s) 54) by (apply (bd_add _ _ 53); [ apply (bd_weak _ 52); [ exact Bk | lia ] | exact Bs | lia ]).
  (* r is more than one half *)
  assert (G : exists g, fmt g /\ 1 / 2 < g /\ forall kv sv, ev k = EFin kv -> ev s = EFin sv -> g <= kv + sv).
  { destruct (Rle_lt_dec q (1 / 2)) as [Q|Q].
    - exists (5 / 8). split; [ exact fmt_58 | ]. split; [ lra | ]. intros kv sv Ek Es.
      assert (0 <= kv) by (destruct Bk as (kv' & Ek' & ?); rewrite Ek in Ek'; injection Ek' as <-; lra).
      destruct Br as (rr & Err & Hrr). assert (Es' := ev_sqrt _ rr Err ltac:(lra)). fold s in Es'. rewrite Es in Es'. injection Es' as ->.
      assert (H12 : fmt (1 / 2)) by (apply (fmt_half 1); lia).
      assert (1 / 2 <= rr).
      { cbn [aadd asub amul FA] in Err. rewrite ev_add, ev_sub, ev_mul, Ek, ev_one, Ea in Err. apply eadd_fin in Err.
        destruct Err as (u1 & u2 & U1 & U2 & ->). cbn [esub] in U1. cbn [emul] in U2. apply rx_inv in U1. apply rx_inv in U2.
        assert (0 <= u2) by (rewrite U2; apply rnd_nonneg; nra).
        assert (1 / 2 <= u1) by (rewrite U1, <- (rnd_fmt _ H12) at 1; apply rnd_le; lra).
        rewrite <- (rnd_fmt _ H12) at 1. apply rnd_le. lra. }
      assert (5 / 8 <= rnd (R_sqrt.sqrt rr)); [ | lra ].
      rewrite <- (rnd_fmt _ fmt_58) at 1. apply rnd_le. apply Rle_trans with (1 := sqrt_half). now apply sqrt_le_1_alt.
    - exists q. split; [ exact (ev_fmt _ _ Ea) | ]. split; [ exact Q | ]. intros kv sv Ek Es.
      assert (0 <= sv) by (destruct Bs as (sv' & Es' & ?); rewrite Es in Es'; injection Es' as <-; lra).
      unfold k in Ek. cbn [amul FA] in Ek. rewrite ev_mul, Eh, Ea in Ek. cbn [emul] in Ek. apply rx_inv in Ek.
      assert (q <= kv); [ | lra ]. rewrite Ek. rewrite <- (rnd_fmt _ (ev_fmt _ _ Ea)) at 1. apply rnd_le. nra. }
  destruct G as (g & Fg & G1 & G2).
  destruct Brr as (rv & Erv & Hrv).
  assert (G3 : g <= rv).
  { destruct Bk as (kv & Ek & _). destruct Bs as (sv & Es & _). specialize (G2 kv sv Ek Es).
    cbn [aadd FA] in Erv. rewrite ev_add, Ek, Es in Erv. cbn [eadd] in Erv. apply rx_inv in Erv. rewrite Erv.
    rewrite <- (rnd_fmt _ Fg) at 1. now apply rnd_le. }
  assert (G4 : 1 / 2 + bpow radix2 (-55) <= g).
  { assert (Gp : uu * g / 2 <= g - 1 / 2).
    { apply fmt_gap; [ apply (fmt_half 1); lia | exact Fg | lra | ].
      apply Rle_trans with (bpow radix2 (-1)); [ apply bp_le; lia | change (bpow radix2 (-1)) with (/ 2); lra ]. }
    assert (E55 : bpow radix2 (-55) = uu / 4).
    { unfold uu. replace (-55)%Z with (-53 + -2)%Z by lia. rewrite bpow_plus. change (bpow radix2 (-2)) with (/ 4). reflexivity. }
    generalize uu_pos. intros. nra. }
  set (r := aadd (a:=FA) k s) in *.
  assert (Br1 : bd r 54) by (exists rv; split; [ exact Erv | exact Hrv ]).
  assert (Eo : exists o, ev (aadd (a:=FA) r aone) = EFin o /\ bpow radix2 0 <= o).
  { destruct (bd_add r aone 54 Br1) as (o & Eo & _); [ apply (bd_weak _ 0); [ exact bd_bp0 | lia ] | lia | ].
    exists o. split; [ exact Eo | ]. cbn [aadd FA] in Eo. rewrite ev_add, Erv, ev_one in Eo. cbn [eadd] in Eo.
    apply rx_inv in Eo. rewrite Eo. apply rnd_ge; [ lia | ]. change (bpow radix2 0) with 1. lra. }
  destruct Eo as (o & Eo & Ho).
  assert (Ed : exists d, ev (asub (a:=FA) r (inv_n c)) = EFin d /\ bpow radix2 (-55) <= d).
  { destruct (bd_sub r (inv_n c) rv vi 54 Erv Ei) as (d & Ed & _); [ lra | lra | lia | ].
    exists d. split; [ exact Ed | ]. cbn [asub FA] in Ed. rewrite ev_sub, Erv, Ei in Ed. cbn [esub] in Ed.
    apply rx_inv in Ed. rewrite Ed. apply rnd_ge; [ lia | lra ]. }
  destruct Ed as (d & Ed & Hd).
  assert (Bd1 : bd beta1 100) by (exists b1; split; [ exact E1 | lra ]).
  destruct (bd_div beta1 _ o 100 0 Bd1 Eo Ho) as (y1 & -> & B1'); [ lia | ]. cbn [bind].
  destruct (bd_div _ _ o 1 0 bd_two Eo Ho) as (y2 & -> & B2'); [ lia | ]. cbn [bind].
  destruct (bd_div r _ d 54 (-55) Br1 Ed Hd) as (y3 & Ey3 & B3'); [ lia | ]. rewrite Ey3. cbn [bind some_triple tri].
  exists 200%Z. split; [ lia | ].
  split; [ apply (bd_weak _ _ _ B1'); lia | ]. split; [ apply (bd_weak _ _ _ B2'); lia | apply (bd_weak _ _ _ B3'); lia ].
Qed.

End Signs.

(** the offsets are finite and not negative *)
Lemma off_ev b : ffinite b -> 0 <= fval b -> ev b = EFin (fval b) /\ 0 <= fval b.
Proof. intros F P. split; [ now apply ev_fin_iff | exact P ]. Qed.

Lemma strat_tri n p c k beta T : fcalc_for n p c -> (Z.of_nat n < 2 ^ 53)%Z ->
  ffinite T -> powerRZ 2 (-200) <= fval T <= powerRZ 2 200 -> 
  cut_nonneg beta ->
  tri (fstrat_of k c beta T).
Proof.
  intros Hcf Hnb FT HT HB. destruct (fcalc_ok n p c Hcf Hnb) as (Hn & Co & Nf & _).
  unfold cut_nonneg, fin_nonneg in HB. rewrite <- !bp_powerRZ in HT. assert (Et := proj1 (ev_fin_iff T) FT). set (t := fval T) in *.
  assert (Enf : c_n_f c = n_f (c_helper c)).
  { destruct Hcf as (c0 & H & ->). unfold calc_init in H. destruct (Nat.leb 2 n); [ | discriminate ].
    unfold core_init in H. cbn [bind] in H. destruct (pdiv (A:=FA) _ _) as [i1|]; [ | discriminate ]. cbn [bind] in H.
    destruct (pdiv (A:=FA) aone _) as [i2|]; [ | discriminate ]. cbn [bind] in H.
    destruct (pdiv (A:=FA) (amul _ _) _) as [i3|]; [ | discriminate ]. cbn [bind] in H. injection H as <-. reflexivity. }
  assert (Hmk : c = mkCalc (A:=FA) (use_parallel_cut c) (c_n_f c) (c_helper c)) by (destruct c; reflexivity).
  destruct HT as [T1 T2].
  assert (Hat : forall l b0, beta_at0 (A:=FA) l = Ok b0 -> In (Some b0) l).
  { intros [|[x|] l] b0 H; try discriminate. injection H as <-. now left. }
  destruct k; cbn [fstrat_of].
  - destruct beta as [b|l]; cbn [calc_single_or_parallel].
    { rewrite Hmk. apply (bias_bd n (c_helper c) T t Hn Hnb Co Et T1 T2 _ _ b (fval b)); [ now apply ev_fin_iff | tauto ]. }
    destruct (Nat.ltb (length l) 2 || negb (use_parallel_cut c)).
    { destruct (beta_at0 l) as [b0|] eqn:A; [ | exact I ]. destruct (HB b0 (Hat _ _ A)). cbn [bind].
      rewrite Hmk. apply (bias_bd n (c_helper c) T t Hn Hnb Co Et T1 T2 _ _ b0 (fval b0)); [ now apply ev_fin_iff | tauto ]. }
    destruct l as [|o0 [|[b1|] l]]; try exact I.
    destruct (beta_at0 (o0 :: Some b1 :: l)) as [b0|] eqn:A; [ | exact I ]. destruct (HB b0 (Hat _ _ A)).
    destruct (HB b1 ltac:(right; left; reflexivity)). cbn [bind]. rewrite Hmk.
    apply (par_bd n (c_helper c) T t Hn Hnb Co Et T1 T2 _ _ b0 b1 (fval b0) (fval b1)); try assumption; now apply ev_fin_iff.
  - destruct beta as [b|l]; cbn [calc_single_or_parallel_central_cut].
    { apply (central_bd n (c_helper c) T t Hn Co Et T1 T2). }
    destruct (Nat.ltb (length l) 2 || negb (use_parallel_cut c)).
    { apply (central_bd n (c_helper c) T t Hn Co Et T1 T2). }
    destruct l as [|o0 [|[b1|] l]]; try exact I.
    destruct (altb (a:=FA) b1 azero); [ exact I | ].
    destruct (aleb (a:=FA) T (amul b1 b1)) eqn:L; [ apply (central_bd n (c_helper c) T t Hn Co Et T1 T2) | ].
    destruct (HB b1 ltac:(right; left; reflexivity)).
    apply (par_central_bd n (c_helper c) T t Hn Hnb Co Et T1 T2 b1 (fval b1)); [ now apply ev_fin_iff | assumption | exact L ].
  - destruct beta as [b|l]; cbn [calc_single_or_parallel_q].
    { rewrite Hmk. apply (biasq_bd n (c_helper c) T t Hn Hnb Co Et T1 T2 _ _ b (fval b)); [ exact Enf | now apply ev_fin_iff | tauto ]. }
    destruct (Nat.ltb (length l) 2 || negb (use_parallel_cut c)).
    { destruct (beta_at0 l) as [b0|] eqn:A; [ | exact I ]. destruct (HB b0 (Hat _ _ A)). cbn [bind].
      rewrite Hmk. apply (biasq_bd n (c_helper c) T t Hn Hnb Co Et T1 T2 _ _ b0 (fval b0)); [ exact Enf | now apply ev_fin_iff | tauto ]. }
    destruct l as [|o0 [|[b1|] l]]; try exact I.
    destruct (beta_at0 (o0 :: Some b1 :: l)) as [b0|] eqn:A; [ | exact I ]. destruct (HB b0 (Hat _ _ A)).
    destruct (HB b1 ltac:(right; left; reflexivity)). cbn [bind]. rewrite Hmk.
    apply (parq_bd n (c_helper c) T t Hn Hnb Co Et T1 T2 _ _ b0 b1 (fval b0) (fval b1)); try assumption; now apply ev_fin_iff.
Qed.

Lemma bd_out x k : bd x k -> ffinite x /\ 0 <= fval x.
Proof.
  intros (r & E & H). assert (X : ffinite x).
  { unfold ffinite. unfold ev in E. destruct (Prim2SF x) as [s|[|]| |s m e]; try exact I; discriminate. }
  split; [ exact X | ]. apply ev_fin_iff in X. rewrite E in X. injection X as <-. lra.
Qed.

Lemma signs_double n p c k beta T rho sigma delta : fcalc_for n p c -> (Z.of_nat n < 2 ^ 53)%Z ->
  ffinite T -> powerRZ 2 (-200) <= fval T <= powerRZ 2 200 -> 
  cut_nonneg beta ->
  fstrat_of k c beta T = Ok (Success, Some (rho, sigma, delta)) ->
  fin_nonneg rho /\ fin_nonneg sigma /\ fin_nonneg delta.
Proof.
  intros H1 H2 H3 H4 H5 H6. assert (Q := strat_tri n p c k beta T H1 H2 H3 H4 H5). rewrite H6 in Q.
  destruct Q as (k0 & _ & B1 & B2 & B3). split; [ | split ]; eapply bd_out; eassumption.
Qed.
