(** Error bounds of a single rounding. *)
From Coq Require Import Reals ZArith Lia Lra Psatz.
From Flocq Require Import Core.Core Plus_error Relative.
From Verif Require Import SpecFloating PFloat PFloatSign PFloatCalc.
Local Open Scope R_scope.

(** unit roundoff *)
Definition uu : R := bpow radix2 (-53).
Definition eta0 : R := bpow radix2 (-1075).

Lemma uu_pos : 0 < uu.
Proof. apply bpow_gt_0. Qed.
Lemma eta0_pos : 0 < eta0.
Proof. apply bpow_gt_0. Qed.
Lemma uu_small : uu <= / 1000000000000.
Proof.
  unfold uu. change (-53)%Z with (- (53))%Z. rewrite bpow_opp. apply Rinv_le; [ lra | ].
  rewrite <- (IZR_Zpower radix2) by lia. apply IZR_le. cbn. lia.
Qed.
Lemma uu_half : / 2 * bpow radix2 (-53 + 1) = uu.
Proof. unfold uu. rewrite bpow_plus. cbn [bpow]. cbn. field. Qed.

Lemma err_n x : bpow radix2 (-1022) <= Rabs x -> Rabs (rnd x - x) <= uu * Rabs x.
Proof.
  intros H. rewrite <- uu_half. apply (relative_error_N_FLT radix2 (-1074) 53); [ lia | ].
  replace (-1074 + 53 - 1)%Z with (-1022)%Z by lia. exact H.
Qed.

Lemma err_any x : Rabs (rnd x - x) <= uu * Rabs x + eta0.
Proof.
  destruct (error_N_FLT radix2 (-1074) 53 ltac:(lia) (fun z => negb (Z.even z)) x)
    as (eps & eta & He & Ht & _ & E).
  unfold rnd. rewrite E. replace (x * (1 + eps) + eta - x) with (x * eps + eta) by ring.
  apply Rle_trans with (1 := Rabs_triang _ _). apply Rplus_le_compat.
  - rewrite Rabs_mult, Rmult_comm. apply Rmult_le_compat_r; [ apply Rabs_pos | ].
    rewrite <- uu_half. exact He.
  - replace eta0 with (/ 2 * bpow radix2 (-1074)); [ exact Ht | ].
    unfold eta0. replace (-1075)%Z with (-1 + -1074)%Z by lia. rewrite bpow_plus. cbn [bpow]. cbn. field.
Qed.

Lemma err_plus a b : fmt a -> fmt b -> Rabs (rnd (a + b) - (a + b)) <= uu * Rabs (a + b).
Proof.
  intros Fa Fb.
  destruct (FLT_plus_error_N_ex radix2 (-1074) 53 (fun z => negb (Z.even z)) a b Fa Fb) as (eps & He & E).
  unfold rnd. rewrite E. replace ((a + b) * (1 + eps) - (a + b)) with (eps * (a + b)) by ring.
  rewrite Rabs_mult. apply Rmult_le_compat_r; [ apply Rabs_pos | ].
  apply Rle_trans with (1 := He). assert (U0 : u_ro radix2 53 = uu) by exact uu_half.
  rewrite U0. generalize uu_pos. intros U.
  apply Rmult_le_reg_r with (1 + uu); [ lra | ]. unfold Rdiv. rewrite Rmult_assoc, Rinv_l by lra. nra.
Qed.

Lemma err_minus a b : fmt a -> fmt b -> Rabs (rnd (a - b) - (a - b)) <= uu * Rabs (a - b).
Proof. intros Fa Fb. apply (err_plus a (- b)); [ exact Fa | now apply generic_format_opp ]. Qed.

(** a positive number is at least the smallest one *)
Lemma fmt_tiny a : fmt a -> 0 < a -> bpow radix2 (-1074) <= a.
Proof.
  intros F P.
  replace (bpow radix2 (-1074)) with (succ radix2 (FLT_exp (-1074) 53) 0).
  - apply succ_le_lt; [ typeclasses eauto | apply generic_format_0 | exact F | exact P ].
  - rewrite succ_0. apply ulp_FLT_0. typeclasses eauto.
Qed.

(** two different numbers are at least half a unit of the larger apart *)
Lemma fmt_gap a b : fmt a -> fmt b -> a < b -> bpow radix2 (-1000) <= b -> uu * b / 2 <= b - a.
Proof.
  intros Fa Fb H K.
  assert (Hb : 0 < b) by (generalize (bpow_gt_0 radix2 (-1000)); lra).
  assert (L : a <= pred radix2 (FLT_exp (-1074) 53) b).
  { apply pred_ge_gt; [ typeclasses eauto | exact Fa | exact Fb | exact H ]. }
  assert (M : (-999 <= mag radix2 b)%Z).
  { replace (-999)%Z with (-1000 + 1)%Z by lia. apply mag_ge_bpow.
    replace (-1000 + 1 - 1)%Z with (-1000)%Z by lia. rewrite Rabs_pos_eq; lra. }
  assert (Ub : b < bpow radix2 (mag radix2 b)).
  { generalize (bpow_mag_gt radix2 b). rewrite Rabs_pos_eq; lra. }
  assert (P1 : b - pred radix2 (FLT_exp (-1074) 53) b >= bpow radix2 (mag radix2 b - 54)).
  { rewrite pred_eq_pos by lra. unfold pred_pos.
    case Req_bool_spec; intros E.
    - replace (b - (b - bpow radix2 (FLT_exp (-1074) 53 (mag radix2 b - 1))))
        with (bpow radix2 (FLT_exp (-1074) 53 (mag radix2 b - 1))) by ring.
      apply Rle_ge, bpow_le. unfold FLT_exp. lia.
    - replace (b - (b - ulp radix2 (FLT_exp (-1074) 53) b)) with (ulp radix2 (FLT_exp (-1074) 53) b) by ring.
      rewrite ulp_neq_0 by lra. unfold cexp. apply Rle_ge, bpow_le. unfold FLT_exp. lia. }
  assert (P2 : uu * b / 2 <= bpow radix2 (mag radix2 b - 54)).
  { replace (mag radix2 b - 54)%Z with (mag radix2 b + (-1) + (-53))%Z by lia.
    rewrite !bpow_plus. fold uu. change (bpow radix2 (-1)) with (/ 2). generalize uu_pos. intros. nra. }
  lra.
Qed.

Lemma Rabs_bnd x y : Rabs (x - y) <= uu * Rabs y -> 0 <= y -> y * (1 - uu) <= x <= y * (1 + uu).
Proof. intros H P. rewrite (Rabs_pos_eq y P) in H. apply Rabs_le_inv in H. lra. Qed.
