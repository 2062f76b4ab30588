(** The parallel deep cut in doubles: cancellation with a negative first offset, and in the old formulas. *)
From Coq Require Import Reals ZArith Lia Lra Psatz Bool Floats List.
From Flocq Require Import Core.Core.
From Verif Require Import Arith Vec ModelCalc ModelEll ModelStable SpecDrivers SpecFloating SpecCut.
From Verif Require Import PAlg PCalc PCalc2 PCalc3 PCalc4.
From Verif Require Import PFloat PFloatSign PFloatCalc PFloatCut2 PFloatErr PFloatAcc PFloatAcc4 PFloatAcc5 PFloatEx2 PFloatPar2.
Import ListNotations.
Local Open Scope R_scope.

Lemma fv_neg : fval (-0x1.00000004p-1)%float = - (/ 2 + / 2147483648). Proof. fv. Qed.
Lemma fv_pos : fval 0x1.fffffff8p-1%float = 1 - / 1073741824. Proof. fv. Qed.

Lemma neg_offset_double : exists (c : calc FA) (cR : calc RA) (b0 b1 T : num FA),
  fcalc_for 2 true c /\ calc_for 2 true cR /\ ffinite T /\ ffinite b0 /\ ffinite b1 /\
  fval T = 1 /\ fval b0 < 0 < fval b1 /\ fval b1 * fval b1 <= (1 - 2 * u53) * fval T /\
  (exists delta : num FA, fstrat_of OpBias c (CList (A:=FA) [Some b0; Some b1]) T = Ok (Success, Some (0, 0, delta)%float)) /\
  fstrat_of OpQ c (CList (A:=FA) [Some b0; Some b1]) T = Ok (NoEffect, None) /\
  (exists r s d : R, 0 < r /\ 0 < s /\ forall k, k = OpBias \/ k = OpQ ->
    strat_of k cR (CList (A:=RA) [Some (fval b0); Some (fval b1)]) (fval T) = Ok (Success, Some (r, s, d))).
Proof.
  exists c2f, (calc_R true 2), (-0x1.00000004p-1)%float, 0x1.fffffff8p-1%float, 1%float.
  split; [ exact c2f_ok | ]. split; [ apply calc_for_ok; lia | ].
  split; [ exact fin_1 | ]. split; [ vm_compute; reflexivity | ]. split; [ vm_compute; reflexivity | ].
  rewrite fval_1, fv_neg, fv_pos. split; [ reflexivity | ]. split; [ lra | ].
  split; [ rewrite uu_u53; generalize uu_small; lra | ].
  split; [ eexists; vm_compute; reflexivity | ]. split; [ vm_compute; reflexivity | ].
  set (A := - (/ 2 + / 2147483648)). set (B := 1 - / 1073741824).
  assert (N2 : 2 <= INR 2) by (cbn; lra). assert (T0 : 0 < 1) by lra.
  assert (P1 : A <= B) by (unfold A, B; lra). assert (LB : B * B < 1) by (unfold B; lra).
  assert (Ep : 0 < q_eta (INR 2) 1 A B) by (unfold q_eta, A, B; cbn; lra).
  assert (Sp : 0 < q_sigma (INR 2) 1 A B).
  { unfold q_sigma. apply Rdiv_lt_0_compat; [ lra | exact (PAlg.den_pos (INR 2) 1 A B N2 T0 P1 (or_intror LB)) ]. }
  exists (q_rho (INR 2) 1 A B), (q_sigma (INR 2) 1 A B), (q_delta (INR 2) 1 A B).
  split; [ unfold q_rho; assert (0 < A + B) by (unfold A, B; lra); assert (0 < q_sigma (INR 2) 1 A B * (A + B)) by (apply Rmult_lt_0_compat; assumption); lra | ].
  split; [ exact Sp | ].
  assert (PR := par_fast_R (INR 2) N2 A B 1 T0 P1 (or_intror LB)).
  intros k [-> | ->];
    cbn [strat_of calc_single_or_parallel calc_single_or_parallel_q length Nat.ltb Nat.leb orb use_parallel_cut calc_R negb beta_at0 bind];
    unfold calc_parallel, calc_parallel_q; cbn [c_helper c_n_f calc_R]; rn; rewrite Rltb_false by exact P1;
    rewrite (Rleb_false 1 (B * B)) by exact LB; rewrite andb_false_r.
  - unfold core_parallel_bias_cut. etransitivity; [ apply f_equal; exact PR | reflexivity ].
  - rewrite Rleb_false by exact Ep. etransitivity; [ apply f_equal; exact PR | reflexivity ].
Qed.

Lemma fv_40 : fval 0x1p-40%float = / 1099511627776. Proof. fv. Qed.
Lemma fin_all : ffinite 0x1p-40%float /\ ffinite 0x1p-26%float /\ ffinite 2%float.
Proof. repeat split; vm_compute; reflexivity. Qed.

Lemma old_parallel_double : exists (c : calc FA) (cR : calc RA) (b0 b1 T : num FA),
  fcalc_for 2 true c /\ calc_for 2 true cR /\ ffinite b0 /\ ffinite b1 /\ ffinite T /\
  0 < fval b0 < fval b1 /\ fval b1 * fval b1 < fval T /\
  (exists rho sigma delta : num FA, let b0b1 := amul (a:=FA) b0 b1 in
     core_parallel_bias_cut_old (c_helper c) b0 b1 T = Ok (rho, sigma, delta) /\
     core_parallel_bias_cut_fast2 (c_helper c) b0 b1 T b0b1 (aadd (a:=FA) T (amul (a:=FA) (n_f (c_helper c)) b0b1)) =
       Ok (rho, sigma, delta) /\
     5 / 4 < fval sigma) /\
  (exists rho sigma delta : num FA, let b0b1 := amul (a:=FA) b0 b1 in
     core_parallel_bias_cut_fast_old (c_helper c) b0 b1 T b0b1 (aadd (a:=FA) T (amul (a:=FA) (n_f (c_helper c)) b0b1)) =
       Ok (rho, sigma, delta) /\
     1 / 3 < fval rho) /\
  (exists r s d : R, let b0b1 := fval b0 * fval b1 in let eta := fval T + 2 * b0b1 in
     core_parallel_bias_cut (c_helper cR) (fval b0) (fval b1) (fval T) = Ok (r, s, d) /\
     core_parallel_bias_cut_old (c_helper cR) (fval b0) (fval b1) (fval T) = Ok (r, s, d) /\
     core_parallel_bias_cut_fast2 (c_helper cR) (fval b0) (fval b1) (fval T) b0b1 eta = Ok (r, s, d) /\
     core_parallel_bias_cut_fast_old (c_helper cR) (fval b0) (fval b1) (fval T) b0b1 eta = Ok (r, s, d) /\
     r < / 1000000 /\ s < 9 / 8) /\
  (exists rho delta : num FA, core_parallel_bias_cut (c_helper c) b0 b1 T = Ok (rho, 1%float, delta) /\ fval rho < / 10000000).
Proof.
  exists c2f, (calc_R true 2), 0x1p-40%float, 0x1p-26%float, 2%float.
  assert (HR : calc_for 2 true (calc_R true 2)) by (apply calc_for_ok; lia).
  destruct fin_all as (G0 & G1 & G2).
  split; [ exact c2f_ok | ]. split; [ exact HR | ].
  split; [ exact G0 | ]. split; [ exact G1 | ]. split; [ exact G2 | ].
  split; [ rewrite fv_40, fv_26; lra | ]. split; [ rewrite fv_26, fv_2; lra | ].
  assert (Cur : core_parallel_bias_cut (A:=FA) (c_helper c2f) 0x1p-40%float 0x1p-26%float 2%float =
                Ok (0x1.0004000000000p-27%float, 1%float, 2%float)) by (vm_compute; reflexivity).
  assert (Frho : fval 0x1.0004000000000p-27%float < / 10000000) by fv.
  split; [ | split; [ | split ] ].
  - exists 0x1.5555555fffd55p-27%float, 0x1.5550001fff555p+0%float, 2%float. cbv zeta. split; [ vm_compute; reflexivity | ]. split; [ vm_compute; reflexivity | fv ].
  - exists 0x1.e2b7dddfefa66p-2%float, 0x1.5555555555555p-1%float, 0x1.5555555555555p+0%float. cbv zeta. split; [ vm_compute; reflexivity | fv ].
  - assert (P2 : powerRZ 2 (-400) <= fval 2%float <= powerRZ 2 400).
    { rewrite fv_2, <- !bp_powerRZ. split; [ apply Rle_trans with 1; [ apply (bpow_le radix2 (-400) 0); lia | lra ] |
        apply (bpow_le radix2 1 400); lia ]. }
    destruct (par_deep_accuracy OpBias 2 c2f 0x1p-40%float 0x1p-26%float 2%float (or_introl eq_refl) c2f_ok ltac:(lia) G2 P2 G0 G1)
      with (tl := @nil (option (num FA))) (cR := calc_R true 2) (tl' := @nil (option R))
      as (rho & sg & dl & r & s & d & E1 & E2 & _ & _ & _ & Q1 & Q2 & _).
    { rewrite fv_40, fv_26. lra. }
    { rewrite fv_26, fv_2, uu_u53. generalize uu_small. lra. }
    { exact HR. }
    assert (E1' : fstrat_of OpBias c2f (CList (A:=FA) [Some 0x1p-40%float; Some 0x1p-26%float]) 2%float =
                  Ok (Success, Some (0x1.0004000000000p-27%float, 1%float, 2%float))) by (vm_compute; reflexivity).
    assert (E3 := eq_trans (eq_sym E1') E1). injection E3 as <- <- <-. rewrite fval_1 in Q2.
    destruct (formulations_agree 2 true (calc_R true 2) (fval 0x1p-40%float) (fval 0x1p-26%float) (fval 2%float) HR) as ([[r' s'] d'] & A1 & A2 & A3 & _ & A4 & _).
    { rewrite fv_2. lra. }
    { rewrite fv_40, fv_26. lra. }
    { right. rewrite fv_26, fv_2. lra. }
    assert (X : Ok (Success, Some (r', s', d')) = Ok (Success, Some (r, s, d))).
    { rewrite <- E2. symmetry.
      cbn [strat_of calc_single_or_parallel length Nat.ltb Nat.leb orb use_parallel_cut calc_R negb beta_at0 bind].
      unfold calc_parallel. rn. rewrite Rltb_false by (rewrite fv_40, fv_26; lra).
      rewrite (Rleb_false (fval 2%float)) by (rewrite fv_26, fv_2; lra). rewrite andb_false_r.
      etransitivity; [ apply f_equal; exact A1 | reflexivity ]. }
    injection X as -> -> ->.
    destruct A3 as [A5 A6]; [ rewrite fv_40, fv_26; lra | ].
    specialize (A4 ltac:(rewrite fv_40, fv_26; lra)).
    exists r, s, d. cbv zeta. replace 2 with (INR 2) by (cbn; lra).
    split; [ exact A1 | ]. split; [ exact A5 | ]. split; [ exact A6 | ]. split; [ exact A4 | ].
    rewrite uu_u53 in Q1, Q2. generalize uu_small uu_pos. intros U1 U0.
    assert (Ty : tiny <= / 100000000).
    { unfold tiny. rewrite <- bp_powerRZ. apply Rle_trans with (bpow radix2 (-53)); [ apply bpow_le; lia | ].
      fold uu. lra. }
    apply bnd in Q1. apply bnd in Q2.
    split.
    + destruct (Rlt_le_dec r 0) as [L|L]; [ lra | ].
      assert (uu * r <= / 1000000000000 * r) by (apply Rmult_le_compat_r; lra). lra.
    + destruct (Rlt_le_dec s 0) as [L|L]; [ lra | ].
      assert (uu * s <= / 1000000000000 * s) by (apply Rmult_le_compat_r; lra). lra.
  - exists 0x1.0004000000000p-27%float, 2%float. split; [ exact Cur | exact Frho ].
Qed.
