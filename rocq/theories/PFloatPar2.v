(** Examples for the parallel central cut in doubles, and the cancellation in its old formula. *)
From Coq Require Import Reals ZArith Lia Lra Psatz Bool Floats List.
From Flocq Require Import Core.Core.
From Verif Require Import Arith Vec ModelCalc ModelEll ModelStable SpecDrivers SpecFloating SpecCut.
From Verif Require Import PCalc PCalc2 PCalc3 PCalc4.
From Verif Require Import PFloat PFloatSign PFloatCalc PFloatCut2 PFloatAcc PFloatAcc4 PFloatEx2.
Import ListNotations.
Local Open Scope R_scope.

Ltac fv := unfold fval; match goal with |- context [Prim2SF ?x] =>
  let v := eval vm_compute in (Prim2SF x) in change (Prim2SF x) with v end; cbv iota; cbn [powerRZ]; simpl; lra.

Lemma fv_26 : fval 0x1p-26%float = / 67108864. Proof. fv. Qed.
Lemma fv_2 : fval 2%float = 2. Proof. fv. Qed.
Lemma fv_43 : 5 / 4 < fval 0x1.5555555555555p+0%float. Proof. fv. Qed.

Lemma ex_par_central : exists (c : calc FA) (cR : calc RA) (b T : num FA),
  fcalc_for 2 true c /\ calc_for 2 true cR /\ ffinite T /\ powerRZ 2 (-400) <= fval T /\
  ffinite b /\ 0 < fval b /\ fval b * fval b < fval T /\
  fstrat_of OpCentral c (CList (A:=FA) [Some 0%float; Some b]) T =
  Ok (Success, Some (0x1.dbf8c9efc6577p-3, 0x1.dbf8c9efc6577p-1, 0x1.c480e6c207351p+0)%float).
Proof.
  exists c2f, (calc_R true 2), 0.5%float, 1%float. split; [ exact c2f_ok | ]. split; [ apply calc_for_ok; lia | ].
  rewrite fval_1, fval_half. split; [ exact fin_1 | ]. split; [ exact p400 | ]. split; [ exact fin_half | ].
  split; [ lra | ]. split; [ lra | ]. vm_compute. reflexivity.
Qed.

Lemma old_central_double : exists (c : calc FA) (cR : calc RA) (b T : num FA),
  fcalc_for 2 true c /\ calc_for 2 true cR /\ ffinite T /\ ffinite b /\
  0 < fval b /\ fval b * fval b < fval T /\
  (exists rho sigma delta : num FA,
     core_parallel_central_cut_old (c_helper c) b T = Ok (rho, sigma, delta) /\ 5 / 4 < fval sigma) /\
  (exists rho sigma delta : R,
     core_parallel_central_cut_old (c_helper cR) (fval b) (fval T) = Ok (rho, sigma, delta) /\ sigma <= 1) /\
  (exists rho delta : num FA,
     core_parallel_central_cut (c_helper c) b T = Ok (rho, 1%float, delta)).
Proof.
  exists c2f, (calc_R true 2), 0x1p-26%float, 2%float.
  assert (HR : calc_for 2 true (calc_R true 2)) by (apply calc_for_ok; lia).
  split; [ exact c2f_ok | ]. split; [ exact HR | ].
  split; [ vm_compute; reflexivity | ]. split; [ vm_compute; reflexivity | ].
  rewrite fv_26, fv_2. split; [ lra | ]. split; [ lra | ].
  split; [ | split ].
  - exists 0x1.5555555555555p-27%float, 0x1.5555555555555p+0%float, 2%float. split; [ vm_compute; reflexivity | exact fv_43 ].
  - assert (P2 : powerRZ 2 (-400) <= fval 2%float).
    { rewrite fv_2. apply Rle_trans with 1; [ | lra ]. rewrite <- bp_powerRZ. apply (bpow_le radix2 (-400) 0). lia. }
    assert (Lt : bpow radix2 (-400) <= fval 2%float) by (rewrite bp_powerRZ; exact P2).
    assert (Hb : fval 0x1p-26%float * fval 0x1p-26%float < fval 2%float) by (rewrite fv_26, fv_2; lra).
    assert (E := pcl_exact 2 0x1p-26%float 2%float P2 Hb ltac:(lia)). cbv zeta in E.
    assert (R1 := pc_r1 2 (fval 2%float) (fval 0x1p-26%float) ltac:(lia) Lt (Rlt_le _ _ Hb)).
    rewrite fv_26, fv_2 in E, R1.
    destruct (central_formulations_agree 2 true (calc_R true 2) (/ 67108864) 2 HR ltac:(lra) ltac:(lra) ltac:(lra))
      as (r & E1 & E2 & _).
    rewrite E in E1. injection E1 as <-. do 3 eexists. split; [ apply E2; lra | ].
    match goal with |- 2 / (?x + 1) <= 1 => set (y := x) in *; assert (1 <= y) by exact R1 end.
    apply Rmult_le_reg_r with (y + 1); [ lra | ]. unfold Rdiv. rewrite Rmult_assoc, Rinv_l by lra. lra.
  - exists 0x1p-27%float, 2%float. vm_compute. reflexivity.
Qed.
