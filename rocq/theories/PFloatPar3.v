(** Example for the parallel deep cut in doubles. *)
From Coq Require Import Reals ZArith Lia Lra Psatz Bool Floats List.
From Flocq Require Import Core.Core.
From Verif Require Import Arith Vec ModelCalc ModelEll ModelStable SpecDrivers SpecFloating SpecCut.
From Verif Require Import PCalc PCalc2 PCalc3 PCalc4.
From Verif Require Import PFloat PFloatSign PFloatCalc PFloatCut2 PFloatErr PFloatAcc PFloatAcc4 PFloatEx2 PFloatPar2.
Import ListNotations.
Local Open Scope R_scope.

Lemma fv_4 : fval 0.25%float = / 4. Proof. fv. Qed.
Lemma fin_4 : ffinite 0.25%float. Proof. vm_compute. reflexivity. Qed.

Lemma ex_par_deep : exists (c : calc FA) (cR : calc RA) (b0 b1 T : num FA),
  fcalc_for 2 true c /\ calc_for 2 true cR /\ ffinite T /\ powerRZ 2 (-400) <= fval T <= powerRZ 2 400 /\
  ffinite b0 /\ ffinite b1 /\ 0 < fval b0 < fval b1 /\ fval b1 * fval b1 <= (1 - 2 * u53) * fval T /\
  (forall k, k = OpBias \/ k = OpQ -> fstrat_of k c (CList (A:=FA) [Some b0; Some b1]) T =
   Ok (Success, Some (0x1.78f41b3e3d74ep-2, 0x1.f69acefda7468p-1, 0x1.b2a475c8a8f42p+0)%float)).
Proof.
  exists c2f, (calc_R true 2), 0.25%float, 0.5%float, 1%float. split; [ exact c2f_ok | ]. split; [ apply calc_for_ok; lia | ].
  rewrite fval_1, fval_half, fv_4. split; [ exact fin_1 | ].
  split; [ split; [ exact p400 | rewrite <- bp_powerRZ; apply (bpow_le radix2 0 400); lia ] | ].
  split; [ exact fin_4 | ]. split; [ exact fin_half | ].
  split; [ lra | ]. split; [ rewrite uu_u53; generalize uu_small; lra | ].
  intros k [-> | ->]; vm_compute; reflexivity.
Qed.
