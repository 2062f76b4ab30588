(** The interval draft: a case, and rounding in the constructor. *)
From Coq Require Import Reals List Arith ZArith Lra Bool Floats.
From Verif Require Import Arith Vec ModelCalc ModelDraft Spec SpecDraft SpecFloating PCalc PDraft PFloat PFloatCut2 PFloatEx2.
Local Open Scope R_scope.

Lemma e01_case : 0 <= d_rd e01 /\ exists e', ell1d_update (A:=RA) 1 (1/4) false e01 = (e', Ok Success).
Proof.
  unfold e01. rewrite ell1d_update_eq, ell1d_init_R. unfold ell1d_update_R. cbn [d_rd d_xc].
  split; [change (num RA) with R; lra|]. rewrite orb_false_l. destruct (Reqb_spec (1/4) 0); [lra|].
  rewrite Rabs_right by lra. destruct (Rltb_spec ((1 - 0) / 2 * 1) (1/4)); [lra|].
  destruct (Rltb_spec (1/4) (- ((1 - 0) / 2 * 1))); [lra|]. destruct (Reqb_spec 1 0); [lra|]. eexists. reflexivity.
Qed.

Lemma init_loses : exists l u : num FA, ffinite l /\ ffinite u /\ fval l < fval u /\
  let e := ell1d_init l u in ffinite (d_rd e) /\ ffinite (d_xc e) /\ fval (d_xc e) + fval (d_rd e) < fval u.
Proof.
  exists 1%float, 0x1.0000000000001p+0%float. split; [exact fin_1|]. split; [vm_compute; exact I|].
  assert (Ed : d_rd (ell1d_init (A:=FA) 1%float 0x1.0000000000001p+0%float) = 0x1p-53%float) by (vm_compute; reflexivity).
  assert (Ec : d_xc (ell1d_init (A:=FA) 1%float 0x1.0000000000001p+0%float) = 1%float) by (vm_compute; reflexivity).
  cbv zeta. rewrite Ed, Ec.
  assert (U : fval 0x1.0000000000001p+0%float = 1 + 2 * powerRZ 2 (-53)).
  { unfold fval. replace (Prim2SF 0x1.0000000000001p+0%float) with (S754_finite false 4503599627370497 (-52)) by (vm_compute; reflexivity).
    change (-52)%Z with (1 + -53)%Z. rewrite powerRZ_add by lra.
    assert (E : powerRZ 2 (-53) = / 9007199254740992) by (rewrite <- bp_powerRZ; cbn; lra). rewrite E, powerRZ_1. lra. }
  assert (D : fval 0x1p-53%float = powerRZ 2 (-53)).
  { unfold fval. replace (Prim2SF 0x1p-53%float) with (S754_finite false 4503599627370496 (-105)) by (vm_compute; reflexivity).
    change (-105)%Z with (-52 + -53)%Z. rewrite powerRZ_add by lra.
    assert (E : powerRZ 2 (-52) = / 4503599627370496) by (rewrite <- bp_powerRZ; cbn; lra). rewrite E. lra. }
  assert (P : 0 < powerRZ 2 (-53)) by (apply powerRZ_lt; lra).
  rewrite U, D, fval_1. split; [lra|]. split; [vm_compute; exact I|]. split; [exact fin_1|]. lra.
Qed.
