(** Containment in double arithmetic: a computed counterexample. *)
From Coq Require Import Reals List Arith ZArith Bool Lia Lra Psatz Floats.
From Flocq Require Import Core.Core.
From Verif Require Import Arith Vec ModelCalc ModelEll ModelStable SpecDrivers SpecFloating Spec.
From Verif Require Import PFloatCut2 PFloatEx PFloatEx2.
Import ListNotations.
Local Open Scope R_scope.

Definition g10 : vec FA := [1%float; 0%float].
Definition e01 : ell FA := fst (fell_update OpCentral (g10, CSingle (A:=FA) 0%float) e0).
(** the point (0, 1), on the boundary of the unit disc and of the cut *)
Definition top : nat -> R := fun i => match i with 1%nat => 1 | _ => 0 end.


Lemma fval_SF x s m e : Prim2SF x = S754_finite s m e -> fval x = (if s then -1 else 1) * IZR (Zpos m) * bpow radix2 e.
Proof. intros H. unfold fval. rewrite H. now rewrite bp_powerRZ. Qed.

Lemma ex_containment :
  exists (e e1 : ell FA) (g : vec FA) (x : nat -> R),
  ell_init (A:=FA) (VScalar (A:=FA) 1%float) [0%float; 0%float] = Ok e /\
  fell_update OpCentral (g, CSingle (A:=FA) PrimFloat.zero) e = (e1, Ok Success) /\
  in_ellipsoid 2 (ffv (xc e)) (fval (kappa e)) (ffm (mq e)) x /\
  cutval 2 (ffv g) (ffv (xc e)) x <= 0 /\
  ~ in_ellipsoid 2 (ffv (xc e1)) (fval (kappa e1)) (ffm (mq e1)) x.
Proof.
  exists e0, e01, g10, top. split; [ exact e0_ok | ]. split.
  { assert (O : snd (fell_update OpCentral (g10, CSingle (A:=FA) PrimFloat.zero) e0) = Ok Success) by (vm_compute; reflexivity).
    rewrite <- O. unfold e01. now destruct (fell_update _ _ e0). }
  assert (M0 : mq e0 = [[1%float; 0%float]; [0%float; 1%float]]) by (vm_compute; reflexivity).
  assert (X0 : xc e0 = [0%float; 0%float]) by (vm_compute; reflexivity).
  assert (K0 : kappa e0 = 1%float) by (vm_compute; reflexivity).
  assert (Z0 : fval PrimFloat.zero = 0) by reflexivity.
  split.
  { exists top. rewrite M0, X0, K0. unfold quad, bil, dot, mv, ffv, ffm. split.
    - intros [|[|i]] Hi; [ | | lia ]; cbn [sumn nth top]; rewrite ?fval_1, ?fval_0, ?Z0; lra.
    - cbn [sumn nth top]. rewrite ?fval_1, ?fval_0, ?Z0. lra. }
  split.
  { rewrite X0. unfold cutval, dot, ffv, g10. cbn [sumn nth top]. rewrite ?fval_1, ?fval_0, ?Z0. lra. }
  intros (y & Hy & Q).
  assert (M1 : Prim2SF (nth 0 (nth 0 (mq e01) []) PrimFloat.zero) = S754_finite false 6004799503160662 (-54)) by (vm_compute; reflexivity).
  assert (M2 : nth 1 (nth 0 (mq e01) []) PrimFloat.zero = PrimFloat.zero) by (vm_compute; reflexivity).
  assert (M3 : nth 0 (nth 1 (mq e01) []) PrimFloat.zero = PrimFloat.zero) by (vm_compute; reflexivity).
  assert (M4 : nth 1 (nth 1 (mq e01) []) PrimFloat.zero = 1%float) by (vm_compute; reflexivity).
  assert (X1 : Prim2SF (nth 0 (xc e01) PrimFloat.zero) = S754_finite true 6004799503160661 (-54)) by (vm_compute; reflexivity).
  assert (X2 : nth 1 (xc e01) PrimFloat.zero = PrimFloat.zero) by (vm_compute; reflexivity).
  assert (K1 : Prim2SF (kappa e01) = S754_finite false 6004799503160661 (-52)) by (vm_compute; reflexivity).
  apply fval_SF in M1, X1, K1. apply (f_equal fval) in M2, M3, M4, X2. rewrite Z0 in M2, M3, X2. rewrite fval_1 in M4.
  change (ffm (mq e01) 0 0 = 1 * 6004799503160662 * bpow radix2 (-54)) in M1.
  change (ffm (mq e01) 0 1 = 0) in M2. change (ffm (mq e01) 1 0 = 0) in M3. change (ffm (mq e01) 1 1 = 1) in M4.
  change (ffv (xc e01) 0 = -1 * 6004799503160661 * bpow radix2 (-54)) in X1. change (ffv (xc e01) 1 = 0) in X2.
  assert (H0 := Hy 0%nat ltac:(lia)). assert (H1 := Hy 1%nat ltac:(lia)). clear Hy.
  unfold quad, bil, dot, mv in H0, H1, Q. cbn [sumn top] in H0, H1, Q.
  rewrite M1, M2, X1 in H0. rewrite M3, M4, X2 in H1. rewrite M1, M2, M3, M4, K1 in Q.
  clear M0 X0 K0 M1 M2 M3 M4 X1 X2 K1 Z0.
  change (bpow radix2 (-54)) with (/ 18014398509481984) in *.
  change (bpow radix2 (-52)) with (/ 4503599627370496) in *.
  set (a := y 0%nat) in *. set (b := y 1%nat) in *.
  assert (B : b = 1) by lra.
  assert (A : a = 6004799503160661 / 6004799503160662) by lra.
  rewrite A, B in Q. lra.
Qed.
