(** [conjugate_gradient] in doubles: the recursive residual is not the residual. *)
From Coq Require Import Reals ZArith Lia Lra Psatz Bool Floats List.
From Verif Require Import Arith Vec ModelCG Spec SpecFloating.
Import ListNotations.
Local Open Scope R_scope.

Definition cg_m : mat FA := [[4; 1]; [1; 3]]%float.
Definition cg_b : vec FA := [1e17; 2e17]%float.
Definition cg_tol : num FA := 0x1.4f8b588e368f1p-17%float.

Lemma cg_run : conjugate_gradient (A:=FA) cg_m cg_b None cg_tol 1000 = Ok [9090909090909090; 63636363636363632]%float.
Proof. vm_cast_no_check (eq_refl (conjugate_gradient (A:=FA) cg_m cg_b None cg_tol 1000)). Qed.

Ltac fv := unfold fval; match goal with |- context [Prim2SF ?x] =>
  let v := eval vm_compute in (Prim2SF x) in change (Prim2SF x) with v end; cbv iota; cbn [powerRZ]; simpl; lra.

Lemma fv1 : fval 1%float = 1. Proof. fv. Qed.
Lemma fv3 : fval 3%float = 3. Proof. fv. Qed.
Lemma fv4 : fval 4%float = 4. Proof. fv. Qed.
Lemma fvb1 : fval 1e17%float = 100000000000000000. Proof. fv. Qed.
Lemma fvb2 : fval 2e17%float = 200000000000000000. Proof. fv. Qed.
Lemma fvx1 : fval 9090909090909090%float = 9090909090909090. Proof. fv. Qed.
Lemma fvx2 : fval 63636363636363632%float = 63636363636363632. Proof. fv. Qed.
Lemma fvt : fval cg_tol < 1 / 1000. Proof. unfold cg_tol. fv. Qed.

Lemma cg_double :
  exists (M : mat FA) (b x : vec FA) (tol : num FA) (it : Z),
  symmetric 2 (ffm M) /\ posdef 2 (ffm M) /\
  conjugate_gradient (A:=FA) M b None tol it = Ok x /\ fval tol < 1 / 1000 /\
  ffv b 0%nat - mv 2 (ffm M) (ffv x) 0%nat = 8 /\ ffv b 1%nat - mv 2 (ffm M) (ffv x) 1%nat = 14.
Proof.
  exists cg_m, cg_b, [9090909090909090; 63636363636363632]%float, cg_tol, 1000%Z.
  split; [intros i j Hi Hj; destruct i as [|[|]]; destruct j as [|[|]]; try lia; reflexivity|].
  split.
  { intros v (i & Hi & Hv). unfold quad, bil, dot, mv, ffm, cg_m. cbn [sumn nth]. rewrite fv1, fv3, fv4.
    set (p := v 0%nat) in *. set (q := v 1%nat) in *.
    assert (Hpq : p <> 0 \/ q <> 0) by (destruct i as [|[|]]; [left|right|lia]; exact Hv).
    assert (0 < p * p + q * q) by (destruct Hpq; nra). nra. }
  split; [exact cg_run|]. split; [exact fvt|].
  unfold ffv, mv, ffm, cg_m, cg_b. cbn [sumn nth]. rewrite fv1, fv3, fv4, fvb1, fvb2, fvx1, fvx2. split; lra.
Qed.
