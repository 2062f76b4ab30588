(** Concrete cases for the conjugate gradient and autocorrelation theorems. *)
From Coq Require Import Reals List Arith ZArith Lia Lra.
From Verif Require Import Arith Vec ModelCG ModelSpectral Spec SpecCG SpecSpectral PSum PCG PCG2 PSpectral.
Import ListNotations.
Local Open Scope R_scope.

Definition spd_mat : list (list R) := [[4; 1]; [1; 3]].
Definition spd_rhs : list R := [1; 2].

Lemma spd_shape : cg_shape 2 spd_mat spd_rhs None.
Proof.
  split; [|split; [reflexivity|exact I]]. split; [reflexivity|].
  intros [|[|i]] Hi; try reflexivity. lia.
Qed.
Lemma spd_sym : symmetric 2 (fm spd_mat).
Proof. intros [|[|i]] [|[|j]] Hi Hj; try lia; reflexivity. Qed.
Lemma spd_pd : posdef 2 (fm spd_mat).
Proof.
  intros v (i & Hi & Hv). unfold quad, bil, dot, mv, fm, spd_mat. cbn.
  assert (H : v 0%nat <> 0 \/ v 1%nat <> 0) by (destruct i as [|[|i]]; auto; lia).
  assert (S0 := Rle_0_sqr (v 0%nat)). assert (S1 := Rle_0_sqr (v 1%nat)). assert (S2 := Rle_0_sqr (v 0%nat + v 1%nat)).
  unfold Rsqr in *. destruct H as [H|H]; apply Rsqr_pos_lt in H; unfold Rsqr in H; nra.
Qed.
Lemma spd_start : exists i, (i < 2)%nat /\ mv 2 (fm spd_mat) (cg_start None) i <> fv spd_rhs i.
Proof. exists 0%nat. split; [lia|]. unfold mv, fm, fv, spd_mat, spd_rhs. cbn. lra. Qed.

Lemma spd_returns : exists x, conjugate_gradient (A:=RA) spd_mat spd_rhs None (1/10) 2 = Ok x.
Proof.
  apply (cg_converges 2); [exact spd_shape|exact spd_sym|exact spd_pd|lra|exact spd_start|lia].
Qed.

Lemma spd_exact : cg_shape 2 spd_mat spd_rhs (Some [1/11; 7/11]) /\
  forall i, (i < 2)%nat -> mv 2 (fm spd_mat) (cg_start (Some [1/11; 7/11])) i = fv spd_rhs i.
Proof.
  split.
  - destruct spd_shape as (M & B & _). split; [exact M|split; [exact B|reflexivity]].
  - intros [|[|i]] Hi; [| |lia]; unfold mv, fm, fv, cg_start, spd_mat, spd_rhs; cbn; lra.
Qed.

(** an indefinite matrix: the first direction has curvature zero *)
Lemma indef_fails : cg_shape 2 [[1; 0]; [0; -1]] [1; 1] None /\
  conjugate_gradient (A:=RA) (@cons (list R) [1; 0] [[0; -1]]) (@cons R 1 [1]) None (1/10) 5 = Err ValueError.
Proof.
  assert (Sh : cg_shape 2 [[1; 0]; [0; -1]] [1; 1] None).
  { split; [|split; [reflexivity|exact I]]. split; [reflexivity|]. intros [|[|i]] Hi; try reflexivity. lia. }
  split; [exact Sh|].
  destruct (conjugate_gradient (A:=RA) _ _ None _ 5) as [x|e] eqn:E.
  - exfalso. destruct (cg_first_hit 2 _ _ None _ 5 x Sh E) as (k & Hk & (_ & Q) & _).
    apply (Q 0%nat ltac:(lia)). unfold quad, bil, dot, mv, fm, fv. cbn. unfold mv. cbn. lra.
  - destruct (cg_fails 2 _ _ None _ 5 e Sh E) as (-> & _). reflexivity.
Qed.

Lemma inv_case : exists r, inverse_spectral_fact (A:=RA) (@cons R 1 [2; -3]) = Ok r /\ fv r 0 = 14 /\ fv r 1 = -4 /\ fv r 2 = -3.
Proof.
  destruct (inverse_ok (@cons R 1 [2; -3])) as (r & E & _ & H); [discriminate|].
  exists r. split; [exact E|]. rewrite !H by (cbn; lia). unfold autocorr, fv. cbn. repeat split; lra.
Qed.
