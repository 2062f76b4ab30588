(** Lists of reals as functions. *)
From Coq Require Import Reals List Arith Lia Lra Bool.
From Verif Require Import Arith Vec Spec PSum.
Import ListNotations.
Local Open Scope R_scope.

Lemma map2_length {T U V} (f : T -> U -> V) l k :
  length l = length k -> length (map2 f l k) = length l.
Proof. revert k. induction l; destruct k; simpl; intros H; try lia. rewrite IHl; lia. Qed.

Lemma nth_map2 {T U V} (f : T -> U -> V) l k i dt du dv :
  length l = length k -> (i < length l)%nat ->
  nth i (map2 f l k) dv = f (nth i l dt) (nth i k du).
Proof.
  revert k i. induction l; destruct k; simpl; intros i H Hi; try lia.
  destruct i; [reflexivity|]. apply IHl; lia.
Qed.

Lemma nth_map_gen {T U} (f : T -> U) l i dt du : (i < length l)%nat ->
  nth i (map f l) du = f (nth i l dt).
Proof.
  intros Hi. rewrite (nth_indep _ du (f dt)) by (rewrite map_length; exact Hi). apply map_nth.
Qed.

Lemma fold_left_Rplus l x : fold_left Rplus l x = x + sumn (length l) (fun i => nth i l 0).
Proof.
  revert x. induction l as [|a l IH]; intros x; [simpl; lra|].
  cbn [fold_left]. rewrite IH. cbn [length]. rewrite sumn_S_l. simpl. lra.
Qed.

(** [lia] up to [num RA = R]. *)
Ltac llia :=
  unfold vec, mat in *;
  repeat match goal with
         | H : context [num RA] |- _ => change (num RA) with R in H
         | |- context [num RA] => change (num RA) with R
         end; lia.

Lemma vsum_R (l : vec RA) : vsum l = sumn (length l) (fv l).
Proof.
  transitivity (0 + sumn (length l) (fv l)); [exact (fold_left_Rplus l 0)|lra].
Qed.

Lemma vdot_R n (u v : vec RA) : length u = n -> length v = n -> vdot u v = dot n (fv u) (fv v).
Proof.
  intros Hu Hv. unfold vdot. rewrite vsum_R. rewrite map2_length by congruence. rewrite Hu.
  apply sumn_ext. intros i Hi. unfold fv.
  rewrite (nth_map2 _ u v i 0 0) by llia. reflexivity.
Qed.

Lemma fm_row (m : mat RA) i j : fm m i j = fv (nth i m []) j.
Proof. reflexivity. Qed.

Lemma mvmul_length (m : mat RA) v : length (mvmul m v) = length m.
Proof. apply map_length. Qed.

Lemma mvmul_R n (m : mat RA) (v : vec RA) i : mat_wf n m -> length v = n -> (i < n)%nat ->
  fv (mvmul m v) i = mv n (fm m) (fv v) i.
Proof.
  intros [Hm Hr] Hv Hi.
  transitivity (vdot (A:=RA) (nth i m []) v).
  - apply (nth_map_gen (fun row => vdot (A:=RA) row v) m i [] 0). llia.
  - apply (vdot_R n); [apply Hr; exact Hi|exact Hv].
Qed.

Lemma vscale_length (c : num RA) v : length (vscale c v) = length v.
Proof. apply map_length. Qed.

Lemma vscale_R (c : R) (v : vec RA) i : (i < length v)%nat -> fv (vscale (A:=RA) c v) i = c * fv v i.
Proof.
  intros Hi. unfold vscale, fv.
  rewrite (nth_indep _ 0 (Rmult c 0)) by (rewrite map_length; exact Hi).
  exact (map_nth (Rmult c) v 0 i).
Qed.

Lemma vsub_length (u v : vec RA) : length u = length v -> length (vsub u v) = length u.
Proof. apply map2_length. Qed.

Lemma vsub_R (u v : vec RA) i : length u = length v -> (i < length u)%nat ->
  fv (vsub u v) i = fv u i - fv v i.
Proof. intros H Hi. unfold vsub, fv. exact (nth_map2 Rminus u v i 0 0 0 H Hi). Qed.

Lemma vadd_length (u v : vec RA) : length u = length v -> length (vadd u v) = length u.
Proof. apply map2_length. Qed.

Lemma vadd_R (u v : vec RA) i : length u = length v -> (i < length u)%nat ->
  fv (vadd u v) i = fv u i + fv v i.
Proof. intros H Hi. unfold vadd, fv. exact (nth_map2 Rplus u v i 0 0 0 H Hi). Qed.

Lemma outer_wf n (u v : vec RA) : length u = n -> length v = n -> mat_wf n (outer u v).
Proof.
  intros Hu Hv. split; [unfold outer; rewrite map_length; exact Hu|].
  intros i Hi. unfold outer. rewrite (nth_map_gen _ u i 0) by llia.
  rewrite vscale_length. exact Hv.
Qed.

Lemma outer_R n (u v : vec RA) i j : length u = n -> length v = n -> (i < n)%nat -> (j < n)%nat ->
  fm (outer u v) i j = fv u i * fv v j.
Proof.
  intros Hu Hv Hi Hj. rewrite fm_row. unfold outer. rewrite (nth_map_gen _ u i 0) by llia.
  rewrite vscale_R by llia. reflexivity.
Qed.

Lemma mscale_wf n c (m : mat RA) : mat_wf n m -> mat_wf n (mscale c m).
Proof.
  intros [Hm Hr]. split; [unfold mscale; rewrite map_length; exact Hm|].
  intros i Hi. unfold mscale. rewrite (nth_map_gen _ m i []) by llia.
  rewrite vscale_length. apply Hr, Hi.
Qed.

Lemma mscale_R n (c : R) (m : mat RA) i j : mat_wf n m -> (i < n)%nat -> (j < n)%nat ->
  fm (mscale (A:=RA) c m) i j = c * fm m i j.
Proof.
  intros [Hm Hr] Hi Hj. rewrite !fm_row. unfold mscale. rewrite (nth_map_gen _ m i []) by llia.
  rewrite vscale_R; [reflexivity|]. rewrite Hr by exact Hi. exact Hj.
Qed.

Lemma msub_wf n (m k : mat RA) : mat_wf n m -> mat_wf n k -> mat_wf n (msub m k).
Proof.
  intros [Hm Hr] [Hk Hs]. split; [unfold msub; rewrite map2_length; llia|].
  intros i Hi. unfold msub. rewrite (nth_map2 _ m k i [] []) by llia.
  rewrite vsub_length; rewrite Hr; try rewrite Hs; auto.
Qed.

Lemma msub_R n (m k : mat RA) i j : mat_wf n m -> mat_wf n k -> (i < n)%nat -> (j < n)%nat ->
  fm (msub m k) i j = fm m i j - fm k i j.
Proof.
  intros [Hm Hr] [Hk Hs] Hi Hj. rewrite !fm_row. unfold msub.
  rewrite (nth_map2 _ m k i [] []) by llia.
  apply vsub_R; rewrite Hr by exact Hi; [symmetry; apply Hs, Hi|exact Hj].
Qed.

Lemma mdiag_wf (d : vec RA) : mat_wf (length d) (mdiag d).
Proof.
  unfold mdiag. split; [rewrite map_length, seq_length; reflexivity|].
  intros i Hi. rewrite (nth_map_gen _ _ i O) by (rewrite seq_length; exact Hi).
  rewrite map_length, seq_length. reflexivity.
Qed.

Lemma mdiag_R (d : vec RA) i j : (i < length d)%nat -> (j < length d)%nat ->
  fm (mdiag d) i j = if Nat.eqb i j then fv d i else 0.
Proof.
  intros Hi Hj. rewrite fm_row. unfold mdiag.
  rewrite (nth_map_gen _ _ i O) by (rewrite seq_length; exact Hi).
  unfold fv at 1. rewrite (nth_map_gen _ _ j O) by (rewrite seq_length; exact Hj).
  rewrite !seq_nth by assumption. simpl. destruct (Nat.eqb i j); reflexivity.
Qed.

Lemma meye_wf n : mat_wf n (meye (A:=RA) n).
Proof.
  unfold meye. pose proof (mdiag_wf (repeat (aone (a:=RA)) n)) as H.
  rewrite repeat_length in H. exact H.
Qed.

Lemma fv_repeat n (x : R) i : (i < n)%nat -> fv (repeat x n) i = x.
Proof.
  unfold fv. revert i. induction n; intros i Hi; [llia|]. destruct i; [reflexivity|].
  simpl. apply IHn. llia.
Qed.

Lemma meye_R n i j : (i < n)%nat -> (j < n)%nat ->
  fm (meye (A:=RA) n) i j = if Nat.eqb i j then 1 else 0.
Proof.
  intros Hi Hj. unfold meye. rewrite mdiag_R by (rewrite repeat_length; assumption).
  destruct (Nat.eqb i j); [|reflexivity]. apply (fv_repeat n 1). exact Hi.
Qed.

(** the test for the zero gradient *)
Lemma forallb_zero n (g : vec RA) : length g = n ->
  (forallb (fun x => aeqb x azero) g = false <-> nonzero n (fv g)).
Proof.
  intros Hg. split.
  - intros H. assert (E : exists x, In x g /\ x <> 0).
    { clear Hg. induction g as [|a l IH]; [discriminate|]. cbn [forallb] in H.
      destruct (aeqb (a:=RA) a azero) eqn:E.
      - destruct (IH H) as (x & Hx & Hn). exists x. split; [right; exact Hx|exact Hn].
      - exists a. split; [left; reflexivity|]. intros ->. cbn in E. unfold Reqb in E.
        destruct (Req_EM_T 0 0); congruence. }
    destruct E as (x & Hx & Hn). apply (In_nth _ _ 0) in Hx. destruct Hx as (i & Hi & Hix).
    exists i. split; [llia|]. unfold fv. rewrite Hix. exact Hn.
  - intros (i & Hi & Hn). apply not_true_is_false. intros H. rewrite forallb_forall in H.
    apply Hn. specialize (H (fv g i)).
    assert (Hin : In (fv g i) g) by (apply nth_In; llia).
    specialize (H Hin). cbn in H. unfold Reqb in H. destruct (Req_EM_T (fv g i) 0); congruence.
Qed.
