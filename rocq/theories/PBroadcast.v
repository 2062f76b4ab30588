(** Lemmas on the elementwise operators. *)
From Coq Require Import List Arith.
From Verif Require Import Arith Vec Broadcast.
Import ListNotations.

Section PBroadcast.
Context {A : Arith}.

Lemma bcast2_eq (f : num A -> num A -> num A) u v : length u = length v -> bcast2 f u v = Ok (map2 f u v).
Proof. intros H. unfold bcast2. rewrite H, Nat.eqb_refl. reflexivity. Qed.

Lemma bcast2_err (f : num A -> num A -> num A) u v :
  length u <> length v -> length u <> 1%nat -> length v <> 1%nat -> bcast2 f u v = Err ValueError.
Proof.
  intros H Hu Hv. unfold bcast2. destruct (Nat.eqb_spec (length u) (length v)) as [E|_]; [contradiction|].
  destruct u as [|a [|b u]]; destruct v as [|c [|d v]]; cbn [length] in *; try congruence; reflexivity.
Qed.

Lemma bcast_one f (v : num A) y n : length y = n -> bcast2 f [v] y = bcast2 f (repeat v n) y.
Proof.
  intros L. rewrite (bcast2_eq f (repeat v n) y) by (rewrite repeat_length; symmetry; exact L).
  assert (M : map2 f (repeat v n) y = map (f v) y).
  { subst n. induction y as [|b y IH]; [reflexivity|]. cbn [length repeat map2 map]. rewrite IH. reflexivity. }
  rewrite M. unfold bcast2. destruct (Nat.eqb_spec (length [v]) (length y)) as [E|_]; [|reflexivity].
  destruct y as [|b [|c y]]; try discriminate. reflexivity.
Qed.

Lemma isub_eq (u v : vec A) : length u = length v -> isub u v = Ok (vsub u v).
Proof. intros H. unfold isub. rewrite H, Nat.eqb_refl. reflexivity. Qed.

Lemma isub_err (u v : vec A) : length u <> length v -> length v <> 1%nat -> isub u v = Err ValueError.
Proof.
  intros H Hv. unfold isub. destruct (Nat.eqb_spec (length u) (length v)) as [E|_]; [contradiction|].
  destruct v as [|c [|d v]]; [reflexivity|contradiction|reflexivity].
Qed.
Lemma isub_length (u v w : vec A) : isub u v = Ok w -> length w = length u.
Proof.
  unfold isub. destruct (Nat.eqb_spec (length u) (length v)) as [E|_].
  - intros H. injection H as <-. unfold vsub. revert v E. induction u as [|a u IH]; intros [|b v] E; try discriminate; [reflexivity|].
    cbn [map2 length]. f_equal. apply IH. injection E as E. exact E.
  - destruct v as [|c [|d v]]; try discriminate. intros H. injection H as <-. apply map_length.
Qed.
End PBroadcast.
