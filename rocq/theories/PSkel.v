(** Proofs about [fib]. *)
From Coq Require Import ZArith Lia.
From Verif Require Import Arith ModelSkel SpecSkel.
Local Open Scope Z_scope.

Lemma fib_loop_spec k : forall n a b, fibonacci n a -> fibonacci (n + 1) b -> fibonacci (n + Z.of_nat k) (fib_loop k a b).
Proof.
  induction k as [|k IH]; intros n a b Ha Hb.
  - replace (n + Z.of_nat 0) with n by lia. exact Ha.
  - cbn [fib_loop]. replace (n + Z.of_nat (S k)) with (n + 1 + Z.of_nat k) by lia. apply IH; [exact Hb|].
    replace (n + 1 + 1) with (n + 2) by lia. constructor; assumption.
Qed.

Lemma fib_spec n : (0 < n -> exists v, fib n = Ok v /\ fibonacci n v) /\ (n <= 0 -> fib n = Err AssertionError).
Proof.
  unfold fib. destruct (Z.ltb_spec 0 n) as [H|H]; split; intros Hn; try lia; [|reflexivity].
  eexists. split; [reflexivity|].
  pose proof (fib_loop_spec (Z.to_nat (n - 1)) 1 1 1 fibonacci_1 fibonacci_2) as F.
  replace (1 + Z.of_nat (Z.to_nat (n - 1))) with n in F by lia. exact F.
Qed.

(** The relation is a function. *)
Lemma fibonacci_pos n v : fibonacci n v -> 1 <= n.
Proof. induction 1; lia. Qed.
Lemma fibonacci_fun : forall n v w, fibonacci n v -> fibonacci n w -> v = w.
Proof.
  intros n v w H. revert w. induction H as [| |n a b Ha IHa Hb IHb]; intros w Hw.
  - inversion Hw; [reflexivity|]. match goal with H : fibonacci ?k _ |- _ => apply fibonacci_pos in H end. lia.
  - inversion Hw; [reflexivity|]. match goal with H : fibonacci ?k _, E : ?k + 2 = 2 |- _ => apply fibonacci_pos in H; lia end.
  - pose proof (fibonacci_pos _ _ Ha). inversion Hw as [| |m c d Hc Hd E1 E2]; try lia.
    assert (m = n) by lia. subst m. rewrite (IHa _ Hc), (IHb _ Hd). reflexivity.
Qed.
