(** Model of [fib] in [skeleton.py]. *)
From Coq Require Import ZArith.
From Verif Require Import Arith.

(** skeleton.py:54-56: the loop [for _i in range(n - 1): a, b = b, a + b] *)
Fixpoint fib_loop (k : nat) (a b : Z) : Z :=
  match k with
  | O => a
  | S k' => fib_loop k' b (a + b)
  end.

(** skeleton.py:44-57 *)
Definition fib (n : Z) : res Z :=
  if (0 <? n)%Z then Ok (fib_loop (Z.to_nat (n - 1)) 1 1) else Err AssertionError.
