(** The Fibonacci numbers. *)
From Coq Require Import ZArith.
Local Open Scope Z_scope.

Inductive fibonacci : Z -> Z -> Prop :=
| fibonacci_1 : fibonacci 1 1
| fibonacci_2 : fibonacci 2 1
| fibonacci_S : forall n a b, fibonacci n a -> fibonacci (n + 1) b -> fibonacci (n + 2) (a + b).
