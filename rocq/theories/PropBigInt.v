(** C11 for integers of any size: [bsearch] computes the midpoint in doubles. *)
From Coq Require Import ZArith Reals.
From Flocq Require Import Core.Core.
From Verif Require Import Arith ModelCut ModelInt PBigInt.
Local Open Scope Z_scope.

(** the midpoint and the test are those of the code, read as operations on doubles ([lower] is
    converted, the width is exact, [/ 2], [+] round to nearest even, [int()] truncates), and none of
    the values leaves the range of doubles *)
Theorem C11_doubles : forall l u,
  let rnd := round radix2 (FLT_exp (-1074) 53) ZnearestE in
  mid_py l u = Ztrunc (rnd (rnd (IZR l) + rnd (IZR (u - l) / 2))%R) /\
  (forall tn td, narrow_py tn td l u = true <-> (rnd (IZR (u - l) / 2) < IZR tn / IZR (Zpos td))%R) /\
  (Z.abs l <= 2 ^ 1022 -> Z.abs u <= 2 ^ 1022 ->
   (Rabs (rnd (IZR l)) <= bpow radix2 1022)%R /\
   (Rabs (rnd (IZR (u - l) / 2)) <= bpow radix2 1022)%R /\
   (Rabs (rnd (rnd (IZR l) + rnd (IZR (u - l) / 2))) <= bpow radix2 1022)%R).
Proof. exact py_doubles. Qed.
Print Assumptions C11_doubles.

Example C11_doubles_case :
  mid_py (2 ^ 54 + 6) (2 ^ 54 + 7) = 2 ^ 54 + 8 /\ mid_py (2 ^ 53 + 1) (2 ^ 53 + 2) = 2 ^ 53 /\
  mid_py (- (2 ^ 54) - 6) (- (2 ^ 54) - 5) = - (2 ^ 54) - 8 /\
  narrow_py 3 2 (2 ^ 60) (2 ^ 60 + 2) = true /\ narrow_py 3 2 (2 ^ 60) (2 ^ 60 + 3) = false /\
  narrow_py (2 ^ 53) 2 0 (2 ^ 53) = false /\ narrow_py (2 ^ 53 + 1) 2 0 (2 ^ 53 + 1) = true.
Proof. vm_compute. repeat split. Qed.

(** between -2^52 and 2^52 nothing is rounded: the search is the exact one of the theorems above *)
Theorem C11_no_rounding : forall (B : Type) (f : B -> Z -> B * res bool) tn td maxit o l u,
  Z.abs l <= 2 ^ 52 -> Z.abs u <= 2 ^ 52 ->
  bsearch f (narrow_py tn td) mid_py maxit o l u = bsearch f (narrow_int tn td) mid_int maxit o l u.
Proof. exact @bsearch_py_small. Qed.
Print Assumptions C11_no_rounding.

Example C11_no_rounding_case :
  bsearch (fun (o : nat) x => (S o, Ok (Z.leb (-37) x))) (narrow_py 1 100000%positive) mid_py 60 O
    (- 2 ^ 52) (2 ^ 52) = (60%nat, Ok (-37, 60)).
Proof. vm_compute. reflexivity. Qed.

(** any size: the answer is accepted, and after enough queries it is within a few units in the last
    place of the larger bound from the least accepted integer *)
Theorem C11_any_size : forall (B : Type) (f : B -> Z -> B * res bool) (t : Z),
  (forall o x, snd (f o x) = Ok (t <=? x)) ->
  forall tn td, 2 * tn <= Zpos td ->
  forall maxit k o l u,
  53 <= k -> l < t <= u -> Z.abs l <= 2 ^ k -> Z.abs u <= 2 ^ k ->
  exists o' v,
    bsearch f (narrow_py tn td) mid_py maxit o l u = (o', Ok (v, maxit)) /\
    t <= v <= 2 ^ k /\
    2 ^ Z.of_nat (Z.to_nat maxit) * (v - t - 2 ^ (k - 51)) <= u - l.
Proof. exact @bsearch_any. Qed.
Print Assumptions C11_any_size.

(** the least accepted integer is missed by 191 *)
Example C11_any_size_case :
  bsearch (fun (o : nat) x => (S o, Ok (Z.leb (2 ^ 60 + 12353) x))) (narrow_py 1 100000%positive) mid_py 100 O
    0 (2 ^ 61) = (100%nat, Ok (2 ^ 60 + 12544, 100)).
Proof. vm_compute. reflexivity. Qed.

(** exactness fails above 2^53: the midpoint of an interval of width 2 can be its lower end, and the
    search never asks about the integer between, however many iterations it is given *)
Theorem C11_big_refuted : exists l u t : Z, l < t < u /\
  forall tn td maxit, 2 * tn <= Zpos td ->
  bsearch (fun (o : nat) x => (S o, Ok (t <=? x))) (narrow_py tn td) mid_py maxit O l u =
  (Z.to_nat maxit, Ok (u, maxit)).
Proof. exact big_stuck. Qed.
Print Assumptions C11_big_refuted.

(** above 2^54 the answer can even lie above the interval *)
Theorem C11_outside_refuted : exists l u t : Z, l < t <= u /\
  exists o v, bsearch (fun (o : nat) x => (S o, Ok (t <=? x))) (narrow_py 1 10) mid_py 1 O l u = (o, Ok (v, 1)) /\ u < v.
Proof. exact big_outside. Qed.
Print Assumptions C11_outside_refuted.
