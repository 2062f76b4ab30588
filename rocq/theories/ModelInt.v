(** Model of [bsearch] on integer bounds of any size, with the rounding that
    Python's mixed int/float arithmetic does. *)
From Coq Require Import ZArith.
From Verif Require Import Arith ModelCut.
Local Open Scope Z_scope.

(** [float(z)]: the nearest double, ties to even; for [|z| < 2^1024 - 2^970],
    beyond which Python raises OverflowError *)
Definition zfloat (z : Z) : Z :=
  let e := Z.log2 (Z.abs z) - 52 in
  if e <=? 0 then z
  else
    let p := 2 ^ e in
    let q := z / p in
    match Z.compare (2 * (z mod p)) p with
    | Lt => q * p
    | Gt => (q + 1) * p
    | Eq => if Z.even q then q * p else (q + 1) * p
    end.

(** cutting_plane.py:327, 330 for int bounds.  [upper - lower] is exact;
    [/ 2] gives the nearest double, here twice that number; [lower + tau]
    converts [lower] to a double and rounds the sum, here doubled too;
    [int()] truncates toward zero.  No overflow as long as the bounds are at
    most [2^1022] in size. *)
Definition mid_py (lower upper : Z) : Z :=
  let tau2 := zfloat (upper - lower) in
  Z.quot (zfloat (2 * zfloat lower + tau2)) 2.

(** cutting_plane.py:328; the tolerance is given as a fraction [tn/td] *)
Definition narrow_py (tn : Z) (td : positive) (lower upper : Z) : bool :=
  zfloat (upper - lower) * Zpos td <? 2 * tn.
