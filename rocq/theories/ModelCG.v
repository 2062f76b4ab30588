(** Model of [conjugate_gradient] in [conjugate_gradient.py]. *)
From Coq Require Import List Arith ZArith Bool.
From Verif Require Import Arith Vec Broadcast.
Import ListNotations.

Section CG.
Context {A : Arith}.
Local Open Scope num_scope.

(** conjugate_gradient.py:68-97, the [for] loop with [fuel] rounds left.
    Arrays are real; the two quotients are numpy scalars, which do not raise:
    the first one is guarded by the test above it, and the second one is only
    reached with a non-zero [rr] (theorem [C57_no_zero_division]). *)
Fixpoint cg_loop (fuel : nat) (M : mat A) (tol : num A) (solution residual direction : vec A) (rr : num A) : res (vec A) :=
  match fuel with
  | O => Err ValueError
  | S fuel' =>
      let a_direction := mvmul M direction in
      let d_ad := vdot direction a_direction in
      if aeqb d_ad azero then Err ValueError
      else
        let step := rr / d_ad in
        let solution := vadd solution (vscale step direction) in
        let residual := vsub residual (vscale step a_direction) in
        let rr_new := vdot residual residual in
        if altb (asqrt rr_new) tol then Ok solution
        else
          let ratio := rr_new / rr in
          cg_loop fuel' M tol solution residual (vadd residual (vscale ratio direction)) rr_new
  end.

(** conjugate_gradient.py:15-97.  Mismatched shapes raise ValueError, in the
    matrix-vector product, in the subtraction [b - A x], in the first round or,
    without any round, at the end.  The exception is a [b] of length one beside
    a longer starting point: numpy stretches it. *)
Definition conjugate_gradient (M : mat A) (b : vec A) (x0 : option (vec A)) (tol : num A) (max_iter : Z) : res (vec A) :=
  let solution := match x0 with None => vzeros (length b) | Some x => x end in
  let n := length solution in
  if Nat.eqb (length M) n && forallb (fun row => Nat.eqb (length row) n) M then
    let* residual := bcast2 asub b (mvmul M solution) in
    if Nat.eqb (length residual) n then
      cg_loop (Z.to_nat max_iter) M tol solution residual residual (vdot residual residual)
    else Err ValueError
  else Err ValueError.

End CG.
