(** Model of [ell.py]. *)
From Coq Require Import List Arith Bool.
From Verif Require Import Arith Vec Broadcast ModelCalc.
Import ListNotations.

Section Ell.
Context {A : Arith}.
Local Open Scope num_scope.

(** A cut: gradient and beta (ell.py:26). *)
Definition cut : Type := (vec A * cutchoice A)%type.

(** The three strategies passed to [_update_core]: a function of [beta] and [tsq]. *)
Definition strategy : Type := calc A -> cutchoice A -> num A -> res (stratres A).

(** The first constructor argument (ell.py:49): scalar or list of diagonal entries. *)
Inductive ellval : Type :=
| VScalar : num A -> ellval
| VDiag : vec A -> ellval.

(** ell.py:39-47, the attributes *)
Record ell : Type := mkEll {
  no_defer_trick : bool;
  mq : mat A;
  xc : vec A;
  kappa : num A;
  tsq : num A;
  helper : calc A
}.

(** ell.py:49-86, [__init__]; [no_defer_trick] starts as the class default *)
Definition ell_init (val : ellval) (x_center : vec A) : res ell :=
  let ndim := length x_center in
  let* h := calc_init ndim in
  match val with
  | VScalar k => Ok (mkEll false (meye ndim) x_center k azero h)
  | VDiag d => Ok (mkEll false (mdiag d) x_center aone azero h)
  end.

(** ell.py:97-104 *)
Definition ell_set_xc (e : ell) (x : vec A) : ell :=
  mkEll (no_defer_trick e) (mq e) x (kappa e) (tsq e) (helper e).

(** Assignment to the public attributes [no_defer_trick] and
    [helper.use_parallel_cut] (done by users and tests). *)
Definition ell_set_no_defer (e : ell) (b : bool) : ell :=
  mkEll b (mq e) (xc e) (kappa e) (tsq e) (helper e).
Definition ell_set_parallel (e : ell) (b : bool) : ell :=
  mkEll (no_defer_trick e) (mq e) (xc e) (kappa e) (tsq e)
        (mkCalc b (c_n_f (helper e)) (c_helper (helper e))).

(** ell.py:244 *)
Definition set_tsq (e : ell) (t : num A) : ell :=
  mkEll (no_defer_trick e) (mq e) (xc e) (kappa e) t (helper e).

(** ell.py:194-266, [_update_core].  Returns the object after the call beside
    the outcome, also when an exception is raised.  numpy raises ValueError
    when shapes do not match.  The order of the in-place updates of centre and matrix is not
    observable because no statement between them can raise. *)
Definition ell_update_core (strat : strategy) (ct : cut) (e : ell)
  : ell * res cut_status :=
  let '(grad, beta) := ct in
  if forallb (fun g => g =? azero) grad then (e, Err ValueError)
  else if negb (forallb (fun row => Nat.eqb (length row) (length grad)) (mq e)
                && Nat.eqb (length (mq e)) (length grad)) then (e, Err ValueError)
  else
    let grad_t := mvmul (mq e) grad in
    let omega := vdot grad grad_t in
    if omega =? azero then (e, Ok NoEffect)
    else
      let e1 := set_tsq e (kappa e * omega) in
      match strat (helper e) beta (tsq e1) with
      | Err x => (e1, Err x)
      | Ok (status, None) => (e1, Ok status)
      | Ok (status, Some (rho, sigma, delta)) =>
          match isub (xc e) (vscale (rho / omega) grad_t) with
          | Err x => (e1, Err x)
          | Ok xc1 =>
            let mq1 := msub (mq e) (mscale (sigma / omega) (outer grad_t grad_t)) in
            let kappa1 := kappa e * delta in
            if no_defer_trick e then
              (mkEll (no_defer_trick e) (mscale kappa1 mq1) xc1 aone (tsq e1) (helper e),
               Ok status)
            else
              (mkEll (no_defer_trick e) mq1 xc1 kappa1 (tsq e1) (helper e), Ok status)
          end
      end.

(** ell.py:118-141 *)
Definition ell_update_bias_cut (ct : cut) (e : ell) : ell * res cut_status :=
  ell_update_core calc_single_or_parallel ct e.

(** ell.py:143-166 *)
Definition ell_update_central_cut (ct : cut) (e : ell) : ell * res cut_status :=
  ell_update_core calc_single_or_parallel_central_cut ct e.

(** ell.py:168-190 *)
Definition ell_update_q (ct : cut) (e : ell) : ell * res cut_status :=
  ell_update_core calc_single_or_parallel_q ct e.

End Ell.

Arguments cut : clear implicits.
Arguments ell : clear implicits.
Arguments ellval : clear implicits.
Arguments strategy : clear implicits.
