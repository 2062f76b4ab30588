(** Arithmetic interface, error values, and the two instances.

    The Python code computes with binary64 floats (and numpy scalars).  Every
    model function is written once over the record [Arith]; [RA] (stdlib
    reals) is used for the theorems and [FA] (primitive floats) for running
    the model against the literals of the project's own tests. *)
From Coq Require Import Reals ZArith List Bool PrimFloat Uint63 Floats.

(** Python exceptions that the modelled code can raise. *)
Inductive exn : Type :=
| ValueError | AssertionError | IndexError | TypeError | ZeroDivision | AttributeError | RuntimeError.

Inductive res (A : Type) : Type :=
| Ok : A -> res A
| Err : exn -> res A.
Arguments Ok {A} _.
Arguments Err {A} _.

Definition bind {A B : Type} (r : res A) (f : A -> res B) : res B :=
  match r with Ok a => f a | Err e => Err e end.

Declare Scope res_scope.
Delimit Scope res_scope with res.
Notation "'let*' x := r 'in' k" :=
  (bind r (fun x => k))
  (at level 200, x pattern, r at level 100, k at level 200) : res_scope.
Open Scope res_scope.

Record Arith : Type := mkArith {
  num : Type;
  azero : num;
  aone : num;
  aadd : num -> num -> num;
  asub : num -> num -> num;
  amul : num -> num -> num;
  adiv : num -> num -> num;
  aneg : num -> num;
  asqrt : num -> num;
  altb : num -> num -> bool;
  aleb : num -> num -> bool;
  aeqb : num -> num -> bool;
  aofnat : nat -> num;
  (** division by zero has a result: numpy's inf or NaN *)
  adivz : bool
}.

Arguments azero {_}.
Arguments aone {_}.
Arguments aadd {_} _ _.
Arguments asub {_} _ _.
Arguments amul {_} _ _.
Arguments adiv {_} _ _.
Arguments aneg {_} _.
Arguments asqrt {_} _.
Arguments altb {_} _ _.
Arguments aleb {_} _ _.
Arguments aeqb {_} _ _.
Arguments aofnat {_} _.
Arguments adivz _ : clear implicits.

Declare Scope num_scope.
Delimit Scope num_scope with num.
Infix "+" := aadd : num_scope.
Infix "-" := asub : num_scope.
Infix "*" := amul : num_scope.
Infix "/" := adiv : num_scope.
Notation "- x" := (aneg x) : num_scope.
Infix "<?" := altb : num_scope.
Infix "<=?" := aleb : num_scope.
Infix "=?" := aeqb : num_scope.

(** The literal [2.0]; [0.5] is [aone / atwo] (exact in both instances). *)
Definition atwo {A : Arith} : num A := aofnat 2.
Definition ahalf {A : Arith} : num A := adiv aone atwo.

(** [math.sqrt]: raises ValueError on a negative argument. *)
Definition psqrt {A : Arith} (x : num A) : res (num A) :=
  if altb x azero then Err ValueError else Ok (asqrt x).

(** Division of Python floats: raises ZeroDivisionError on a zero divisor.
    (numpy scalars yield inf/nan with a warning instead; the model stops.) *)
Definition pdiv {A : Arith} (x y : num A) : res (num A) :=
  if aeqb y azero then Err ZeroDivision else Ok (adiv x y).

(** Division with a divisor that is a numpy scalar in every call: inf or NaN with a
    warning on a zero divisor, nothing is raised.  The reals have no such value and
    stop with ZeroDivision. *)
Definition ndiv {A : Arith} (x y : num A) : res (num A) :=
  if negb (adivz A) && aeqb y azero then Err ZeroDivision else Ok (adiv x y).

(** ** Instance: stdlib reals *)
Definition Rltb (x y : R) : bool := if Rlt_dec x y then true else false.
Definition Rleb (x y : R) : bool := if Rle_dec x y then true else false.
Definition Reqb (x y : R) : bool := if Req_EM_T x y then true else false.

Definition RA : Arith :=
  mkArith R 0%R 1%R Rplus Rminus Rmult Rdiv Ropp R_sqrt.sqrt Rltb Rleb Reqb INR false.

(** ** Instance: primitive binary64 floats *)
Definition FA : Arith :=
  mkArith float PrimFloat.zero PrimFloat.one
    PrimFloat.add PrimFloat.sub PrimFloat.mul PrimFloat.div PrimFloat.opp
    PrimFloat.sqrt PrimFloat.ltb PrimFloat.leb PrimFloat.eqb
    (fun n => PrimFloat.of_uint63 (Uint63.of_Z (Z.of_nat n))) true.
