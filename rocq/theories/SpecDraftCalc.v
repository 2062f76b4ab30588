(** Where the draft calculator and the current one may differ. *)
From Coq Require Import Reals List Bool.
From Verif Require Import Arith ModelCalc ModelDraftCalc SpecDrivers SpecCut.
Import ListNotations.
Local Open Scope R_scope.

(** A draft calculator as built by its constructor, parallel flag [p]. *)
Definition tcalc_for (n : nat) (p : bool) (c : tcalc RA) : Prop :=
  exists c0, tcalc_init n = Ok c0 /\
    c = mkTcalc (A:=RA) p (t_n_f c0) (t_half_n c0) (t_cst0 c0) (t_cst1 c0) (t_cst2 c0) (t_cst3 c0).

Definition draft_strat (k : op_kind) : tcalc RA -> cutchoice RA -> num RA -> res (stratres RA) :=
  match k with
  | OpBias => t_single_or_parallel
  | OpCentral => t_single_or_parallel_central_cut
  | OpQ => t_single_or_parallel_q
  end.

(** A pair of bounds on which no formula of the draft divides by zero and no
    test is met with equality. *)
Definition regular_pair (n : nat) (k : op_kind) (T b0 b1 : R) : Prop :=
  match k with
  | OpCentral => b1 <> 0
  | OpBias => b1 < b0 \/ 0 < b1 /\ T < b1 * b1 \/ b0 + b1 <> 0 /\ ~ (b0 < 0 /\ 0 < b1 /\ b1 * b1 = T)
  | OpQ => b1 < b0 \/ 0 < b1 /\ T < b1 * b1 \/ b0 + b1 <> 0 /\ T + INR n * (b0 * b1) <> 0
  end.

Definition draft_regular (n : nat) (p : bool) (k : op_kind) (T : R) (beta : cutchoice RA) : Prop :=
  match beta with
  | CSingle _ | CList [] | CList [_] => True
  | CList (Some b0 :: Some b1 :: _) => p = false \/ regular_pair n k T b0 b1
  | CList _ => p = false
  end.
