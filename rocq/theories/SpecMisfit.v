(** Vocabulary for inputs of the wrong length, over any arithmetic. *)
From Coq Require Import List Arith.
From Verif Require Import Arith Vec ModelCalc ModelEll ModelStable SpecDrivers.
Import ListNotations.

(** the strategies and the three update methods of both classes *)
Definition any_strat (A : Arith) (k : op_kind) : strategy A :=
  match k with
  | OpBias => calc_single_or_parallel
  | OpCentral => calc_single_or_parallel_central_cut
  | OpQ => calc_single_or_parallel_q
  end.
Definition any_ell_update (A : Arith) (k : op_kind) : cut A -> ell A -> ell A * res cut_status :=
  match k with
  | OpBias => ell_update_bias_cut
  | OpCentral => ell_update_central_cut
  | OpQ => ell_update_q
  end.
Definition any_stable_update (A : Arith) (k : op_kind) : cut A -> stable A -> stable A * res cut_status :=
  match k with
  | OpBias => stable_update_bias_cut
  | OpCentral => stable_update_central_cut
  | OpQ => stable_update_q
  end.

(** an [n] by [n] array *)
Definition square {A : Arith} (n : nat) (m : mat A) : Prop :=
  length m = n /\ forall row, In row m -> length row = n.

(** nothing but the matrix and [tsq] may differ *)
Definition same_rest {A : Arith} (s s1 : stable A) : Prop :=
  s_xc s1 = s_xc s /\ s_kappa s1 = s_kappa s /\ s_ndim s1 = s_ndim s /\ s_helper s1 = s_helper s /\
  s_no_defer_trick s1 = s_no_defer_trick s.
