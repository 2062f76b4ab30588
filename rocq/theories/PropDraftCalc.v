(** The draft calculator [ell_calc.tpy] against the one in use. *)
From Coq Require Import Reals List Arith Lra Lia.
From Verif Require Import Arith ModelCalc ModelDraftCalc SpecDrivers SpecCut SpecDraftCalc PCalc PCalc2 PCalc3 PDraftCalc.
Import ListNotations.
Local Open Scope R_scope.

Theorem C95_init : forall n : nat, (2 <= n)%nat -> exists t, tcalc_init (A:=RA) n = Ok t /\ t_par t = true.
Proof. exact draft_init. Qed.
Print Assumptions C95_init.

Theorem C95_init_one : tcalc_init (A:=RA) 1 = Err ZeroDivision.
Proof. exact tcalc_init_one. Qed.
Print Assumptions C95_init_one.

Theorem C95_same : forall n p k (t : tcalc RA) (c : calc RA) (beta : cutchoice RA) (T : R),
  calc_for n p c -> tcalc_for n p t -> 0 < T -> draft_regular n p k T beta ->
  draft_strat k t beta T = strat_of k c beta T.
Proof. exact draft_same. Qed.
Print Assumptions C95_same.

Theorem C95_symmetric : forall n (t : tcalc RA) (c : calc RA) (b T : R),
  calc_for n true c -> tcalc_for n true t -> 0 < T -> 0 <= b -> b * b < T ->
  draft_strat OpBias t (CList (A:=RA) [Some (- b); Some b]) T = Err ZeroDivision /\
  exists r, strat_of OpBias c (CList (A:=RA) [Some (- b); Some b]) T = Ok (Success, Some r).
Proof. exact draft_symmetric. Qed.
Print Assumptions C95_symmetric.

Theorem C95_central_zero : forall n (t : tcalc RA) (b0 : option R) (T : R),
  (2 <= n)%nat -> tcalc_for n true t -> 0 < T ->
  draft_strat OpCentral t (CList (A:=RA) [b0; Some 0]) T = Err ZeroDivision.
Proof. exact draft_central_zero. Qed.
Print Assumptions C95_central_zero.

Theorem C95_missing : forall (t : tcalc RA) (c : calc RA) n k (b0 : option R) l (T : R),
  calc_for n true c -> tcalc_for n true t -> 0 < T ->
  draft_strat k t (CList (A:=RA) (b0 :: None :: l)) T = Err TypeError /\
  strat_of k c (CList (A:=RA) (b0 :: None :: l)) T = Err AssertionError.
Proof. exact draft_missing. Qed.
Print Assumptions C95_missing.

(** Without [draft_regular] the two differ: at equality in the discrete test
    the draft answers Success with a step of length zero. *)
Theorem C95_same_everywhere_refuted : exists t c, tcalc_for 2 true t /\ calc_for 2 true c /\
  strat_of OpQ c (CList (A:=RA) [Some (-1); Some (1 / 2)]) 1 = Ok (NoEffect, None) /\
  exists d, draft_strat OpQ t (CList (A:=RA) [Some (-1); Some (1 / 2)]) 1 = Ok (Success, Some (0, 0, d)).
Proof. exact draft_q_edge. Qed.
Print Assumptions C95_same_everywhere_refuted.

Example C95_same_case :
  calc_for 3 true (calc_R true 3) /\ tcalc_for 3 true (tcalc_R true 3) /\
  draft_regular 3 true OpBias 4 (CList (A:=RA) [Some (1 / 2); Some 1]).
Proof. split; [apply calc_for_ok; lia|split; [exact draft_case_for|exact draft_case_regular]]. Qed.

Example C95_symmetric_case : calc_for 3 true (calc_R true 3) /\ tcalc_for 3 true (tcalc_R true 3) /\ 0 < 4 /\ 0 <= 1 /\ 1 * 1 < 4.
Proof. split; [apply calc_for_ok; lia|split; [exact draft_case_for|lra]]. Qed.
