(** Properties C37-C41: the LDLT factorisation. *)
From Coq Require Import Reals List Arith Lra.
From Verif Require Import Arith Vec ModelCalc ModelEll ModelLdlt Spec SpecStable SpecLdlt.
From Verif Require Import PLdlt4 PLdlt5 PLdltEx.
Import ListNotations.
Local Open Scope R_scope.

(** C37: the answer is True exactly for positive definite matrices, whatever
    state earlier calls left the object in. *)
Theorem C37_factor_decides :
  forall n A (s s1 : ldlt RA) b,
  ldlt_wf n s -> symmetric n A -> factor (A:=RA) A s = (s1, b) -> (b = true <-> posdef n A).
Proof. exact factor_decides. Qed.
Print Assumptions C37_factor_decides.

Theorem C37_factorize_decides :
  forall n (a : mat RA) (s s1 : ldlt RA) b,
  ldlt_wf n s -> symmetric n (fm a) -> factorize a s = (s1, b) -> (b = true <-> posdef n (fm a)).
Proof. exact factorize_decides. Qed.
Print Assumptions C37_factorize_decides.

(** Before any factorisation the object already claims a positive definite
    matrix, and there is no witness to ask for. *)
Theorem C37_fresh : forall (A : Arith) n, is_spd (ldlt_init (A:=A) n) = true /\
  witness (ldlt_init (A:=A) n) = (ldlt_init (A:=A) n, Err AssertionError) /\
  forall b, sym_quad (ldlt_init (A:=A) n) b = azero.
Proof. exact fresh_spd. Qed.
Print Assumptions C37_fresh.

Example C37_case : ldlt_wf 2 (ldlt_init 2) /\ symmetric 2 (fm m45) /\ symmetric 2 (fm m12) /\
  (exists s1, factorize m45 (ldlt_init 2) = (s1, true)) /\ (exists s1, factorize m12 (ldlt_init 2) = (s1, false)).
Proof.
  split; [apply init_wf|]. split; [exact m45_sym|]. split; [exact m12_sym|].
  split; [apply m45_true; reflexivity|]. eexists. exact m12_false.
Qed.

(** C38: the stored factors and [sqrt()] reconstruct the matrix. *)
Theorem C38_product :
  forall n A (s s1 : ldlt RA),
  ldlt_wf n s -> symmetric n A -> factor (A:=RA) A s = (s1, true) ->
  (forall k, (k < n)%nat -> 0 < fm (storage s1) k k) /\
  forall i j, (i < n)%nat -> (j < n)%nat ->
    A i j = sumn n (fun k => lowf (fm (storage s1)) i k * fm (storage s1) k k * lowf (fm (storage s1)) j k).
Proof. exact factor_product. Qed.
Print Assumptions C38_product.

Theorem C38_sqrt :
  forall n A (s s1 : ldlt RA) b,
  ldlt_wf n s -> symmetric n A -> factor (A:=RA) A s = (s1, b) ->
  (b = false -> ldlt_sqrt s1 = Err AssertionError) /\
  (b = true -> exists r, ldlt_sqrt s1 = Ok r /\ mat_wf n r /\ upper n (fm r) /\
    (forall i, (i < n)%nat -> 0 < fm r i i) /\
    forall i j, (i < n)%nat -> (j < n)%nat -> sumn n (fun k => fm r k i * fm r k j) = A i j).
Proof. exact factor_sqrt. Qed.
Print Assumptions C38_sqrt.

Example C38_case : ldlt_wf 2 (ldlt_init 2) /\ symmetric 2 (fm m45) /\
  exists s1, factor (A:=RA) (fm m45) (ldlt_init 2) = (s1, true).
Proof.
  split; [apply init_wf|]. split; [exact m45_sym|]. apply m45_true. reflexivity.
Qed.

(** C39: after a failure [witness()] produces a certificate. *)
Theorem C39_witness :
  forall n A (s s1 : ldlt RA) b,
  ldlt_wf n s -> symmetric n A -> factor (A:=RA) A s = (s1, b) ->
  (b = true -> witness s1 = (s1, Err AssertionError)) /\
  (b = false -> exists s2 ep, witness s1 = (s2, Ok ep) /\ 0 <= ep /\
    (fst (pos s2) < snd (pos s2) <= n)%nat /\ wit_vec s2 (snd (pos s2) - 1)%nat = 1 /\
    nonzero n (wit_vec s2) /\ quad n A (wit_vec s2) = - ep /\
    (forall B, mat_wf n B -> sym_quad s2 B = quad n (fm B) (wit_vec s2)) /\ ldlt_wf n s2).
Proof. exact factor_witness. Qed.
Print Assumptions C39_witness.

Example C39_case : ldlt_wf 2 (ldlt_init 2) /\ symmetric 2 (fm m12) /\
  exists s1, factor (A:=RA) (fm m12) (ldlt_init 2) = (s1, false).
Proof. split; [apply init_wf|]. split; [exact m12_sym|]. eexists. exact m12_false. Qed.

(** C40: over any arithmetic (so also for floats): two objects with whatever
    contents, given matrices that agree on the lower triangle of the visited
    rows, give the same answers. *)
Theorem C40_history_independent :
  forall (A : Arith) n (g g' : nat -> nat -> num A) (s s' s1 : ldlt A) b,
  shape n s -> shape n s' -> factor g s = (s1, b) ->
  (forall i j, (j <= i)%nat -> (i < rows n s1)%nat -> g i j = g' i j) ->
  exists s1', factor g' s' = (s1', b) /\ pos s1' = pos s1 /\
    (forall i j, (i < rows n s1)%nat -> (j < rows n s1)%nat ->
       mget (storage s1) i j = mget (storage s1') i j) /\
    ldlt_sqrt s1' = ldlt_sqrt s1 /\
    snd (witness s1') = snd (witness s1) /\
    (b = false -> forall i, (fst (pos s1) <= i < snd (pos s1))%nat ->
       vget (wit (fst (witness s1'))) i = vget (wit (fst (witness s1))) i) /\
    (b = false -> forall B, sym_quad (fst (witness s1')) B = sym_quad (fst (witness s1)) B).
Proof. exact @factor_fresh. Qed.
Print Assumptions C40_history_independent.

(** The [wit] attribute itself does depend on the history outside the block. *)
Theorem C40_wit_stale : exists s1 s1',
  factorize mneg (ldlt_init 2) = (s1, false) /\
  factorize mneg (fst (witness (fst (factorize m12 (ldlt_init 2))))) = (s1', false) /\
  pos s1 = (0, 1)%nat /\ pos s1' = (0, 1)%nat /\
  vget (wit (fst (witness s1))) 1 = (0 : num RA) /\ vget (wit (fst (witness s1'))) 1 = (1 : num RA).
Proof. exact stale_wit. Qed.
Print Assumptions C40_wit_stale.

Example C40_case : shape (A:=RA) 2 (ldlt_init 2) /\ shape (A:=RA) 2 stale_obj /\
  wit (ldlt_init (A:=RA) 2) <> wit stale_obj.
Proof.
  unfold stale_obj. rewrite m12_false. cbn [fst]. rewrite m12_witness. cbn [fst].
  split; [|split].
  - repeat split. intros [|[|i]] Hi; try reflexivity. exfalso. do 2 apply Nat.succ_lt_mono in Hi. inversion Hi.
  - repeat split. intros [|[|i]] Hi; try reflexivity. exfalso. do 2 apply Nat.succ_lt_mono in Hi. inversion Hi.
  - cbn. intros H. injection H as _ H. lra.
Qed.

(** C41: the semidefinite variant. *)
Theorem C41_false_has_witness :
  forall n A (s s1 : ldlt RA),
  ldlt_wf n s -> symmetric n A ->
  factor_with_allow_semidefinite (A:=RA) A s = (s1, false) ->
  exists s2 ep, witness s1 = (s2, Ok ep) /\ 0 < ep /\
    (fst (pos s2) < snd (pos s2) <= n)%nat /\ wit_vec s2 (snd (pos s2) - 1)%nat = 1 /\
    quad n A (wit_vec s2) = - ep /\
    (forall B, mat_wf n B -> sym_quad s2 B = quad n (fm B) (wit_vec s2)).
Proof. exact semi_false. Qed.
Print Assumptions C41_false_has_witness.

Theorem C41_psd_accepted :
  forall n A (s s1 : ldlt RA) b,
  ldlt_wf n s -> symmetric n A -> possemidef n A ->
  factor_with_allow_semidefinite (A:=RA) A s = (s1, b) -> b = true.
Proof. exact semi_true. Qed.
Print Assumptions C41_psd_accepted.

Theorem C41_accepted_is_psd_refuted : exists A (s s1 : ldlt RA) v,
  ldlt_wf 2 s /\ symmetric 2 A /\
  factor_with_allow_semidefinite (A:=RA) A s = (s1, true) /\ quad 2 A v < 0.
Proof. exact semi_wrong. Qed.
Print Assumptions C41_accepted_is_psd_refuted.

Example C41_case : ldlt_wf 2 (ldlt_init 2) /\ symmetric 2 (fm m12) /\
  (exists s1, factor_with_allow_semidefinite (A:=RA) (fm m12) (ldlt_init 2) = (s1, false)) /\
  (symmetric 2 (fm psd11) /\ possemidef 2 (fm psd11) /\ ~ posdef 2 (fm psd11)).
Proof. exact (conj (init_wf 2) (conj m12_sym (conj semi_m12 psd11_psd))). Qed.
