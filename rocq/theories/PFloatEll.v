(** Exact symmetry of the shape matrix of [Ell] in any arithmetic with a
    commutative product. *)
From Coq Require Import List Arith Lia Bool Floats.
From Verif Require Import Arith Vec ModelCalc ModelEll ModelStable SpecDrivers SpecFloating.
From Verif Require Import PVec PFloat.
Import ListNotations.

Section Sym.
Context {A : Arith}.
Hypothesis Hcomm : forall x y : num A, amul x y = amul y x.

Definition msym (m : mat A) : Prop := forall i j, mget m i j = mget m j i.
Definition msq (n : nat) (m : mat A) : Prop :=
  length m = n /\ forall i, (i < n)%nat -> length (nth i m []) = n.

Lemma mget_out n (m : mat A) i j : msq n m -> (n <= i \/ n <= j)%nat -> mget m i j = azero.
Proof.
  intros [H1 H2] H. unfold mget, vget. destruct (Nat.lt_ge_cases i n) as [Hi|Hi].
  - apply nth_overflow. rewrite H2 by lia. lia.
  - rewrite (nth_overflow m) by lia. now destruct j.
Qed.

Lemma mdiag_sq (d : vec A) : msq (length d) (mdiag d).
Proof.
  unfold msq, mdiag. split; [ now rewrite map_length, seq_length | ].
  intros i Hi. rewrite (nth_map_gen _ _ _ 0%nat []) by (now rewrite seq_length).
  now rewrite map_length, seq_length.
Qed.

Lemma mdiag_get (d : vec A) i j : (i < length d)%nat -> (j < length d)%nat ->
  mget (mdiag d) i j = if Nat.eqb i j then vget d i else azero.
Proof.
  intros Hi Hj. unfold mget, mdiag, vget at 1.
  rewrite (nth_map_gen _ _ _ 0%nat []) by (now rewrite seq_length).
  rewrite (nth_map_gen _ _ _ 0%nat azero) by (now rewrite seq_length).
  now rewrite !seq_nth by assumption.
Qed.

Lemma mdiag_sym (d : vec A) : msym (mdiag d).
Proof.
  intros i j. destruct (Nat.lt_ge_cases i (length d)) as [Hi|Hi].
  - destruct (Nat.lt_ge_cases j (length d)) as [Hj|Hj].
    + rewrite !mdiag_get by assumption. rewrite (Nat.eqb_sym j i).
      destruct (Nat.eqb_spec i j); [ now subst | reflexivity ].
    + now rewrite !(mget_out _ _ _ _ (mdiag_sq d)) by lia.
  - now rewrite !(mget_out _ _ _ _ (mdiag_sq d)) by lia.
Qed.

Lemma nth_mscale c (m : mat A) i : (i < length m)%nat -> nth i (mscale c m) [] = vscale c (nth i m []).
Proof. intros H. exact (nth_map_gen (vscale c) m i [] [] H). Qed.

Lemma nth_outer (u v : vec A) i : (i < length u)%nat -> nth i (outer u v) [] = vscale (nth i u azero) v.
Proof. intros H. exact (nth_map_gen (fun a => vscale a v) u i azero [] H). Qed.

Lemma nth_msub (m k : mat A) i : length m = length k -> (i < length m)%nat ->
  nth i (msub m k) [] = vsub (nth i m []) (nth i k []).
Proof. intros H K. exact (nth_map2 vsub m k i [] [] [] H K). Qed.

Lemma vget_scale c (v : vec A) i : (i < length v)%nat -> vget (vscale c v) i = amul c (vget v i).
Proof. intros H. exact (nth_map_gen (amul c) v i azero azero H). Qed.

Lemma vget_sub (u v : vec A) i : length u = length v -> (i < length u)%nat ->
  vget (vsub u v) i = asub (vget u i) (vget v i).
Proof. intros H K. exact (nth_map2 asub u v i azero azero azero H K). Qed.

Lemma vscale_len c (v : vec A) : length (vscale c v) = length v.
Proof. apply map_length. Qed.

Lemma mscale_len c (m : mat A) : length (mscale c m) = length m.
Proof. apply map_length. Qed.

Lemma outer_len (u v : vec A) : length (outer u v) = length u.
Proof. apply map_length. Qed.

Lemma mscale_sym n c (m : mat A) : msq n m -> msym m -> msq n (mscale c m) /\ msym (mscale c m).
Proof.
  intros [H1 H2] Hs.
  assert (Q : msq n (mscale c m)).
  { split; [ now rewrite mscale_len | ].
    intros i Hi. rewrite nth_mscale by lia. rewrite vscale_len. now apply H2. }
  split; [ exact Q | ].
  assert (G : forall i j, (i < n)%nat -> (j < n)%nat -> mget (mscale c m) i j = amul c (mget m i j)).
  { intros i j Hi Hj. unfold mget. rewrite nth_mscale by lia. apply vget_scale. rewrite H2; lia. }
  intros i j. destruct (Nat.lt_ge_cases i n), (Nat.lt_ge_cases j n);
    try (now rewrite !(mget_out _ _ _ _ Q) by lia).
  rewrite !G by assumption. now rewrite Hs.
Qed.

Lemma rank1_sym n c (m : mat A) (u : vec A) : msq n m -> length u = n -> msym m ->
  msq n (msub m (mscale c (outer u u))) /\ msym (msub m (mscale c (outer u u))).
Proof.
  intros [H1 H2] Hu Hs.
  assert (O1 : length (mscale c (outer u u)) = n) by (rewrite mscale_len, outer_len; exact Hu).
  assert (LL : length m = length (mscale c (outer u u))) by (etransitivity; [ exact H1 | symmetry; exact O1 ]).
  assert (O2 : forall i, (i < n)%nat -> nth i (mscale c (outer u u)) [] =
      vscale c (vscale (nth i u azero) u)).
  { intros i Hi. rewrite nth_mscale by (rewrite outer_len; lia). now rewrite nth_outer by lia. }
  assert (O3 : forall i, (i < n)%nat -> length (nth i (mscale c (outer u u)) []) = n).
  { intros i Hi. rewrite O2 by exact Hi. now rewrite !vscale_len. }
  assert (Q : msq n (msub m (mscale c (outer u u)))).
  { split; [ unfold msub; rewrite map2_length; [ exact H1 | exact LL ] | ].
    intros i Hi. rewrite nth_msub by (exact LL || (rewrite H1; exact Hi)).
    unfold vsub. rewrite map2_length; [ now apply H2 | rewrite H2, O3 by exact Hi; reflexivity ]. }
  split; [ exact Q | ].
  assert (G : forall i j, (i < n)%nat -> (j < n)%nat ->
      mget (msub m (mscale c (outer u u))) i j =
      asub (mget m i j) (amul c (amul (nth i u azero) (nth j u azero)))).
  { intros i j Hi Hj. unfold mget. rewrite nth_msub by (exact LL || (rewrite H1; exact Hi)).
    rewrite vget_sub by (rewrite ?H2, ?O3 by exact Hi; reflexivity || exact Hj).
    rewrite O2 by exact Hi. now rewrite !vget_scale by (rewrite ?vscale_len; lia). }
  intros i j. destruct (Nat.lt_ge_cases i n), (Nat.lt_ge_cases j n);
    try (now rewrite !(mget_out _ _ _ _ Q) by lia).
  rewrite !G by assumption. rewrite Hs. now rewrite (Hcomm (nth i u azero)).
Qed.

Definition esym (e : ell A) : Prop := msq (length (mq e)) (mq e) /\ msym (mq e).

Lemma update_sym strat ct e : esym e -> esym (fst (ell_update_core strat ct e)).
Proof.
  intros [Q S]. unfold ell_update_core. destruct ct as [grad beta].
  destruct (forallb (fun g => aeqb g azero) grad); [ now split | ].
  destruct (negb _) eqn:Esh; [ now split | ].
  apply negb_false_iff, andb_true_iff in Esh. destruct Esh as [_ El].
  apply Nat.eqb_eq in El.
  destruct (aeqb (vdot grad (mvmul (mq e) grad)) azero); [ now split | ].
  destruct (strat _ _ _) as [[st [[[rho sigma] delta]|]]|x]; [ | now split | now split ].
  destruct (Broadcast.isub _ _); [ | now split ].
  assert (R := rank1_sym _ (adiv sigma (vdot grad (mvmul (mq e) grad))) (mq e) (mvmul (mq e) grad) Q).
  destruct R as [R1 R2]; [ unfold mvmul; now rewrite map_length | exact S | ].
  assert (L : forall m, msq (length (mq e)) m -> msq (length m) m).
  { intros m [L1 L2]. rewrite L1. now split. }
  destruct (no_defer_trick e); cbn [fst]; unfold esym; cbn [mq].
  - destruct (mscale_sym _ (amul (kappa e) delta) _ R1 R2) as [R3 R4]. split; [ now apply L | exact R4 ].
  - split; [ now apply L | exact R2 ].
Qed.

Lemma init_sym v x0 e : ell_init v x0 = Ok e -> esym e.
Proof.
  unfold ell_init. destruct (calc_init (length x0)) as [h|]; cbn [bind]; [ | discriminate ].
  assert (D : forall d : vec A, msq (length (mdiag d)) (mdiag d) /\ msym (mdiag d)).
  { intros d. split; [ | apply mdiag_sym ]. generalize (mdiag_sq d). intros [L1 L2].
    rewrite L1. now split. }
  destruct v; intros [= <-]; unfold esym; cbn [mq]; apply D.
Qed.

End Sym.

Lemma fell_seq_sym l : forall e : ell FA, esym e -> esym (fst (fell_seq l e)).
Proof.
  induction l as [|[k ct] l IH]; intros e H; [ exact H | ].
  cbn [fell_seq]. destruct (fell_update k ct e) as [e1 o] eqn:E.
  destruct (fell_seq l e1) as [e2 os] eqn:E2. cbn [fst].
  change e2 with (fst (e2, os)). rewrite <- E2. apply IH.
  change e1 with (fst (e1, o)). rewrite <- E.
  destruct k; apply (update_sym (A := FA) mul_comm); exact H.
Qed.

Lemma fell_symmetric : forall v x0 (e : ell FA) l,
  ell_init v x0 = Ok e ->
  forall i j, mget (mq (fst (fell_seq l e))) i j = mget (mq (fst (fell_seq l e))) j i.
Proof. intros v x0 e l H. apply fell_seq_sym. eapply init_sym, H. Qed.
