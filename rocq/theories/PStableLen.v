(** Gradients that are longer or shorter than the dimension: the loops of [EllStable]
    over any arithmetic. *)
From Coq Require Import List Arith Lia Bool.
From Verif Require Import Arith Vec ModelCalc ModelEll ModelStable.
Import ListNotations.

Section Len.
Context {A : Arith}.

Lemma upd_len {T} (l : list T) i x : length (upd l i x) = length l.
Proof. revert i; induction l as [|a l IH]; intros [|i]; cbn; auto. Qed.

Lemma upd_app {T} (a b : list T) i x : i < length a -> upd (a ++ b) i x = upd a i x ++ b.
Proof.
  revert i. induction a as [|h a IH]; intros [|i] H; cbn in *; try lia; [ reflexivity | ].
  f_equal. apply IH. lia.
Qed.

Lemma vset_app (a b : vec A) i x : i < length a -> vset (a ++ b) i x = vset a i x ++ b.
Proof. apply upd_app. Qed.
Lemma vget_app (a b : vec A) i : i < length a -> vget (a ++ b) i = vget a i.
Proof. intros H. unfold vget. now apply app_nth1. Qed.

Lemma fwd_inner_app j i m (a b : vec A) : i < length a -> j < length a ->
  fwd_inner j (m, a ++ b) i = (fst (fwd_inner j (m, a) i), snd (fwd_inner j (m, a) i) ++ b) /\
  length (snd (fwd_inner j (m, a) i)) = length a.
Proof.
  intros Hi Hj. unfold fwd_inner. cbn [fst snd]. rewrite !vget_app by assumption. rewrite vset_app by assumption.
  split; [ reflexivity | apply upd_len ].
Qed.

Lemma fwd_fold_app j (l : list nat) : forall m (a b : vec A), j < length a -> (forall i, In i l -> i < length a) ->
  fold_left (fwd_inner j) l (m, a ++ b) =
    (fst (fold_left (fwd_inner j) l (m, a)), snd (fold_left (fwd_inner j) l (m, a)) ++ b) /\
  length (snd (fold_left (fwd_inner j) l (m, a))) = length a.
Proof.
  induction l as [|i l IH]; intros m a b Hj Hl; cbn [fold_left]; [ split; reflexivity | ].
  destruct (fwd_inner_app j i m a b) as [E1 E2]; [ apply Hl; now left | exact Hj | ]. rewrite E1.
  destruct (fwd_inner j (m, a) i) as [m' a']. cbn [fst snd] in *.
  destruct (IH m' a' b) as [I1 I2]; [ lia | intros k Hk; rewrite E2; apply Hl; now right | ].
  split; [ exact I1 | lia ].
Qed.

Lemma fwd_outer_app n (l : list nat) : forall m (a b : vec A), n <= length a -> (forall i, In i l -> i < n) ->
  fold_left (fwd_outer n) l (m, a ++ b) =
    (fst (fold_left (fwd_outer n) l (m, a)), snd (fold_left (fwd_outer n) l (m, a)) ++ b) /\
  length (snd (fold_left (fwd_outer n) l (m, a))) = length a.
Proof.
  induction l as [|j l IH]; intros m a b Hn Hl; cbn [fold_left]; [ split; reflexivity | ].
  unfold fwd_outer at 2 4 6 8.
  destruct (fwd_fold_app j (seq (S j) (n - S j)) m a b) as [E1 E2].
  { specialize (Hl j (or_introl eq_refl)). lia. }
  { intros i Hi. apply in_seq in Hi. lia. }
  rewrite E1. destruct (fold_left (fwd_inner j) (seq (S j) (n - S j)) (m, a)) as [m' a']. cbn [fst snd] in *.
  destruct (IH m' a' b) as [I1 I2]; [ lia | intros k Hk; apply Hl; now right | ].
  split; [ exact I1 | lia ].
Qed.

Lemma fwd_app n m (a b : vec A) : n <= length a ->
  fwd_subst n m (a ++ b) = (fst (fwd_subst n m a), snd (fwd_subst n m a) ++ b) /\
  length (snd (fwd_subst n m a)) = length a.
Proof.
  intros H. apply fwd_outer_app; [ exact H | ]. intros i Hi. apply in_seq in Hi. lia.
Qed.

Lemma diag_fold_app m (l : list nat) : forall (a b : vec A), (forall i, In i l -> i < length a) ->
  fold_left (fun z i => vset z i (amul (vget z i) (mget m i i))) l (a ++ b) =
    fold_left (fun z i => vset z i (amul (vget z i) (mget m i i))) l a ++ b /\
  length (fold_left (fun z i => vset z i (amul (vget z i) (mget m i i))) l a) = length a.
Proof.
  induction l as [|i l IH]; intros a b Hl; cbn [fold_left]; [ split; reflexivity | ].
  rewrite vget_app, vset_app by (apply Hl; now left).
  destruct (IH (vset a i (amul (vget a i) (mget m i i))) b) as [I1 I2].
  { intros k Hk. unfold vset. rewrite upd_len. apply Hl. now right. }
  split; [ exact I1 | ]. rewrite I2. apply upd_len.
Qed.

Lemma diag_app n m (a b : vec A) : n <= length a ->
  diag_scale n m (a ++ b) = diag_scale n m a ++ b /\ length (diag_scale n m a) = length a.
Proof. intros H. apply diag_fold_app. intros i Hi. apply in_seq in Hi. lia. Qed.

Lemma bwd_len n m (z : vec A) : length (bwd_subst n m z) = length z.
Proof.
  unfold bwd_subst. generalize (rev (seq 1 (n - 1))). intros l. revert z.
  induction l as [|i l IH]; intros z; cbn [fold_left]; [ reflexivity | ]. rewrite IH.
  generalize (seq i (n - i)). intros l2. revert z.
  induction l2 as [|j l2 IH2]; intros z; cbn [fold_left]; [ reflexivity | ]. rewrite IH2. apply upd_len.
Qed.

Lemma map2_app {T U V} (f : T -> U -> V) a b c d : length a = length c ->
  map2 f (a ++ b) (c ++ d) = map2 f a c ++ map2 f b d.
Proof.
  revert c. induction a as [|x a IH]; intros [|y c] H; cbn in *; try lia; [ reflexivity | ].
  f_equal. apply IH. lia.
Qed.

(** what the sum [omega] is for a gradient [a ++ b] with [a] of the length [ndim] *)
Definition long_omega (n : nat) (m : mat A) (a b : vec A) : num A :=
  fold_left aadd (map2 amul b b)
    (vsum (map2 amul (snd (fwd_subst n m a)) (diag_scale n (fst (fwd_subst n m a)) (snd (fwd_subst n m a))))).

(** the object once the forward substitution has been done and [tsq] has been set *)
Definition long_pre (e : stable A) (a b : vec A) : stable A :=
  mkStable (s_no_defer_trick e) (fst (fwd_subst (s_ndim e) (s_mq e) a)) (s_xc e) (s_kappa e)
    (amul (s_kappa e) (long_omega (s_ndim e) (s_mq e) a b)) (s_ndim e) (s_helper e).

Lemma long_update (strat : strategy A) (a b : vec A) beta (e : stable A) :
  length a = s_ndim e -> s_ndim e <= length (s_mq e) -> length (s_xc e) <> length (a ++ b) ->
  stable_update_core strat (a ++ b, beta) e =
  (long_pre e a b,
   match strat (s_helper e) beta (s_tsq (long_pre e a b)) with
   | Err x => Err x
   | Ok (status, None) => Ok status
   | Ok (_, Some (rho, _, _)) =>
       match ndiv rho (long_omega (s_ndim e) (s_mq e) a b) with Err x => Err x | Ok _ => Err ValueError end
   end).
Proof.
  intros Ha Hm Hx. unfold stable_update_core.
  replace (Nat.ltb (length (a ++ b)) (s_ndim e)) with false
    by (symmetry; apply Nat.ltb_ge; rewrite app_length; lia).
  replace (Nat.ltb (length (s_mq e)) (s_ndim e)) with false by (symmetry; now apply Nat.ltb_ge).
  cbn [orb]. destruct (fwd_app (s_ndim e) (s_mq e) a b) as [E1 E2]; [ lia | ]. rewrite E1.
  unfold long_pre, long_omega. cbn [s_tsq]. destruct (fwd_subst (s_ndim e) (s_mq e) a) as [m1 w]. cbn [fst snd] in *.
  destruct (diag_app (s_ndim e) m1 w b) as [D1 D2]; [ lia | ]. rewrite !D1.
  rewrite !map2_app by lia. unfold vsum. rewrite !fold_left_app.
  set (om := fold_left aadd _ (fold_left _ _ _)).
  destruct (strat (s_helper e) beta (amul (s_kappa e) om)) as [[st [[[rho sigma] delta]|]]|x]; try reflexivity.
  destruct (ndiv rho om); [ | reflexivity ]. rewrite bwd_len, app_length, D2, E2, <- app_length.
  destruct (Nat.eqb_spec (length (s_xc e)) (length (a ++ b))); [ contradiction | reflexivity ].
Qed.

Lemma short_update (strat : strategy A) (g : vec A) beta (e : stable A) :
  length g < s_ndim e \/ length (s_mq e) < s_ndim e ->
  stable_update_core strat (g, beta) e =
  (mkStable (s_no_defer_trick e) (short_writes (s_mq e) g) (s_xc e) (s_kappa e) (s_tsq e) (s_ndim e) (s_helper e),
   Err IndexError).
Proof.
  intros H. unfold stable_update_core.
  replace (Nat.ltb (length g) (s_ndim e) || Nat.ltb (length (s_mq e)) (s_ndim e)) with true; [ reflexivity | ].
  symmetry. apply orb_true_iff. destruct H as [H|H]; [ left | right ]; now apply Nat.ltb_lt.
Qed.

(** entries written by [short_writes] *)
Lemma short_keep (m : mat A) (g : vec A) :
  length (short_writes m g) = length m /\
  (forall i, length (nth i (short_writes m g) []) = length (nth i m [])) /\
  (forall i j, (0 < i \/ j = 0 \/ length g < j) -> mget (short_writes m g) i j = mget m i j).
Proof.
  unfold short_writes. assert (Hl : forall j, In j (seq 1 (Nat.min (length g) (length m - 1))) -> 0 < j <= length g).
  { intros j Hj. apply in_seq in Hj. lia. }
  revert Hl. generalize (seq 1 (Nat.min (length g) (length m - 1))). intros l. revert m.
  induction l as [|c l IH]; intros m Hl; cbn [fold_left]; [ repeat split; reflexivity | ].
  set (m' := mset m 0 c (amul (mget m c 0) (vget g 0))).
  destruct (IH m') as (I1 & I2 & I3); [ intros j Hj; apply Hl; now right | ].
  assert (R : forall i, nth i m' [] = if Nat.eqb i 0 then match m with [] => [] | r :: _ => upd r c (amul (mget m c 0) (vget g 0)) end else nth i m []).
  { intros i. unfold m', mset. destruct m as [|r m2]; [ destruct i; reflexivity | ].
    destruct i; reflexivity. }
  split; [ | split ].
  - rewrite I1. unfold m', mset. apply upd_len.
  - intros i. rewrite I2, R. destruct (Nat.eqb_spec i 0) as [->|]; [ | reflexivity ].
    destruct m as [|r m2]; [ reflexivity | ]. apply upd_len.
  - intros i j Hij. rewrite I3 by exact Hij. unfold mget. rewrite R.
    destruct (Nat.eqb_spec i 0) as [->|]; [ | reflexivity ].
    destruct m as [|r m2]; [ reflexivity | ]. cbn [nth]. unfold vget.
    destruct (Hl c (or_introl eq_refl)) as [H1 H2].
    assert (H : c <> j) by lia. generalize (amul (mget (r :: m2) c 0) (nth 0 g azero)). intros v. clear - H. revert c j H.
    induction r as [|x r IHr]; intros [|c] [|j] H; cbn; try reflexivity; try lia. apply IHr. lia.
Qed.

End Len.
