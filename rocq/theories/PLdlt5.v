(** The factorisation reads nothing left over from earlier calls. *)
From Coq Require Import List Arith Lia Bool.
From Verif Require Import Arith Vec ModelLdlt SpecLdlt PStable.
Import ListNotations.

Section Hist.
Context {A : Arith}.

Definition square (n : nat) (m : mat A) : Prop :=
  length m = n /\ forall i, (i < n)%nat -> length (nth i m []) = n.

Lemma mset_square n m i j x : square n m -> square n (mset m i j x).
Proof.
  intros [H1 H2]. split; [unfold mset; rewrite upd_length; exact H1|].
  intros k Hk. unfold mset. rewrite nth_upd. destruct (_ && _) eqn:E; [|apply H2, Hk].
  apply andb_prop in E. destruct E as [E _]. apply Nat.eqb_eq in E. subst k.
  unfold vset. rewrite upd_length. apply H2, Hk.
Qed.

Lemma mget_mset n m i j x a b : square n m -> (i < n)%nat -> (j < n)%nat ->
  mget (mset m i j x) a b = if Nat.eqb i a && Nat.eqb j b then x else mget m a b.
Proof.
  intros [H1 H2] Hi Hj. unfold mget, mset, vget. rewrite nth_upd_lt by lia.
  destruct (Nat.eqb_spec i a) as [->|E]; [|reflexivity]. cbn [andb].
  unfold vset. apply nth_upd_lt. rewrite H2 by exact Hi. exact Hj.
Qed.

Section Row.
Variables (n start i : nat) (g g' : nat -> nat -> num A).
Hypothesis Hi : (start <= i < n)%nat.
Hypothesis Hg : forall j, (j <= i)%nat -> g i j = g' i j.

Definition reg (j a b : nat) : Prop :=
  (start <= a)%nat /\ (start <= b)%nat /\
  ((a < i /\ b < i)%nat \/ (a = i /\ b < j)%nat \/ (b = i /\ a < j)%nat).

Definition same_st (j : nat) (st st' : mat A * num A) : Prop :=
  square n (fst st) /\ square n (fst st') /\ snd st = snd st' /\
  forall a b, reg j a b -> mget (fst st) a b = mget (fst st') a b.

Lemma col_same j st st' : (start <= j < i)%nat -> same_st j st st' ->
  same_st (S j) (factor_col g start i st j) (factor_col g' start i st' j).
Proof.
  intros Hj. destruct st as [m d], st' as [m' d']. intros (S1 & S2 & Hd & Hr). cbn [fst snd] in *. subst d'.
  unfold factor_col.
  set (m2 := mset m j i d). set (m2' := mset m' j i d).
  assert (Q2 : square n m2) by (apply mset_square; exact S1).
  assert (Q2' : square n m2') by (apply mset_square; exact S2).
  assert (E2 : forall a b, mget m2 a b = if Nat.eqb j a && Nat.eqb i b then d else mget m a b)
    by (intros; apply (mget_mset n); auto; lia).
  assert (E2' : forall a b, mget m2' a b = if Nat.eqb j a && Nat.eqb i b then d else mget m' a b)
    by (intros; apply (mget_mset n); auto; lia).
  assert (Ejj : mget m2 j j = mget m2' j j).
  { rewrite E2, E2'. destruct (_ && _); [reflexivity|]. apply Hr. unfold reg. lia. }
  rewrite <- Ejj. set (x := adiv d (mget m2 j j)).
  set (m3 := mset m2 i j x). set (m3' := mset m2' i j x).
  assert (Q3 : square n m3) by (apply mset_square; exact Q2).
  assert (Q3' : square n m3') by (apply mset_square; exact Q2').
  assert (E3 : forall a b, reg (S j) a b -> mget m3 a b = mget m3' a b).
  { intros a b H. unfold m3, m3'. rewrite !(mget_mset n) by (auto; lia). rewrite E2, E2'.
    destruct (Nat.eqb_spec i a), (Nat.eqb_spec j b); cbn [andb]; try reflexivity;
    destruct (Nat.eqb_spec j a), (Nat.eqb_spec i b); cbn [andb]; try reflexivity; apply Hr; unfold reg in *; lia. }
  split; [exact Q3|]. split; [exact Q3'|]. split; [|exact E3]. cbn [fst snd].
  rewrite Hg by lia. f_equal. unfold row_dot. f_equal. apply map_ext_in. intros k Hk. apply in_seq in Hk.
  f_equal; apply E3; unfold reg; lia.
Qed.

Lemma fold_same len : forall j st st', (start <= j)%nat -> (j + len <= i)%nat -> same_st j st st' ->
  same_st (j + len) (fold_left (factor_col g start i) (seq j len) st)
                    (fold_left (factor_col g' start i) (seq j len) st').
Proof.
  induction len as [|len IH]; intros j st st' H1 H2 H.
  - rewrite Nat.add_0_r. exact H.
  - cbn [seq fold_left]. replace (j + S len)%nat with (S j + len)%nat by lia. apply IH; [lia|lia|].
    apply col_same; [lia|exact H].
Qed.

Lemma row_same m m' : square n m -> square n m' ->
  (forall a b, (start <= a < i)%nat -> (start <= b < i)%nat -> mget m a b = mget m' a b) ->
  square n (fst (factor_row g start i m)) /\ square n (fst (factor_row g' start i m')) /\
  snd (factor_row g start i m) = snd (factor_row g' start i m') /\
  forall a b, (start <= a <= i)%nat -> (start <= b <= i)%nat ->
    mget (fst (factor_row g start i m)) a b = mget (fst (factor_row g' start i m')) a b.
Proof.
  intros S1 S2 H. unfold factor_row.
  pose proof (fold_same (i - start) start (m, g i start) (m', g' i start) (le_n _) ltac:(lia)) as F.
  replace (start + (i - start))%nat with i in F by lia.
  specialize (F ltac:(split; [exact S1|split; [exact S2|split; [cbn; apply Hg; lia|intros a b Hr; apply H; unfold reg in Hr; lia]]])).
  destruct (fold_left _ _ _) as [m1 d]. destruct (fold_left _ _ _) as [m1' d'].
  destruct F as (F1 & F2 & F3 & F4). cbn [fst snd] in *. subst d'.
  split; [apply mset_square; exact F1|]. split; [apply mset_square; exact F2|]. split; [reflexivity|].
  intros a b Ha Hb. rewrite !(mget_mset n) by (auto; lia).
  destruct (Nat.eqb_spec i a), (Nat.eqb_spec i b); cbn [andb]; try reflexivity; apply F4; unfold reg; lia.
Qed.
End Row.

Lemma loop_same n (g g' : nat -> nat -> num A) len : forall i m m' m1 s e, (i + len = n)%nat ->
  square n m -> square n m' ->
  (forall a b, (a < i)%nat -> (b < i)%nat -> mget m a b = mget m' a b) ->
  factor_loop g (seq i len) m = (m1, (s, e)) ->
  (forall r c, (c <= r)%nat -> (r < if Nat.eqb e 0 then n else e)%nat -> g r c = g' r c) ->
  exists m1', factor_loop g' (seq i len) m' = (m1', (s, e)) /\ square n m1 /\ square n m1' /\ (s <= e <= n)%nat /\
    forall a b, (a < if Nat.eqb e 0 then n else e)%nat -> (b < if Nat.eqb e 0 then n else e)%nat ->
      mget m1 a b = mget m1' a b.
Proof.
  induction len as [|len IH]; intros i m m' m1 s e Hi S1 S2 H E Hg.
  - cbn [seq factor_loop] in *. injection E as <- <- <-. exists m'. cbn [Nat.eqb] in *.
    split; [reflexivity|]. split; [exact S1|]. split; [exact S2|]. split; [lia|]. intros. apply H; lia.
  - cbn [seq factor_loop] in *.
    assert (Hgi : (e = 0%nat \/ (i < e)%nat) -> forall j, (j <= i)%nat -> g i j = g' i j).
    { intros He j Hj. apply Hg; [exact Hj|]. destruct (Nat.eqb_spec e 0); lia. }
    assert (He : e = 0%nat \/ (i < e)%nat).
    { clear - E. revert i m E. assert (G : forall l i (m : mat A) s e, (forall x, In x l -> (i <= x)%nat) -> factor_loop g l m = (m1, (s, e)) -> e = 0%nat \/ (i < e)%nat).
      { induction l as [|x l IHl]; intros i m s0 e0 Hx E; cbn [factor_loop] in E; [injection E as _ _ <-; auto|].
        destruct (factor_row g 0 x m) as [m2 d]. destruct (aleb d azero).
        - injection E as _ _ <-. right. specialize (Hx x (or_introl eq_refl)). lia.
        - apply (IHl i m2 s0 e0); [intros y Hy; apply Hx; right; exact Hy|exact E]. }
      intros i m E. apply (G (i :: seq (S i) len) i m s e).
      - intros x [<-|Hx]; [lia|apply in_seq in Hx; lia].
      - exact E. }
    specialize (Hgi He).
    destruct (row_same n 0 i g g' ltac:(lia) Hgi m m' S1 S2) as (R1 & R2 & R3 & R4); [intros; apply H; lia|].
    destruct (factor_row g 0 i m) as [m2 d]. destruct (factor_row g' 0 i m') as [m2' d'].
    cbn [fst snd] in *. subst d'. destruct (aleb d azero).
    + injection E as <- <- <-. exists m2'. cbn [Nat.eqb]. split; [reflexivity|]. split; [exact R1|]. split; [exact R2|].
      split; [lia|]. intros. apply R4; lia.
    + apply (IH (S i) m2 m2' m1 s e); auto; [lia|]. intros. apply R4; lia.
Qed.

Lemma witness_same n (s s' : ldlt A) : shape n s -> shape n s' -> pos s' = pos s -> (fst (pos s) <= snd (pos s) <= n)%nat ->
  (forall a b, (fst (pos s) <= a < snd (pos s))%nat -> (fst (pos s) <= b < snd (pos s))%nat ->
     mget (storage s) a b = mget (storage s') a b) ->
  (snd (pos s) = 0%nat \/ (fst (pos s) < snd (pos s))%nat) ->
  snd (witness s') = snd (witness s) /\ shape n (fst (witness s)) /\ shape n (fst (witness s')) /\
  pos (fst (witness s)) = pos s /\ pos (fst (witness s')) = pos s /\
  (is_spd s = false -> forall i, (fst (pos s) <= i < snd (pos s))%nat ->
     vget (wit (fst (witness s'))) i = vget (wit (fst (witness s))) i).
Proof.
  intros (N1 & W1 & L1) (N2 & W2 & L2) Ep Hr H Hne. unfold witness, is_spd. rewrite Ep.
  destruct (Nat.eqb_spec (snd (pos s)) 0) as [E0|E0].
  - cbn [fst snd]. split; [reflexivity|]. split; [split; [exact N1|split; assumption]|]. split; [split; [exact N2|split; assumption]|].
    split; [reflexivity|]. split; [exact Ep|discriminate].
  - destruct (pos s) as [st e]. cbn [fst snd] in *. destruct Hne as [|Hne]; [contradiction|].
    set (Q := fun (i : nat) (w w' : vec A) => length w = n /\ length w' = n /\
       forall k, (i <= S k)%nat -> (k < e)%nat -> vget w k = vget w' k).
    assert (G : forall len a w w', (a + len = e)%nat -> (1 <= a)%nat -> (st < a)%nat -> Q (a + len)%nat w w' ->
      Q a (fold_left (fun w i => vset w (i - 1) (aneg (wit_dot (storage s) w i e))) (rev (seq a len)) w)
          (fold_left (fun w i => vset w (i - 1) (aneg (wit_dot (storage s') w i e))) (rev (seq a len)) w')).
    { induction len as [|len IH]; intros a w w' He Ha Hst HQ.
      - rewrite Nat.add_0_r in HQ. exact HQ.
      - cbn [seq rev]. rewrite !fold_left_app. cbn [fold_left].
        replace (a + S len)%nat with (S a + len)%nat in HQ by lia.
        specialize (IH (S a) w w' ltac:(lia) ltac:(lia) ltac:(lia) HQ).
        set (u := fold_left _ (rev (seq (S a) len)) w) in *. set (u' := fold_left _ (rev (seq (S a) len)) w') in *.
        destruct IH as (I1 & I2 & I3). split; [unfold vset; rewrite upd_length; exact I1|].
        split; [unfold vset; rewrite upd_length; exact I2|].
        assert (Ed : wit_dot (storage s) u a e = wit_dot (storage s') u' a e).
        { unfold wit_dot. f_equal. apply map_ext_in. intros k Hk. apply in_seq in Hk. f_equal; [apply H; lia|apply I3; lia]. }
        intros k Hk1 Hk2. unfold vget, vset. rewrite !nth_upd_lt by lia. rewrite Ed.
        destruct (Nat.eqb_spec (a - 1) k); [reflexivity|]. apply I3; lia. }
    specialize (G (e - 1 - st)%nat (S st) (vset (wit s) (e - 1) aone) (vset (wit s') (e - 1) aone) ltac:(lia) ltac:(lia) ltac:(lia)).
    replace (S st + (e - 1 - st))%nat with e in G by lia.
    specialize (G ltac:(split; [unfold vset; rewrite upd_length; exact W1|split; [unfold vset; rewrite upd_length; exact W2|intros k H1 H2; unfold vget, vset; rewrite !nth_upd_lt by lia; replace (Nat.eqb (e - 1) k) with true by (symmetry; apply Nat.eqb_eq; lia); reflexivity]])).
    destruct G as (G1 & G2 & G3).
    split; [rewrite (H (e - 1) (e - 1))%nat by lia; reflexivity|].
    split; [split; [exact N1|split; [exact G1|exact L1]]|]. split; [split; [exact N2|split; [exact G2|exact L2]]|].
    split; [reflexivity|]. split; [reflexivity|]. intros _ i Hi. symmetry. apply G3; lia.
Qed.

Lemma nth_skip' {T} (l : list T) a i d : nth i (skipn a l) d = nth (a + i) l d.
Proof.
  revert l. induction a as [|a IH]; intros l; [reflexivity|].
  destruct l as [|x l]; [destruct i; reflexivity|]. cbn [skipn]. rewrite IH. reflexivity.
Qed.
Lemma nth_first' {T} (l : list T) a i d : (i < a)%nat -> nth i (firstn a l) d = nth i l d.
Proof.
  revert l i. induction a as [|a IH]; intros l i Hi; [lia|].
  destruct l as [|x l]; [reflexivity|]. destruct i as [|i]; [reflexivity|]. cbn [firstn nth]. apply IH. lia.
Qed.

Lemma vslice_same (v w : vec A) a b : length v = length w -> (forall i, (a <= i < b)%nat -> vget v i = vget w i) ->
  vslice v a b = vslice w a b.
Proof.
  intros Hl H. unfold vslice. apply nth_ext with (d := azero) (d' := azero).
  - rewrite !firstn_length, !skipn_length. lia.
  - intros i Hi. rewrite firstn_length in Hi. rewrite !nth_first' by lia. rewrite !nth_skip'. apply H. lia.
Qed.

Lemma sqrt_same n (m m' : mat A) : (forall a b, (a < n)%nat -> (b < n)%nat -> mget m a b = mget m' a b) ->
  fold_left (sqrt_row m n) (seq 0 n) (mzeros n) = fold_left (sqrt_row m' n) (seq 0 n) (mzeros n).
Proof.
  intros H. assert (G : forall l r, (forall i, In i l -> (i < n)%nat) -> fold_left (sqrt_row m n) l r = fold_left (sqrt_row m' n) l r).
  { induction l as [|i l IH]; intros r Hl; [reflexivity|]. cbn [fold_left]. rewrite IH by (intros; apply Hl; right; assumption).
    f_equal. unfold sqrt_row. assert (Hi : (i < n)%nat) by (apply Hl; left; reflexivity). rewrite (H i i Hi Hi).
    set (r0 := mset r i i (asqrt (mget m' i i))). clearbody r0.
    assert (G2 : forall k r0, (forall j, In j k -> (j < n)%nat) ->
      fold_left (fun r j => mset r i j (amul (mget m j i) (mget r i i))) k r0 =
      fold_left (fun r j => mset r i j (amul (mget m' j i) (mget r i i))) k r0).
    { induction k as [|j k IHk]; intros r1 Hk; [reflexivity|]. cbn [fold_left]. rewrite (H j i); [|apply Hk; left; reflexivity|exact Hi].
      apply IHk. intros; apply Hk; right; assumption. }
    apply G2. intros j Hj. apply in_seq in Hj. lia. }
  apply G. intros i Hi. apply in_seq in Hi. lia.
Qed.

Lemma factor_fresh n (g g' : nat -> nat -> num A) (s s' s1 : ldlt A) b :
  shape n s -> shape n s' -> factor g s = (s1, b) ->
  (forall i j, (j <= i)%nat -> (i < rows n s1)%nat -> g i j = g' i j) ->
  exists s1', factor g' s' = (s1', b) /\ pos s1' = pos s1 /\
    (forall i j, (i < rows n s1)%nat -> (j < rows n s1)%nat ->
       mget (storage s1) i j = mget (storage s1') i j) /\
    ldlt_sqrt s1' = ldlt_sqrt s1 /\
    snd (witness s1') = snd (witness s1) /\
    (b = false -> forall i, (fst (pos s1) <= i < snd (pos s1))%nat ->
       vget (wit (fst (witness s1'))) i = vget (wit (fst (witness s1))) i) /\
    (b = false -> forall B, sym_quad (fst (witness s1')) B = sym_quad (fst (witness s1)) B).
Proof.
  intros (N1 & W1 & L1) (N2 & W2 & L2) H Hg. unfold factor in *. rewrite N1 in H. rewrite N2.
  destruct (factor_loop g (seq 0 n) (storage s)) as [m1 [st e]] eqn:E. injection H as <- <-.
  unfold rows, is_spd in *. cbn [pos snd] in *.
  destruct (loop_same n g g' n 0 (storage s) (storage s') m1 st e eq_refl L1 L2 ltac:(intros; lia) E Hg)
    as (m1' & E' & Q1 & Q1' & Hse & Hm).
  rewrite E'. eexists. split; [reflexivity|]. cbn [pos storage]. split; [reflexivity|]. split; [exact Hm|].
  set (t := mkLdlt (st, e) (wit s) n m1). set (t' := mkLdlt (st, e) (wit s') n m1').
  split.
  { unfold ldlt_sqrt, is_spd. cbn [pos t t' snd l_ndim storage]. destruct (Nat.eqb_spec e 0) as [E0|E0]; [|reflexivity].
    cbn [negb]. f_equal. symmetry. apply sqrt_same. exact Hm. }
  assert (Hne : e = 0%nat \/ (st < e)%nat).
  { clear - E. revert E. generalize (seq 0 n) (storage s). intros l. induction l as [|i l IH]; intros m E; cbn [factor_loop] in E.
    - injection E as _ _ <-. auto.
    - destruct (factor_row g 0 i m) as [m2 d]. destruct (aleb d azero); [injection E as _ <- <-; lia|apply (IH m2 E)]. }
  destruct (witness_same n t t') as (V1 & V2 & V3 & V4 & V5 & V6).
  - split; [reflexivity|split; [exact W1|exact Q1]].
  - split; [reflexivity|split; [exact W2|exact Q1']].
  - reflexivity.
  - cbn [t pos fst snd]. exact Hse.
  - cbn [t t' pos fst snd storage]. intros a c Ha Hc. destruct (Nat.eqb_spec e 0); [lia|]. apply Hm; lia.
  - exact Hne.
  - split; [exact V1|]. split; [intros Hb; apply V6; exact Hb|].
    intros Hb B. unfold sym_quad. rewrite V4, V5. cbn [t pos].
    assert (Ev : vslice (wit (fst (witness t'))) st e = vslice (wit (fst (witness t))) st e).
    { apply vslice_same; [destruct V2 as (_ & -> & _), V3 as (_ & -> & _); reflexivity|].
      intros i Hi. apply V6; [exact Hb|exact Hi]. }
    rewrite Ev. reflexivity.
Qed.
End Hist.

(** An object that has factorised nothing yet claims success. *)
Lemma fresh_spd (A : Arith) n : is_spd (ldlt_init (A:=A) n) = true /\
  witness (ldlt_init (A:=A) n) = (ldlt_init (A:=A) n, Err AssertionError) /\
  forall b, sym_quad (ldlt_init (A:=A) n) b = azero.
Proof. repeat split. Qed.
