(** [EllStable] in double arithmetic: the stored diagonal and [tsq] never
    become negative.  The key fact holds in any arithmetic: the numbers [v[j]]
    used by the rank-one update are the very numbers [inv_lower_g[j]] of the
    forward substitution (same operations in the same order). *)
From Coq Require Import List Arith Lia Bool.
From Verif Require Import Arith Vec ModelCalc ModelEll ModelStable.
From Verif Require Import PVec PStable PFloatEll.
Import ListNotations.

Section Gen.
Context {A : Arith}.
Local Open Scope num_scope.

Lemma gvset_len (v : vec A) i x : length (vset v i x) = length v.
Proof. apply upd_length. Qed.

Lemma vget_vset (v : vec A) i x j : (i < length v)%nat ->
  vget (vset v i x) j = if Nat.eqb i j then x else vget v j.
Proof. intros H. unfold vget, vset. apply (nth_upd_lt v i j x azero H). Qed.

Lemma gmset_sq n (m : mat A) i j x : msq n m -> msq n (mset m i j x).
Proof.
  intros [H1 H2]. unfold mset. split; [ etransitivity; [ apply upd_length | exact H1 ] | ].
  intros a Ha. destruct (Nat.lt_ge_cases i (length m)) as [Hi|Hi].
  - assert (E : nth a (upd m i (vset (nth i m []) j x)) [] =
        if Nat.eqb i a then vset (nth i m []) j x else nth a m [])
      by exact (nth_upd_lt m i a (vset (nth i m []) j x) [] Hi).
    rewrite E. destruct (Nat.eqb_spec i a) as [->|].
    + etransitivity; [ apply gvset_len | now apply H2 ].
    + now apply H2.
  - assert (E : nth a (upd m i (vset (nth i m []) j x)) [] = nth a m []).
    { assert (E0 := nth_upd m i a (vset (nth i m []) j x) []).
      etransitivity; [ exact E0 | ].
      destruct (Nat.eqb_spec i a) as [->|]; cbn [andb]; [ | reflexivity ].
      destruct (Nat.ltb_spec a (length m)); [ lia | reflexivity ]. }
    rewrite E. now apply H2.
Qed.

Lemma mget_mset n (m : mat A) i j x a b : msq n m -> (i < n)%nat -> (j < n)%nat ->
  mget (mset m i j x) a b = if Nat.eqb i a && Nat.eqb j b then x else mget m a b.
Proof.
  intros [H1 H2] Hi Hj. unfold mget, mset.
  assert (E : nth a (upd m i (vset (nth i m []) j x)) [] =
      if Nat.eqb i a then vset (nth i m []) j x else nth a m []).
  { apply (nth_upd_lt m i a (vset (nth i m []) j x) []). rewrite H1. exact Hi. }
  rewrite E. destruct (Nat.eqb_spec i a) as [->|]; cbn [andb]; [ | reflexivity ].
  apply vget_vset. rewrite H2; assumption.
Qed.

(** the vector [inv_lower_g] after [j] rounds of the forward substitution *)
Fixpoint Wst (m : mat A) (g : vec A) (n j : nat) (i : nat) : num A :=
  match j with
  | O => vget g i
  | S j' => if Nat.ltb j' i && Nat.ltb i n
            then Wst m g n j' i - mget m i j' * Wst m g n j' j'
            else Wst m g n j' i
  end.

Section Fwd.
Variables (n : nat) (m : mat A) (g : vec A).
Hypothesis Hm : msq n m.
Hypothesis Hg : length g = n.

Definition upval (j a b : nat) : num A :=
  if Nat.ltb a b && (Nat.ltb a j && Nat.ltb b n) then mget m b a * Wst m g n a a else mget m a b.

Definition finv (j : nat) (st : mat A * vec A) : Prop :=
  msq n (fst st) /\ length (snd st) = n /\
  (forall a b, mget (fst st) a b = upval j a b) /\
  (forall i, vget (snd st) i = Wst m g n j i).

Definition finv2 (j i : nat) (st : mat A * vec A) : Prop :=
  msq n (fst st) /\ length (snd st) = n /\
  (forall a b, mget (fst st) a b =
     if Nat.eqb a j && (Nat.ltb j b && Nat.ltb b i) then mget m b j * Wst m g n j j else upval j a b) /\
  (forall k, vget (snd st) k = if Nat.ltb j k && Nat.ltb k i then Wst m g n (S j) k else Wst m g n j k).

Lemma fwd_step j st : (S j < n)%nat -> finv j st -> finv (S j) (fwd_outer n st j).
Proof.
  intros Hj Hst. unfold fwd_outer.
  assert (H2 : finv2 j (S j + (n - S j)) (fold_left (fwd_inner j) (seq (S j) (n - S j)) st)).
  { apply (fold_up (fun i st => finv2 j i st)).
    - destruct Hst as (Q & L & HU & HW). split; [ exact Q | ]. split; [ exact L | ]. split.
      + intros a b. rewrite HU. destruct (Nat.ltb_spec j b), (Nat.ltb_spec b (S j)); try lia;
          rewrite ?andb_false_r; reflexivity.
      + intros k. rewrite HW. destruct (Nat.ltb_spec j k), (Nat.ltb_spec k (S j)); try lia; reflexivity.
    - intros i [mm w] Hi (Q & L & HU & HW). cbn [fst snd] in *. unfold fwd_inner.
      assert (Wj : vget w j = Wst m g n j j).
      { rewrite HW. destruct (Nat.ltb_spec j j); [ lia | reflexivity ]. }
      assert (Mij : mget mm i j = mget m i j).
      { rewrite HU. destruct (Nat.eqb_spec i j); [ lia | ]. cbn [andb]. unfold upval.
        destruct (Nat.ltb_spec i j); [ lia | reflexivity ]. }
      assert (Wi : vget w i = Wst m g n j i).
      { rewrite HW. destruct (Nat.ltb_spec i i); [ lia | ]. now rewrite andb_false_r. }
      rewrite Mij, Wj. split; [ | split; [ | split ] ]; cbn [fst snd].
      + now apply gmset_sq.
      + etransitivity; [ apply gvset_len | exact L ].
      + intros a b. rewrite (mget_mset n) by (exact Q || lia). rewrite HU.
        destruct (Nat.eqb_spec j a) as [Ea|Ea].
        * subst a. rewrite Nat.eqb_refl. cbn [andb].
          destruct (Nat.eqb_spec i b) as [Eb|Eb].
          -- subst b. destruct (Nat.ltb_spec j i), (Nat.ltb_spec i (S i)); try lia. reflexivity.
          -- destruct (Nat.ltb_spec b i), (Nat.ltb_spec b (S i)); try lia; reflexivity.
        * destruct (Nat.eqb_spec a j); [ lia | ]. reflexivity.
      + intros k. rewrite vget_vset by (rewrite L; lia).
        rewrite (mget_mset n) by (exact Q || lia). rewrite !Nat.eqb_refl. cbn [andb].
        rewrite Wi. destruct (Nat.eqb_spec i k) as [Ek|Ek].
        * subst k. destruct (Nat.ltb_spec j i), (Nat.ltb_spec i (S i)); try lia. cbn [andb].
          cbn [Wst]. destruct (Nat.ltb_spec j i), (Nat.ltb_spec i n); try lia. reflexivity.
        * rewrite HW. destruct (Nat.ltb_spec k i), (Nat.ltb_spec k (S i)); try lia; reflexivity. }
  replace (S j + (n - S j))%nat with n in H2 by lia.
  destruct H2 as (Q & L & HU & HW). split; [ exact Q | ]. split; [ exact L | ]. split.
  - intros a b. rewrite HU. unfold upval.
    destruct (Nat.eqb_spec a j) as [->|Ea]; cbn [andb].
    + destruct (Nat.ltb_spec j (S j)), (Nat.ltb_spec j j); try lia. cbn [andb].
      destruct (Nat.ltb_spec j b); cbn [andb]; [ | reflexivity ].
      destruct (Nat.ltb_spec b n); reflexivity.
    + destruct (Nat.ltb_spec a j), (Nat.ltb_spec a (S j)); try lia; reflexivity.
  - intros k. rewrite HW. cbn [Wst].
    destruct (Nat.ltb_spec j k), (Nat.ltb_spec k n); cbn [andb]; reflexivity.
Qed.

(** After the forward substitution, with [w = Wst (n-1)], which is also
    [Wst n]. *)
Lemma fwd_result : (1 <= n)%nat -> finv (n - 1) (fwd_subst n m g).
Proof.
  intros Hn. unfold fwd_subst.
  replace (n - 1)%nat with (0 + (n - 1))%nat at 1 by lia.
  apply (fold_up (fun j st => finv j st)).
  - split; [ exact Hm | ]. split; [ exact Hg | ]. split; [ | intros; reflexivity ].
    intros a b. unfold upval. cbn [fst]. destruct (Nat.ltb_spec a 0); [ lia | ].
    cbn [andb]. now rewrite andb_false_r.
  - intros j st Hj H. apply fwd_step; [ lia | exact H ].
Qed.

Lemma Wst_stable j k i : (i <= j)%nat -> (j <= k)%nat -> Wst m g n k i = Wst m g n j i.
Proof.
  clear Hm Hg. intros Hi Hk. induction k as [|k IH].
  - now replace j with 0%nat by lia.
  - destruct (Nat.eq_dec j (S k)) as [->|]; [ reflexivity | ].
    cbn [Wst]. destruct (Nat.ltb_spec k i); [ lia | ]. cbn [andb]. apply IH. lia.
Qed.

End Fwd.

(** ** Scaling by the diagonal *)
Lemma diag_result n (m : mat A) (w : vec A) : length w = n ->
  length (diag_scale n m w) = n /\
  forall i, (i < n)%nat -> vget (diag_scale n m w) i = vget w i * mget m i i.
Proof.
  intros Hw. unfold diag_scale.
  assert (H : (fun k (z : vec A) => length z = n /\ forall i, vget z i =
      if Nat.ltb i k then vget w i * mget m i i else vget w i) (0 + n)%nat
      (fold_left (fun z i => vset z i (vget z i * mget m i i)) (seq 0 n) w)).
  { apply (fold_up (fun k (z : vec A) => length z = n /\ forall i, vget z i =
      if Nat.ltb i k then vget w i * mget m i i else vget w i)).
    - split; [ exact Hw | ]. intros i. reflexivity.
    - intros k z Hk [L H]. split; [ etransitivity; [ apply gvset_len | exact L ] | ].
      intros i. rewrite vget_vset by (rewrite L; lia). rewrite !H.
      destruct (Nat.eqb_spec k i) as [->|].
      + destruct (Nat.ltb_spec i i), (Nat.ltb_spec i (S i)); try lia. reflexivity.
      + destruct (Nat.ltb_spec i k), (Nat.ltb_spec i (S k)); try lia; reflexivity. }
  cbn beta in H. destruct H as [L H]. split; [ exact L | ]. intros i Hi. rewrite H.
  destruct (Nat.ltb_spec i (0 + n)); [ reflexivity | lia ].
Qed.

(** ** The rank-one update *)
Section Rank.
Variables (n : nat) (m0 : mat A) (g : vec A).
Variable z : vec A.

(** the inner loop writes only below the diagonal *)
Definition rinv (j : nat) (mm : mat A) (v : vec A) (k : nat) (st : mat A * vec A) : Prop :=
  msq n (fst st) /\ length (snd st) = n /\
  (forall a b, (a <= b)%nat -> mget (fst st) a b = mget mm a b) /\
  (forall i, vget (snd st) i = if Nat.ltb j i && Nat.ltb i k then vget v i - mget mm j i else vget v i).

Lemma rank_inner j b2 (mm : mat A) (v : vec A) : (j < n)%nat -> msq n mm -> length v = n ->
  rinv j mm v n (fold_left (rank1_inner j b2) (seq (S j) (n - S j)) (mm, v)).
Proof.
  intros Hj Q L.
  replace n with (S j + (n - S j))%nat at 1 by lia.
  apply (fold_up (fun k st => rinv j mm v k st)).
  - split; [ exact Q | ]. split; [ exact L | ]. split; [ reflexivity | ].
    intros i. cbn [snd]. destruct (Nat.ltb_spec j i), (Nat.ltb_spec i (S j)); try lia; reflexivity.
  - intros k [m1 v1] Hk (Q1 & L1 & HM & HV). cbn [fst snd] in *. unfold rank1_inner.
    split; [ now apply gmset_sq | ]. split; [ etransitivity; [ apply gvset_len | exact L1 ] | ].
    split; cbn [fst snd].
    + intros a b Hab. rewrite (mget_mset n) by (exact Q1 || lia). rewrite (HM _ _ Hab).
      destruct (Nat.eqb_spec k a), (Nat.eqb_spec j b); try lia; reflexivity.
    + intros i. rewrite vget_vset by (rewrite L1; lia). rewrite !HV.
      rewrite HM by lia.
      destruct (Nat.eqb_spec k i) as [->|].
      * destruct (Nat.ltb_spec i i), (Nat.ltb_spec i (S i)), (Nat.ltb_spec j i); try lia. reflexivity.
      * destruct (Nat.ltb_spec i k), (Nat.ltb_spec i (S k)); try lia; reflexivity.
Qed.

(** [P t]: what is known of the running value [oldt]; [Q d]: of a diagonal
    entry. *)
Variables P Q : num A -> Prop.
Hypothesis Hstep : forall j t d, (j < n)%nat -> P t -> Q d ->
  P (t + Wst m0 g n (n - 1) j * vget z j) /\
  Q (d * (t / (t + Wst m0 g n (n - 1) j * vget z j))).

Lemma rank_loop : forall len j (mm : mat A) (v : vec A) (t : num A),
  (j + len = n)%nat -> msq n mm -> length v = n ->
  (forall a b, (a < b)%nat -> mget mm a b = upval n m0 g (n - 1) a b) ->
  (forall i, vget v i = Wst m0 g n j i) ->
  P t -> (forall i, (i < n)%nat -> Q (mget mm i i)) ->
  let r := rank1_loop n z (seq j len) mm v t in
  msq n (fst r) /\ (forall i, (i < n)%nat -> Q (mget (fst r) i i)).
Proof.
  induction len as [|len IH]; intros j mm v t Hjn Sq Lv HU HV HP HQ; cbn [seq rank1_loop].
  - cbn [fst]. split; assumption.
  - unfold ndiv. rewrite HV.
    assert (E : Wst m0 g n j j = Wst m0 g n (n - 1) j) by (symmetry; apply Wst_stable; lia).
    rewrite E. set (nt := t + Wst m0 g n (n - 1) j * vget z j).
    destruct (negb (adivz A) && aeqb nt azero); [ cbn [fst]; split; assumption | ].
    destruct (Hstep j t (mget mm j j)) as [HP' HQ']; [ lia | exact HP | apply HQ; lia | ].
    fold nt in HP', HQ'.
    set (m1 := mset mm j j (mget mm j j * (t / nt))).
    assert (Sq1 : msq n m1) by (now apply gmset_sq).
    assert (M1 : forall a b, mget m1 a b = if Nat.eqb j a && Nat.eqb j b then mget mm j j * (t / nt) else mget mm a b).
    { intros a b. unfold m1. apply (mget_mset n); [ exact Sq | lia | lia ]. }
    generalize (rank_inner j (vget z j / nt) m1 v ltac:(lia) Sq1 Lv).
    destruct (fold_left (rank1_inner j (vget z j / nt)) (seq (S j) (n - S j)) (m1, v)) as [m2 v2].
    intros (S2 & L2 & HM2 & HV2). cbn [fst snd] in *.
    apply IH; try assumption; try lia.
    + intros a b Hab. rewrite HM2 by lia. rewrite M1.
      destruct (Nat.eqb_spec j a), (Nat.eqb_spec j b); try lia; cbn [andb]; now apply HU.
    + intros i. rewrite HV2. cbn [Wst]. destruct (Nat.ltb_spec j i); cbn [andb]; [ | apply HV ].
      destruct (Nat.ltb_spec i n); [ | apply HV ].
      rewrite HV, M1. destruct (Nat.eqb_spec j i); [ lia | ]. rewrite andb_false_r.
      rewrite HU by lia. unfold upval.
      destruct (Nat.ltb_spec j i), (Nat.ltb_spec j (n - 1)), (Nat.ltb_spec i n); try lia.
      cbn [andb]. now rewrite E.
    + intros i Hi. rewrite HM2 by lia. rewrite M1.
      destruct (Nat.eqb_spec j i) as [->|]; cbn [andb]; [ exact HQ' | now apply HQ ].
Qed.

End Rank.

End Gen.
