(** The loops of [EllStable] over the reals. *)
From Coq Require Import Reals List Arith Lia Lra Psatz Bool.
From Verif Require Import Arith Vec ModelCalc ModelEll ModelStable SpecDrivers Spec SpecCut SpecEll SpecStable PSum PCalc PVec.
Import ListNotations.
Local Open Scope R_scope.

(** division of numpy scalars: over the reals a zero divisor is an error *)
Lemma ndiv_R (x y : num RA) : ndiv x y = pdiv x y.
Proof. reflexivity. Qed.

(** ** Updating entries *)
Lemma upd_length {T} (l : list T) i x : length (upd l i x) = length l.
Proof. revert i; induction l as [|a l IH]; intros [|i]; cbn; auto. Qed.

Lemma nth_upd {T} (l : list T) i j x d :
  nth j (upd l i x) d = if Nat.eqb i j && Nat.ltb i (length l) then x else nth j l d.
Proof.
  revert i j. induction l as [|a l IH]; intros i j.
  - cbn. rewrite andb_false_r. reflexivity.
  - destruct i as [|i], j as [|j]; cbn; try reflexivity. rewrite IH. reflexivity.
Qed.

Lemma nth_upd_lt {T} (l : list T) i j x d : (i < length l)%nat ->
  nth j (upd l i x) d = if Nat.eqb i j then x else nth j l d.
Proof.
  intros H. rewrite nth_upd. destruct (Nat.ltb_spec i (length l)); [|lia]. rewrite andb_true_r. reflexivity.
Qed.

Lemma vset_len (v : vec RA) i x : length (vset v i x) = length v.
Proof. apply upd_length. Qed.
Lemma fv_vset (v : vec RA) i x j : (i < length v)%nat -> fv (vset v i x) j = if Nat.eqb i j then x else fv v j.
Proof. apply (nth_upd_lt v i j x 0). Qed.
Lemma mset_wf n (m : mat RA) i j x : mat_wf n m -> mat_wf n (mset m i j x).
Proof.
  intros [H1 H2]. split.
  - unfold mset. rewrite upd_length. exact H1.
  - intros k Hk. unfold mset.
    transitivity (length (if Nat.eqb i k && Nat.ltb i (length m) then vset (nth i m []) j x else nth k m [])).
    { exact (f_equal (@length R) (nth_upd m i k (vset (nth i m []) j x) [])). }
    destruct (Nat.eqb_spec i k) as [->|E]; [|apply H2, Hk].
    cbn [andb]. destruct (Nat.ltb k _); [|apply H2, Hk].
    transitivity (length (nth k m [])); [apply upd_length|apply H2, Hk].
Qed.
Lemma fm_mset n (m : mat RA) i j x a b : mat_wf n m -> (i < n)%nat -> (j < n)%nat ->
  fm (mset m i j x) a b = if Nat.eqb i a && Nat.eqb j b then x else fm m a b.
Proof.
  intros [H1 H2] Hi Hj. unfold fm, mset.
  transitivity (nth b (if Nat.eqb i a then vset (nth i m []) j x else nth a m []) (0 : num RA)).
  { refine (f_equal (fun r => @nth R b r 0) (nth_upd_lt m i a (vset (nth i m []) j x) [] _)). llia. }
  destruct (Nat.eqb_spec i a) as [->|E]; [|reflexivity]. cbn [andb].
  apply (nth_upd_lt (nth a m []) j b x 0). specialize (H2 a Hi). llia.
Qed.

(** ** Folds over ranges *)
Lemma fold_up {S} (P : nat -> S -> Prop) f len : forall a s, P a s ->
  (forall i s, (a <= i < a + len)%nat -> P i s -> P (Datatypes.S i) (f s i)) ->
  P (a + len)%nat (fold_left f (seq a len) s).
Proof.
  induction len as [|len IH]; intros a s H0 Hs.
  - rewrite Nat.add_0_r. exact H0.
  - cbn [seq fold_left]. replace (a + Datatypes.S len)%nat with (Datatypes.S a + len)%nat by lia.
    apply IH; [apply Hs; [lia|exact H0]|]. intros i s' Hi. apply Hs. lia.
Qed.

Lemma fold_down {S} (P : nat -> S -> Prop) f len : forall a s, P (a + len)%nat s ->
  (forall i s, (a <= i < a + len)%nat -> P (Datatypes.S i) s -> P i (f s i)) ->
  P a (fold_left f (rev (seq a len)) s).
Proof.
  induction len as [|len IH]; intros a s H0 Hs.
  - rewrite Nat.add_0_r in H0. exact H0.
  - cbn [seq rev]. rewrite fold_left_app. cbn [fold_left]. apply Hs; [lia|].
    apply IH; [replace (Datatypes.S a + len)%nat with (a + Datatypes.S len)%nat by lia; exact H0|].
    intros i s' Hi. apply Hs. lia.
Qed.

Lemma lowf_lt M i j : (j < i)%nat -> lowf M i j = M i j.
Proof. intros H. unfold lowf. destruct (Nat.ltb_spec j i); [reflexivity|lia]. Qed.
Lemma lowf_eq M i : lowf M i i = 1.
Proof. unfold lowf. destruct (Nat.ltb_spec i i); [lia|]. rewrite Nat.eqb_refl. reflexivity. Qed.
Lemma lowf_gt M i j : (i < j)%nat -> lowf M i j = 0.
Proof. intros H. unfold lowf. destruct (Nat.ltb_spec j i); [lia|]. destruct (Nat.eqb_spec i j); [lia|reflexivity]. Qed.

(** the lower triangle including the diagonal *)
Definition low_same (n : nat) (M M' : nat -> nat -> R) : Prop :=
  forall i j, (j <= i < n)%nat -> M' i j = M i j.

Lemma low_same_lowf n M M' : low_same n M M' -> forall i j, (i < n)%nat -> (j < n)%nat -> lowf M' i j = lowf M i j.
Proof.
  intros H i j Hi Hj. unfold lowf. destruct (Nat.ltb_spec j i); [apply H; lia|reflexivity].
Qed.

(** ** Forward substitution *)
Section Fwd.
Variables (n : nat) (m : mat RA) (g : vec RA).
Hypothesis Hm : mat_wf n m.
Hypothesis Hg : length g = n.

Definition fwd_inv (j : nat) (st : mat RA * vec RA) : Prop :=
  let '(m', w) := st in
  mat_wf n m' /\ length w = n /\ low_same n (fm m) (fm m') /\
  (forall i, (i < n)%nat -> fv w i + sumn j (fun k => if Nat.ltb k i then fm m i k * fv w k else 0) = fv g i) /\
  (forall k i, (k < j)%nat -> (k < i < n)%nat -> fm m' k i = fm m i k * fv w k).

Lemma fwd_outer_inv j st : (j < n)%nat -> fwd_inv j st -> fwd_inv (S j) (fwd_outer n st j).
Proof.
  intros Hj. destruct st as [m0 w0]. intros (H1 & H2 & H3 & H4 & H5).
  unfold fwd_outer.
  pose (P := fun i (st : mat RA * vec RA) => let '(m', w) := st in
    mat_wf n m' /\ length w = n /\ low_same n (fm m) (fm m') /\
    (forall k, fv w k = if Nat.ltb j k && Nat.ltb k i then fv w0 k - fm m k j * fv w0 j else fv w0 k) /\
    (forall k i', (k < j)%nat -> (k < i' < n)%nat -> fm m' k i' = fm m0 k i') /\
    (forall i', (j < i' < i)%nat -> fm m' j i' = fm m i' j * fv w0 j)).
  assert (HP : P (S j + (n - S j))%nat (fold_left (fwd_inner j) (seq (S j) (n - S j)) (m0, w0))).
  { apply (fold_up P).
    - repeat split; try assumption; try apply H1.
      + intros k. destruct (Nat.ltb_spec j k), (Nat.ltb_spec k (S j)); cbn [andb]; try reflexivity. lia.
      + intros i' Hi'. lia.
    - intros i [m' w] Hi (P1 & P2 & P3 & P4 & P5 & P6). unfold fwd_inner.
      change (mget m' i j) with (fm m' i j). change (vget w j) with (fv w j).
      set (x := @amul RA (fm m' i j) (fv w j)).
      assert (Hx : x = fm m i j * fv w0 j).
      { unfold x. rewrite P3 by lia. rewrite P4. destruct (Nat.ltb_spec j j); [lia|]. reflexivity. }
      assert (Hji : mget (mset m' j i x) j i = x).
      { transitivity (fm (mset m' j i x) j i); [reflexivity|].
        rewrite (fm_mset n) by (assumption || lia). rewrite !Nat.eqb_refl. reflexivity. }
      rewrite Hji. change (vget w i) with (fv w i).
      repeat split.
      + apply mset_wf, P1.
      + apply mset_wf, P1.
      + rewrite vset_len. exact P2.
      + intros a b Hab. rewrite (fm_mset n) by (assumption || lia).
        destruct (Nat.eqb_spec j a), (Nat.eqb_spec i b); cbn [andb]; try (apply P3; lia). lia.
      + intros k. rewrite fv_vset by llia. destruct (Nat.eqb_spec i k) as [<-|E].
        * destruct (Nat.ltb_spec j i); [|lia]. destruct (Nat.ltb_spec i (S i)); [|lia]. cbn [andb].
          rewrite P4. destruct (Nat.ltb_spec i i); [lia|]. rewrite andb_false_r. rewrite Hx. reflexivity.
        * rewrite P4. destruct (Nat.ltb_spec j k), (Nat.ltb_spec k i), (Nat.ltb_spec k (S i)); cbn [andb]; try reflexivity; lia.
      + intros k i' Hk Hi'. rewrite (fm_mset n) by (assumption || lia).
        destruct (Nat.eqb_spec j k); [lia|]. cbn [andb]. apply P5; assumption.
      + intros i' Hi'. rewrite (fm_mset n) by (assumption || lia). rewrite Nat.eqb_refl. cbn [andb].
        destruct (Nat.eqb_spec i i') as [<-|E]; [exact Hx|apply P6; lia]. }
  replace (S j + (n - S j))%nat with n in HP by lia.
  destruct (fold_left (fwd_inner j) (seq (S j) (n - S j)) (m0, w0)) as [m' w].
  destruct HP as (P1 & P2 & P3 & P4 & P5 & P6).
  assert (Hlow : forall k, (k <= j)%nat -> fv w k = fv w0 k).
  { intros k Hk. rewrite P4. destruct (Nat.ltb_spec j k); [lia|reflexivity]. }
  repeat split; try assumption; try apply P1.
  - intros i Hi. cbn [sumn]. rewrite <- H4 by exact Hi.
    rewrite (sumn_ext j _ (fun k => if Nat.ltb k i then fm m i k * fv w0 k else 0)).
    2:{ intros k Hk. rewrite Hlow by lia. reflexivity. }
    rewrite (Hlow j) by lia. rewrite P4. destruct (Nat.ltb_spec j i); cbn [andb]; [|ring].
    destruct (Nat.ltb_spec i n); [ring|lia].
  - intros k i Hk Hi. destruct (Nat.eq_dec k j) as [->|E].
    + rewrite P6 by lia. rewrite Hlow by lia. reflexivity.
    + rewrite P5, Hlow by lia. apply H5; lia.
Qed.

Lemma fwd_ok : (1 <= n)%nat -> let '(m1, w) := fwd_subst n m g in
  mat_wf n m1 /\ length w = n /\ low_same n (fm m) (fm m1) /\
  (forall i, (i < n)%nat -> sumn n (fun j => lowf (fm m) i j * fv w j) = fv g i) /\
  (forall k i, (k < i < n)%nat -> fm m1 k i = fm m i k * fv w k).
Proof.
  intros Hn. unfold fwd_subst.
  assert (HP : fwd_inv (0 + (n - 1)) (fold_left (fwd_outer n) (seq 0 (n - 1)) (m, g))).
  { apply (fold_up fwd_inv).
    - repeat split; try assumption; try apply Hm.
      + intros i Hi. cbn. lra.
      + intros k i Hk. lia.
    - intros i s Hi. apply fwd_outer_inv. lia. }
  destruct (fold_left (fwd_outer n) (seq 0 (n - 1)) (m, g)) as [m1 w].
  cbn [Nat.add] in HP. destruct HP as (P1 & P2 & P3 & P4 & P5).
  repeat split; try assumption; try apply P1.
  - intros i Hi. rewrite <- (P4 i Hi).
    rewrite (sumn_ext n _ (fun j => (if Nat.ltb j i then fm m i j * fv w j else 0) + (if Nat.eqb j i then fv w i else 0))).
    2:{ intros j Hj. unfold lowf. rewrite (Nat.eqb_sym j i). destruct (Nat.ltb_spec j i), (Nat.eqb_spec i j); subst; try lia; ring. }
    rewrite sumn_plus, sumn_delta by exact Hi.
    assert (E : sumn n (fun j => if Nat.ltb j i then fm m i j * fv w j else 0)
              = sumn (n - 1) (fun j => if Nat.ltb j i then fm m i j * fv w j else 0)).
    { replace n with (S (n - 1)) at 1 by lia. cbn [sumn]. destruct (Nat.ltb_spec (n - 1) i); [lia|lra]. }
    rewrite E. lra.
  - intros k i Hk. apply P5; lia.
Qed.
End Fwd.

(** ** Scaling by the diagonal *)
Lemma diag_ok n (m : mat RA) (w : vec RA) : length w = n ->
  length (diag_scale n m w) = n /\ forall i, (i < n)%nat -> fv (diag_scale n m w) i = fv w i * fm m i i.
Proof.
  intros Hw. unfold diag_scale.
  pose (P := fun i (z : vec RA) => length z = n /\ forall k, (k < n)%nat ->
    fv z k = if Nat.ltb k i then fv w k * fm m k k else fv w k).
  assert (HP : P (0 + n)%nat (fold_left (fun z i => vset z i (vget z i * mget m i i)%num) (seq 0 n) w)).
  { apply (fold_up P).
    - split; [exact Hw|]. intros k Hk. destruct (Nat.ltb_spec k 0); [lia|reflexivity].
    - intros i z Hi (P1 & P2). split; [rewrite vset_len; exact P1|].
      intros k Hk. rewrite fv_vset by llia. destruct (Nat.eqb_spec i k) as [<-|E].
      + destruct (Nat.ltb_spec i (S i)); [|lia]. change (vget z i) with (fv z i). rewrite P2 by lia.
        destruct (Nat.ltb_spec i i); [lia|]. reflexivity.
      + rewrite P2 by exact Hk. destruct (Nat.ltb_spec k i), (Nat.ltb_spec k (S i)); try reflexivity; lia. }
  destruct HP as (P1 & P2). split; [exact P1|]. intros i Hi. rewrite P2 by exact Hi.
  destruct (Nat.ltb_spec i (0 + n)); [reflexivity|lia].
Qed.

(** ** Backward substitution *)
Lemma bwd_ok n (m : mat RA) (z : vec RA) : (1 <= n)%nat -> length z = n ->
  length (bwd_subst n m z) = n /\
  forall p, (p < n)%nat -> sumn n (fun j => lowf (fm m) j p * fv (bwd_subst n m z) j) = fv z p.
Proof.
  intros Hn Hz. unfold bwd_subst.
  set (row := fun (q : vec RA) p => sumn n (fun j => if Nat.ltb p j then fm m j p * fv q j else 0)).
  pose (P := fun i (q : vec RA) => length q = n /\ forall p, (p < n)%nat ->
    fv q p + (if Nat.leb i (p + 1) then row q p else 0) = fv z p).
  set (f := fun (q : vec RA) i => fold_left (fun q j => vset q (i - 1) (vget q (i - 1)%nat - mget m j (i - 1) * vget q j)%num) (seq i (n - i)) q).
  change (fun q i => fold_left _ (seq i (n - i)) q) with f.
  assert (HP : P 1%nat (fold_left f (rev (seq 1 (n - 1))) z)).
  { apply (fold_down P).
    - split; [exact Hz|]. intros p Hp. replace (1 + (n - 1))%nat with n by lia.
      destruct (Nat.leb_spec n (p + 1)); [|lra].
      unfold row. rewrite sumn_0; [lra|]. intros j Hj. destruct (Nat.ltb_spec p j); [lia|reflexivity].
    - intros i q Hi (P1 & P2). set (p0 := (i - 1)%nat) in *.
      pose (Q := fun j (q' : vec RA) => length q' = n /\
        (forall p, p <> p0 -> fv q' p = fv q p) /\
        fv q' p0 + sumn j (fun k => if Nat.ltb p0 k then fm m k p0 * fv q k else 0) = fv q p0).
      assert (HQ : Q (i + (n - i))%nat (f q i)).
      { unfold f. apply (fold_up Q).
        - split; [exact P1|]. split; [reflexivity|]. rewrite sumn_0; [lra|].
          intros k Hk. destruct (Nat.ltb_spec p0 k); [lia|reflexivity].
        - intros j q' Hj (Q1 & Q2 & Q3). change (i - 1)%nat with p0. split; [rewrite vset_len; exact Q1|].
          split.
          + intros p Hp. rewrite fv_vset by llia. destruct (Nat.eqb_spec p0 p); [congruence|]. apply Q2, Hp.
          + rewrite fv_vset by llia. rewrite Nat.eqb_refl. cbn [sumn].
            destruct (Nat.ltb_spec p0 j); [|lia]. change (vget q' p0) with (fv q' p0). change (vget q' j) with (fv q' j).
            change (mget m j p0) with (fm m j p0). rewrite (Q2 j) by lia. rewrite <- Q3. rn. ring. }
      replace (i + (n - i))%nat with n in HQ by lia. destruct HQ as (Q1 & Q2 & Q3).
      split; [exact Q1|]. intros p Hp.
      assert (Hrow : (p0 <= p)%nat -> row (f q i) p = row q p).
      { intros Hpp. unfold row. apply sumn_ext. intros j Hj. destruct (Nat.ltb_spec p j); [|reflexivity].
        rewrite Q2 by lia. reflexivity. }
      destruct (Nat.eq_dec p p0) as [->|E].
      + rewrite Hrow by lia. destruct (Nat.leb_spec i (p0 + 1)); [|lia].
        unfold row. rewrite Q3. specialize (P2 p0 Hp). destruct (Nat.leb_spec (S i) (p0 + 1)); [lia|]. lra.
      + rewrite Q2 by exact E. specialize (P2 p Hp).
        destruct (Nat.leb_spec i (p + 1)), (Nat.leb_spec (S i) (p + 1)); try lia; [|exact P2].
        rewrite Hrow by lia. exact P2. }
  destruct HP as (P1 & P2). split; [exact P1|]. intros p Hp. specialize (P2 p Hp).
  destruct (Nat.leb_spec 1 (p + 1)); [|lia]. set (q := fold_left f (rev (seq 1 (n - 1))) z) in *.
  rewrite (sumn_ext n _ (fun j => (if Nat.eqb j p then fv q p else 0) + (if Nat.ltb p j then fm m j p * fv q j else 0))).
  2:{ intros j Hj. unfold lowf. destruct (Nat.ltb_spec p j), (Nat.eqb_spec j p); subst; try lia; ring. }
  rewrite sumn_plus, sumn_delta by exact Hp. exact P2.
Qed.
