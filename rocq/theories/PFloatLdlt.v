(** [LDLTMgr.factor] over any arithmetic: the stored numbers satisfy the
    defining recurrences.  In doubles: error bounds for each of them. *)
From Coq Require Import List Arith Lia Bool.
From Verif Require Import Arith Vec ModelLdlt.
From Verif Require Import SpecLdlt PVec PStable PFloatEll PFloatStable.
Import ListNotations.

Section Gen.
Context {A : Arith}.
Variable g : nat -> nat -> num A.
Local Open Scope num_scope.

(** the number stored at column [c] of row [i] before the division *)
Definition gdiag (m : mat A) (i c : nat) : num A :=
  if Nat.eqb c 0 then g i 0%nat else g i c - row_dot m i 0 c.

Definition rows_done (m : mat A) (p : nat) : Prop :=
  forall i, (i < p)%nat ->
    (forall c, (c <= i)%nat -> mget m c i = gdiag m i c) /\
    (forall c, (c < i)%nat -> mget m i c = mget m c i / mget m c c).

Lemma row_dot_ext (m m' : mat A) i c :
  (forall k, (k < c)%nat -> mget m i k = mget m' i k) -> (forall k, (k < c)%nat -> mget m k c = mget m' k c) ->
  row_dot m i 0 c = row_dot m' i 0 c.
Proof.
  intros H1 H2. unfold row_dot. f_equal. apply map_ext_in. intros k Hk. apply in_seq in Hk.
  rewrite H1, H2 by lia. reflexivity.
Qed.

Lemma gdiag_ext (m m' : mat A) i c :
  (forall k, (k < c)%nat -> mget m i k = mget m' i k) -> (forall k, (k < c)%nat -> mget m k c = mget m' k c) ->
  gdiag m i c = gdiag m' i c.
Proof. intros H1 H2. unfold gdiag. rewrite (row_dot_ext m m') by assumption. reflexivity. Qed.

Section Row.
Variables (n i : nat) (m : mat A).
Hypothesis Hm : msq n m.
Hypothesis Hi : (i < n)%nat.

Definition grow_inv (j : nat) (st : mat A * num A) : Prop :=
  let '(m1, diag) := st in
  msq n m1 /\
  (forall a b, a <> i -> b <> i -> mget m1 a b = mget m a b) /\
  (forall c, (c < j)%nat -> mget m1 c i = gdiag m1 i c) /\
  (forall c, (c < j)%nat -> mget m1 i c = mget m1 c i / mget m1 c c) /\
  diag = gdiag m1 i j.

Lemma grow_S j st : (j < i)%nat -> grow_inv j st -> grow_inv (S j) (factor_col g 0 i st j).
Proof.
  intros Hj. destruct st as [m1 diag]. intros (Hm1 & Hs & Hu & Hl & Hd).
  unfold factor_col. set (m2 := mset m1 j i diag). set (m3 := mset m2 i j (diag / mget m2 j j)).
  assert (Hm2 : msq n m2) by (apply gmset_sq; exact Hm1).
  assert (Hm3 : msq n m3) by (apply gmset_sq; exact Hm2).
  assert (E2 : forall a b, mget m2 a b = if Nat.eqb j a && Nat.eqb i b then diag else mget m1 a b)
    by (intros; apply (mget_mset n); [exact Hm1|lia|lia]).
  assert (E3 : forall a b, mget m3 a b = if Nat.eqb i a && Nat.eqb j b then diag / mget m2 j j else mget m2 a b)
    by (intros; apply (mget_mset n m2); [exact Hm2|lia|lia]).
  assert (Eo : forall a b, ~ (a = i /\ b = j) -> ~ (a = j /\ b = i) -> mget m3 a b = mget m1 a b).
  { intros a b H1 H2. rewrite E3, (E2 a b).
    destruct (Nat.eqb_spec i a), (Nat.eqb_spec j b), (Nat.eqb_spec j a), (Nat.eqb_spec i b); cbn [andb]; auto; exfalso; lia. }
  assert (Ejj : mget m2 j j = mget m1 j j).
  { rewrite E2. replace (Nat.eqb i j) with false by (symmetry; apply Nat.eqb_neq; lia).
    rewrite andb_false_r. reflexivity. }
  assert (Eij : mget m3 i j = diag / mget m1 j j) by (rewrite E3, !Nat.eqb_refl, Ejj; reflexivity).
  assert (Eji : mget m3 j i = diag).
  { rewrite E3, (E2 j i), !Nat.eqb_refl. replace (Nat.eqb i j) with false by (symmetry; apply Nat.eqb_neq; lia). reflexivity. }
  assert (Egd : forall c, (c <= j)%nat -> gdiag m3 i c = gdiag m1 i c).
  { intros c Hc. apply gdiag_ext; intros k Hk; apply Eo; lia. }
  split; [exact Hm3|]. split; [|split; [|split]].
  - intros a b H1 H2. rewrite Eo by lia. apply Hs; lia.
  - intros c Hc. rewrite Egd by lia. destruct (Nat.eq_dec c j) as [->|Hne].
    + rewrite Eji. exact Hd.
    + rewrite Eo by lia. apply Hu. lia.
  - intros c Hc. rewrite (Eo c c) by lia. destruct (Nat.eq_dec c j) as [->|Hne].
    + rewrite Eij, Eji. reflexivity.
    + rewrite !Eo by lia. apply Hl. lia.
  - unfold gdiag. cbn [Nat.eqb]. reflexivity.
Qed.

Lemma grow_ok : let '(m1, d) := factor_row g 0 i m in
  msq n m1 /\ mget m1 i i = d /\
  (forall a b, a <> i -> b <> i -> mget m1 a b = mget m a b) /\
  (forall c, (c <= i)%nat -> mget m1 c i = gdiag m1 i c) /\
  (forall c, (c < i)%nat -> mget m1 i c = mget m1 c i / mget m1 c c).
Proof.
  unfold factor_row.
  pose proof (fold_up (fun j st => grow_inv j st) (factor_col g 0 i) (i - 0) 0 (m, g i 0%nat)) as H.
  replace (0 + (i - 0))%nat with i in H by lia.
  specialize (H ltac:(split; [exact Hm|]; split; [auto|]; split; [intros; lia|]; split; [intros; lia|]; reflexivity)).
  specialize (H ltac:(intros j st Hj; apply grow_S; lia)).
  destruct (fold_left _ _ _) as [m1 d]. destruct H as (Hm1 & Hs & Hu & Hl & Hd).
  match goal with |- msq n ?x /\ _ => set (m2 := x) end.
  assert (E : forall a b, mget m2 a b = if Nat.eqb i a && Nat.eqb i b then d else mget m1 a b)
    by (intros; apply (mget_mset n); [exact Hm1|lia|lia]).
  assert (Eo : forall a b, ~ (a = i /\ b = i) -> mget m2 a b = mget m1 a b).
  { intros a b H1. rewrite E. destruct (Nat.eqb_spec i a), (Nat.eqb_spec i b); cbn [andb]; auto; exfalso; lia. }
  assert (Eii : mget m2 i i = d) by (rewrite E, Nat.eqb_refl; reflexivity).
  assert (Egd : forall c, (c <= i)%nat -> gdiag m2 i c = gdiag m1 i c).
  { intros c Hc. apply gdiag_ext; intros k Hk; apply Eo; lia. }
  split; [apply gmset_sq; exact Hm1|]. split; [exact Eii|].
  split; [intros a b H1 H2; rewrite Eo by lia; apply Hs; lia|].
  split.
  - intros c Hc. rewrite Egd by exact Hc. destruct (Nat.eq_dec c i) as [->|Hne].
    + rewrite Eii. exact Hd.
    + rewrite Eo by lia. apply Hu. lia.
  - intros c Hc. rewrite !Eo by lia. apply Hl. lia.
Qed.
End Row.

Lemma rows_step n i (m m1 : mat A) d : msq n m -> (i < n)%nat -> rows_done m i -> factor_row g 0 i m = (m1, d) ->
  msq n m1 /\ mget m1 i i = d /\ rows_done m1 (S i) /\
  (forall a b, (a < i)%nat -> (b < i)%nat -> mget m1 a b = mget m a b).
Proof.
  intros Hm Hi HR Er. pose proof (grow_ok n i m Hm Hi) as H. rewrite Er in H.
  destruct H as (Hm1 & Hd & Hs & Hu & Hl).
  split; [exact Hm1|]. split; [exact Hd|]. split; [|intros a b Ha Hb; apply Hs; lia].
  intros r Hr. destruct (Nat.eq_dec r i) as [->|Hne]; [split; assumption|].
  destruct (HR r ltac:(lia)) as [R1 R2]. split.
  - intros c Hc. rewrite Hs by lia. rewrite R1 by exact Hc. symmetry. apply gdiag_ext; intros k Hk; apply Hs; lia.
  - intros c Hc. rewrite !Hs by lia. apply R2. exact Hc.
Qed.

Lemma loop_rows n : forall len i (m : mat A), (i + len = n)%nat -> msq n m -> rows_done m i ->
  (forall k, (k < i)%nat -> aleb (mget m k k) azero = false) ->
  exists m1 e, factor_loop g (seq i len) m = (m1, (0%nat, e)) /\ msq n m1 /\
    ((e = 0%nat /\ rows_done m1 n /\ forall k, (k < n)%nat -> aleb (mget m1 k k) azero = false) \/
     (exists p, e = S p /\ (p < n)%nat /\ rows_done m1 e /\ (forall k, (k < p)%nat -> aleb (mget m1 k k) azero = false) /\
        aleb (mget m1 p p) azero = true)).
Proof.
  induction len as [|len IH]; intros i m Hi Hm HR Hd.
  - exists m, 0%nat. cbn [seq factor_loop]. split; [reflexivity|]. split; [exact Hm|]. left.
    replace n with i by lia. auto.
  - cbn [seq factor_loop]. destruct (factor_row g 0 i m) as [m1 d] eqn:Er.
    destruct (rows_step n i m m1 d Hm ltac:(lia) HR Er) as (Hm1 & Hdd & HR1 & Hs).
    assert (Hd1 : forall k, (k < i)%nat -> aleb (mget m1 k k) azero = false) by (intros k Hk; rewrite Hs by exact Hk; apply Hd, Hk).
    destruct (aleb d azero) eqn:Ed.
    + exists m1, (S i). split; [reflexivity|]. split; [exact Hm1|]. right. exists i.
      split; [reflexivity|]. split; [lia|]. split; [exact HR1|]. split; [exact Hd1|]. rewrite Hdd. exact Ed.
    + apply IH; [lia|exact Hm1|exact HR1|].
      intros k Hk. destruct (Nat.eq_dec k i) as [->|Hne]; [rewrite Hdd; exact Ed|apply Hd1; lia].
Qed.

Lemma factor_rows n (s s1 : ldlt A) b : shape n s -> factor g s = (s1, b) ->
  rows_done (storage s1) (rows n s1) /\
  ((b = true /\ rows n s1 = n /\ forall k, (k < n)%nat -> aleb (mget (storage s1) k k) azero = false) \/
   (b = false /\ exists p, pos s1 = (0%nat, S p) /\ rows n s1 = S p /\ (p < n)%nat /\
      (forall k, (k < p)%nat -> aleb (mget (storage s1) k k) azero = false) /\ aleb (mget (storage s1) p p) azero = true)).
Proof.
  intros (H1 & _ & H2 & H3) HF. unfold factor in HF. rewrite H1 in HF.
  destruct (loop_rows n n 0 (storage s) eq_refl (conj H2 H3)) as (m1 & e & EF & _ & HC);
    [intros i Hi; lia|intros k Hk; lia|].
  rewrite EF in HF. injection HF as <- <-. unfold rows, is_spd. cbn [pos snd storage].
  destruct HC as [(-> & HR & Hp)|(p & -> & Hp & HR & Hd & Hpp)]; cbn [Nat.eqb].
  - split; [exact HR|]. left. auto.
  - split; [exact HR|]. right. split; [reflexivity|]. exists p. auto.
Qed.
End Gen.
