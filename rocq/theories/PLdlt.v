(** One row of the LDL^T factorisation. *)
From Coq Require Import Reals List Arith Lia Lra Bool.
From Verif Require Import Arith Vec ModelLdlt Spec SpecStable PSum PCalc PVec PStable.
Import ListNotations.
Local Open Scope R_scope.

Lemma mget_fm (m : mat RA) i j : mget m i j = fm m i j.
Proof. reflexivity. Qed.

Lemma vsum_seq (f : nat -> R) a len : vsum (A:=RA) (map f (seq a len)) = sumn len (fun k => f (a + k)%nat).
Proof.
  rewrite vsum_R. assert (E : length (map f (seq a len)) = len) by (rewrite map_length; apply seq_length).
  change (num RA) with R. rewrite E. apply sumn_ext. intros k Hk. unfold fv.
  rewrite (nth_map_gen f (seq a len) k 0%nat 0) by (rewrite seq_length; exact Hk).
  rewrite seq_nth by exact Hk. reflexivity.
Qed.

Lemma row_dot_R (m : mat RA) i start stop :
  row_dot m i start stop = sumn (stop - start) (fun k => fm m i (start + k)%nat * fm m (start + k)%nat stop).
Proof. unfold row_dot. exact (vsum_seq (fun k => fm m i k * fm m k stop) start (stop - start)). Qed.

Section Row.
Variables (n : nat) (A : nat -> nat -> R) (start i : nat) (m : mat RA).
Hypothesis Hm : mat_wf n m.
Hypothesis Hi : (start <= i < n)%nat.

Definition row_inv (j : nat) (st : mat RA * num RA) : Prop :=
  let '(m1, diag) := st in
  mat_wf n m1 /\
  (forall a b, ~ (a = i /\ (start <= b < j)%nat) -> ~ (b = i /\ (start <= a < j)%nat) -> fm m1 a b = fm m a b) /\
  (forall c, (start <= c < j)%nat ->
     fm m1 c i = A i c - sumn (c - start) (fun k => fm m1 i (start + k)%nat * fm m (start + k)%nat c)) /\
  (forall c, (start <= c < j)%nat -> fm m1 i c = fm m1 c i / fm m c c) /\
  diag = A i j - sumn (j - start) (fun k => fm m1 i (start + k)%nat * fm m1 (start + k)%nat j).

Lemma row_inv_0 : row_inv start (m, A i start).
Proof.
  split; [exact Hm|]. split; [reflexivity|]. split; [intros; lia|]. split; [intros; lia|].
  rewrite Nat.sub_diag. exact (eq_sym (Rminus_0_r _)).
Qed.

Lemma row_inv_S j st : (start <= j < i)%nat -> row_inv j st -> row_inv (S j) (factor_col (A:=RA) A start i st j).
Proof.
  intros Hj. destruct st as [m1 diag]. intros (Hm1 & Hs & Hu & Hl & Hd).
  unfold factor_col. set (m2 := mset m1 j i diag). set (m3 := mset m2 i j (@adiv RA diag (mget m2 j j))).
  assert (Hm2 : mat_wf n m2) by (apply mset_wf; exact Hm1).
  assert (Hm3 : mat_wf n m3) by (apply mset_wf; exact Hm2).
  assert (E2 : forall a b, fm m2 a b = if Nat.eqb j a && Nat.eqb i b then diag else fm m1 a b)
    by (intros; apply (fm_mset n); [exact Hm1|lia|lia]).
  assert (Ejj : fm m2 j j = fm m j j).
  { rewrite E2. replace (Nat.eqb i j) with false by (symmetry; apply Nat.eqb_neq; lia).
    rewrite andb_false_r. apply Hs; lia. }
  assert (E3 : forall a b, fm m3 a b = if Nat.eqb i a && Nat.eqb j b then diag / fm m j j else fm m2 a b).
  { intros. rewrite <- Ejj. apply (fm_mset n m2 i j (diag / fm m2 j j)); [exact Hm2|lia|lia]. }
  assert (Eo : forall a b, ~ (a = i /\ b = j) -> ~ (a = j /\ b = i) -> fm m3 a b = fm m1 a b).
  { intros a b H1 H2. rewrite E3, E2.
    destruct (Nat.eqb_spec i a), (Nat.eqb_spec j b), (Nat.eqb_spec j a), (Nat.eqb_spec i b); cbn [andb]; auto; exfalso; lia. }
  assert (Eij : fm m3 i j = diag / fm m j j) by (rewrite E3, !Nat.eqb_refl; reflexivity).
  assert (Eji : fm m3 j i = diag).
  { rewrite E3, E2, !Nat.eqb_refl. replace (Nat.eqb i j) with false by (symmetry; apply Nat.eqb_neq; lia). reflexivity. }
  split; [exact Hm3|]. split; [|split; [|split]].
  - intros a b H1 H2. rewrite Eo by lia. apply Hs; lia.
  - intros c Hc. destruct (Nat.eq_dec c j) as [->|Hne].
    + rewrite Eji, Hd. f_equal. apply sumn_ext. intros k Hk. rewrite Eo by lia. f_equal. apply Hs; lia.
    + rewrite Eo by lia. rewrite Hu by lia. f_equal. apply sumn_ext. intros k Hk. rewrite Eo by lia. reflexivity.
  - intros c Hc. destruct (Nat.eq_dec c j) as [->|Hne].
    + rewrite Eij, Eji. reflexivity.
    + rewrite !Eo by lia. apply Hl. lia.
  - change (A i (S j) - row_dot m3 i start (S j) = A i (S j) -
      sumn (S j - start) (fun k => fm m3 i (start + k)%nat * fm m3 (start + k)%nat (S j))).
    rewrite row_dot_R. reflexivity.
Qed.

Lemma row_ok : let '(m1, d) := factor_row (A:=RA) A start i m in
  mat_wf n m1 /\ fm m1 i i = d /\
  (forall a b, ~ (a = i /\ (start <= b <= i)%nat) -> ~ (b = i /\ (start <= a <= i)%nat) -> fm m1 a b = fm m a b) /\
  (forall c, (start <= c < i)%nat ->
     fm m1 c i = A i c - sumn (c - start) (fun k => fm m1 i (start + k)%nat * fm m (start + k)%nat c)) /\
  (forall c, (start <= c < i)%nat -> fm m1 i c = fm m1 c i / fm m c c) /\
  d = A i i - sumn (i - start) (fun k => fm m1 i (start + k)%nat * fm m1 (start + k)%nat i).
Proof.
  unfold factor_row.
  pose proof (fold_up (fun j st => row_inv j st) (factor_col (A:=RA) A start i) (i - start) start (m, A i start) row_inv_0) as H.
  replace (start + (i - start))%nat with i in H by lia.
  specialize (H ltac:(intros j st Hj; apply row_inv_S; lia)).
  change (num RA) with R in *.
  destruct (fold_left _ _ _) as [m1 d]. destruct H as (Hm1 & Hs & Hu & Hl & Hd).
  match goal with |- mat_wf n ?x /\ _ => set (m2 := x) end.
  assert (E : forall a b, fm m2 a b = if Nat.eqb i a && Nat.eqb i b then d else fm m1 a b)
    by (intros; apply (fm_mset n); [exact Hm1|lia|lia]).
  assert (Eo : forall a b, ~ (a = i /\ b = i) -> fm m2 a b = fm m1 a b).
  { intros a b H1. rewrite E. destruct (Nat.eqb_spec i a), (Nat.eqb_spec i b); cbn [andb]; auto; exfalso; lia. }
  split; [apply mset_wf; exact Hm1|]. split; [rewrite E, Nat.eqb_refl; reflexivity|].
  split; [intros a b H1 H2; rewrite Eo by lia; apply Hs; lia|].
  split; [|split].
  - intros c Hc. rewrite Eo by lia. rewrite Hu by lia. f_equal. apply sumn_ext. intros k Hk. rewrite Eo by lia. reflexivity.
  - intros c Hc. rewrite !Eo by lia. apply Hl. lia.
  - rewrite Hd. f_equal. apply sumn_ext. intros k Hk. rewrite !Eo by lia. reflexivity.
Qed.
End Row.
