(** The rank-one update of the factors. *)
From Coq Require Import Reals List Arith Lia Lra Psatz Bool.
From Verif Require Import Arith Vec ModelCalc ModelEll ModelStable SpecDrivers Spec SpecCut SpecEll SpecStable PSum PCalc PVec PStable.
Import ListNotations.
Local Open Scope R_scope.

(** sums over [j, j+1, ..., j+len-1] *)
Fixpoint tsum (len j : nat) (f : nat -> R) : R :=
  match len with O => 0 | S k => f j + tsum k (S j) f end.
Fixpoint tprod (len j : nat) (f : nat -> R) : R :=
  match len with O => 1 | S k => f j * tprod k (S j) f end.

Lemma tsum_sumn len : forall j f, tsum len j f = sumn len (fun i => f (j + i)%nat).
Proof.
  induction len as [|len IH]; intros j f; [reflexivity|].
  rewrite sumn_S_l. cbn [tsum]. rewrite IH, Nat.add_0_r. f_equal. apply sumn_ext. intros i Hi. f_equal. lia.
Qed.
Lemma tsum0 n f : tsum n 0 f = sumn n f.
Proof. rewrite tsum_sumn. reflexivity. Qed.
Lemma tsum_ext len j f g : (forall i, (j <= i < j + len)%nat -> f i = g i) -> tsum len j f = tsum len j g.
Proof. intros H. rewrite !tsum_sumn. apply sumn_ext. intros i Hi. apply H. lia. Qed.
Lemma tsum_ge_0 len j f : (forall i, (j <= i < j + len)%nat -> 0 <= f i) -> 0 <= tsum len j f.
Proof. intros H. rewrite tsum_sumn. apply sumn_ge_0. intros i Hi. apply H. lia. Qed.

Lemma prodn_S_l n f : prodn (S n) f = f O * prodn n (fun i => f (S i)).
Proof.
  induction n; [cbn; ring|].
  change (prodn (S (S n)) f) with (prodn (S n) f * f (S n)). rewrite IHn. cbn [prodn]. ring.
Qed.
Lemma prodn_ext n f g : (forall i, (i < n)%nat -> f i = g i) -> prodn n f = prodn n g.
Proof. induction n; cbn; intros H; [reflexivity|]. rewrite IHn, (H n); auto with arith. Qed.
Lemma tprod_prodn len : forall j f, tprod len j f = prodn len (fun i => f (j + i)%nat).
Proof.
  induction len as [|len IH]; intros j f; [reflexivity|].
  rewrite prodn_S_l. cbn [tprod]. rewrite IH, Nat.add_0_r. f_equal. apply prodn_ext. intros i Hi. f_equal. lia.
Qed.
Lemma tprod0 n f : tprod n 0 f = prodn n f.
Proof. rewrite tprod_prodn. reflexivity. Qed.
Lemma tprod_ext len j f g : (forall i, (j <= i < j + len)%nat -> f i = g i) -> tprod len j f = tprod len j g.
Proof. intros H. rewrite !tprod_prodn. apply prodn_ext. intros i Hi. apply H. lia. Qed.

(** the part of [v . x] from index [j] on *)
Definition tdot (n j : nat) (v x : nat -> R) : R := sumn n (fun i => (if Nat.ltb i j then 0 else v i) * x i).

Section R1.
Variables (n : nat) (z : vec RA) (w : nat -> R).
Hypothesis Hz : length z = n.

(** one column *)
Lemma rank1_col j beta2 (m : mat RA) (v : vec RA) : (j < n)%nat -> mat_wf n m -> length v = n ->
  exists m' v', fold_left (rank1_inner j beta2) (seq (S j) (n - S j)) (m, v) = (m', v') /\
    mat_wf n m' /\ length v' = n /\
    (forall i, fv v' i = if Nat.ltb j i && Nat.ltb i n then fv v i - fm m j i else fv v i) /\
    (forall a b, (a < n)%nat -> (b < n)%nat -> fm m' a b = if Nat.eqb b j && Nat.ltb j a then fm m a b + beta2 * fv v' a else fm m a b).
Proof.
  intros Hj Hm Hv.
  pose (P := fun k (st : mat RA * vec RA) => let '(m', v') := st in
    mat_wf n m' /\ length v' = n /\
    (forall i, fv v' i = if Nat.ltb j i && Nat.ltb i k then fv v i - fm m j i else fv v i) /\
    (forall a b, (a < n)%nat -> (b < n)%nat -> fm m' a b = if Nat.eqb b j && Nat.ltb j a && Nat.ltb a k then fm m a b + beta2 * (fv v a - fm m j a) else fm m a b)).
  assert (HP : P (S j + (n - S j))%nat (fold_left (rank1_inner j beta2) (seq (S j) (n - S j)) (m, v))).
  { apply (fold_up P).
    - split; [exact Hm|]. split; [exact Hv|]. split.
      + intros i. destruct (Nat.ltb_spec j i), (Nat.ltb_spec i (S j)); cbn [andb]; try reflexivity. lia.
      + intros a b Ha Hb. destruct (Nat.eqb_spec b j), (Nat.ltb_spec j a), (Nat.ltb_spec a (S j)); cbn [andb]; try reflexivity. lia.
    - intros k [m' v'] Hk (P1 & P2 & P3 & P4). unfold rank1_inner.
      change (vget v' k) with (fv v' k). change (mget m' j k) with (fm m' j k). change (mget m' k j) with (fm m' k j).
      set (x := @asub RA (fv v' k) (fm m' j k)).
      assert (Hx : x = fv v k - fm m j k).
      { unfold x. rewrite P3, P4 by lia. destruct (Nat.ltb_spec k k); [lia|]. rewrite !andb_false_r.
        destruct (Nat.eqb_spec k j); [lia|]. reflexivity. }
      assert (Hx' : vget (vset v' k x) k = x).
      { transitivity (fv (vset v' k x) k); [reflexivity|]. rewrite fv_vset by llia. rewrite Nat.eqb_refl. reflexivity. }
      rewrite Hx'. split; [apply mset_wf, P1|]. split; [rewrite vset_len; exact P2|]. split.
      + intros i. rewrite fv_vset by llia. destruct (Nat.eqb_spec k i) as [<-|E].
        * destruct (Nat.ltb_spec j k); [|lia]. destruct (Nat.ltb_spec k (S k)); [|lia]. exact Hx.
        * rewrite P3. destruct (Nat.ltb_spec j i), (Nat.ltb_spec i k), (Nat.ltb_spec i (S k)); cbn [andb]; try reflexivity; lia.
      + intros a b Ha Hb. rewrite (fm_mset n) by (assumption || lia).
        destruct (Nat.eqb_spec k a) as [<-|E].
        * destruct (Nat.eqb_spec j b) as [<-|E2]; cbn [andb].
          -- rewrite Nat.eqb_refl. destruct (Nat.ltb_spec j k); [|lia]. destruct (Nat.ltb_spec k (S k)); [|lia]. cbn [andb].
             rewrite P4 by lia. destruct (Nat.ltb_spec k k); [lia|]. rewrite andb_false_r. rewrite Hx. reflexivity.
          -- rewrite P4 by lia. destruct (Nat.eqb_spec b j); [lia|]. reflexivity.
        * cbn [andb]. rewrite P4 by lia.
          destruct (Nat.eqb_spec b j), (Nat.ltb_spec j a), (Nat.ltb_spec a k), (Nat.ltb_spec a (S k)); cbn [andb]; try reflexivity; lia. }
  replace (S j + (n - S j))%nat with n in HP by lia.
  destruct (fold_left (rank1_inner j beta2) (seq (S j) (n - S j)) (m, v)) as [m' v'].
  destruct HP as (P1 & P2 & P3 & P4). exists m', v'. repeat split; try assumption; try apply P1.
  intros a b Ha Hb. rewrite P4 by assumption. rewrite P3. destruct (Nat.ltb_spec a n); [|lia]. rewrite !andb_true_r.
  destruct (Nat.eqb b j); [|reflexivity]. cbn [andb]. destruct (Nat.ltb j a); reflexivity.
Qed.

Definition pos_or_neg (t T : R) : Prop := 0 < t \/ T < 0.

Lemma rank1_ok len : forall j (m : mat RA) (v : vec RA) (t : R),
  (j + len = n)%nat -> mat_wf n m -> length v = n ->
  (forall a, (j <= a < n)%nat -> 0 < fm m a a /\ fv z a = fm m a a * w a) ->
  (forall a k, (j <= a)%nat -> (a < k < n)%nat -> fm m a k = fm m k a * w a) ->
  (forall i, (j <= i < n)%nat -> fv v i = tsum len j (fun a => lowf (fm m) i a * w a)) ->
  pos_or_neg t (t + tsum len j (fun a => w a * fv z a)) ->
  exists m', rank1_loop n z (seq j len) m v t = (m', Ok tt) /\
    mat_wf n m' /\
    (forall a b, (b < j)%nat -> (a < n)%nat -> fm m' a b = fm m a b) /\
    (forall a, (j <= a < n)%nat -> 0 < fm m' a a) /\
    (forall x y, tsum len j (fun a => tL n (fm m') x a * tL n (fm m') y a / fm m' a a)
       = tsum len j (fun a => tL n (fm m) x a * tL n (fm m) y a / fm m a a)
         + tdot n j (fv v) x * tdot n j (fv v) y / t) /\
    tprod len j (fun a => fm m' a a) * (t + tsum len j (fun a => w a * fv z a))
      = tprod len j (fun a => fm m a a) * t.
Proof.
  induction len as [|len IH]; intros j m v t Hj Hm Hv Hd Hup Hv' Ht.
  - exists m. cbn [seq rank1_loop tsum tprod]. split; [reflexivity|]. split; [exact Hm|]. split; [reflexivity|].
    split; [intros a Ha; lia|]. split; [|lra].
    intros x y. assert (E : forall x, tdot n j (fv v) x = 0).
    { intros x0. apply sumn_0. intros i Hi. destruct (Nat.ltb_spec i j); [ring|lia]. }
    rewrite !E. unfold Rdiv. ring.
  - cbn [seq rank1_loop]. change (vget v j) with (fv v j). change (vget z j) with (fv z j).
    assert (Hvj : fv v j = w j).
    { rewrite Hv' by lia. cbn [tsum]. rewrite lowf_eq.
      assert (E : tsum len (S j) (fun a => lowf (fm m) j a * w a) = 0).
      { rewrite tsum_sumn. apply sumn_0. intros i Hi. rewrite lowf_gt by lia. ring. }
      rewrite E. ring. }
    destruct (Hd j) as [Hdj Hzj]; [lia|].
    assert (Hwz : forall a, (j <= a < n)%nat -> 0 <= w a * fv z a).
    { intros a Ha. destruct (Hd a Ha) as [H1 H2]. rewrite H2. pose proof (Rle_0_sqr (w a)). unfold Rsqr in H. nra. }
    cbn [tsum] in Ht. set (rest := tsum len (S j) (fun a => w a * fv z a)) in *.
    assert (Hrest : 0 <= rest) by (apply tsum_ge_0; intros a Ha; apply Hwz; lia).
    pose proof (Hwz j ltac:(lia)) as Hwzj.
    set (t1 := t + w j * fv z j).
    assert (Ht0 : t <> 0) by (destruct Ht; lra).
    assert (Ht1 : t1 <> 0) by (unfold t1; destruct Ht; lra).
    assert (Htt : 0 < t / t1).
    { unfold Rdiv. destruct Ht as [H|H].
      - apply Rmult_lt_0_compat; [exact H|]. apply Rinv_0_lt_compat. unfold t1. lra.
      - replace (t * / t1) with ((- t) * / (- t1)) by (field; exact Ht1).
        apply Rmult_lt_0_compat; [lra|]. apply Rinv_0_lt_compat. unfold t1. lra. }
    change (@amul RA (fv v j) (fv z j)) with (fv v j * fv z j). rewrite Hvj.
    change (@aadd RA t (w j * fv z j)) with t1.
    assert (Epd : pdiv (A:=RA) (fv z j) t1 = Ok (fv z j / t1)).
    { unfold pdiv. change (aeqb (t1 : num RA) azero) with (Reqb t1 0). rewrite Reqb_false by exact Ht1. reflexivity. }
    rewrite ndiv_R. rewrite Epd. set (b2 := fv z j / t1). set (dj := @amul RA (mget m j j) (@adiv RA t t1)).
    assert (Hdj' : dj = fm m j j * (t / t1)) by reflexivity.
    set (m1 := mset m j j dj).
    assert (Hm1 : mat_wf n m1) by (apply mset_wf, Hm).
    assert (Em1 : forall a b, (a < n)%nat -> (b < n)%nat -> fm m1 a b = if Nat.eqb j a && Nat.eqb j b then dj else fm m a b).
    { intros a b Ha Hb. unfold m1. apply (fm_mset n); [exact Hm|lia|lia]. }
    destruct (rank1_col j b2 m1 v ltac:(lia) Hm1 Hv) as (m2 & v2 & E2 & Hm2 & Hl2 & Hv2 & Em2).
    change (num RA) with R in E2. rewrite E2.
    (* entries after the column *)
    assert (Hother : forall a b, (a < n)%nat -> (b < n)%nat -> b <> j -> fm m2 a b = fm m a b).
    { intros a b Ha Hb Hbj. rewrite Em2 by assumption. destruct (Nat.eqb_spec b j); [congruence|]. cbn [andb].
      rewrite Em1 by assumption. destruct (Nat.eqb_spec j b); [congruence|]. rewrite andb_false_r. reflexivity. }
    assert (Hdiag : fm m2 j j = dj).
    { rewrite Em2 by lia. destruct (Nat.ltb_spec j j); [lia|]. rewrite andb_false_r. rewrite Em1 by lia. rewrite !Nat.eqb_refl. reflexivity. }
    assert (Hcol : forall a, (j < a < n)%nat -> fm m2 a j = fm m a j + b2 * fv v2 a).
    { intros a Ha. rewrite Em2 by lia. rewrite Nat.eqb_refl. destruct (Nat.ltb_spec j a); [|lia]. cbn [andb].
      rewrite Em1 by lia. destruct (Nat.eqb_spec j a); [lia|]. reflexivity. }
    assert (Hv2' : forall i, (j < i < n)%nat -> fv v2 i = fv v i - fm m i j * w j).
    { intros i Hi. rewrite Hv2. destruct (Nat.ltb_spec j i); [|lia]. destruct (Nat.ltb_spec i n); [|lia]. cbn [andb].
      rewrite Em1 by lia. destruct (Nat.eqb_spec j i); [lia|]. rewrite andb_false_r. rewrite Hup by lia. reflexivity. }
    assert (Hlow2 : forall i a, (i < n)%nat -> (a < n)%nat -> a <> j -> lowf (fm m2) i a = lowf (fm m) i a).
    { intros i a Hi Ha Haj. unfold lowf. destruct (Nat.ltb_spec a i); [|reflexivity]. apply Hother; lia. }
    destruct (IH (S j) m2 v2 t1) as (m' & E' & Hm' & Hc' & Hd' & Hf' & Hp').
    + lia.
    + exact Hm2.
    + exact Hl2.
    + intros a Ha. rewrite Hother by lia. apply Hd. lia.
    + intros a k Ha Hk. rewrite !Hother by lia. apply Hup; lia.
    + intros i Hi. rewrite Hv2' by lia. rewrite Hv' by lia. cbn [tsum]. rewrite (lowf_lt _ i j) by lia.
      rewrite (tsum_ext len (S j) (fun a => lowf (fm m2) i a * w a) (fun a => lowf (fm m) i a * w a)); [ring|].
      intros a Ha. rewrite Hlow2 by lia. reflexivity.
    + fold rest. unfold t1. destruct Ht; [left|right]; lra.
    + exists m'. split; [exact E'|]. split; [exact Hm'|].
      assert (Hjj : fm m' j j = dj) by (rewrite Hc' by lia; exact Hdiag).
      split; [intros a b Hb Ha; rewrite Hc' by lia; apply Hother; lia|].
      split.
      { intros a Ha. destruct (Nat.eq_dec a j) as [->|E]; [|apply Hd'; lia].
        rewrite Hjj, Hdj'. apply Rmult_lt_0_compat; assumption. }
      assert (HtL : forall x, tL n (fm m') x j = tL n (fm m) x j + b2 * tdot n (S j) (fv v2) x).
      { intros x. unfold tL, tdot. rewrite <- sumn_scal, <- sumn_plus. apply sumn_ext. intros i Hi.
        unfold lowf. destruct (Nat.ltb_spec j i).
        - rewrite Hc' by lia. rewrite Hcol by lia. destruct (Nat.ltb_spec i (S j)); [lia|]. ring.
        - destruct (Nat.ltb_spec i (S j)); [|lia]. ring. }
      assert (HS : forall x, tdot n (S j) (fv v2) x = tdot n j (fv v) x - w j * tL n (fm m) x j).
      { intros x. unfold tL, tdot. rewrite <- sumn_scal, <- sumn_minus. apply sumn_ext. intros i Hi.
        unfold lowf. destruct (Nat.ltb_spec i (S j)), (Nat.ltb_spec i j), (Nat.ltb_spec j i), (Nat.eqb_spec i j); try lia.
        - ring.
        - subst i. rewrite Hvj. ring.
        - rewrite Hv2' by lia. ring. }
      split.
      { intros x y. cbn [tsum]. rewrite Hf'. rewrite !HtL, !HS, Hjj, Hdj'.
        rewrite (tsum_ext len (S j) (fun a => tL n (fm m2) x a * tL n (fm m2) y a / fm m2 a a)
                   (fun a => tL n (fm m) x a * tL n (fm m) y a / fm m a a)).
        2:{ intros a Ha. rewrite Hother by lia. f_equal. f_equal; apply sumn_ext; intros i Hi; rewrite Hlow2 by lia; reflexivity. }
        set (A := tsum len (S j) _). set (p := tL n (fm m) x j). set (q := tL n (fm m) y j).
        set (sx := tdot n j (fv v) x). set (sy := tdot n j (fv v) y).
        unfold b2. rewrite Hzj. unfold t1 in *. rewrite Hzj in *. set (d := fm m j j) in *. set (ww := w j) in *.
        clearbody A p q sx sy. field. repeat split; lra. }
      { cbn [tprod tsum]. fold rest in Hp' |- *. rewrite Hjj, Hdj'.
        rewrite (tprod_ext len (S j) (fun a => fm m2 a a) (fun a => fm m a a)) in Hp'.
        2:{ intros a Ha. apply Hother; lia. }
        replace (t + (w j * fv z j + rest)) with (t1 + rest) by (unfold t1; ring).
        transitivity (fm m j j * (t / t1) * (tprod len (S j) (fun a => fm m' a a) * (t1 + rest))); [ring|].
        rewrite Hp'. field. exact Ht1. }
Qed.
End R1.
