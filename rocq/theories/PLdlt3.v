(** The factorisation loops, the witness and the square root. *)
From Coq Require Import Reals List Arith Lia Lra Psatz Bool.
From Verif Require Import Arith Vec ModelLdlt Spec SpecStable SpecLdlt PSum PCalc PVec PStable PLdlt PLdlt2.
Import ListNotations.
Local Open Scope R_scope.

Definition sh (s : nat) (M : nat -> nat -> R) : nat -> nat -> R := fun i j => M (s + i)%nat (s + j)%nat.

Lemma fac_step n A start p m m1 d : mat_wf n m -> (start + p < n)%nat ->
  fac p (sh start A) (sh start (fm m)) -> (forall k, (k < p)%nat -> 0 < sh start (fm m) k k) ->
  factor_row (A:=RA) A start (start + p) m = (m1, d) ->
  mat_wf n m1 /\ fac (S p) (sh start A) (sh start (fm m1)) /\ sh start (fm m1) p p = d /\
  (forall k, (k < p)%nat -> 0 < sh start (fm m1) k k).
Proof.
  intros Hm Hp (F1 & F2 & F3) Hd Er.
  pose proof (row_ok n A start (start + p) m Hm ltac:(lia)) as H. rewrite Er in H.
  destruct H as (Hm1 & Hpp & Hs & Hu & Hl & Hdd). replace (start + p - start)%nat with p in Hdd by lia.
  assert (S1 : forall a b, (a < p)%nat -> (b < p)%nat -> sh start (fm m1) a b = sh start (fm m) a b).
  { intros a b Ha Hb. unfold sh. apply Hs; lia. }
  split; [exact Hm1|]. split; [|split; [exact Hpp|intros k Hk; rewrite S1 by assumption; apply Hd, Hk]].
  assert (U1 : forall c, (c < p)%nat -> sh start (fm m1) c p =
    sh start A p c - sumn c (fun k => sh start (fm m1) p k * sh start (fm m1) k c)).
  { intros c Hc. unfold sh at 1. rewrite Hu by lia. replace (start + c - start)%nat with c by lia.
    unfold sh at 1. f_equal. apply sumn_ext. intros k Hk. rewrite (S1 k c) by lia. reflexivity. }
  split; [|split].
  - intros c r Hr. destruct (Nat.eq_dec r p) as [->|Hne].
    + rewrite (S1 c c) by lia. unfold sh. rewrite (Hl (start + c)%nat) by lia.
      specialize (Hd c ltac:(lia)). unfold sh in Hd. field. lra.
    + rewrite !S1 by lia. apply F1. lia.
  - intros c r Hr. destruct (Nat.eq_dec r p) as [->|Hne].
    + rewrite U1 by lia. ring.
    + rewrite S1 by lia. rewrite F2 by lia. f_equal. apply sumn_ext. intros k Hk. rewrite !S1 by lia. reflexivity.
  - intros r Hr. destruct (Nat.eq_dec r p) as [->|Hne].
    + unfold sh at 4. rewrite Hpp, Hdd. unfold sh. ring.
    + rewrite S1 by lia. rewrite F3 by lia. f_equal. apply sumn_ext. intros k Hk. rewrite !S1 by lia. reflexivity.
Qed.

(** What a factorisation with outcome [(start, stop)] leaves in the store. *)
Definition failed (n : nat) (A : nat -> nat -> R) (m : mat RA) (start stop : nat) : Prop :=
  exists p, stop = S (start + p) /\ (start + p < n)%nat /\
    fac (S p) (sh start A) (sh start (fm m)) /\ (forall k, (k < p)%nat -> 0 < sh start (fm m) k k).

Lemma loop_ok n A : forall len i (m : mat RA), (i + len = n)%nat -> mat_wf n m ->
  fac i A (fm m) -> (forall k, (k < i)%nat -> 0 < fm m k k) ->
  exists m1 e, factor_loop (A:=RA) A (seq i len) m = (m1, (0%nat, e)) /\ mat_wf n m1 /\
    ((e = 0%nat /\ fac n A (fm m1) /\ forall k, (k < n)%nat -> 0 < fm m1 k k) \/
     (failed n A m1 0 e /\ fm m1 (e - 1)%nat (e - 1)%nat <= 0)).
Proof.
  induction len as [|len IH]; intros i m Hi Hm HF Hd.
  - exists m, 0%nat. cbn [seq factor_loop]. split; [reflexivity|]. split; [exact Hm|]. left.
    replace n with i by lia. auto.
  - cbn [seq factor_loop]. destruct (factor_row (A:=RA) A 0 i m) as [m1 d] eqn:Er.
    destruct (fac_step n A 0 i m m1 d Hm ltac:(lia) HF Hd Er) as (Hm1 & HF1 & Hdd & Hd1).
    change (@aleb RA d azero) with (Rleb d 0).
    destruct (Rle_dec d 0) as [Hle|Hgt].
    + rewrite Rleb_true by exact Hle. exists m1, (S i). split; [reflexivity|]. split; [exact Hm1|]. right.
      split; [|replace (S i - 1)%nat with i by lia; unfold sh in Hdd; cbn [Nat.add] in Hdd; rewrite Hdd; exact Hle].
      exists i. split; [reflexivity|]. split; [lia|]. split; assumption.
    + rewrite Rleb_false by lra. apply IH; [lia|exact Hm1|exact HF1|].
      intros k Hk. destruct (Nat.eq_dec k i) as [->|Hne]; [|apply Hd1; lia].
      unfold sh in Hdd; cbn [Nat.add] in Hdd. rewrite Hdd. lra.
Qed.

Lemma fac_0 a l : fac 0 a l.
Proof. split; [|split]; intros; lia. Qed.

Lemma semi_ok n A : forall len i start (m : mat RA), (i + len = n)%nat -> (start <= i)%nat -> mat_wf n m ->
  fac (i - start) (sh start A) (sh start (fm m)) -> (forall k, (k < i - start)%nat -> 0 < sh start (fm m) k k) ->
  exists m1 s e, factor_semi_loop (A:=RA) A start (seq i len) m = (m1, (s, e)) /\ mat_wf n m1 /\
    ((s = 0%nat /\ e = 0%nat) \/ (failed n A m1 s e /\ fm m1 (e - 1)%nat (e - 1)%nat < 0)).
Proof.
  induction len as [|len IH]; intros i start m Hi Hst Hm HF Hd.
  - exists m, 0%nat, 0%nat. auto.
  - cbn [seq factor_semi_loop]. destruct (factor_row (A:=RA) A start i m) as [m1 d] eqn:Er.
    replace i with (start + (i - start))%nat in Er by lia.
    destruct (fac_step n A start (i - start) m m1 d Hm ltac:(lia) HF Hd Er) as (Hm1 & HF1 & Hdd & Hd1).
    assert (Hii : sh start (fm m1) (i - start) (i - start) = fm m1 i i)
      by (unfold sh; replace (start + (i - start))%nat with i by lia; reflexivity).
    change (@altb RA d azero) with (Rltb d 0). change (@aeqb RA d azero) with (Reqb d 0).
    destruct (Rlt_dec d 0) as [Hlt|Hge].
    + rewrite Rltb_true by exact Hlt. exists m1, start, (S i). split; [reflexivity|]. split; [exact Hm1|]. right.
      split; [|replace (S i - 1)%nat with i by lia; rewrite <- Hii, Hdd; exact Hlt].
      exists (i - start)%nat. split; [lia|]. split; [lia|]. split; assumption.
    + rewrite Rltb_false by lra. destruct (Req_dec d 0) as [H0|H0].
      * rewrite Reqb_true by exact H0. apply IH; [lia|lia|exact Hm1| |intros k Hk; lia].
        rewrite Nat.sub_diag. apply fac_0.
      * rewrite Reqb_false by exact H0. apply IH; [lia|lia|exact Hm1| |].
        -- replace (S i - start)%nat with (S (i - start)) by lia. exact HF1.
        -- intros k Hk. destruct (Nat.eq_dec k (i - start)) as [->|Hne]; [|apply Hd1; lia]. rewrite Hdd. lra.
Qed.

(** ** Embedding a block *)
Definition pad (s e : nat) (w : nat -> R) : nat -> R :=
  fun i => if Nat.leb s i && Nat.ltb i e then w i else 0.

Lemma sumn_pad n s e f : (s <= e <= n)%nat -> (forall i, (i < n)%nat -> ~ (s <= i < e)%nat -> f i = 0) ->
  sumn n f = sumn (e - s) (fun i => f (s + i)%nat).
Proof.
  intros He H. rewrite (sumn_cut n e) by (try lia; intros; apply H; lia).
  replace e with (s + (e - s))%nat at 1 by lia. rewrite sumn_split, sumn_0; [ring|].
  intros i Hi. apply H; lia.
Qed.

Lemma pad_in s e w i : (s <= i < e)%nat -> pad s e w i = w i.
Proof.
  intros H. unfold pad. destruct (Nat.leb_spec s i), (Nat.ltb_spec i e); try lia. reflexivity.
Qed.
Lemma pad_out s e w i : ~ (s <= i < e)%nat -> pad s e w i = 0.
Proof.
  intros H. unfold pad. destruct (Nat.leb_spec s i), (Nat.ltb_spec i e); try lia; reflexivity.
Qed.

Lemma quad_pad n M s e w : (s <= e <= n)%nat ->
  quad n M (pad s e w) = quad (e - s) (sh s M) (fun i => w (s + i)%nat).
Proof.
  intros He. unfold quad. rewrite !bil_sum. rewrite (sumn_pad n s e); [|exact He|].
  - apply sumn_ext. intros i Hi. rewrite (sumn_pad n s e); [|exact He|].
    + apply sumn_ext. intros j Hj. rewrite !pad_in by lia. reflexivity.
    + intros j _ Hj. rewrite (pad_out _ _ _ j) by exact Hj. ring.
  - intros i _ Hi. apply sumn_0. intros j Hj. rewrite (pad_out _ _ _ i) by exact Hi. ring.
Qed.

(** ** [witness] *)
Lemma wit_dot_R (m : mat RA) (w : vec RA) i p :
  wit_dot m w i p = sumn (p - i) (fun k => fm m (i + k)%nat (i - 1)%nat * fv w (i + k)%nat).
Proof. unfold wit_dot. exact (vsum_seq (fun k => fm m k (i - 1)%nat * fv w k) i (p - i)). Qed.

Lemma witness_ok n A (s : ldlt RA) : ldlt_wf n s -> symmetric n A ->
  failed n A (storage s) (fst (pos s)) (snd (pos s)) ->
  exists s1, witness s = (s1, Ok (- fm (storage s) (snd (pos s) - 1)%nat (snd (pos s) - 1)%nat)) /\
    ldlt_wf n s1 /\ pos s1 = pos s /\ storage s1 = storage s /\
    (fst (pos s) < snd (pos s) <= n)%nat /\
    wit_vec s1 (snd (pos s) - 1)%nat = 1 /\
    quad n A (wit_vec s1) = fm (storage s) (snd (pos s) - 1)%nat (snd (pos s) - 1)%nat /\
    (forall i, (i < n)%nat -> ~ (fst (pos s) <= i < snd (pos s))%nat -> fv (wit s1) i = fv (wit s) i).
Proof.
  intros (Hn & Hw & Hm) Hsym (p & He & Hp & HF & Hd).
  unfold witness, is_spd. destruct (pos s) as [st e] eqn:Ep. cbn [fst snd] in *. subst e.
  cbn [Nat.eqb]. replace (S (st + p) - 1)%nat with (st + p)%nat by lia.
  replace (st + p - st)%nat with p by lia.
  set (w0 := vset (wit s) (st + p) aone). set (m := storage s) in *.
  set (step := fun w i => vset w (i - 1)%nat (@aneg RA (wit_dot m w i (S (st + p))))).
  set (Inv := fun (i : nat) (w : vec RA) => length w = n /\ fv w (st + p)%nat = 1 /\
     (forall k, (i <= S k)%nat -> (st <= k < st + p)%nat ->
        fv w k = - sumn (st + p - k) (fun q => fm m (S k + q)%nat k * fv w (S k + q)%nat)) /\
     (forall k, (k < n)%nat -> ~ (st <= k < S (st + p))%nat -> fv w k = fv (wit s) k)).
  assert (Hi : Inv (S st) (fold_left step (rev (seq (S st) p)) w0)).
  { apply (fold_down Inv step p (S st) w0).
    - split; [unfold w0; rewrite vset_len; exact Hw|]. split; [|split].
      + unfold w0. rewrite fv_vset by (unfold vec_wf in Hw; llia). rewrite Nat.eqb_refl. reflexivity.
      + intros k H1 H2. lia.
      + intros k Hk H. unfold w0. rewrite fv_vset by (unfold vec_wf in Hw; llia).
        destruct (Nat.eqb_spec (st + p) k); [lia|reflexivity].
    - intros i w Hr (I1 & I2 & I3 & I4).
      assert (E : forall k, fv (step w i) k = if Nat.eqb (i - 1) k then - wit_dot m w i (S (st + p)) else fv w k)
        by (intros; unfold step; apply fv_vset; llia).
      assert (Eo : forall k, k <> (i - 1)%nat -> fv (step w i) k = fv w k).
      { intros k Hk. rewrite E. destruct (Nat.eqb_spec (i - 1) k); [congruence|reflexivity]. }
      split; [unfold step; rewrite vset_len; exact I1|]. split; [rewrite Eo by lia; exact I2|]. split.
      + intros k H1 H2. destruct (Nat.eq_dec k (i - 1)) as [->|Hne].
        * rewrite E, Nat.eqb_refl. change (@aneg RA) with Ropp. f_equal. rewrite wit_dot_R.
          replace (S (i - 1)) with i by lia. replace (S (st + p) - i)%nat with (st + p - (i - 1))%nat by lia.
          apply sumn_ext. intros q Hq. rewrite Eo by lia. reflexivity.
        * rewrite Eo by exact Hne. rewrite I3 by lia. f_equal. apply sumn_ext. intros q Hq. rewrite Eo by lia. reflexivity.
      + intros k Hk H. rewrite Eo by lia. apply I4; assumption. }
  change (num RA) with R in *.
  match goal with |- context [fold_left ?f (rev (seq (S st) p)) ?x] => change (fold_left f (rev (seq (S st) p)) x) with (fold_left step (rev (seq (S st) p)) w0) end.
  set (w := fold_left step (rev (seq (S st) p)) w0) in *. destruct Hi as (I1 & I2 & I3 & I4).
  eexists. split; [reflexivity|]. cbn [pos storage wit l_ndim].
  split; [split; [exact Hn|split; [exact I1|exact Hm]]|]. split; [reflexivity|]. split; [reflexivity|]. split; [lia|].
  assert (Ev : wit_vec (mkLdlt (A:=RA) (st, S (st + p)) w (l_ndim s) m) = pad st (S (st + p)) (fv w)) by reflexivity.
  rewrite Ev. split; [rewrite pad_in by lia; exact I2|]. split; [|exact I4].
  rewrite quad_pad by lia. replace (S (st + p) - st)%nat with (S p) by lia.
  rewrite (fac_witness (S p) (sh st A) (sh st (fm m)) HF) with (m := p); [reflexivity| | reflexivity|exact I2|].
  - intros i j Hi Hj. apply Hsym; lia.
  - intros k Hk. rewrite tL_split by lia. rewrite (I3 (st + k)%nat) by lia.
    replace (st + p - (st + k))%nat with (S p - S k)%nat by lia.
    rewrite (sumn_ext _ (fun q => fm m (S (st + k) + q)%nat (st + k)%nat * fv w (S (st + k) + q)%nat)
       (fun i => sh st (fm m) (S k + i)%nat k * fv w (st + (S k + i))%nat)); [ring|].
    intros q Hq. unfold sh. replace (st + (S k + q))%nat with (S (st + k) + q)%nat by lia. reflexivity.
Qed.

(** ** [sym_quad] *)
Lemma nth_skip {T} (l : list T) a i d : nth i (skipn a l) d = nth (a + i) l d.
Proof.
  revert l. induction a as [|a IH]; intros l; [reflexivity|].
  destruct l as [|x l]; [destruct i; reflexivity|]. cbn [skipn]. rewrite IH. reflexivity.
Qed.
Lemma nth_first {T} (l : list T) a i d : (i < a)%nat -> nth i (firstn a l) d = nth i l d.
Proof.
  revert l i. induction a as [|a IH]; intros l i Hi; [lia|].
  destruct l as [|x l]; [reflexivity|]. destruct i as [|i]; [reflexivity|]. cbn [firstn nth]. apply IH. lia.
Qed.

Lemma vslice_R (v : vec RA) a b n : length v = n -> (a <= b <= n)%nat ->
  length (vslice v a b) = (b - a)%nat /\ forall i, (i < b - a)%nat -> fv (vslice v a b) i = fv v (a + i)%nat.
Proof.
  intros Hv H. unfold vslice. split.
  - rewrite firstn_length, skipn_length. llia.
  - intros i Hi. unfold fv. rewrite nth_first by exact Hi. apply nth_skip.
Qed.

Lemma sym_quad_R n (s : ldlt RA) (b : mat RA) : ldlt_wf n s -> mat_wf n b -> (fst (pos s) <= snd (pos s) <= n)%nat ->
  sym_quad s b = quad n (fm b) (wit_vec s).
Proof.
  intros (Hn & Hw & Hm) [Hb1 Hb2] He. unfold sym_quad.
  change (wit_vec s) with (pad (fst (pos s)) (snd (pos s)) (fv (wit s))).
  destruct (pos s) as [st e]. cbn [fst snd] in *. rewrite quad_pad by exact He.
  destruct (vslice_R (wit s) st e n Hw He) as [W1 W2].
  set (w := vslice (wit s) st e) in *.
  set (rows := map (fun row => vslice row st e) (firstn (e - st) (skipn st b))).
  assert (Hl : length (firstn (e - st) (skipn st b)) = (e - st)%nat) by (rewrite firstn_length, skipn_length; llia).
  assert (Er : forall i, (i < e - st)%nat -> nth i rows [] = vslice (nth (st + i) b []) st e).
  { intros i Hi. unfold rows.
    transitivity (vslice (nth i (firstn (e - st) (skipn st b)) []) st e).
    - apply (nth_map_gen (fun row => vslice row st e)). llia.
    - rewrite nth_first by exact Hi. rewrite nth_skip. reflexivity. }
  assert (Hr : mat_wf (e - st) rows).
  { split; [unfold rows; rewrite map_length; exact Hl|]. intros i Hi.
    transitivity (length (vslice (nth (st + i) b []) st e)); [exact (f_equal (@length R) (Er i Hi))|].
    apply (vslice_R _ st e n); [apply Hb2; lia|exact He]. }
  rewrite (vdot_R (e - st)); [|exact W1|rewrite mvmul_length; apply Hr].
  unfold quad, bil. apply dot_ext; [exact W2|]. intros i Hi.
  rewrite (mvmul_R (e - st)) by assumption. apply sumn_ext. intros j Hj. rewrite W2 by exact Hj. f_equal.
  unfold sh. rewrite !fm_row. change (num RA) with R in *. rewrite Er by exact Hi.
  apply (vslice_R _ st e n); [apply Hb2; lia|exact He|exact Hj].
Qed.

(** ** [sqrt] *)
Lemma nth_rep {T} (x d : T) n i : (i < n)%nat -> nth i (repeat x n) d = x.
Proof. revert i. induction n; intros i Hi; [lia|]. destruct i; [reflexivity|]. simpl. apply IHn. lia. Qed.

Lemma mzeros_wf n : mat_wf n (mzeros (A:=RA) n).
Proof.
  split; [apply repeat_length|]. intros i Hi. unfold mzeros.
  transitivity (length (vzeros (A:=RA) n)); [|apply repeat_length].
  exact (f_equal (@length R) (nth_rep (vzeros (A:=RA) n) [] n i Hi)).
Qed.
Lemma mzeros_R n i j : (i < n)%nat -> (j < n)%nat -> fm (mzeros (A:=RA) n) i j = 0.
Proof.
  intros Hi Hj. rewrite fm_row. transitivity (fv (vzeros (A:=RA) n) j).
  - exact (f_equal (fun r => fv r j) (nth_rep (vzeros (A:=RA) n) [] n i Hi)).
  - apply fv_repeat. exact Hj.
Qed.

Section Sqrt.
Variables (n : nat) (m : mat RA).

Definition sq_inv (i : nat) (r : mat RA) : Prop :=
  mat_wf n r /\ forall a b, (a < n)%nat -> (b < n)%nat ->
    fm r a b = if Nat.ltb a i then lowf (fm m) b a * sqrt (fm m a a) else 0.

Lemma sqrt_row_inv i r : (i < n)%nat -> sq_inv i r -> sq_inv (S i) (sqrt_row m n r i).
Proof.
  intros Hi [Hr He]. unfold sqrt_row. set (d := sqrt (fm m i i)).
  change (@asqrt RA (mget m i i)) with d. set (r0 := mset r i i (d : num RA)).
  assert (Hr0 : mat_wf n r0) by (apply mset_wf; exact Hr).
  set (P := fun (j : nat) (r1 : mat RA) => mat_wf n r1 /\ forall a b, (a < n)%nat -> (b < n)%nat ->
     fm r1 a b = if Nat.eqb a i then if Nat.eqb b i then d else if Nat.ltb i b && Nat.ltb b j then fm m b i * d else 0 else fm r a b).
  assert (H : P n (fold_left (fun r j => mset r i j (@amul RA (mget m j i) (mget r i i))) (seq (S i) (n - S i)) r0)).
  { replace n with (S i + (n - S i))%nat at 1 by lia. apply fold_up.
    - split; [exact Hr0|]. intros a b Ha Hb. unfold r0. rewrite (fm_mset n) by assumption.
      destruct (Nat.eqb_spec a i) as [->|Hne].
      + rewrite Nat.eqb_refl. cbn [andb]. rewrite Nat.eqb_sym. destruct (Nat.eqb_spec b i) as [_|Hb']; [reflexivity|].
        replace (Nat.ltb i b && Nat.ltb b (S i)) with false.
        * rewrite He by assumption. destruct (Nat.ltb_spec i i); [lia|reflexivity].
        * symmetry. destruct (Nat.ltb_spec i b), (Nat.ltb_spec b (S i)); try reflexivity; lia.
      + destruct (Nat.eqb_spec i a); [congruence|reflexivity].
    - intros j r1 Hj [H1 H2]. split; [apply mset_wf; exact H1|]. intros a b Ha Hb.
      rewrite (fm_mset n) by (assumption || lia).
      assert (Ed : mget r1 i i = d).
      { transitivity (fm r1 i i); [reflexivity|]. rewrite H2 by assumption. rewrite Nat.eqb_refl. reflexivity. }
      rewrite Ed. destruct (Nat.eqb_spec i a) as [<-|Hne].
      + rewrite Nat.eqb_refl. cbn [andb]. destruct (Nat.eqb_spec j b) as [<-|Hjb].
        * destruct (Nat.eqb_spec j i); [lia|]. destruct (Nat.ltb_spec i j); [|lia].
          destruct (Nat.ltb_spec j (S j)); [|lia]. reflexivity.
        * rewrite H2 by assumption. rewrite Nat.eqb_refl. destruct (Nat.eqb_spec b i); [reflexivity|].
          destruct (Nat.ltb_spec i b), (Nat.ltb_spec b j), (Nat.ltb_spec b (S j)); try reflexivity; lia.
      + cbn [andb]. rewrite H2 by assumption. destruct (Nat.eqb_spec a i); [congruence|reflexivity]. }
  destruct H as [H1 H2]. split; [exact H1|]. intros a b Ha Hb.
  change (num RA) with R in *. rewrite H2 by assumption.
  destruct (Nat.eqb_spec a i) as [->|Hne].
  - destruct (Nat.ltb_spec i (S i)); [|lia]. fold d. destruct (Nat.eqb_spec b i) as [->|Hb'].
    + rewrite lowf_eq. ring.
    + destruct (Nat.ltb_spec i b) as [Hlt|Hge]; cbn [andb].
      * destruct (Nat.ltb_spec b n); [|lia]. rewrite lowf_lt by exact Hlt. reflexivity.
      * rewrite lowf_gt by lia. ring.
  - rewrite He by assumption. destruct (Nat.ltb_spec a i), (Nat.ltb_spec a (S i)); try reflexivity; lia.
Qed.

Lemma sqrt_loop_ok : sq_inv n (fold_left (sqrt_row m n) (seq 0 n) (mzeros n)).
Proof.
  change n with (0 + n)%nat at 1. apply (fold_up sq_inv (sqrt_row m n) n 0).
  - split; [apply mzeros_wf|]. intros a b Ha Hb. rewrite mzeros_R by assumption. reflexivity.
  - intros i r Hi. apply sqrt_row_inv. lia.
Qed.
End Sqrt.
