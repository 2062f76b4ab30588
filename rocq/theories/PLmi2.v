(** The two implementations of the LMI oracle give the same answers. *)
From Coq Require Import List Arith Lia Bool.
From Verif Require Import Arith Vec ModelCalc ModelEll ModelLdlt ModelLmi SpecLdlt PVec PStable PLdlt5.
Import ListNotations.

Section Same.
Context {A : Arith}.

Lemma factor_shape n (g : nat -> nat -> num A) (s : ldlt A) : shape n s -> shape n (fst (factor g s)).
Proof.
  intros (N & W & L). unfold factor. rewrite N. destruct (factor_loop g (seq 0 n) (storage s)) as [m1 [st e]] eqn:E.
  destruct (loop_same n g g n 0 (storage s) (storage s) m1 st e eq_refl L L ltac:(auto) E ltac:(auto)) as (m1' & _ & Q & _).
  split; [reflexivity|split; [exact W|exact Q]].
Qed.

Lemma witness_shape n (s : ldlt A) : shape n s -> shape n (fst (witness s)).
Proof.
  intros (N & W & L). unfold witness. destruct (is_spd s); [split; auto|]. destruct (pos s) as [st e]. cbn [fst].
  split; [exact N|]. split; [|exact L]. cbn [wit].
  generalize (rev (seq (S st) (e - 1 - st))). intros l.
  assert (G : forall w, length w = n -> length (fold_left (fun w i => vset w (i - 1) (aneg (wit_dot (storage s) w i e))) l w) = n).
  { induction l as [|i l IH]; intros w Hw; [exact Hw|]. cbn [fold_left]. apply IH. unfold vset. rewrite upd_length. exact Hw. }
  apply G. unfold vset. rewrite upd_length. exact W.
Qed.

Lemma square_map2 m (f : num A -> num A -> num A) (a b : mat A) : square_mat m a -> square_mat m b ->
  square_mat m (map2 (map2 f) a b) /\
  forall i j, (i < m)%nat -> (j < m)%nat -> mget (map2 (map2 f) a b) i j = f (mget a i j) (mget b i j).
Proof.
  intros [A1 A2] [B1 B2].
  assert (E : forall i, (i < m)%nat -> nth i (map2 (map2 f) a b) [] = map2 f (nth i a []) (nth i b [])).
  { intros i Hi. apply nth_map2; lia. }
  split; [split|].
  - rewrite map2_length by congruence. exact A1.
  - intros i Hi. rewrite E by exact Hi. rewrite map2_length; rewrite A2 by exact Hi; [reflexivity|symmetry; apply B2, Hi].
  - intros i j Hi Hj. unfold mget, vget. rewrite E by exact Hi. apply nth_map2; [rewrite A2, B2; auto|rewrite A2; auto].
Qed.

Lemma square_map m (f : num A -> num A) (a : mat A) : square_mat m a ->
  square_mat m (map (map f) a) /\
  forall i j, (i < m)%nat -> (j < m)%nat -> mget (map (map f) a) i j = f (mget a i j).
Proof.
  intros [A1 A2].
  assert (E : forall i, (i < m)%nat -> nth i (map (map f) a) [] = map f (nth i a [])).
  { intros i Hi. apply nth_map_gen. lia. }
  split; [split|].
  - rewrite map_length. exact A1.
  - intros i Hi. rewrite E, map_length by exact Hi. apply A2, Hi.
  - intros i j Hi Hj. unfold mget, vget. rewrite E by exact Hi. apply nth_map_gen. rewrite A2; auto.
Qed.

(** the sum of the scaled matrices, entry by entry *)
Definition part (f : list (mat A)) (x : vec A) (i j k : nat) : num A := amul (mget (nth k f []) i j) (vget x k).

Lemma msum_entry m f (x : vec A) : Forall (square_mat m) f -> forall n, (n <= length f)%nat ->
  match msum_scaled f x n with
  | None => n = O
  | Some s => square_mat m s /\ forall i j, (i < m)%nat -> (j < m)%nat ->
      mget s i j = fold_left aadd (map (part f x i j) (seq 0 n)) azero
  end /\ (n <> O -> msum_scaled f x n <> None).
Proof.
  intros Hf. induction n as [|n IH]; intros Hn.
  - cbn. auto.
  - specialize (IH ltac:(lia)). destruct IH as [IH IH2].
    assert (Hk : square_mat m (nth n f [])) by (rewrite Forall_forall in Hf; apply Hf, nth_In; lia).
    assert (ES : msum_scaled f x (S n) =
      match msum_scaled f x n with
      | None => Some (map (map (aadd azero)) (map (map (fun a => amul a (vget x n))) (nth n f [])))
      | Some s => Some (madd s (map (map (fun a => amul a (vget x n))) (nth n f [])))
      end).
    { unfold msum_scaled. rewrite seq_S, fold_left_app. reflexivity. }
    rewrite ES. destruct (square_map m (fun a => amul a (vget x n)) _ Hk) as [T1 T2].
    destruct (msum_scaled f x n) as [s|].
    + destruct IH as [I1 I2]. split; [|discriminate]. unfold madd.
      change (map2 vadd) with (map2 (map2 (@aadd A))).
      destruct (square_map2 m aadd s _ I1 T1) as [U1 U2]. split; [exact U1|].
      intros i j Hi Hj. rewrite U2, I2, T2 by assumption.
      rewrite seq_S, map_app, fold_left_app. reflexivity.
    + subst n. split; [|discriminate].
      destruct (square_map m (aadd azero) _ T1) as [U1 U2]. split; [exact U1|].
      intros i j Hi Hj. rewrite U2, T2 by assumption. reflexivity.
Qed.

Lemma zip_seq (h : mat A -> num A) : forall (f : list (mat A)) (x : vec A), length x = length f ->
  map2 (fun fk xk => amul (h fk) xk) f x = map (fun k => amul (h (nth k f [])) (vget x k)) (seq 0 (length x)).
Proof.
  induction f as [|a f IH]; intros [|y x] H; try discriminate; [reflexivity|].
  cbn [map2 length seq map]. f_equal. rewrite IH by (injection H; auto). rewrite <- seq_shift, map_map. reflexivity.
Qed.

Lemma old_mat_entry m f (b : mat A) (x : vec A) : square_mat m b -> Forall (square_mat m) f -> length x = length f ->
  forall i j, (i < m)%nat -> (j < m)%nat -> mget (lmi_old_mat f b x) i j = lmi_elem f b x i j.
Proof.
  intros Hb Hf Hx i j Hi Hj. unfold lmi_old_mat, lmi_elem. rewrite (zip_seq (fun fk => mget fk i j) f x Hx).
  destruct (msum_entry m f x Hf (length x) ltac:(lia)) as [M1 M2].
  destruct (msum_scaled f x (length x)) as [s|].
  - destruct M1 as [S1 S2]. unfold msub. change (map2 vsub) with (map2 (map2 (@asub A))).
    rewrite (proj2 (square_map2 m asub b s Hb S1)) by assumption. rewrite S2 by assumption. reflexivity.
  - rewrite M1. cbn [seq map]. rewrite (proj2 (square_map m _ b Hb)) by assumption. reflexivity.
Qed.

Lemma map_seq_nth {T} (h : mat A -> T) : forall f, map (fun i => h (nth i f [])) (seq 0 (length f)) = map h f.
Proof.
  induction f as [|a f IH]; [reflexivity|]. cbn [length seq map nth]. f_equal. rewrite <- seq_shift, map_map. exact IH.
Qed.

Definition lmi_same (m : nat) (o o' : lmi A) : Prop :=
  lmi_shape m o /\ lmi_shape m o' /\ mat_f o' = mat_f o /\ mat_f0 o' = mat_f0 o.

Lemma lmi_old_step m (o o' : lmi A) x : lmi_same m o o' -> length x = length (mat_f o) ->
  snd (lmi_old_assess_feas o' x) = snd (lmi_assess_feas o x) /\
  lmi_same m (fst (lmi_assess_feas o x)) (fst (lmi_old_assess_feas o' x)) /\
  mat_f (fst (lmi_assess_feas o x)) = mat_f o.
Proof.
  intros ((B1 & F1 & L1) & (B2 & F2 & L2) & E1 & E2) Hx. unfold lmi_assess_feas, lmi_old_assess_feas.
  rewrite E1, E2. replace (Nat.ltb (length (mat_f o)) (length x)) with false by (symmetry; apply Nat.ltb_ge; lia).
  pose proof (factor_shape m (lmi_elem (mat_f o) (mat_f0 o) x) _ L1) as SH.
  pose proof (factor_shape m (fun i j => mget (lmi_old_mat (mat_f o) (mat_f0 o) x) i j) _ L2) as SH'.
  destruct (factor (lmi_elem (mat_f o) (mat_f0 o) x) (ldlt_mgr o)) as [s1 b] eqn:E. cbn [fst] in SH.
  destruct (factor_fresh m _ (fun i j => mget (lmi_old_mat (mat_f o) (mat_f0 o) x) i j) _ (ldlt_mgr o') s1 b L1 L2 E)
    as (s1' & E' & _ & _ & _ & EW & _ & EQ).
  { intros i j Hj Hi. symmetry. apply (old_mat_entry m); auto.
    - unfold rows in Hi. destruct (is_spd s1); [exact Hi|].
      assert (snd (pos s1) <= m)%nat; [|lia].
      clear - E L1. destruct L1 as (N & W & L). unfold factor in E. rewrite N in E.
      destruct (factor_loop _ (seq 0 m) (storage (ldlt_mgr o))) as [m1 [st e]] eqn:EL. injection E as <- _. cbn [pos snd].
      destruct (loop_same m _ (lmi_elem (mat_f o) (mat_f0 o) x) m 0 _ (storage (ldlt_mgr o)) m1 st e eq_refl L L ltac:(auto) EL ltac:(auto)) as (_ & _ & _ & _ & H & _).
      lia.
    - unfold rows in Hi. destruct (is_spd s1); [lia|].
      assert (snd (pos s1) <= m)%nat; [|lia].
      clear - E L1. destruct L1 as (N & W & L). unfold factor in E. rewrite N in E.
      destruct (factor_loop _ (seq 0 m) (storage (ldlt_mgr o))) as [m1 [st e]] eqn:EL. injection E as <- _. cbn [pos snd].
      destruct (loop_same m _ (lmi_elem (mat_f o) (mat_f0 o) x) m 0 _ (storage (ldlt_mgr o)) m1 st e eq_refl L L ltac:(auto) EL ltac:(auto)) as (_ & _ & _ & _ & H & _).
      lia. }
  unfold factorize. rewrite E' in *. cbn [fst] in SH'.
  destruct b.
  - cbn [fst snd]. split; [reflexivity|]. split; [|reflexivity].
    split; [split; [exact B1|split; [exact F1|exact SH]]|]. split; [split; [exact B1|split; [exact F1|exact SH']]|].
    split; reflexivity.
  - specialize (EQ eq_refl). pose proof (witness_shape m s1 SH) as WS. pose proof (witness_shape m s1' SH') as WS'.
    destruct (witness s1) as [s2 ep], (witness s1') as [s2' ep']. cbn [fst snd] in *. subst ep'.
    split.
    + destruct ep as [ep|ep]; cbn [bind]; [|reflexivity]. do 3 f_equal.
      rewrite Hx. rewrite (map_seq_nth (sym_quad s2')). apply map_ext. exact EQ.
    + split; [|reflexivity]. split; [split; [exact B1|split; [exact F1|exact WS]]|].
      split; [split; [exact B1|split; [exact F1|exact WS']]|]. split; reflexivity.
Qed.

Lemma lmi_old_same m : forall qs (o o' : lmi A), lmi_same m o o' ->
  Forall (fun x => length x = length (mat_f o)) qs ->
  answers lmi_old_assess_feas o' qs = answers lmi_assess_feas o qs.
Proof.
  induction qs as [|x qs IH]; intros o o' H Hq; [reflexivity|]. inversion Hq as [|? ? Hx Hq']; subst.
  destruct (lmi_old_step m o o' x H Hx) as (S1 & S2 & S3). cbn [answers]. f_equal; [exact S1|].
  apply IH; [exact S2|]. rewrite S3. exact Hq'.
Qed.
End Same.
