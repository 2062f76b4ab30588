(** Determinants: row operations, rank-one updates, positive definite matrices. *)
From Coq Require Import Reals Arith Lia Lra Psatz Bool.
From Verif Require Import Arith Spec SpecDet PSum PStable2.
Local Open Scope R_scope.

Definition upd (r : nat) (x : nat -> R) (M : nat -> nat -> R) : nat -> nat -> R :=
  fun i j => if Nat.eqb i r then x j else M i j.

Ltac bn := repeat match goal with
  | |- context [Nat.ltb ?a ?b] => destruct (Nat.ltb_spec a b)
  | |- context [Nat.eqb ?a ?b] => destruct (Nat.eqb_spec a b)
  end; try lia; try subst; try reflexivity; try (f_equal; lia).

Lemma skip_lt n i a : (i <= n)%nat -> (a < n)%nat -> (skip i a < S n)%nat.
Proof. unfold skip. intros. bn. Qed.

Lemma det_S n M : det (S n) M = sumn (S n) (fun i => (-1) ^ i * M i O * det n (fun a b => M (skip i a) (S b))).
Proof. reflexivity. Qed.

Lemma det_ext n : forall M N, (forall i j, (i < n)%nat -> (j < n)%nat -> M i j = N i j) -> det n M = det n N.
Proof.
  induction n as [|n IH]; intros M N H; [reflexivity|]. rewrite !det_S. apply sumn_ext. intros i Hi.
  rewrite H by lia. f_equal. apply IH. intros a b Ha Hb. apply H; [apply skip_lt; lia|lia].
Qed.

Definition low (i r : nat) : nat := if Nat.ltb r i then r else pred r.

Lemma det_lin n : forall r M a x y, (r < n)%nat ->
  det n (upd r (fun j => a * x j + y j) M) = a * det n (upd r x M) + det n (upd r y M).
Proof.
  induction n as [|n IH]; intros r M a x y Hr; [lia|]. rewrite !det_S, <- sumn_scal, <- sumn_plus.
  apply sumn_ext. intros i Hi. destruct (Nat.eq_dec i r) as [->|Ne].
  - assert (E : forall z, det n (fun b c => upd r z M (skip r b) (S c)) = det n (fun b c => M (skip r b) (S c))).
    { intros z. apply det_ext. intros b c _ _. unfold upd, skip. bn. }
    rewrite !E. unfold upd at 1 2 3. rewrite Nat.eqb_refl. ring.
  - assert (E : forall z, det n (fun b c => upd r z M (skip i b) (S c)) =
              det n (upd (low i r) (fun c => z (S c)) (fun b c => M (skip i b) (S c)))).
    { intros z. apply det_ext. intros b c _ _. unfold upd, skip, low. bn. }
    rewrite !E. rewrite (IH (low i r) _ a (fun c => x (S c)) (fun c => y (S c))) by (unfold low; bn).
    unfold upd at 1 4 6. destruct (Nat.eqb_spec i r); [lia|]. ring.
Qed.

Lemma sumn_two n r s f : (r < n)%nat -> (s < n)%nat -> r <> s ->
  (forall i, (i < n)%nat -> i <> r -> i <> s -> f i = 0) -> sumn n f = f r + f s.
Proof.
  intros Hr Hs Ne H.
  rewrite (sumn_ext n f (fun i => (if Nat.eqb i r then f r else 0) + (if Nat.eqb i s then f s else 0))).
  - rewrite sumn_plus, (sumn_delta n r (f r)), (sumn_delta n s (f s)) by assumption. reflexivity.
  - intros i Hi. bn; try lra. rewrite H by assumption. lra.
Qed.

Lemma det_adj n : forall r M, (S r < n)%nat -> (forall j, (j < n)%nat -> M r j = M (S r) j) -> det n M = 0.
Proof.
  induction n as [|n IH]; intros r M Hr H; [lia|]. rewrite det_S.
  rewrite (sumn_two (S n) r (S r)); [|lia|lia|lia|].
  - rewrite (det_ext n (fun a b => M (skip r a) (S b)) (fun a b => M (skip (S r) a) (S b))).
    + rewrite (H O) by lia. cbn [pow]. ring.
    + intros a b Ha Hb. unfold skip. bn; try (f_equal; lia). 
      assert (a = r) by lia. subst a. symmetry. apply H. lia.
  - intros i Hi N1 N2. rewrite (IH (low i r)); [ring|unfold low; bn|].
    intros j Hj. unfold low, skip. bn; try (apply H; lia). replace (S (pred r)) with r by lia. apply H. lia.
Qed.

Lemma upd_same r x M : (forall j, x j = M r j) -> forall n, det n (upd r x M) = det n M.
Proof. intros H n. apply det_ext. intros i j _ _. unfold upd. bn. apply H. Qed.

Lemma det_swap n r M : (S r < n)%nat -> det n (upd r (M (S r)) (upd (S r) (M r) M)) = - det n M.
Proof.
  intros Hr.
  assert (Q : forall x y, det n (upd r (fun j => 1 * x j + y j) (upd (S r) (fun j => 1 * x j + y j) M)) = 0).
  { intros x y. apply (det_adj n r); [exact Hr|]. intros j _. unfold upd. bn. }
  assert (Z : forall x, det n (upd r x (upd (S r) x M)) = 0).
  { intros x. apply (det_adj n r); [exact Hr|]. intros j _. unfold upd. bn. }
  assert (C : forall x y, det n (upd r x (upd (S r) y M)) = det n (upd (S r) y (upd r x M))).
  { intros x y. apply det_ext. intros i j _ _. unfold upd. bn. }
  specialize (Q (M r) (M (S r))). rewrite det_lin in Q by lia. rewrite !C in Q. rewrite !det_lin in Q by lia.
  rewrite <- !C in Q. rewrite !Z in Q.
  assert (E : det n (upd r (M r) (upd (S r) (M (S r)) M)) = det n M).
  { apply det_ext. intros i j _ _. unfold upd. bn. }
  rewrite E in Q. lra.
Qed.

Lemma det_rows n d : forall p M, (p + S d < n)%nat -> (forall j, (j < n)%nat -> M p j = M (p + S d)%nat j) -> det n M = 0.
Proof.
  induction d as [|d IH]; intros p M Hp H.
  - apply (det_adj n p); [lia|]. intros j Hj. rewrite H by exact Hj. f_equal. lia.
  - set (q := (p + S d)%nat) in *. enough (E : - det n M = 0) by lra.
    rewrite <- (det_swap n q M) by (unfold q; lia). apply (IH p).
    + unfold q in *. lia.
    + fold q. intros j Hj. unfold upd. bn; try (unfold q in *; lia).
      rewrite H by exact Hj. unfold q. f_equal. lia.
Qed.

Lemma det_equal_rows n p q M : (p < n)%nat -> (q < n)%nat -> p <> q -> (forall j, (j < n)%nat -> M p j = M q j) -> det n M = 0.
Proof.
  intros Hp Hq Ne H. destruct (Nat.lt_ge_cases p q).
  - apply (det_rows n (q - p - 1) p); [lia|]. intros j Hj. rewrite H by exact Hj. f_equal. lia.
  - apply (det_rows n (p - q - 1) q); [lia|]. intros j Hj. rewrite <- H by exact Hj. f_equal. lia.
Qed.

Lemma det_add_row n r k a M : (r < n)%nat -> (k < n)%nat -> r <> k ->
  det n (upd r (fun j => a * M k j + M r j) M) = det n M.
Proof.
  intros Hr Hk Ne. rewrite det_lin by exact Hr. rewrite (upd_same r (M r) M) by reflexivity.
  rewrite (det_equal_rows n r k (upd r (M k) M)); [ring|lia|lia|exact Ne|]. intros j _. unfold upd. bn.
Qed.

(** adding multiples of row [k] to the first [m] other rows *)
Lemma det_add_rows n k (c : nat -> R) m : forall M, (k < n)%nat -> (m <= n)%nat ->
  det n (fun i j => if Nat.ltb i m && negb (Nat.eqb i k) then c i * M k j + M i j else M i j) = det n M.
Proof.
  induction m as [|m IH]; intros M Hk Hm.
  - apply det_ext. intros i j _ _. reflexivity.
  - destruct (Nat.eq_dec m k) as [->|Ne].
    + rewrite <- (IH M Hk ltac:(lia)). apply det_ext. intros i j _ _. bn; cbn; bn; reflexivity.
    + set (N := fun i j => if Nat.ltb i m && negb (Nat.eqb i k) then c i * M k j + M i j else M i j).
      transitivity (det n (upd m (fun j => c m * N k j + N m j) N)).
      * apply det_ext. intros i j _ _. unfold upd, N. bn; cbn; bn; try reflexivity.
      * rewrite det_add_row by lia. apply IH; lia.
Qed.

Lemma det_row_sum n r M (c : nat -> R) (X : nat -> nat -> R) m : (r < n)%nat ->
  det n (upd r (fun j => sumn m (fun k => c k * X k j)) M) = sumn m (fun k => c k * det n (upd r (X k) M)).
Proof.
  intros Hr. induction m as [|m IH]; cbn [sumn].
  - assert (E : det n (upd r (fun j => (-1) * 0 + 0) M) = -1 * det n (upd r (fun _ => 0) M) + det n (upd r (fun _ => 0) M)).
    { exact (det_lin n r M (-1) (fun _ => 0) (fun _ => 0) Hr). }
    transitivity (det n (upd r (fun j => (-1) * 0 + 0) M)); [apply det_ext; intros; unfold upd; bn; ring|]. lra.
  - rewrite <- IH. rewrite <- (Rplus_comm (c m * _)), <- det_lin by exact Hr.
    apply det_ext. intros i j _ _. unfold upd. bn. ring.
Qed.

(** ** Rank-one updates *)
Lemma det_rank_one n M (u v : nat -> R) :
  det n (fun i j => M i j + u i * v j) = det n M + sumn n (fun i => u i * det n (upd i v M)).
Proof.
  enough (H : forall m, (m <= n)%nat -> det n (fun i j => if Nat.ltb i m then M i j + u i * v j else M i j)
            = det n M + sumn m (fun i => u i * det n (upd i v M))).
  { rewrite <- (H n (le_n n)). apply det_ext. intros i j Hi _. bn. }
  induction m as [|m IH]; intros Hm.
  - cbn [sumn]. rewrite Rplus_0_r. apply det_ext. intros i j _ _. bn.
  - cbn [sumn]. rewrite <- Rplus_assoc, <- IH by lia.
    set (N := fun i j => if Nat.ltb i m then M i j + u i * v j else M i j).
    transitivity (det n (upd m (fun j => u m * v j + N m j) N)).
    { apply det_ext. intros i j _ _. unfold upd, N. bn; cbn; bn; ring. }
    rewrite det_lin by lia. rewrite (upd_same m (N m) N) by reflexivity. rewrite Rplus_comm. f_equal. f_equal.
    rewrite <- (det_add_rows n m (fun i => u i) m (upd m v M)) by lia.
    apply det_ext. intros i j _ _. unfold upd, N. bn; cbn; bn; cbn; bn; try reflexivity; ring.
Qed.

(** [Q - c (Q g) (Q g)^T] for a symmetric [Q] *)
Lemma det_cut n Q (g : nat -> R) c : symmetric n Q ->
  det n (fun i j => Q i j - c * (mv n Q g i * mv n Q g j)) = (1 - c * quad n Q g) * det n Q.
Proof.
  intros Hs.
  rewrite (det_ext n _ (fun i j => Q i j + (- c * mv n Q g i) * mv n Q g j)) by (intros; ring).
  rewrite det_rank_one.
  rewrite (sumn_ext n _ (fun i => (- c * det n Q) * (g i * mv n Q g i))).
  { rewrite sumn_scal. unfold quad, bil, dot. ring. }
  intros i Hi.
  assert (E : det n (upd i (mv n Q g) Q) = g i * det n Q); [|rewrite E; ring].
  transitivity (det n (upd i (fun j => sumn n (fun k => g k * Q k j)) Q)).
  { apply det_ext. intros a b _ Hb. unfold upd. bn. unfold mv. apply sumn_ext. intros k Hk. rewrite (Hs b k Hb Hk). ring. }
  rewrite det_row_sum by exact Hi. rewrite (sumn_ext n _ (fun k => if Nat.eqb k i then g i * det n Q else 0)).
  { apply sumn_delta, Hi. }
  intros k Hk. bn.
  - rewrite upd_same by reflexivity. reflexivity.
  - rewrite (det_equal_rows n i k); [ring|lia|lia|congruence|]. intros j _. unfold upd. bn.
Qed.

Lemma det_scal n M c : det n (fun i j => c * M i j) = c ^ n * det n M.
Proof.
  enough (H : forall m, (m <= n)%nat -> det n (fun i j => if Nat.ltb i m then c * M i j else M i j) = c ^ m * det n M).
  { rewrite <- (H n (le_n n)). apply det_ext. intros i j Hi _. bn. }
  induction m as [|m IH]; intros Hm.
  - cbn [pow]. rewrite Rmult_1_l. apply det_ext. intros i j _ _. bn.
  - cbn [pow]. rewrite Rmult_assoc, <- IH by lia. set (N := fun i j => if Nat.ltb i m then c * M i j else M i j).
    transitivity (det n (upd m (fun j => (c - 1) * N m j + N m j) N)).
    { apply det_ext. intros i j _ _. unfold upd, N. bn; cbn; bn; ring. }
    rewrite det_lin by lia. rewrite !(upd_same m (N m) N) by reflexivity. ring.
Qed.

Lemma det_block n M : (forall i, (0 < i <= n)%nat -> M i O = 0) -> det (S n) M = M O O * det n (fun a b => M (S a) (S b)).
Proof.
  intros H. rewrite det_S, sumn_S_l. rewrite (sumn_0 n).
  - cbn [pow]. rewrite Rplus_0_r, Rmult_1_l. f_equal.
  - intros i Hi. rewrite (H (S i)) by lia. ring.
Qed.

Lemma det_diag n : forall M d, (forall i j, (i < n)%nat -> (j < n)%nat -> M i j = if Nat.eqb i j then d i else 0) ->
  det n M = prodn n d.
Proof.
  induction n as [|n IH]; intros M d H; [reflexivity|]. rewrite det_block.
  - rewrite prodn_S_l, (H O O) by lia. cbn [Nat.eqb]. f_equal. apply IH. intros i j Hi Hj. rewrite H by lia. reflexivity.
  - intros i Hi. rewrite H by lia. bn.
Qed.

Lemma det_posdef n : forall M, symmetric n M -> posdef n M -> 0 < det n M.
Proof.
  induction n as [|n IH]; intros M Hs Hp; [cbn; lra|].
  assert (P0 : 0 < M O O).
  { specialize (Hp (fun i => if Nat.eqb i O then 1 else 0)). 
    assert (Z : nonzero (S n) (fun i => if Nat.eqb i O then 1 else 0)) by (exists O; split; [lia|cbn; lra]).
    specialize (Hp Z). unfold quad, bil, dot in Hp. rewrite sumn_S_l in Hp. rewrite (sumn_0 n) in Hp.
    - unfold mv in Hp. rewrite sumn_S_l in Hp. rewrite (sumn_0 n) in Hp by (intros; cbn; ring). cbn [Nat.eqb] in Hp. lra.
    - intros i _. cbn. ring. }
  set (c := fun i => - (M i O / M O O)).
  rewrite <- (det_add_rows (S n) O c (S n) M) by lia.
  rewrite det_block.
  - apply Rmult_lt_0_compat; [rewrite Nat.eqb_refl, andb_false_r; exact P0|].
    set (N := fun a b => c (S a) * M O (S b) + M (S a) (S b)).
    rewrite (det_ext n _ N).
    2:{ intros a b Ha Hb. unfold N. destruct (Nat.ltb_spec (S a) (S n)); [reflexivity|lia]. }
    apply IH.
    + intros i j Hi Hj. unfold N, c. rewrite (Hs (S i) (S j)), (Hs (S i) O), (Hs O (S j)) by lia. field. lra.
    + intros v (i & Hi & Hv).
      set (t := sumn n (fun j => M O (S j) * v j)).
      set (w := fun k => match k with O => - (t / M O O) | S k => v k end).
      assert (E : quad (S n) M w = quad n N v).
      { unfold quad, bil, dot. rewrite sumn_S_l. cbn [w]. unfold mv at 1. rewrite sumn_S_l. cbn [w]. fold t.
        replace (- (t / M O O) * (M O O * - (t / M O O) + t)) with 0 by (field; lra). rewrite Rplus_0_l.
        apply sumn_ext. intros k Hk. f_equal. unfold mv. rewrite sumn_S_l. cbn [w].
        unfold N. rewrite (sumn_ext n (fun j => (c (S k) * M O (S j) + M (S k) (S j)) * v j)
                            (fun j => c (S k) * (M O (S j) * v j) + M (S k) (S j) * v j)) by (intros; ring).
        rewrite sumn_plus, sumn_scal. fold t. unfold c. f_equal. field. lra. }
      rewrite <- E. apply Hp. exists (S i). split; [lia|exact Hv].
  - intros i Hi. destruct (Nat.ltb_spec i (S n)); [|lia]. destruct (Nat.eqb_spec i O); [lia|]. cbn [andb negb]. unfold c. field. lra.
Qed.
