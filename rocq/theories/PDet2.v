(** The determinant of a product with a positive definite factor, of an inverse. *)
From Coq Require Import Reals Arith List Lia Lra Psatz Bool.
From Verif Require Import Arith Vec ModelCalc ModelEll ModelStable ModelLdlt Spec SpecDrivers SpecEll SpecStable SpecLdlt SpecDet
  PSum PStable2 PStable5 PLdlt PLdlt2 PLdlt3 PLdlt4 PDet PVolume PVolume2.
Local Open Scope R_scope.

Lemma det_lower n (l X : nat -> nat -> R) :
  det n (fun i j => X i j + sumn i (fun k => l i k * X k j)) = det n X.
Proof.
  enough (H : forall m, (m <= n)%nat -> det n (fun i j => if Nat.ltb i (n - m) then X i j else X i j + sumn i (fun k => l i k * X k j)) = det n X).
  { rewrite <- (H n (le_n n)) at 1. apply det_ext. intros i j Hi _. bn. }
  induction m as [|m IH]; intros Hm.
  - apply det_ext. intros i j Hi _. bn.
  - rewrite <- IH by lia. set (r := (n - S m)%nat).
    set (N := fun i j => if Nat.ltb i (n - m) then X i j else X i j + sumn i (fun k => l i k * X k j)).
    transitivity (det n (upd r (fun j => 1 * sumn r (fun k => l r k * N k j) + N r j) N)).
    { apply det_ext. intros i j Hi _. unfold upd. destruct (Nat.eqb_spec i r).
      - subst i. unfold N. destruct (Nat.ltb_spec r r); [lia|]. destruct (Nat.ltb_spec r (n - m)); [|unfold r in *; lia].
        rewrite Rmult_1_l, Rplus_comm. f_equal. apply sumn_ext. intros k Hk. destruct (Nat.ltb_spec k (n - m)); [reflexivity|unfold r in *; lia].
      - unfold N. destruct (Nat.ltb_spec i r), (Nat.ltb_spec i (n - m)); try reflexivity; unfold r in *; lia. }
    assert (Hr : (r < n)%nat) by (unfold r; lia).
    rewrite (det_lin n r N 1 (fun j => sumn r (fun k => l r k * N k j)) (N r) Hr), (upd_same r (N r) N) by reflexivity.
    rewrite (det_row_sum n r N (l r) N r Hr). rewrite (sumn_0 r); [ring|]. intros k Hk.
    rewrite (det_equal_rows n r k); [ring|lia|lia|lia|]. intros j _. unfold upd. bn.
Qed.

Lemma det_upper n (l X : nat -> nat -> R) :
  det n (fun i j => X i j + sumn n (fun k => if Nat.ltb i k then l k i * X k j else 0)) = det n X.
Proof.
  enough (H : forall m, (m <= n)%nat -> det n (fun i j => if Nat.ltb i m then X i j + sumn n (fun k => if Nat.ltb i k then l k i * X k j else 0) else X i j) = det n X).
  { rewrite <- (H n (le_n n)) at 1. apply det_ext. intros i j Hi _. destruct (Nat.ltb_spec i n); [reflexivity|lia]. }
  induction m as [|m IH]; intros Hm.
  - apply det_ext. intros i j Hi _. reflexivity.
  - rewrite <- IH by lia.
    set (N := fun i j => if Nat.ltb i m then X i j + sumn n (fun k => if Nat.ltb i k then l k i * X k j else 0) else X i j).
    transitivity (det n (upd m (fun j => 1 * sumn n (fun k => (if Nat.ltb m k then l k m else 0) * N k j) + N m j) N)).
    { apply det_ext. intros i j Hi _. unfold upd. destruct (Nat.eqb_spec i m).
      - subst i. unfold N. destruct (Nat.ltb_spec m (S m)); [|lia]. destruct (Nat.ltb_spec m m); [lia|].
        rewrite Rmult_1_l, Rplus_comm. f_equal. apply sumn_ext. intros k Hk. destruct (Nat.ltb_spec m k); [|ring].
        destruct (Nat.ltb_spec k m); [lia|reflexivity].
      - unfold N. destruct (Nat.ltb_spec i (S m)), (Nat.ltb_spec i m); try reflexivity; lia. }
    assert (Hr : (m < n)%nat) by lia.
    rewrite (det_lin n m N 1 (fun j => sumn n (fun k => (if Nat.ltb m k then l k m else 0) * N k j)) (N m) Hr), (upd_same m (N m) N) by reflexivity.
    rewrite (det_row_sum n m N (fun k => if Nat.ltb m k then l k m else 0) N n Hr). rewrite (sumn_0 n); [ring|]. intros k Hk.
    destruct (Nat.ltb_spec m k); [|ring].
    rewrite (det_equal_rows n m k); [ring|lia|lia|lia|]. intros j _. unfold upd. bn.
Qed.

Lemma det_rowscal n (d : nat -> R) X : det n (fun i j => d i * X i j) = prodn n d * det n X.
Proof.
  enough (H : forall m, (m <= n)%nat -> det n (fun i j => if Nat.ltb i m then d i * X i j else X i j) = prodn m d * det n X).
  { rewrite <- (H n (le_n n)). apply det_ext. intros i j Hi _. bn. }
  induction m as [|m IH]; intros Hm.
  - cbn [prodn]. rewrite Rmult_1_l. apply det_ext. intros i j _ _. bn.
  - cbn [prodn]. rewrite (Rmult_comm (prodn m d)), Rmult_assoc, <- IH by lia. set (N := fun i j => if Nat.ltb i m then d i * X i j else X i j).
    transitivity (det n (upd m (fun j => (d m - 1) * N m j + N m j) N)).
    { apply det_ext. intros i j _ _. unfold upd, N. bn; cbn; bn; ring. }
    rewrite det_lin by lia. rewrite !(upd_same m (N m) N) by reflexivity. ring.
Qed.

Lemma lowf_sum n M f i : (i < n)%nat -> sumn n (fun k => lowf M i k * f k) = f i + sumn i (fun k => M i k * f k).
Proof.
  intros Hi. rewrite (sumn_ext n _ (fun k => (if Nat.eqb k i then f i else 0) + (if Nat.ltb k i then M i k * f k else 0))).
  - rewrite sumn_plus, (sumn_delta n i (f i)) by exact Hi. f_equal.
    rewrite (sumn_cut n i) by (lia || (intros k Hk; destruct (Nat.ltb_spec k i); [lia|reflexivity])).
    apply sumn_ext. intros k Hk. destruct (Nat.ltb_spec k i); [reflexivity|lia].
  - intros k Hk. unfold lowf. destruct (Nat.ltb_spec k i), (Nat.eqb_spec k i), (Nat.eqb_spec i k); subst; try lia; try ring.
Qed.

Lemma lowf_sum_t n M f i : (i < n)%nat -> sumn n (fun k => lowf M k i * f k) = f i + sumn n (fun k => if Nat.ltb i k then M k i * f k else 0).
Proof.
  intros Hi. rewrite (sumn_ext n _ (fun k => (if Nat.eqb k i then f i else 0) + (if Nat.ltb i k then M k i * f k else 0))).
  - rewrite sumn_plus, (sumn_delta n i (f i)) by exact Hi. reflexivity.
  - intros k Hk. unfold lowf. destruct (Nat.ltb_spec i k), (Nat.eqb_spec k i); subst; try lia; try ring.
Qed.

Lemma det_mul_ldl n (S : nat -> nat -> R) X :
  det n (fun i j => sumn n (fun k => sumn n (fun a => lowf S i a * S a a * lowf S k a) * X k j)) = prodn n (fun a => S a a) * det n X.
Proof.
  set (Z := fun a j => X a j + sumn n (fun k => if Nat.ltb a k then S k a * X k j else 0)).
  set (Y := fun a j => S a a * Z a j).
  transitivity (det n (fun i j => Y i j + sumn i (fun a => S i a * Y a j))).
  - apply det_ext. intros i j Hi Hj. rewrite <- (lowf_sum n S (fun a => Y a j) i Hi).
    rewrite (sumn_ext n (fun k => sumn n (fun a => lowf S i a * S a a * lowf S k a) * X k j)
               (fun k => sumn n (fun a => lowf S i a * S a a * (lowf S k a * X k j)))).
    2:{ intros k Hk. rewrite <- sumn_scal_r. apply sumn_ext. intros. ring. }
    rewrite sumn_swap. apply sumn_ext. intros a Ha. unfold Y, Z. rewrite <- (lowf_sum_t n S (fun k => X k j) a Ha).
    rewrite sumn_scal. ring.
  - rewrite det_lower. unfold Y. rewrite det_rowscal. f_equal. unfold Z. apply det_upper.
Qed.

Lemma det_mul_pd n M X : symmetric n M -> posdef n M ->
  det n (fun i j => sumn n (fun k => M i k * X k j)) = det n M * det n X.
Proof.
  intros Hs Hp.
  destruct (factor (A:=RA) M (ldlt_init n)) as [s1 b] eqn:E.
  assert (W : ldlt_wf n (ldlt_init n)) by apply init_wf.
  pose proof (proj2 (factor_decides n M _ s1 b W Hs E) Hp) as ->.
  destruct (factor_product n M _ s1 W Hs E) as (_ & H).
  assert (G : forall X, det n (fun i j => sumn n (fun k => M i k * X k j)) = prodn n (fun a => fm (storage s1) a a) * det n X).
  { intros Y. rewrite <- det_mul_ldl. apply det_ext. intros i j Hi Hj. apply sumn_ext. intros k Hk. rewrite (H i k Hi Hk). reflexivity. }
  rewrite (G X). f_equal.
  rewrite (det_ext n M (fun i j => sumn n (fun k => M i k * (if Nat.eqb k j then 1 else 0)))).
  - rewrite (G (fun k j => if Nat.eqb k j then 1 else 0)). rewrite (det_diag n _ (fun _ => 1)) by reflexivity.
    assert (P1 : prodn n (fun _ => 1) = 1) by (clear; induction n; cbn [prodn]; lra).
    rewrite P1. ring.
  - intros i j Hi Hj. rewrite sumn_delta_r by exact Hj. reflexivity.
Qed.

Lemma sqvol_agree n p e s : pd_ell n p e -> stable_ok n p s -> agree n e s -> sqvol n e = sqvol_s n s.
Proof.
  intros (HM & Hxc & Hc & Hsym & Hp & Hk) Hok (_ & Ek & _ & _ & Hi).
  unfold sqvol, sqvol_s. rewrite det_scal, Ek. 
  pose proof (det_mul_pd n (fm (mq e)) (ldl n (fm (s_mq s))) Hsym Hp) as D.
  rewrite (det_ext n _ (fun i j => if Nat.eqb i j then 1 else 0) Hi) in D.
  rewrite (det_diag n _ (fun _ => 1)) in D by reflexivity.
  assert (P1 : prodn n (fun _ => 1) = 1) by (clear; induction n; cbn [prodn]; lra).
  rewrite P1 in D. pose proof (det_posdef n _ Hsym Hp) as P.
  assert (Z : det n (ldl n (fm (s_mq s))) <> 0) by (intros Z; rewrite Z in D; lra).
  unfold Rdiv. f_equal. apply Rmult_eq_reg_r with (det n (ldl n (fm (s_mq s)))); [|exact Z]. rewrite <- D. field. exact Z.
Qed.
