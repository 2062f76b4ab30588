(** Concrete factorisations. *)
From Coq Require Import Reals List Arith Lia Lra Bool.
From Verif Require Import Arith Vec ModelCalc ModelEll ModelLdlt Spec SpecLdlt PSum PCalc PVec PLdlt4.
Import ListNotations.
Local Open Scope R_scope.

Definition m45 : mat RA := [[4; 2]; [2; 5]].
Definition m12 : mat RA := [[1; 2]; [2; 1]].
Definition mneg : mat RA := [[-1; 0]; [0; 1]].

Lemma sym2 (m : mat RA) : fm m 0 1 = fm m 1 0 -> symmetric 2 (fm m).
Proof. intros H [|[|i]] [|[|j]] Hi Hj; try lia; try reflexivity; auto. Qed.

Lemma two_rows (a : mat RA) (s : ldlt RA) x00 x01 x10 x11 : l_ndim s = 2%nat -> storage s = [[x00; x01]; [x10; x11]] ->
  0 < fm a 0 0 -> factorize a s =
  (mkLdlt (if Rle_dec (fm a 1 1 - fm a 1 0 / fm a 0 0 * fm a 1 0) 0 then (0, 2)%nat else (0, 0)%nat) (wit s) 2
     [[fm a 0 0; fm a 1 0]; [fm a 1 0 / fm a 0 0; fm a 1 1 - fm a 1 0 / fm a 0 0 * fm a 1 0]],
   if Rle_dec (fm a 1 1 - fm a 1 0 / fm a 0 0 * fm a 1 0) 0 then false else true).
Proof.
  intros Hn Hs Hp. unfold factorize, factor. rewrite Hn, Hs. cbn [seq factor_loop].
  unfold factor_row at 1. cbn [Nat.sub seq fold_left].
  change (mget a 0 0) with (fm a 0 0).
  change (@aleb RA (fm a 0 0) azero) with (Rleb (fm a 0 0) 0). rewrite Rleb_false by lra.
  unfold factor_row at 1. cbn [Nat.sub seq fold_left factor_col]. unfold row_dot. cbn [Nat.sub seq map].
  unfold mset, mget, vget. cbn [upd nth map vsum fold_left].
  change (@aadd RA) with Rplus. change (@azero RA) with 0. change (@amul RA) with Rmult. change (@asub RA) with Rminus. change (@adiv RA) with Rdiv.
  change (nth 0 (nth 0 a []) 0) with (fm a 0 0). change (nth 0 (nth 1 a []) 0) with (fm a 1 0). change (nth 1 (nth 1 a []) 0) with (fm a 1 1).
  unfold vsum. cbn [fold_left]. change (@aadd RA) with Rplus. rewrite ?Rplus_0_l.
  change (@aleb RA) with Rleb. unfold Rleb. destruct (Rle_dec _ _) as [H|H]; reflexivity.
Qed.

Lemma m45_true (s : ldlt RA) : s = ldlt_init 2 -> exists s1, factorize m45 s = (s1, true).
Proof.
  intros ->. rewrite (two_rows m45 _ 0 0 0 0) by (reflexivity || (cbn; lra)).
  destruct (Rle_dec _ _) as [H|H]; [cbn in H; lra|]. eexists. reflexivity.
Qed.

Lemma m12_row : Rle_dec (fm m12 1 1 - fm m12 1 0 / fm m12 0 0 * fm m12 1 0) 0 = Rle_dec (1 - 2 / 1 * 2) 0.
Proof. reflexivity. Qed.

Lemma m12_false : factorize m12 (ldlt_init (A:=RA) 2) =
  (mkLdlt (A:=RA) (0, 2)%nat [0; 0] 2 [[1; 2]; [2 / 1; 1 - 2 / 1 * 2]], false).
Proof.
  rewrite (two_rows m12 _ 0 0 0 0) by (reflexivity || (cbn; lra)). rewrite m12_row.
  destruct (Rle_dec _ _) as [H|H]; [reflexivity|lra].
Qed.

Lemma m12_witness : witness (mkLdlt (A:=RA) (0, 2)%nat [0; 0] 2 [[1; 2]; [2 / 1; 1 - 2 / 1 * 2]]) =
  (mkLdlt (A:=RA) (0, 2)%nat [- (0 + 2 / 1 * 1); 1] 2 [[1; 2]; [2 / 1; 1 - 2 / 1 * 2]], Ok (- (1 - 2 / 1 * 2))).
Proof. reflexivity. Qed.

Lemma mneg_false (m : mat RA) (w : vec RA) a b c d p : m = [[a; b]; [c; d]] -> factorize mneg (mkLdlt p w 2 m) =
  (mkLdlt (A:=RA) (0, 1)%nat w 2 [[-1; b]; [c; d]], false).
Proof.
  intros ->. unfold factorize, factor. cbn [l_ndim seq storage factor_loop].
  unfold factor_row at 1. cbn [Nat.sub seq fold_left].
  change (@aleb RA (mget mneg 0 0) azero) with (Rleb (-1) 0). rewrite Rleb_true by lra. reflexivity.
Qed.

Definition stale_obj : ldlt RA := fst (witness (fst (factorize m12 (ldlt_init 2)))).

Lemma stale_wit : exists s1 s1',
  factorize mneg (ldlt_init 2) = (s1, false) /\ factorize mneg stale_obj = (s1', false) /\
  pos s1 = (0, 1)%nat /\ pos s1' = (0, 1)%nat /\
  vget (wit (fst (witness s1))) 1 = (0 : num RA) /\ vget (wit (fst (witness s1'))) 1 = (1 : num RA).
Proof.
  unfold stale_obj. rewrite m12_false. cbn [fst]. rewrite m12_witness. cbn [fst].
  do 2 eexists. split; [apply (mneg_false _ _ 0 0 0 0); reflexivity|].
  split; [eapply mneg_false; reflexivity|]. repeat split.
Qed.

Lemma m45_sym : symmetric 2 (fm m45). Proof. apply sym2. reflexivity. Qed.
Lemma m12_sym : symmetric 2 (fm m12). Proof. apply sym2. reflexivity. Qed.

Definition psd11 : mat RA := [[1; 1]; [1; 1]].
Lemma psd11_psd : symmetric 2 (fm psd11) /\ possemidef 2 (fm psd11) /\ ~ posdef 2 (fm psd11).
Proof.
  split; [apply sym2; reflexivity|]. split.
  - intros v. unfold quad, bil, dot, mv, sumn, fm. cbn. pose proof (Rle_0_sqr (v O + v 1%nat)) as H. unfold Rsqr in H. lra.
  - intros H. specialize (H (fun i => if Nat.eqb i 0 then 1 else -1)).
    assert (HN : nonzero 2 (fun i => if Nat.eqb i 0 then 1 else -1)) by (exists 0%nat; cbn; split; [lia|lra]).
    specialize (H HN). unfold quad, bil, dot, mv, sumn, fm in H. cbn in H. lra.
Qed.

Lemma semi_m12 : exists s1, factor_with_allow_semidefinite (A:=RA) (fm m12) (ldlt_init 2) = (s1, false).
Proof.
  unfold factor_with_allow_semidefinite. cbn [ldlt_init l_ndim seq storage factor_semi_loop].
  unfold factor_row at 1. cbn [Nat.sub seq fold_left].
  change (@altb RA (fm m12 0 0) azero) with (Rltb 1 0). rewrite Rltb_false by lra.
  change (@aeqb RA (fm m12 0 0) azero) with (Reqb 1 0). rewrite Reqb_false by lra.
  unfold factor_row at 1. cbn [Nat.sub seq fold_left factor_col]. unfold row_dot. cbn [Nat.sub seq map].
  unfold mset, mget, vget, mzeros, vzeros. cbn [upd nth map repeat vset].
  unfold vsum. cbn [fold_left].
  match goal with |- context [@altb RA ?x azero] => change (@altb RA x azero) with (Rltb x 0) end.
  rewrite Rltb_true; [eexists; reflexivity|]. cbn. lra.
Qed.
