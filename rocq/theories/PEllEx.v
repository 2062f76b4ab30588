(** Concrete ellipsoids for the non-vacuity examples. *)
From Coq Require Import Reals List Arith Lia Lra Psatz Bool.
From Verif Require Import Arith Vec ModelCalc ModelEll SpecDrivers Spec SpecCut SpecEll
  PSum PAlg PCalc PCalc2 PCalc3 PCalc5 PCalcEx PVec PGeo PEll PEll2 PEll3.
Import ListNotations.
Local Open Scope R_scope.

(** the disc of radius 2 around the origin *)
Definition e4 : ell RA := @mkEll RA false [[1; 0]; [0; 1]] [0; 0] 4 0 (calc_R true 2).
Definition g1 : vec RA := [1; 0].
Definition ct1 : cut RA := (g1, @CSingle RA 1).
Definition ct3 : cut RA := (g1, @CSingle RA 3).
Definition ct0 : cut RA := (@cons R 0 [0], @CSingle RA 1).

Lemma e4_init : ell_init (A:=RA) (@VScalar RA 4) (@cons R 0 [0]) = Ok e4.
Proof. unfold ell_init. cbn [length]. rewrite calc_init_R by auto. reflexivity. Qed.

Lemma e4_pd : pd_ell 2 true e4.
Proof. apply (init_pd 2 (@VScalar RA 4) (@cons R 0 [0])); [apply e4_init|reflexivity|cbn; lra]. Qed.

Lemma g1_nonzero : nonzero 2 (fv g1).
Proof. exists O. split; [auto|]. cbn. lra. Qed.

Lemma e4_w : quad 2 (fm (mq e4)) (fv g1) = 1.
Proof. unfold quad, bil, dot, mv, fm, fv, sumn. cbn. lra. Qed.

Lemma e4_tsq b : cut_tsq 2 e4 (g1, b) = 4.
Proof. unfold cut_tsq. cbn [fst]. rewrite e4_w. cbn. lra. Qed.

Lemma e4_update1 : ell_update OpBias ct1 e4 = (new_ell e4 g1 1 (4/3) (8/9) 1, Ok Success).
Proof.
  assert (HT : kappa e4 * quad 2 (fm (mq e4)) (fv g1) = 4) by (rewrite e4_w; cbn; lra).
  unfold ct1. rewrite (update_eq 2 e4 g1 (@CSingle RA 1)); [|apply e4_pd|reflexivity|reflexivity|apply g1_nonzero|rewrite e4_w; lra].
  rewrite HT. change (helper e4) with (calc_R true 2). rewrite ex_single by discriminate. rewrite e4_w. reflexivity.
Qed.

Definition e4' : ell RA := new_ell e4 g1 1 (4/3) (8/9) 1.

Lemma e4_update3 : ell_update OpBias ct3 e4 = (set_tsq e4 (4 : num RA), Ok NoSoln).
Proof.
  assert (HT : kappa e4 * quad 2 (fm (mq e4)) (fv g1) = 4) by (rewrite e4_w; cbn; lra).
  unfold ct3. rewrite (update_eq 2 e4 g1 (@CSingle RA 3)); [|apply e4_pd|reflexivity|reflexivity|apply g1_nonzero|rewrite e4_w; lra].
  rewrite HT. change (helper e4) with (calc_R true 2).
  rewrite strat_norm by (auto || lra). cbn [norm eff_res is_q]. unfold single_res. rewrite sqrt_4.
  rewrite Rleb_true, Rltb_true by lra. reflexivity.
Qed.

Lemma e4_update0 : ell_update OpBias ct0 e4 = (e4, Err ValueError).
Proof.
  apply zero_gradient. intros (i & Hi & H). cbn in Hi. apply H.
  destruct i as [|[|i]]; [reflexivity|reflexivity|lia].
Qed.

Definition pt (a b : R) : nat -> R := fv [a; b].

Lemma e4_in a b : a * a + b * b <= 4 -> ell_in 2 e4 (pt a b).
Proof.
  intros H. exists (pt a b). split.
  - intros [|[|i]] Hi; [| |lia]; unfold mv, fm, fv, pt, sumn; cbn; lra.
  - unfold quad, bil, dot, mv, fm, fv, pt, sumn. cbn. unfold fv. cbn. lra.
Qed.

Lemma e4_cutval a b : cutval 2 (fv g1) (fv (xc e4)) (pt a b) = a.
Proof. unfold cutval, dot, fv, pt, sumn. cbn. unfold fv. cbn. lra. Qed.

Lemma ct1_proper : cut_proper 2 OpBias true e4 ct1.
Proof.
  exists (pt (-2) 0), (pt (-1) 1). unfold cut_sat. cbn [fst snd ct1]. rewrite !e4_cutval.
  repeat split; try (apply e4_in; lra); cbn [first_beta second_beta cut_holds]; try lra.
Qed.

Lemma e4'_pd : pd_ell 2 true e4'.
Proof. apply (step_pd 2 true e4 OpBias ct1 e4' e4_pd e4_update1 ct1_proper). Qed.

Lemma single_cond n k p b T : bias_cond n k p (@CSingle RA b) T.
Proof. intros _ b0 b1 _ H. discriminate. Qed.

Definition run1 := [(e4, OpBias, ct0, Err ValueError); (e4, OpBias, ct1, Ok Success)].
Lemma run1_ok : ell_run e4 run1 e4'.
Proof.
  apply run_cons with e4; [apply e4_update0|]. apply run_cons with e4'; [apply e4_update1|]. apply run_nil.
Qed.

Lemma e4'_kappa : kappa e4' = 4.
Proof. unfold e4', new_ell. cbn. lra. Qed.

Definition straddle : cut RA := (g1, @CList RA [Some (-3/2); Some (3/2)]).
Definition missing : cut RA := (g1, @CList RA [Some (-4); Some (-3)]).
