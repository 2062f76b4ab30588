(** Examples for the convergence of the profit oracles. *)
From Coq Require Import Reals List Arith Lia Lra Psatz Bool ZArith.
From Verif Require Import Arith Vec ModelCalc ModelEll ModelStable ModelCut ModelSpaces ModelProfit
  SpecDrivers Spec SpecCut SpecEll SpecSearch SpecStable SpecConverge SpecProfit
  PSum PCalc PVec PEll PEll2 PEllEx PStable5 PStableEx PSearchEx PConv3 PConvEx PProfit PProfit2 PProfit3 PProfitEx PProfit4.
Import ListNotations.
Local Open Scope R_scope.

Lemma count_opt1 : 6 * ln (4 / (19/10 * (19/10))) < IZR (max_iters opt1).
Proof. pose proof count1 as H. cbn [INR] in H. lra. Qed.

Lemma near_run : exists o' e' j, cutting_plane_optim (profit_assess_optim RT) (ell_space RA) opt1 oq0 (ell_set_parallel e4 true) 0
  = (o', e', Ok (Some zero2, 8, j)).
Proof.
  change (ell_set_parallel e4 true) with e4.
  unfold cutting_plane_optim. change (budget opt1) with 1%nat. cbn [optim_loop]. change (sp_xc (ell_space RA) e4) with zero2.
  destruct (optim_zero oq0 oq0_d) as (om' & ->).
  destruct (gz_update OpCentral) as (e' & st & E & HT). fold gz. change (sp_central (ell_space RA) (gz, @CSingle RA 0) e4) with (ell_update OpCentral (gz, @CSingle RA 0) e4). rewrite E.
  destruct (stop_test _ _ _ _); do 3 eexists; reflexivity.
Qed.
Lemma near_rb_run : exists o' e' v j, cutting_plane_optim (profit_rb_assess_optim RT) (ell_space RA) opt1 orb0 (ell_set_parallel e4 true) 0
  = (o', e', Ok (Some zero2, v, j)).
Proof. change (ell_set_parallel e4 true) with e4. destruct rb_run_case as (o' & e' & v & [E|E]); rewrite E; eauto. Qed.

(** price 20, elasticities 1/10 and 2/5, input prices 2 and 8: the best inputs are (1, 1) *)
Definition mq5 : market := mkMarket 20 1 5 (1/10) (2/5) 2 8.
Definition oq5 : profit RA := @mkProfit RA (-1) None None None (ln (20 * 1)) (ln 5) (@cons R 2 [8]) (@cons R (1/10) [2/5]).
Lemma oq5_init : profit_init (A:=RA) RT (20, 1, 5) (@cons R (1/10) [2/5]) (@cons R 2 [8]) = Ok oq5.
Proof.
  unfold profit_init. change (amul (a:=RA) 20 1) with (20 * 1). rewrite !plog_R.
  destruct (Rle_dec (20 * 1) 0); [lra|]. destruct (Rle_dec 5 0); [lra|]. reflexivity.
Qed.
Lemma oq5_d : describes mq5 oq5.
Proof. unfold describes, mq5, oq5. cbn [m_price m_scale m_limit m_alpha m_beta m_v1 m_v2 p_logpa p_logk p_price p_elast p_idx]. repeat split; auto; lra. Qed.
Lemma rev5 : revenue mq5 (exp (fv zero2 0)) (exp (fv zero2 1)) = 20.
Proof. unfold revenue, zero2, fv. cbn [nth mq5 m_price m_scale m_alpha m_beta]. rewrite exp_0, !Rpower_1_base. lra. Qed.
Lemma stationary5 : stationary mq5 (fv zero2).
Proof. unfold stationary. rewrite rev5. unfold zero2, fv. cbn [nth mq5 m_v1 m_v2 m_alpha m_beta]. rewrite exp_0. lra. Qed.
Lemma cost5 : cost_at mq5 (fv zero2) = 10.
Proof. unfold cost_at, cost, zero2, fv. cbn [nth mq5 m_v1 m_v2]. rewrite exp_0. lra. Qed.
Lemma profit5 : profit_at mq5 (fv zero2) = 10.
Proof. unfold profit_at, profit_of. rewrite rev5. pose proof cost5 as H. unfold cost_at in H. rewrite H. lra. Qed.
Lemma limit5 : in_limit mq5 (fv zero2).
Proof. unfold in_limit, zero2, fv. cbn [nth mq5 m_limit]. rewrite exp_0. lra. Qed.
