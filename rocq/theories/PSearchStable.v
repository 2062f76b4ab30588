(** Runs of the drivers on [EllStable]. *)
From Coq Require Import Reals List Arith Lia Lra Psatz Bool ZArith.
From Verif Require Import Arith Vec ModelCalc ModelEll ModelStable ModelCut ModelSpaces SpecDrivers Spec SpecCut SpecEll SpecSearch SpecStable
  PSum PAlg PCalc PCalc2 PCalc3 PCalc5 PVec PGeo PEll PEll2 PTarget PSearch PStable PStable2 PStable3 PStable4 PStable5.
Import ListNotations.
Local Open Scope R_scope.

Lemma stable_target n p z k (ct : cut RA) (s s1 : stable RA) r :
  sgood (stable_sound n p) (stable_in n) z s -> tholds n p z k ct (s_xc s) -> stable_update k ct s = (s1, r) ->
  (fine False r -> sgood (stable_sound n p) (stable_in n) z s1) /\ r <> Ok NoSoln /\
  (r = Ok Success -> tnear n z ct (s_xc s) (s_tsq s1)).
Proof.
  intros [[Hok Hf] Hz] [Hd Hh] Hu.
  assert (Hn : r <> Ok NoSoln) by (intros ->; exact (stable_nosoln n p s k ct s1 Hok Hu z Hz Hh)).
  split; [|split; [exact Hn|]].
  - intros [[]|[st ->]]. destruct (res_dec (Ok st)) as [E|E].
    + injection E as ->. destruct ct as [g beta]. cbn [fst snd] in *.
      destruct (stable_success n p s k g beta s1 Hok Hu) as (Hg & _).
      assert (Hb : bias_cond n k p beta (s_tsq s1)).
      { apply deep_bias; [|exact Hd]. rewrite (stable_tsq n p s k g beta s1 _ Hok Hg Hu).
        apply Rmult_le_pos; [apply (stable_in_k n p s Hok z Hz)|apply (st_om_ge_0 n p s g Hok Hg)]. }
      destruct (stable_contain n p s k (g, beta) s1 z Hok Hf Hu Hb Hz Hh) as (H1 & H2 & H3).
      split; [split; assumption|exact H3].
    + destruct (stable_unchanged n p s k ct s1 (Ok st) Hok Hu E) as (H1 & _ & _ & _ & H2 & _ & H3); [discriminate|].
      split; [split; [exact H1|rewrite H2; exact Hf]|apply H3, Hz].
  - intros ->. destruct ct as [g beta]. destruct (stable_success n p s k g beta s1 Hok Hu) as (Hg & _).
    exact (stable_near n p s k (g, beta) s1 _ z Hok Hu Hg Hz).
Qed.

Lemma upd_of_stable k : upd_of (stable_space RA) k = stable_update k.
Proof. destruct k; reflexivity. Qed.

Lemma stable_space_step n p z k c (s s1 : stable RA) r :
  sgood (stable_sound n p) (stable_in n) z s -> tholds n p z k c (sp_xc (stable_space RA) s) ->
  upd_of (stable_space RA) k c s = (s1, r) ->
  (fine False r -> sgood (stable_sound n p) (stable_in n) z s1) /\ r <> Ok NoSoln /\
  (r = Ok Success -> tnear n z c (sp_xc (stable_space RA) s) (sp_tsq (stable_space RA) s1)).
Proof. rewrite upd_of_stable. apply stable_target. Qed.

Lemma stable_feas_kept n p opt (Orc : Type) (f : Orc -> vec RA -> Orc * res (option (cut RA))) (S : (nat -> R) -> Prop) o (e : stable RA) o' e' l u r :
  stable_sound n p e -> feas_oracle n p S f o ->
  cutting_plane_feas (logged_feas f) (logged_space (stable_space RA)) opt (o, []) (e, []) = ((o', l), (e', u), r) ->
  forall z, S z -> stable_in n e z ->
  ((exists v, r = Ok v) -> stable_in n e' z) /\ ~ said_nosoln u /\
  (forall m, r = Ok (None, m) -> Forall2 (fun q ev => confined n z (fst q) ev) l u).
Proof.
  intros He Hf Hrun z HS Hz.
  destruct (@feas_kept n p opt _ (stable_space RA) (stable_sound n p) (stable_in n) False (stable_space_step n p) Orc f S o e o' e' l u r He Hf Hrun z HS Hz)
    as (H1 & H2 & H3). split; [intros H; apply H1; right; exact H|auto].
Qed.
Definition stable_feas_infeasible n p opt (Orc : Type) := @feas_infeasible n p opt _ (stable_space RA) (stable_sound n p) (stable_in n) False (stable_space_step n p) Orc.
Definition stable_feas_small n p opt (Orc : Type) := @feas_small n p opt _ (stable_space RA) (stable_sound n p) (stable_in n) False (stable_space_step n p) Orc.
Definition stable_optim_kept n p opt (Orc G : Type) := @optim_kept n p opt _ (stable_space RA) (stable_sound n p) (stable_in n) False (stable_space_step n p) Orc G.
Definition stable_optim_optimal n p opt (Orc G : Type) := @optim_optimal n p opt _ (stable_space RA) (stable_sound n p) (stable_in n) False (stable_space_step n p) Orc G.
Definition stable_optim_q_kept n p opt (Orc G : Type) := @optim_q_kept n p opt _ (stable_space RA) (stable_sound n p) (stable_in n) False (stable_space_step n p) Orc G.
Definition stable_optim_q_optimal n p opt (Orc G : Type) := @optim_q_optimal n p opt _ (stable_space RA) (stable_sound n p) (stable_in n) False (stable_space_step n p) Orc G.
