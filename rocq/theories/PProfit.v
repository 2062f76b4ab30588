(** Proofs about [ProfitOracle]. *)
From Coq Require Import Reals List Arith ZArith Lia Lra Bool.
From Verif Require Import Arith Vec Broadcast PBroadcast ModelCalc ModelEll ModelProfit Spec SpecProfit PCalc PAlg PSum PVec PCG2.
Import ListNotations.
Local Open Scope R_scope.

Definition logcobb (m : market) (x0 x1 : R) : R := ln (m_price m * m_scale m) + (m_alpha m * x0 + m_beta m * x1).
Definition gap (m : market) (g x0 x1 : R) : R := ln (g + cost m (exp x0) (exp x1)) - logcobb m x0 x1.
Definition slope (m : market) (d x0 x1 : R) : vec RA :=
  [m_v1 m * exp x0 / d - m_alpha m; m_v2 m * exp x1 / d - m_beta m].

Lemma exp_le_inv x y : exp x <= exp y -> x <= y.
Proof. intros H. apply Rnot_lt_le. intros L. apply exp_increasing in L. lra. Qed.

Lemma Rpower_exp a x : Rpower (exp x) a = exp (a * x).
Proof. unfold Rpower. rewrite ln_exp. reflexivity. Qed.

Lemma revenue_exp m x0 x1 : 0 < m_price m * m_scale m -> revenue m (exp x0) (exp x1) = exp (logcobb m x0 x1).
Proof.
  intros H. unfold revenue, logcobb. rewrite !Rpower_exp, !exp_plus, exp_ln by exact H. ring.
Qed.

Lemma plog_R x : plog (A:=RA) RT x = if Rle_dec x 0 then Err ValueError else Ok (ln x).
Proof. unfold plog. cbn. unfold Rleb. destruct (Rle_dec x 0); reflexivity. Qed.

(** state after a successful evaluation of [fn2] *)
Definition cached (m : market) (x0 x1 : R) (o : profit RA) : Prop :=
  p_cobb o = Some (logcobb m x0 x1 : num RA) /\ p_vy o = Some (cost m (exp x0) (exp x1) : num RA) /\
  p_q o = Some ([m_v1 m * exp x0; m_v2 m * exp x1] : vec RA).

Lemma fn2_eq m o x0 x1 g : describes m o -> exists o', cached m x0 x1 o' /\ describes m o' /\ p_idx o' = p_idx o /\
  fn2 RT o (@cons R x0 [x1]) g = (o', if Rle_dec (g + cost m (exp x0) (exp x1)) 0 then Err ValueError else Ok (gap m g x0 x1)).
Proof.
  intros D. pose proof D as (Hpa & Hk & E1 & E2 & E3 & E4 & Hi). unfold fn2. rewrite E4. cbn [length Nat.eqb negb set_cobb p_price]. rewrite E3.
  cbn [length Nat.eqb negb map map2 texp RT].
  eexists. split; [|split; [|split; [|apply f_equal2; [reflexivity|]]]].
  - unfold cached. cbn [set_vy set_q set_cobb p_cobb p_vy p_q]. repeat split. f_equal. rewrite E1. unfold logcobb, vdot, vsum. cbn. 
    rewrite Rplus_0_l. reflexivity.
  - repeat split; assumption.
  - reflexivity.
  - match goal with |- context [plog RT ?v] => change (plog RT v) with (plog (A:=RA) RT (g + cost m (exp x0) (exp x1))) end.
    rewrite plog_R. destruct (Rle_dec _ 0) as [L|L]; [reflexivity|]. cbn [bind]. f_equal. unfold gap. rewrite E1. 
    unfold logcobb, vdot, vsum. cbn. rewrite Rplus_0_l. reflexivity.
Qed.

Lemma describes_idx m o i : describes m o -> (i = 0 \/ i = 1)%Z -> describes m (set_idx o i).
Proof. intros (H1 & H2 & H3 & H4 & H5 & H6 & _) Hi. repeat split; auto. Qed.

Lemma grad2_eq m o x0 x1 g : describes m o -> cached m x0 x1 o ->
  grad2 o g = Ok (slope m (g + cost m (exp x0) (exp x1)) x0 x1).
Proof.
  intros (_ & _ & _ & _ & _ & E4 & _) (C1 & C2 & C3). unfold grad2. rewrite C2, C3. unfold quot_minus. rewrite E4. reflexivity.
Qed.

Lemma next_idx m o : describes m o ->
  (let i := (p_idx o + 1)%Z in if Z.eqb i 2 then 0%Z else i) = 0%Z \/
  ((let i := (p_idx o + 1)%Z in if Z.eqb i 2 then 0%Z else i) = 1%Z /\ p_idx o = 0%Z).
Proof. intros (_ & _ & _ & _ & _ & _ & [E|[E|E]]); rewrite E; auto. Qed.

Section Round.
Variables (m : market) (o : profit RA) (x0 x1 g : R).
Hypothesis D : describes m o.
Let x : vec RA := [x0; x1].
Let c := cost m (exp x0) (exp x1).

Lemma round0 : (p_idx o = 0%Z -> False) -> exists o', describes m o' /\ p_idx o' = 0%Z /\
  p_cobb o' = p_cobb o /\ p_vy o' = p_vy o /\ p_q o' = p_q o /\
  profit_round RT o x g = (o', if Rlt_dec 0 (x0 - ln (m_limit m)) then Ok (Some (@grad1 RA, @CSingle RA (x0 - ln (m_limit m)))) else Ok None).
Proof.
  intros N. destruct (next_idx m o D) as [E|[_ E]]; [|contradiction].
  exists (set_idx o 0). split; [apply describes_idx; auto|]. repeat split.
  unfold profit_round. cbv zeta in E |- *. rewrite E.
  change (fns RT 0 (set_idx o 0) x g) with (set_idx o 0, @Ok (num RA) (x0 - p_logk o)).
  destruct D as (_ & _ & _ & E2 & _). rewrite E2. cbn [altb azero RA]. unfold Rltb.
  destruct (Rlt_dec 0 (x0 - ln (m_limit m))); reflexivity.
Qed.

Lemma round1 : p_idx o = 0%Z -> exists o', describes m o' /\ p_idx o' = 1%Z /\ cached m x0 x1 o' /\
  profit_round RT o x g = (o', if Rle_dec (g + c) 0 then Err ValueError
    else if Rlt_dec 0 (gap m g x0 x1) then Ok (Some (slope m (g + c) x0 x1, @CSingle RA (gap m g x0 x1))) else Ok None).
Proof.
  intros E0. assert (D1 : describes m (set_idx o 1)) by (apply describes_idx; auto).
  destruct (fn2_eq m (set_idx o 1) x0 x1 g D1) as (o' & C & D' & Ei & E).
  exists o'. split; [exact D'|]. split; [rewrite Ei; reflexivity|]. split; [exact C|].
  unfold profit_round. rewrite E0. change (0 + 1)%Z with 1%Z. cbv zeta. cbn [Z.eqb Pos.eqb].
  change (fns RT 1 (set_idx o 1) x g) with (fn2 RT (set_idx o 1) (@cons R x0 [x1]) g). rewrite E. fold c.
  destruct (Rle_dec (g + c) 0) as [L|L]; [reflexivity|].
  cbn [altb azero RA]. unfold Rltb. destruct (Rlt_dec 0 (gap m g x0 x1)) as [P|P]; [|reflexivity].
  change (grads 1 o' g) with (grad2 o' g). rewrite (grad2_eq m o' x0 x1 g D' C). reflexivity.
Qed.
End Round.

(** The four outcomes of [assess_feas]. *)
Definition feas_case (m : market) (x0 x1 g : R) (o' : profit RA) (r : res (option (cut RA))) : Prop :=
  let c := cost m (exp x0) (exp x1) in
  (r = Ok (Some (@grad1 RA, @CSingle RA (x0 - ln (m_limit m)))) /\ 0 < x0 - ln (m_limit m)) \/
  (r = Err ValueError /\ g + c <= 0) \/
  (r = Ok (Some (slope m (g + c) x0 x1, @CSingle RA (gap m g x0 x1))) /\ 0 < g + c /\ 0 < gap m g x0 x1) \/
  (r = Ok None /\ x0 - ln (m_limit m) <= 0 /\ 0 < g + c /\ gap m g x0 x1 <= 0 /\ cached m x0 x1 o').

Lemma feas_outcome m o x0 x1 g : describes m o ->
  exists o' r, profit_assess_feas RT o (@cons R x0 [x1]) g = (o', r) /\ describes m o' /\ feas_case m x0 x1 g o' r.
Proof.
  intros D. unfold profit_assess_feas, feas_case.
  destruct (Z.eq_dec (p_idx o) 0) as [E0|E0].
  - destruct (round1 m o x0 x1 g D E0) as (o1 & D1 & I1 & C1 & R1). rewrite R1.
    destruct (Rle_dec (g + cost m (exp x0) (exp x1)) 0) as [L|L].
    { exists o1. eexists. split; [reflexivity|]. split; [exact D1|]. auto. }
    destruct (Rlt_dec 0 (gap m g x0 x1)) as [P|P].
    { exists o1. eexists. split; [reflexivity|]. split; [exact D1|]. right. right. left. repeat split; lra. }
    destruct (round0 m o1 x0 x1 g D1) as (o2 & D2 & _ & K1 & K2 & K3 & R2); [rewrite I1; discriminate|]. rewrite R2.
    exists o2. eexists. split; [reflexivity|]. split; [exact D2|].
    destruct (Rlt_dec 0 (x0 - ln (m_limit m))) as [Q|Q]; [left; auto|].
    right. right. right. split; [reflexivity|]. split; [lra|]. split; [lra|]. split; [lra|].
    unfold cached. rewrite K1, K2, K3. exact C1.
  - destruct (round0 m o x0 x1 g D E0) as (o1 & D1 & I1 & _ & _ & _ & R1). rewrite R1.
    destruct (Rlt_dec 0 (x0 - ln (m_limit m))) as [Q|Q].
    { exists o1. eexists. split; [reflexivity|]. split; [exact D1|]. left. auto. }
    destruct (round1 m o1 x0 x1 g D1 I1) as (o2 & D2 & _ & C2 & R2). rewrite R2.
    exists o2. eexists. split; [reflexivity|]. split; [exact D2|].
    destruct (Rle_dec (g + cost m (exp x0) (exp x1)) 0) as [L|L]; [auto|].
    destruct (Rlt_dec 0 (gap m g x0 x1)) as [P|P].
    + right. right. left. repeat split; lra.
    + right. right. right. repeat split; try lra; apply C2.
Qed.

(** The logarithmic conditions in the original terms. *)
Lemma limit_log m x0 : 0 < m_limit m -> (x0 - ln (m_limit m) <= 0 <-> exp x0 <= m_limit m).
Proof.
  intros H. split; intros L.
  - rewrite <- (exp_ln (m_limit m)) by exact H. destruct (Rle_lt_or_eq_dec x0 (ln (m_limit m))) as [Q|Q]; [lra| |].
    + left. apply exp_increasing, Q.
    + right. rewrite Q. reflexivity.
  - rewrite <- (exp_ln (m_limit m)) in L by exact H. apply exp_le_inv in L. lra.
Qed.

Lemma gap_profit m g x0 x1 : 0 < m_price m * m_scale m -> 0 < g + cost m (exp x0) (exp x1) ->
  (gap m g x0 x1 <= 0 <-> g <= profit_of m (exp x0) (exp x1)).
Proof.
  intros Hpa Hc. unfold gap, profit_of. rewrite revenue_exp by exact Hpa.
  set (c := cost m (exp x0) (exp x1)) in *. set (L := logcobb m x0 x1). split; intros H.
  - assert (Q : g + c <= exp L); [|lra]. rewrite <- (exp_ln (g + c)) by exact Hc.
    destruct (Rle_lt_or_eq_dec (ln (g + c)) L) as [Q|Q]; [lra| |].
    + left. apply exp_increasing, Q.
    + right. rewrite Q. reflexivity.
  - assert (Q : g + c <= exp L) by lra. rewrite <- (exp_ln (g + c)) in Q by exact Hc. apply exp_le_inv in Q. lra.
Qed.

Lemma two_list (x : vec RA) : length x = 2%nat -> exists x0 x1 : R, x = (@cons R x0 [x1]).
Proof. destruct x as [|a [|b [|c x]]]; cbn; try discriminate. intros _. exists a, b. reflexivity. Qed.

Lemma profit_feas m o x g o' r : describes m o -> length x = 2%nat -> 0 < g + cost_at m (fv x) ->
  profit_assess_feas RT o x g = (o', r) ->
  (exists a, r = Ok a) /\ (r = Ok None <-> in_limit m (fv x) /\ g <= profit_at m (fv x)) /\ describes m o'.
Proof.
  intros D Hx Hc E. destruct (two_list x Hx) as (x0 & x1 & ->).
  destruct (feas_outcome m o x0 x1 g D) as (o1 & r1 & E1 & D1 & F). rewrite E in E1. injection E1 as <- <-.
  unfold cost_at, profit_at, in_limit in *. change (fv (@cons R x0 [x1]) 0) with x0 in *. change (fv (@cons R x0 [x1]) 1) with x1 in *.
  pose proof D as (Hpa & Hk & _). pose proof (limit_log m x0 Hk) as LL. pose proof (gap_profit m g x0 x1 Hpa Hc) as GP.
  destruct F as [(-> & H)|[(-> & H)|[(-> & H1 & H2)|(-> & H1 & H2 & H3 & _)]]].
  - split; [eauto|]. split; [|exact D1]. split; [discriminate|]. intros (H' & _). apply LL in H'. lra.
  - lra.
  - split; [eauto|]. split; [|exact D1]. split; [discriminate|]. intros (_ & H'). apply GP in H'. lra.
  - split; [eauto|]. split; [|exact D1]. split; [intros _; split; [apply LL|apply GP]; assumption|reflexivity].
Qed.

Lemma profit_domain m o x g o' r : describes m o -> length x = 2%nat -> g + cost_at m (fv x) <= 0 ->
  in_limit m (fv x) -> profit_assess_feas RT o x g = (o', r) -> r = Err ValueError /\ describes m o'.
Proof.
  intros D Hx Hc Hl E. destruct (two_list x Hx) as (x0 & x1 & ->).
  destruct (feas_outcome m o x0 x1 g D) as (o1 & r1 & E1 & D1 & F). rewrite E in E1. injection E1 as <- <-.
  unfold cost_at, in_limit in *. change (fv (@cons R x0 [x1]) 0) with x0 in *. change (fv (@cons R x0 [x1]) 1) with x1 in *.
  pose proof D as (_ & Hk & _). apply (limit_log m x0 Hk) in Hl.
  destruct F as [(-> & H)|[(-> & H)|[(-> & H1 & H2)|(-> & H1 & H2 & _)]]]; try lra. auto.
Qed.

(** wrong lengths never give an answer *)
Lemma fn2_len o x g o' v : fn2 RT o x g = (o', Ok v) -> length x = length (p_elast o).
Proof.
  unfold fn2. destruct (Nat.eqb_spec (length (p_elast o)) (length x)) as [E|E]; cbn [negb]; [auto|discriminate].
Qed.

(** Convexity: [ln (g + v . exp z)] lies above its tangent at [x]. *)
Lemma exp_ge t : 1 + t <= exp t.
Proof. destruct (Req_dec t 0) as [->|N]; [rewrite exp_0; lra|]. left. apply exp_ineq1, N. Qed.

Lemma lse_tangent g a0 a1 d0 d1 : 0 <= g -> 0 <= a0 -> 0 <= a1 -> 0 < g + (a0 + a1) ->
  ln (g + (a0 + a1)) + (a0 / (g + (a0 + a1)) * d0 + a1 / (g + (a0 + a1)) * d1) <= ln (g + (a0 * exp d0 + a1 * exp d1)).
Proof.
  intros Hg H0 H1 Hs. set (s := g + (a0 + a1)) in *.
  set (t := a0 / s * d0 + a1 / s * d1).
  assert (E : s * exp t <= g + (a0 * exp d0 + a1 * exp d1)).
  { assert (P0 : exp d0 = exp t * exp (d0 - t)) by (rewrite <- exp_plus; f_equal; ring).
    assert (P1 : exp d1 = exp t * exp (d1 - t)) by (rewrite <- exp_plus; f_equal; ring).
    assert (PZ : 1 = exp t * exp (0 - t)) by (rewrite <- exp_plus; replace (t + (0 - t)) with 0 by ring; rewrite exp_0; reflexivity).
    replace (g + (a0 * exp d0 + a1 * exp d1)) with (exp t * (g * exp (0 - t) + (a0 * exp (d0 - t) + a1 * exp (d1 - t)))).
    2: { rewrite P0, P1. replace g with (g * (exp t * exp (0 - t))) at 2 by (rewrite <- PZ; ring). ring. }
    rewrite Rmult_comm. apply Rmult_le_compat_l; [left; apply exp_pos|].
    assert (Q0 := Rmult_le_compat_l a0 _ _ H0 (exp_ge (d0 - t))).
    assert (Q1 := Rmult_le_compat_l a1 _ _ H1 (exp_ge (d1 - t))).
    assert (QZ := Rmult_le_compat_l g _ _ Hg (exp_ge (0 - t))).
    assert (T : s * t = a0 * d0 + a1 * d1) by (unfold t; field; lra).
    unfold s in *. lra. }
  assert (P : 0 < s * exp t) by (apply Rmult_lt_0_compat; [exact Hs|apply exp_pos]).
  replace (ln s + t) with (ln (s * exp t)) by (rewrite ln_mult, ln_exp; [reflexivity|exact Hs|apply exp_pos]).
  destruct (Rle_lt_or_eq_dec _ _ E) as [Q|Q]; [left; apply ln_increasing; assumption|right; rewrite Q; reflexivity].
Qed.

Lemma gap_tangent m g x0 x1 z0 z1 : 0 <= m_v1 m -> 0 <= m_v2 m -> 0 <= g -> 0 < g + cost m (exp x0) (exp x1) ->
  let d := g + cost m (exp x0) (exp x1) in
  gap m g x0 x1 + ((m_v1 m * exp x0 / d - m_alpha m) * (z0 - x0) + (m_v2 m * exp x1 / d - m_beta m) * (z1 - x1)) <= gap m g z0 z1.
Proof.
  intros V1 V2 Hg Hd d.
  pose proof (lse_tangent g (m_v1 m * exp x0) (m_v2 m * exp x1) (z0 - x0) (z1 - x1) Hg) as T.
  assert (A0 : 0 <= m_v1 m * exp x0) by (apply Rmult_le_pos; [exact V1|left; apply exp_pos]).
  assert (A1 : 0 <= m_v2 m * exp x1) by (apply Rmult_le_pos; [exact V2|left; apply exp_pos]).
  specialize (T A0 A1 Hd).
  replace (m_v1 m * exp x0 * exp (z0 - x0) + m_v2 m * exp x1 * exp (z1 - x1)) with (cost m (exp z0) (exp z1)) in T.
  2: { unfold cost. rewrite !Rmult_assoc, <- !exp_plus. replace (x0 + (z0 - x0)) with z0 by ring. replace (x1 + (z1 - x1)) with z1 by ring. reflexivity. }
  change (g + (m_v1 m * exp x0 + m_v2 m * exp x1)) with d in T.
  unfold gap, logcobb. fold d. lra.
Qed.

Lemma cost_pos_all m g x0 x1 z0 z1 : 0 <= m_v1 m -> 0 <= m_v2 m -> 0 <= g -> 0 < g + cost m (exp x0) (exp x1) ->
  0 < g + cost m (exp z0) (exp z1).
Proof.
  intros V1 V2 Hg H. unfold cost in *. pose proof (exp_pos z0). pose proof (exp_pos z1). 
  assert (0 <= m_v1 m * exp z0) by (apply Rmult_le_pos; lra). assert (0 <= m_v2 m * exp z1) by (apply Rmult_le_pos; lra).
  destruct (Rle_lt_or_eq_dec 0 g Hg) as [P|P]; [lra|]. rewrite <- P in *.
  destruct (Rle_lt_or_eq_dec 0 (m_v1 m) V1) as [P1|P1].
  - assert (0 < m_v1 m * exp z0) by (apply Rmult_lt_0_compat; lra). lra.
  - destruct (Rle_lt_or_eq_dec 0 (m_v2 m) V2) as [P2|P2].
    + assert (0 < m_v2 m * exp z1) by (apply Rmult_lt_0_compat; lra). lra.
    + rewrite <- P1, <- P2 in H. lra.
Qed.

(** the cut of the second condition *)
Lemma slope_cut m g x0 x1 z : 0 < m_price m * m_scale m -> 0 <= m_v1 m -> 0 <= m_v2 m -> 0 <= g ->
  0 < g + cost m (exp x0) (exp x1) -> g <= profit_at m z ->
  cutval 2 (fv (slope m (g + cost m (exp x0) (exp x1)) x0 x1)) (fv (@cons R x0 [x1])) z + gap m g x0 x1 <= 0.
Proof.
  intros Hpa V1 V2 Hg Hd Hz. 
  assert (P := proj2 (gap_profit m g (z 0%nat) (z 1%nat) Hpa (cost_pos_all m g x0 x1 _ _ V1 V2 Hg Hd)) Hz).
  pose proof (gap_tangent m g x0 x1 (z 0%nat) (z 1%nat) V1 V2 Hg Hd) as T. cbv zeta in T.
  unfold cutval, dot, fv, slope. cbn [sumn nth]. lra.
Qed.

Lemma limit_cut m x0 x1 z : 0 < m_limit m -> in_limit m z ->
  cutval 2 (fv (@grad1 RA)) (fv (@cons R x0 [x1])) z + (x0 - ln (m_limit m)) <= 0.
Proof.
  intros Hk Hz. apply (limit_log m _ Hk) in Hz. unfold cutval, dot, fv, grad1. cbn. lra.
Qed.


Lemma profit_feas_cut m o x g o' gr be : describes m o -> good_price m -> 0 <= g -> length x = 2%nat ->
  profit_assess_feas RT o x g = (o', Ok (Some (gr, be))) ->
  describes m o' /\ length gr = 2%nat /\ exists ep, be = @CSingle RA ep /\ 0 < ep /\
  forall z, in_limit m z -> g <= profit_at m z -> cutval 2 (fv gr) (fv x) z + ep <= 0.
Proof.
  intros D (V1 & V2) Hg Hx E. destruct (two_list x Hx) as (x0 & x1 & ->).
  destruct (feas_outcome m o x0 x1 g D) as (o1 & r1 & E1 & D1 & F). rewrite E in E1. injection E1 as <- <-.
  split; [exact D1|]. pose proof D as (Hpa & Hk & _).
  destruct F as [(F & H)|[(F & H)|[(F & H1 & H2)|(F & _)]]]; try discriminate; injection F as -> ->; (split; [reflexivity|]); eexists; (split; [reflexivity|]).
  - split; [exact H|]. intros z Hz _. apply limit_cut; assumption.
  - split; [exact H2|]. intros z _ Hz. apply slope_cut; assumption.
Qed.

(** [assess_optim] *)
Lemma optim_outcome m o x0 x1 g : describes m o ->
  exists o' r, profit_assess_optim RT o (@cons R x0 [x1]) g = (o', r) /\ describes m o' /\
  ((r = Err ValueError /\ g + cost m (exp x0) (exp x1) <= 0) \/
   (exists ct, r = Ok (ct, None) /\ exists o2, profit_assess_feas RT o (@cons R x0 [x1]) g = (o2, Ok (Some ct))) \/
   (let v := profit_of m (exp x0) (exp x1) in
    r = Ok ((slope m (v + cost m (exp x0) (exp x1)) x0 x1, @CSingle RA 0), Some (v : num RA)) /\
    exp x0 <= m_limit m /\ 0 < g + cost m (exp x0) (exp x1) /\ g <= v)).
Proof.
  intros D. destruct (feas_outcome m o x0 x1 g D) as (o1 & r1 & E1 & D1 & F). unfold profit_assess_optim. rewrite E1.
  pose proof D1 as (Hpa & Hk & _ & _ & _ & E4 & _).
  destruct F as [(-> & H)|[(-> & H)|[(-> & H1 & H2)|(-> & H1 & H2 & H3 & C)]]].
  - do 2 eexists. split; [reflexivity|]. split; [exact D1|]. right. left. eauto.
  - do 2 eexists. split; [reflexivity|]. split; [exact D1|]. left. auto.
  - do 2 eexists. split; [reflexivity|]. split; [exact D1|]. right. left. eauto.
  - destruct C as (C1 & C2 & C3). rewrite C1, C2, C3. do 2 eexists. split; [reflexivity|]. split; [exact D1|]. right. right.
    assert (V : texp RT (logcobb m x0 x1) - cost m (exp x0) (exp x1) = profit_of m (exp x0) (exp x1)).
    { unfold profit_of. rewrite revenue_exp by exact Hpa. reflexivity. }
    split; [|split; [apply limit_log; assumption|split; [assumption|apply gap_profit; assumption]]].
    unfold quot_minus. rewrite E4. cbn [length Nat.eqb bind].
    change (asub (a:=RA) (texp RT (logcobb m x0 x1)) (cost m (exp x0) (exp x1))) with (texp RT (logcobb m x0 x1) - cost m (exp x0) (exp x1)).
    rewrite V. reflexivity.
Qed.

Lemma profit_value m o x g o' ct v : describes m o -> length x = 2%nat -> profit_assess_optim RT o x g = (o', Ok (ct, Some v)) ->
  v = profit_at m (fv x) /\ g <= v /\ in_limit m (fv x) /\ describes m o'.
Proof.
  intros D Hx E. destruct (two_list x Hx) as (x0 & x1 & ->).
  destruct (optim_outcome m o x0 x1 g D) as (o1 & r & E1 & D1 & F). rewrite E in E1. injection E1 as <- <-.
  destruct F as [(F & _)|[(c & F & _)|(F & H1 & H2 & H3)]]; try discriminate. injection F as -> ->.
  auto.
Qed.

Lemma profit_reports m o x g o' r : describes m o -> length x = 2%nat -> 0 < g + cost_at m (fv x) ->
  profit_assess_optim RT o x g = (o', r) ->
  (exists ct v, r = Ok (ct, v) /\ (v <> None <-> in_limit m (fv x) /\ g <= profit_at m (fv x))) /\ describes m o'.
Proof.
  intros D Hx Hc E. 
  destruct (profit_assess_feas RT o x g) as [o2 r2] eqn:Ef.
  destruct (profit_feas m o x g o2 r2 D Hx Hc Ef) as (_ & I & _).
  destruct (two_list x Hx) as (x0 & x1 & ->).
  destruct (optim_outcome m o x0 x1 g D) as (o1 & r1 & E1 & D1 & F). rewrite E in E1. injection E1 as <- <-.
  split; [|exact D1]. unfold cost_at in Hc. change (fv (@cons R x0 [x1]) 0) with x0 in *. change (fv (@cons R x0 [x1]) 1) with x1 in *.
  destruct F as [(F & H)|[(c & -> & o3 & H)|(-> & H1 & H2 & H3)]]; [lra| |].
  - exists c, None. split; [reflexivity|]. split; [congruence|]. intros H'. apply I in H'. rewrite Ef in H. congruence.
  - do 2 eexists. split; [reflexivity|]. split; [|discriminate]. intros _. split; [exact H1|exact H3].
Qed.

Lemma profit_optim_cut m o x g o' gr be v : describes m o -> good_price m -> 0 <= g -> length x = 2%nat ->
  profit_assess_optim RT o x g = (o', Ok ((gr, be), v)) ->
  describes m o' /\ length gr = 2%nat /\ exists ep, be = @CSingle RA ep /\
  match v with
  | None => 0 < ep /\ forall z, in_limit m z -> g <= profit_at m z -> cutval 2 (fv gr) (fv x) z + ep <= 0
  | Some v => ep = 0 /\ forall z, in_limit m z -> v <= profit_at m z -> cutval 2 (fv gr) (fv x) z + ep <= 0
  end.
Proof.
  intros D (V1 & V2) Hg Hx E. destruct (two_list x Hx) as (x0 & x1 & ->).
  destruct (optim_outcome m o x0 x1 g D) as (o1 & r & E1 & D1 & F). rewrite E in E1. injection E1 as <- <-.
  split; [exact D1|]. pose proof D as (Hpa & Hk & _).
  destruct F as [(F & _)|[(c & F & o2 & Ef)|(F & H1 & H2 & H3)]]; try discriminate.
  - injection F as <- ->. destruct (profit_feas_cut m o _ g o2 gr be D (conj V1 V2) Hg Hx Ef) as (_ & L & ep & H).
    split; [exact L|]. exists ep. exact H.
  - injection F as -> -> ->. split; [reflexivity|]. exists 0. split; [reflexivity|]. split; [reflexivity|].
    intros z _ Hz. set (w := profit_of m (exp x0) (exp x1)) in *.
    assert (P : 0 < w + cost m (exp x0) (exp x1)) by lra.
    assert (Z : gap m w x0 x1 = 0).
    { unfold gap. replace (w + cost m (exp x0) (exp x1)) with (revenue m (exp x0) (exp x1)) by (unfold w, profit_of; ring).
      rewrite revenue_exp by exact Hpa. rewrite ln_exp. ring. }
    assert (Q : 0 <= w) by lra.
    pose proof (slope_cut m w x0 x1 z Hpa V1 V2 Q P Hz) as Sc. rewrite Z in Sc. exact Sc.
Qed.

Lemma profit_init_ok p a k el pr : (forall o, profit_init (A:=RA) RT (p, a, k) el pr = Ok o -> 0 < p * a /\ 0 < k) /\
  (0 < p * a -> 0 < k -> exists o, profit_init (A:=RA) RT (p, a, k) el pr = Ok o /\
     p_logpa o = ln (p * a) /\ p_logk o = ln k /\ p_price o = pr /\ p_elast o = el /\ p_idx o = (-1)%Z) /\
  (forall e, profit_init (A:=RA) RT (p, a, k) el pr = Err e -> e = ValueError).
Proof.
  unfold profit_init. change (amul (a:=RA) p a) with (p * a). rewrite !plog_R.
  destruct (Rle_dec (p * a) 0) as [L|L]; destruct (Rle_dec k 0) as [Q|Q]; cbn [bind]; (split; [|split]);
    intros; try discriminate; try lra; try (split; lra); try (eexists; split; [reflexivity|]; repeat split); congruence.
Qed.

Lemma profit_describes p a k al be v1 v2 o :
  profit_init (A:=RA) RT (p, a, k) (@cons R al [be]) (@cons R v1 [v2]) = Ok o ->
  describes (mkMarket p a k al be v1 v2) o.
Proof.
  intros E. destruct (profit_init_ok p a k (@cons R al [be]) (@cons R v1 [v2])) as (H1 & H2 & _).
  destruct (H1 o E) as (Hp & Hk). destruct (H2 Hp Hk) as (o' & E' & Q1 & Q2 & Q3 & Q4 & Q5). rewrite E in E'. injection E' as <-.
  repeat split; auto.
Qed.

(** vectors that do not fit *)
Lemma profit_mismatch p a k el pr o (x0 : R) (x' : list R) g :
  profit_init (A:=RA) RT (p, a, k) el pr = Ok o -> x0 <= ln k ->
  let x := x0 :: x' in
  (length el <> length x \/ length pr <> 1%nat /\ length x <> 1%nat /\ length pr <> length x) ->
  snd (profit_assess_feas RT o x g) = Err ValueError.
Proof.
  intros Hi Hx x Hl. destruct (profit_init_ok p a k el pr) as (H1 & H2 & _). destruct (H1 _ Hi) as [P1 P2].
  destruct (H2 P1 P2) as (o1 & E1 & A1 & A2 & A3 & A4 & A5). assert (o1 = o) by congruence. subst o1.
  assert (Hlt : altb (a:=RA) azero (asub (a:=RA) x0 (p_logk o)) = false).
  { cbn. rewrite A2. unfold Rltb. destruct (Rlt_dec _ _); [ lra | reflexivity ]. }
  assert (R1 : profit_round RT o x g = (set_idx o 0, Ok None)).
  { unfold profit_round. rewrite A5. change (-1 + 1)%Z with 0%Z. change (Z.eqb 0 2) with false. cbn iota.
    unfold fns. change (Z.eqb 0 0 || Z.eqb 0 (-2))%bool with true. cbn iota. unfold x, fn1.
    change (p_logk (set_idx o 0)) with (p_logk o). rewrite Hlt. reflexivity. }
  unfold profit_assess_feas. rewrite R1. unfold profit_round.
  change (p_idx (set_idx o 0)) with 0%Z. change (0 + 1)%Z with 1%Z. change (Z.eqb 1 2) with false. cbn iota.
  unfold fns. change (Z.eqb 1 0 || Z.eqb 1 (-2))%bool with false. change (Z.eqb 1 1 || Z.eqb 1 (-1))%bool with true. cbn iota.
  unfold fn2. cbn [p_elast p_price set_idx set_cobb]. rewrite A3, A4.
  destruct (Nat.eqb (@length (num RA) el) (@length (num RA) x)) eqn:Q1; cbn [negb]; [ | reflexivity ].
  apply Nat.eqb_eq in Q1. destruct Hl as [Hl|(Hl1 & Hl2 & Hl)]; [ contradiction | ].
  rewrite (bcast2_err (A:=RA) amul pr (map (texp RT) x)); [ reflexivity | | exact Hl1 | ]; rewrite map_length; assumption.
Qed.
