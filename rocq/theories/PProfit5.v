(** The methods [fn1], [fn2], [grad1], [grad2] of the profit oracle called on their own. *)
From Coq Require Import Reals List Arith ZArith Lia Lra Bool.
From Verif Require Import Arith Vec Broadcast PBroadcast ModelCalc ModelProfit Spec SpecProfit PVec PProfit PProfit2 PProfit3.
Import ListNotations.
Local Open Scope R_scope.

Lemma grad2_alone p a k el pr (o : profit RA) g : length pr = length el -> profit_init (A:=RA) RT (p, a, k) el pr = Ok o ->
  grad2 o g = Err AttributeError /\
  forall (x : vec RA) o1 v g1, fn2 RT o x g = (o1, Ok v) ->
    length x = length el /\ (2 <= length el)%nat /\
    (g1 + (fv pr 0 * exp (fv x 0) + fv pr 1 * exp (fv x 1)) <> 0 ->
    exists gr, grad2 o1 g1 = Ok gr /\ length gr = length el /\
    forall i, (i < length el)%nat ->
      fv gr i = fv pr i * exp (fv x i) / (g1 + (fv pr 0 * exp (fv x 0) + fv pr 1 * exp (fv x 1))) - fv el i).
Proof.
  intros Hlen Hi. unfold profit_init in Hi.
  destruct (plog RT (amul p a)) as [l1|]; cbn [bind] in Hi; [|discriminate].
  destruct (plog RT k) as [l2|]; cbn [bind] in Hi; [|discriminate]. injection Hi as <-.
  split; [reflexivity|]. intros x o1 v g1 H. unfold fn2 in H. cbn [p_elast p_price] in H.
  destruct (Nat.eqb_spec (length el) (length x)) as [E1|]; [|discriminate].
  cbn [set_cobb p_price negb] in H.
  assert (E2 : length pr = length x) by exact (eq_trans Hlen E1).
  rewrite bcast2_eq in H by (rewrite map_length; exact E2).
  destruct x as [|x0 [|x1 x]]; destruct pr as [|v0 [|v1 pr]]; try discriminate; cbn [map map2] in H.
  cbn [set_q set_vy] in H. injection H as <- Hv.
  split; [symmetry; exact E1|]. split; [cbn [length] in E1; rewrite E1; lia|]. intros _.
  set (q := v0 * exp x0 :: v1 * exp x1 :: map2 Rmult pr (map exp x)).
  assert (Lq : length q = length el).
  { assert (L : length (map2 Rmult pr (map exp x)) = length pr).
    { apply map2_length. rewrite map_length. cbn [length] in E2. injection E2 as E2. exact E2. }
    transitivity (S (S (length (map2 Rmult pr (map exp x))))); [reflexivity|]. rewrite L.
    exact (eq_trans E2 (eq_sym E1)). }
  exists (vsub (A:=RA) (map (fun y => y / (g1 + (v0 * exp x0 + v1 * exp x1))) q) el). split.
  { apply (bcast2_eq (A:=RA) asub). rewrite map_length. exact Lq. }
  split; [|].
  - unfold vsub. rewrite map2_length by (rewrite map_length; exact Lq). rewrite map_length. exact Lq.
  - intros i Hi.
    assert (Hq : (i < length q)%nat) by (rewrite Lq; exact Hi).
    rewrite vsub_R by (rewrite map_length; [exact Lq|exact Hq] || (rewrite map_length; assumption)). f_equal.
    unfold fv at 1. rewrite (nth_map_gen _ q i 0 0) by exact Hq.
    assert (Eq : q = map2 Rmult (v0 :: v1 :: pr) (map exp (x0 :: x1 :: x))) by reflexivity.
    assert (En : nth i q 0 = fv (v0 :: v1 :: pr) i * exp (fv (x0 :: x1 :: x) i)).
    { rewrite Eq. assert (Lx : length (v0 :: v1 :: pr) = length (map exp (x0 :: x1 :: x))) by (rewrite map_length; exact E2).
      assert (Ip : (i < length (v0 :: v1 :: pr))%nat) by (rewrite (eq_trans E2 (eq_sym E1)); exact Hi).
      rewrite (nth_map2 Rmult _ _ i 0 0 0 Lx Ip).
      unfold fv. f_equal. apply (nth_map_gen exp). exact (eq_ind _ (fun m => (i < m)%nat) Hi _ E1). }
    change (num RA) with R in *. rewrite En. reflexivity.
Qed.

Lemma fn_alone p a k el pr (o : profit RA) : length pr = length el -> profit_init (A:=RA) RT (p, a, k) el pr = Ok o ->
  (forall x0 x, fn1 o (x0 :: x) = Ok (x0 - ln k)) /\
  forall (x : vec RA) g o1 v, fn2 RT o x g = (o1, Ok v) ->
    0 < g + (fv pr 0 * exp (fv x 0) + fv pr 1 * exp (fv x 1)) /\
    v = ln (g + (fv pr 0 * exp (fv x 0) + fv pr 1 * exp (fv x 1))) - (ln (p * a) + dot (length el) (fv el) (fv x)).
Proof.
  intros Hlen Hi. unfold profit_init in Hi.
  assert (PL : forall z r, plog RT z = Ok r -> 0 < z /\ r = ln z).
  { intros z r H. unfold plog in H. cbn [aleb RA azero] in H. unfold Rleb in H.
    destruct (Rle_dec z 0) as [Z|Z]; [discriminate|]. split; [lra|]. injection H as <-. reflexivity. }
  destruct (plog RT (amul p a)) as [l1|] eqn:P1; cbn [bind] in Hi; [|discriminate].
  destruct (plog RT k) as [l2|] eqn:P2; cbn [bind] in Hi; [|discriminate]. injection Hi as <-.
  apply PL in P1, P2. destruct P1 as (_ & ->), P2 as (_ & ->).
  split; [reflexivity|]. intros x g o1 v H. unfold fn2 in H. cbn [p_elast p_price p_logpa] in H.
  destruct (Nat.eqb_spec (length el) (length x)) as [E1|]; [|discriminate].
  cbn [set_cobb p_price negb] in H.
  assert (E2 : length pr = length x) by exact (eq_trans Hlen E1).
  rewrite bcast2_eq in H by (rewrite map_length; exact E2).
  destruct x as [|x0 [|x1 x]]; destruct pr as [|v0 [|v1 pr]]; try discriminate; cbn [map map2] in H.
  injection H as <- Hv.
  match type of Hv with context [plog RT ?z] => destruct (plog RT z) as [l|] eqn:P3 end; cbn [bind] in Hv; [|discriminate].
  apply PL in P3. destruct P3 as (P3 & ->). split; [exact P3|].
  assert (D : vdot el (x0 :: x1 :: x) = dot (length el) (fv el) (fv (x0 :: x1 :: x))) by (apply vdot_R; [reflexivity|symmetry; exact E1]).
  rewrite <- D. injection Hv as <-. reflexivity.
Qed.

Lemma fn2_runs p a k v0 v1 e0 e1 (o : profit RA) (x0 x1 g : R) :
  profit_init (A:=RA) RT (p, a, k) (@cons R e0 [e1]) (@cons R v0 [v1]) = Ok o ->
  0 < g + (v0 * exp x0 + v1 * exp x1) -> exists o1 v, fn2 RT o (@cons R x0 [x1]) g = (o1, Ok v).
Proof.
  intros Hi P. unfold profit_init in Hi.
  destruct (plog RT (amul p a)) as [l1|]; cbn [bind] in Hi; [|discriminate].
  destruct (plog RT k) as [l2|]; cbn [bind] in Hi; [|discriminate]. injection Hi as <-.
  assert (E : plog RT (g + (v0 * exp x0 + v1 * exp x1) : num RA) = Ok (ln (g + (v0 * exp x0 + v1 * exp x1)))).
  { unfold plog. cbn [aleb RA azero]. unfold Rleb. destruct (Rle_dec _ 0) as [Z|_]; [lra|reflexivity]. }
  eexists. eexists. unfold fn2. cbn [p_elast length Nat.eqb p_price set_cobb negb]. rewrite bcast2_eq by reflexivity. cbn [map map2].
  change (@aadd RA) with Rplus. change (@amul RA) with Rmult. cbn [texp RT].
  change (num RA) with R in *. rewrite E. cbn [bind]. reflexivity.
Qed.

(** ** A single price is stretched to all inputs. *)
Section OnePrice.
Context {A : Arith} (T : Trans A).

Lemma one_fn2 v o1 o2 x g o1' r : one_price v o1 o2 -> fn2 T o1 x g = (o1', r) ->
  exists o2', fn2 T o2 x g = (o2', r) /\ one_price v o1' o2'.
Proof.
  intros (E1 & E2 & E3 & E4 & E5 & E6 & E7 & E8 & E9) H. unfold fn2 in *. rewrite <- E7 in *.
  destruct (Nat.eqb_spec (length (p_elast o1)) (length x)) as [L|L]; cbn [negb] in *;
    [|injection H as <- <-; exists o2; split; [reflexivity|unfold one_price; rewrite <- E7; auto 10]].
  cbn [set_cobb p_price p_logpa p_elast] in *. rewrite E8 in H. rewrite E9.
  rewrite (bcast_one amul v (map (texp T) x) (length (p_elast o1))) in H by (rewrite map_length; symmetry; exact L).
  rewrite <- E5. destruct (bcast2 amul (repeat v (length (p_elast o1))) (map (texp T) x)) as [[|q0 [|q1 q]]|e];
    injection H as <- <-; eexists; (split; [reflexivity|]); unfold one_price; cbn; rewrite <- ?E7; auto 10.
Qed.

Lemma one_set_idx (v : num A) o1 o2 i : one_price v o1 o2 -> one_price v (set_idx o1 i) (set_idx o2 i).
Proof. intros (E1 & E2 & E3 & E4 & E5 & E6 & E7 & E8 & E9). unfold one_price. cbn. auto 10. Qed.

Lemma one_round (v : num A) o1 o2 x g o1' r : one_price v o1 o2 -> profit_round T o1 x g = (o1', r) ->
  exists o2', profit_round T o2 x g = (o2', r) /\ one_price v o1' o2'.
Proof.
  intros S H. unfold profit_round in *. pose proof S as (E1 & _). rewrite <- E1.
  set (i := if Z.eqb (p_idx o1 + 1) 2 then 0%Z else (p_idx o1 + 1)%Z) in *.
  apply (one_set_idx v _ _ i) in S.
  destruct (fns T i (set_idx o1 i) x g) as [oa ra] eqn:Ef.
  assert (K : exists ob, fns T i (set_idx o2 i) x g = (ob, ra) /\ one_price v oa ob).
  { unfold fns in *. destruct (Z.eqb i 0 || Z.eqb i (-2)).
    - injection Ef as <- <-. eexists. split; [|exact S]. f_equal. unfold fn1. destruct S as (_ & _ & _ & _ & _ & -> & _). reflexivity.
    - destruct (Z.eqb i 1 || Z.eqb i (-1)); [exact (one_fn2 v _ _ x g _ _ S Ef)|].
      injection Ef as <- <-. eexists. split; [reflexivity|exact S]. }
  destruct K as (ob & -> & S').
  assert (G : grads i ob g = grads i oa g).
  { unfold grads, grad2. destruct S' as (_ & _ & F3 & F4 & _ & _ & F7 & _). rewrite F3, F4, F7. reflexivity. }
  destruct ra as [fj|e]; [|injection H as <- <-; eauto].
  destruct (altb azero fj); [|injection H as <- <-; eauto].
  injection H as <- <-. exists ob. rewrite G. auto.
Qed.

Lemma one_feas v o1 o2 x g o1' r : one_price v o1 o2 -> profit_assess_feas T o1 x g = (o1', r) ->
  exists o2', profit_assess_feas T o2 x g = (o2', r) /\ one_price v o1' o2'.
Proof.
  intros S H. unfold profit_assess_feas in *. destruct (profit_round T o1 x g) as [oa ra] eqn:E.
  destruct (one_round v _ _ x g _ _ S E) as (ob & -> & S').
  destruct ra as [[c|]|e]; try (injection H as <- <-; eauto). exact (one_round v _ _ x g _ _ S' H).
Qed.

Lemma one_optim v o1 o2 x g o1' r : one_price v o1 o2 -> profit_assess_optim T o1 x g = (o1', r) ->
  exists o2', profit_assess_optim T o2 x g = (o2', r) /\ one_price v o1' o2'.
Proof.
  intros S H. unfold profit_assess_optim in *. destruct (profit_assess_feas T o1 x g) as [oa ra] eqn:E.
  destruct (one_feas v _ _ x g _ _ S E) as (ob & -> & S').
  destruct ra as [[c|]|e]; try (injection H as <- <-; eauto).
  pose proof S' as (_ & F2 & F3 & F4 & _ & _ & F7 & _). rewrite <- F2, <- F3, <- F4, <- F7.
  destruct (p_cobb oa); [destruct (p_vy oa); [destruct (p_q oa)|]|]; injection H as <- <-; eauto.
Qed.

Lemma one_init v params el o1 o2 :
  profit_init T params el [v] = Ok o1 -> profit_init T params el (repeat v (length el)) = Ok o2 -> one_price v o1 o2.
Proof.
  destruct params as [[p a] k]. unfold profit_init. destruct (plog T (amul p a)); cbn [bind]; [|discriminate].
  destruct (plog T k); cbn [bind]; [|discriminate]. intros H1 H2. injection H1 as <-. injection H2 as <-.
  unfold one_price. cbn. auto 10.
Qed.

Lemma rb_one (v : num A) params el vp : profit_rb_init T params el [v] vp = profit_rb_init T params el [v; v] vp.
Proof. destruct vp as [[[[e1 e2] e3] e4] e5]. destruct params as [[p a] k]. reflexivity. Qed.

Lemma rb_misfit pr params el vp : length pr <> 1%nat -> length pr <> 2%nat -> profit_rb_init T params el pr vp = Err ValueError.
Proof.
  intros H1 H2. destruct vp as [[[[e1 e2] e3] e4] e5]. destruct params as [[p a] k]. unfold profit_rb_init.
  rewrite bcast2_err; [reflexivity|exact H2|exact H1|discriminate].
Qed.
End OnePrice.

(** a retry with a one-entry centre *)
Lemma q_one_entry m o (c g : R) : describes_q m o ->
  profit_assess_optim_q RT o (@cons R c []) g true = profit_assess_optim_q RT o (@cons R c [c]) g true.
Proof.
  intros (_ & L & _). unfold profit_assess_optim_q, profit_q_finish.
  destruct (pq_xd o) as [|a [|b [|? ?]]]; try discriminate.
  destruct (profit_assess_optim RT (pq_omega o) _ g) as [om [[[gr [be|l]] v]|e]]; reflexivity.
Qed.

Lemma one_price_case : exists o1, profit_init (A:=RA) RT (10, 1, 5) (@cons R (1/2) [1/4]) (@cons R 1 []) = Ok o1 /\
  profit_init (A:=RA) RT (10, 1, 5) (@cons R (1/2) [1/4]) (repeat 1 2) = Ok oq0.
Proof.
  unfold profit_init. change (amul (a:=RA) 10 1) with (10 * 1). rewrite !plog_R.
  destruct (Rle_dec (10 * 1) 0); [lra|]. destruct (Rle_dec 5 0); [lra|]. cbn [bind]. eexists. split; reflexivity.
Qed.

(** ** Lengths that do not fit *)
Lemma one_input {A : Arith} (T : Trans A) (o : profit A) e v x g : p_elast o = [e] -> p_price o = [v] ->
  snd (fn2 T o [x] g) = Err IndexError.
Proof. intros He Hv. unfold fn2. rewrite He. cbn [length Nat.eqb negb set_cobb p_price]. rewrite Hv. reflexivity. Qed.

Lemma q_retry_misfit {A : Arith} (T : Trans A) (d : profit_disc A) xc g om gr b v : length (pq_xd d) = 2%nat ->
  length xc <> 1%nat -> length xc <> 2%nat ->
  profit_assess_optim T (pq_omega d) (pq_xd d) g = (om, Ok ((gr, CSingle b), v)) ->
  profit_assess_optim_q T d xc g true = (mkProfitQ om (pq_xd d), Err ValueError).
Proof.
  intros L H1 H2 E. unfold profit_assess_optim_q, profit_q_finish. cbv zeta. rewrite E.
  rewrite bcast2_err; [reflexivity| | |]; congruence.
Qed.
