(** Proofs about [ProfitQOracle]. *)
From Coq Require Import Reals List Arith ZArith Lia Lra Bool.
From Verif Require Import Arith Vec Broadcast PBroadcast ModelCalc ModelEll ModelProfit Spec SpecProfit PCalc PAlg PSum PVec PCG2 PProfit PProfit2.
Import ListNotations.
Local Open Scope R_scope.

Lemma Rround_int x : exists k : Z, Rround x = IZR k /\ Rabs (IZR k - x) <= 1 / 2.
Proof.
  unfold Rround. pose proof (base_fp x) as (F0 & F1). unfold frac_part in *.
  set (k := Int_part x) in *.
  destruct (Rlt_dec (x - IZR k) (1 / 2)) as [L|L].
  { exists k. split; [reflexivity|]. unfold Rabs. destruct (Rcase_abs _); lra. }
  destruct (Rlt_dec (1 / 2) (x - IZR k)) as [L'|L'].
  { exists (k + 1)%Z. split; [reflexivity|]. rewrite plus_IZR. unfold Rabs. destruct (Rcase_abs _); lra. }
  destruct (Z.even k).
  - exists k. split; [reflexivity|]. unfold Rabs. destruct (Rcase_abs _); lra.
  - exists (k + 1)%Z. split; [reflexivity|]. rewrite plus_IZR. unfold Rabs. destruct (Rcase_abs _); lra.
Qed.

Definition disc1 (x : R) : R := let y := Rround (exp x) in ln (if Reqb y 0 then 1 else y).

Lemma disc1_int x : exists k : Z, (0 < k)%Z /\ exp (disc1 x) = IZR k /\
  (Rabs (IZR k - exp x) <= 1 / 2 \/ (k = 1%Z /\ exp x <= 1 / 2)).
Proof.
  unfold disc1. destruct (Rround_int (exp x)) as (k & E & B). rewrite E. pose proof (exp_pos x) as P.
  destruct (Reqb_spec (IZR k) 0) as [Z|Z].
  - exists 1%Z. split; [lia|]. rewrite exp_ln by lra. split; [reflexivity|]. right. split; [reflexivity|].
    rewrite Z in B. revert B. unfold Rabs. destruct (Rcase_abs _); lra.
  - assert (K : (0 < k)%Z).
    { assert (-1 < k)%Z by (apply lt_IZR; revert B; unfold Rabs; destruct (Rcase_abs _); lra).
      assert (k <> 0%Z) by (intros ->; apply Z; reflexivity). lia. }
    exists k. split; [exact K|]. rewrite exp_ln by (apply IZR_lt in K; exact K). split; [reflexivity|]. left. exact B.
Qed.

Lemma discretise_eq x0 x1 : discretise RT (@cons R x0 [x1]) = (@cons R (disc1 x0) [disc1 x1]).
Proof. reflexivity. Qed.

Lemma discretise_int x : length x = 2%nat -> length (discretise RT x) = 2%nat /\ integer_point (fv (discretise RT x)) /\
  forall i, (i < 2)%nat -> Rabs (exp (fv (discretise RT x) i) - exp (fv x i)) <= 1 / 2 \/
     (exp (fv (discretise RT x) i) = 1 /\ exp (fv x i) <= 1 / 2).
Proof.
  intros Hx. destruct (two_list x Hx) as (x0 & x1 & ->). rewrite discretise_eq. split; [reflexivity|].
  destruct (disc1_int x0) as (a & A1 & A2 & A3). destruct (disc1_int x1) as (b & B1 & B2 & B3). split.
  - exists a, b. auto.
  - intros [|[|i]] Hi; [| |lia].
    + change (fv (@cons R (disc1 x0) [disc1 x1]) 0) with (disc1 x0). change (fv (@cons R x0 [x1]) 0) with x0. rewrite A2.
      destruct A3 as [A3|(-> & A3)]; auto.
    + change (fv (@cons R (disc1 x0) [disc1 x1]) 1) with (disc1 x1). change (fv (@cons R x0 [x1]) 1) with x1. rewrite B2.
      destruct B3 as [B3|(-> & B3)]; auto.
Qed.

(** [profit_q_finish] *)
Lemma optim_describes m o x g o' r : describes m o -> length x = 2%nat -> profit_assess_optim RT o x g = (o', r) -> describes m o'.
Proof.
  intros D Hx E. destruct (two_list x Hx) as (x0 & x1 & ->).
  destruct (optim_outcome m o x0 x1 g D) as (o1 & r1 & E1 & D1 & _). rewrite E in E1. injection E1 as <- _. exact D1.
Qed.

Lemma optim_grad_len m o x g o' gr be v : describes m o -> length x = 2%nat ->
  profit_assess_optim RT o x g = (o', Ok ((gr, be), v)) -> length gr = 2%nat.
Proof.
  intros D Hx E. destruct (two_list x Hx) as (x0 & x1 & ->).
  destruct (optim_outcome m o x0 x1 g D) as (o1 & r1 & E1 & _ & F). rewrite E in E1. injection E1 as <- <-.
  destruct F as [(F & _)|[(ct & F & o2 & Ef)|(F & _)]]; [discriminate| |injection F as -> _ _; reflexivity].
  injection F as <- _. destruct (feas_outcome m o x0 x1 g D) as (o3 & r3 & E3 & _ & G). rewrite Ef in E3. injection E3 as <- <-.
  destruct G as [(G & _)|[(G & _)|[(G & _)|(G & _)]]]; try discriminate; injection G as -> _; reflexivity.
Qed.

Lemma finish_state m o x g b o' r : describes_q m o -> profit_q_finish RT o x g b = (o', r) ->
  describes_q m o' /\ pq_xd o' = pq_xd o /\
  forall ct y v more, r = Ok (ct, y, v, more) -> y = pq_xd o /\ more = negb b /\
    exists gr be om', profit_assess_optim RT (pq_omega o) (pq_xd o) g = (om', Ok ((gr, @CSingle RA be), v)) /\ length gr = 2%nat /\
      (length x = 2%nat -> ct = (gr, @CSingle RA (be + dot 2 (fv gr) (fun i => fv (pq_xd o) i - fv x i)))).
Proof.
  intros (D & Lx & Ip) E. unfold profit_q_finish in E.
  destruct (profit_assess_optim RT (pq_omega o) (pq_xd o) g) as [om r1] eqn:Eo.
  pose proof (optim_describes m _ _ g om r1 D Lx Eo) as D1.
  assert (S : describes_q m (mkProfitQ om (pq_xd o))) by (split; [exact D1|split; [exact Lx|exact Ip]]).
  destruct r1 as [[[gr [be|l]] v1]|e].
  - injection E as <- <-. split; [exact S|]. split; [reflexivity|]. intros ct y v more H.
    match type of H with bind ?t _ = _ => destruct t as [d|e] eqn:Ed end; cbn [bind] in H; [|discriminate].
    match type of H with (if ?t then _ else _) = _ => destruct t; [|discriminate] end. injection H as <- <- <- <-.
    split; [reflexivity|]. split; [reflexivity|]. exists gr, be, om. split; [reflexivity|].
    assert (Lg : length gr = 2%nat) by exact (optim_grad_len m _ _ g om gr _ v1 D Lx Eo).
    split; [exact Lg|]. intros Hx. assert (LL : length (pq_xd o) = length x) by (rewrite Hx; exact Lx).
    rewrite bcast2_eq in Ed by exact LL. injection Ed as <-.
    f_equal. f_equal. change (aadd (a:=RA) be ?t) with (be + t). change (map2 asub (pq_xd o) x) with (vsub (A:=RA) (pq_xd o) x).
    rewrite (vdot_R 2); [|exact Lg|exact (eq_trans (vsub_length _ _ LL) Lx)].
    apply f_equal2; [reflexivity|]. apply dot_ext; intros i Hi; [reflexivity|]. apply (vsub_R (pq_xd o) x i LL).
    exact (eq_ind _ (fun k => (i < k)%nat) Hi _ (eq_sym Lx)).
  - injection E as <- <-. split; [exact S|]. split; [reflexivity|]. discriminate.
  - injection E as <- <-. split; [exact S|]. split; [reflexivity|]. discriminate.
Qed.

(** the two phases *)
Lemma q_phases m o x g b o' r : describes_q m o -> profit_assess_optim_q RT o x g b = (o', r) ->
  describes_q m o' /\
  ((b = false /\ exists om rf, profit_assess_feas RT (pq_omega o) x g = (om, rf) /\ 
      (forall e, rf = Err e -> r = Err e) /\
      (forall ct, rf = Ok (Some ct) -> r = Ok (ct, x, None, true)) /\
      (rf = Ok None -> length x = 2%nat /\ describes_q m (mkProfitQ om (discretise RT x)) /\
         pq_xd o' = discretise RT x /\ profit_q_finish RT (mkProfitQ om (discretise RT x)) x g false = (o', r))) \/
   (b = true /\ pq_xd o' = pq_xd o /\ profit_q_finish RT o x g true = (o', r))).
Proof.
  intros D E. unfold profit_assess_optim_q in E. destruct b.
  - destruct (finish_state m o x g true o' r D E) as (D' & X & _). split; [exact D'|]. right. auto.
  - pose proof D as (D0 & Lx & Ip). destruct (profit_assess_feas RT (pq_omega o) x g) as [om rf] eqn:Ef.
    assert (Dom : describes m om /\ (rf = Ok None -> length x = 2%nat)).
    { destruct (Nat.eq_dec (length x) 2) as [L|L].
      - destruct (two_list x L) as (x0 & x1 & ->). destruct (feas_outcome m _ x0 x1 g D0) as (o1 & r1 & E1 & D1 & _).
        rewrite Ef in E1. injection E1 as <- _. split; [exact D1|]. intros _; exact L.
      - destruct (feas_short m _ x g om rf D0 L Ef) as (D1 & N & _). split; [exact D1|]. intros; contradiction. }
    destruct Dom as (Dom & Hl).
    destruct rf as [[ct|]|e].
    + injection E as <- <-. split; [split; [exact Dom|split; [exact Lx|exact Ip]]|]. left. split; [reflexivity|]. exists om, (Ok (Some ct)).
      split; [reflexivity|]. split; [discriminate|]. split; [intros c H; injection H as <-; reflexivity|discriminate].
    + specialize (Hl eq_refl). destruct (discretise_int x Hl) as (L2 & I2 & _).
      assert (D2 : describes_q m (mkProfitQ om (discretise RT x))) by (split; [exact Dom|split; [exact L2|exact I2]]).
      destruct (finish_state m _ x g false o' r D2 E) as (D' & X & _). split; [exact D'|]. left. split; [reflexivity|].
      exists om, (Ok None). split; [reflexivity|]. split; [discriminate|]. split; [discriminate|]. auto.
    + injection E as <- <-. split; [split; [exact Dom|split; [exact Lx|exact Ip]]|]. left. split; [reflexivity|]. exists om, (Err e).
      split; [reflexivity|]. split; [intros e' H; injection H as <-; reflexivity|]. split; discriminate.
Qed.

Lemma q_value m o x g b o' ct y v more : describes_q m o ->
  profit_assess_optim_q RT o x g b = (o', Ok (ct, y, Some v, more)) ->
  describes_q m o' /\ integer_point (fv y) /\ v = profit_at m (fv y) /\ g <= v /\ in_limit m (fv y) /\ more = negb b /\
  (b = false -> forall i, (i < 2)%nat -> Rabs (exp (fv y i) - exp (fv x i)) <= 1 / 2 \/
     (exp (fv y i) = 1 /\ exp (fv x i) <= 1 / 2)).
Proof.
  intros D E. destruct (q_phases m o x g b o' _ D E) as (D' & [(-> & om & rf & Ef & P1 & P2 & P3)|(-> & X & F)]).
  - split; [exact D'|]. destruct rf as [[c|]|e]; [specialize (P2 c eq_refl); congruence| |specialize (P1 e eq_refl); discriminate].
    destruct (P3 eq_refl) as (L & D2 & X & F). destruct (finish_state m _ x g false o' _ D2 F) as (_ & _ & H).
    destruct (H _ _ _ _ eq_refl) as (-> & -> & gr & be & om' & Eo & _ & _).
    destruct (profit_value m _ _ g om' _ v (proj1 D2) (proj1 (proj2 D2)) Eo) as (V1 & V2 & V3 & _).
    split; [apply D2|]. repeat split; auto. intros _. apply (discretise_int x L).
  - split; [exact D'|]. destruct (finish_state m _ x g true o' _ D F) as (_ & _ & H).
    destruct (H _ _ _ _ eq_refl) as (-> & -> & gr & be & om' & Eo & _ & _).
    destruct (profit_value m _ _ g om' _ v (proj1 D) (proj1 (proj2 D)) Eo) as (V1 & V2 & V3 & _).
    split; [apply D|]. repeat split; auto. discriminate.
Qed.

(** the returned cut is off by twice [gr . (y - x)] *)
Lemma q_cut_error m o x g b o' gr be y v more : describes_q m o -> good_price m -> 0 <= g -> length x = 2%nat ->
  profit_assess_optim_q RT o x g b = (o', Ok ((gr, be), y, v, more)) ->
  length gr = 2%nat /\ exists ep, be = @CSingle RA ep /\
  forall z, in_limit m z -> (match v with Some w => w | None => g end) <= profit_at m z ->
    cutval 2 (fv gr) (fv x) z + ep <= 2 * dot 2 (fv gr) (fun i => fv y i - fv x i).
Proof.
  intros D GP Hg Hx E.
  assert (Key : forall oo, describes_q m oo -> profit_q_finish RT oo x g b = (o', Ok ((gr, be), y, v, more)) ->
    length gr = 2%nat /\ exists ep, be = @CSingle RA ep /\
    forall z, in_limit m z -> (match v with Some w => w | None => g end) <= profit_at m z ->
      cutval 2 (fv gr) (fv x) z + ep <= 2 * dot 2 (fv gr) (fun i => fv y i - fv x i)).
  { intros oo DD F. destruct (finish_state m oo x g b o' _ DD F) as (_ & _ & H).
    destruct (H _ _ _ _ eq_refl) as (-> & _ & gr' & be' & om' & Eo & L & Ec). specialize (Ec Hx). injection Ec as -> ->.
    split; [exact L|]. eexists. split; [reflexivity|]. intros z Z1 Z2.
    destruct (profit_optim_cut m _ _ g om' gr' _ v (proj1 DD) GP Hg (proj1 (proj2 DD)) Eo) as (_ & _ & ep & Ee & Hc).
    injection Ee as <-.
    assert (C : cutval 2 (fv gr') (fv (pq_xd oo)) z + be' <= 0) by (destruct v as [w|]; destruct Hc as (Hc1 & Hc2); apply Hc2; assumption).
    unfold cutval, dot in *. cbn [sumn] in *. change (num RA) with R in *. lra. }
  destruct (q_phases m o x g b o' _ D E) as (_ & [(-> & om & rf & Ef & P1 & P2 & P3)|(-> & X & F)]).
  - destruct rf as [[c|]|e]; [|destruct (P3 eq_refl) as (_ & D2 & _ & F); exact (Key _ D2 F)|specialize (P1 e eq_refl); discriminate].
    specialize (P2 c eq_refl). injection P2 as <- -> -> _.
    destruct (profit_feas_cut m _ x g om gr be (proj1 D) GP Hg Hx Ef) as (_ & L & ep & -> & Hp & H).
    split; [exact L|]. exists ep. split; [reflexivity|]. intros z Z1 Z2. specialize (H z Z1 Z2).
    assert (Z : dot 2 (fv gr) (fun i => fv x i - fv x i) = 0) by (unfold dot; cbn [sumn]; ring). rewrite Z. lra.
  - exact (Key _ D F).
Qed.

(** ** The cut that loses a better integer point *)
Definition mq0 : market := mkMarket 10 1 5 (1/2) (1/4) 1 1.
Definition oq0 : profit RA := @mkProfit RA (-1) None None None (ln (10 * 1)) (ln 5) (@cons R 1 [1]) (@cons R (1/2) [1/4]).
Definition dq0 : profit_disc RA := @mkProfitQ RA oq0 (@cons R 0 [0]).

Lemma dq0_init : profit_q_init (A:=RA) RT (10, 1, 5) (@cons R (1/2) [1/4]) (@cons R 1 [1]) = Ok dq0.
Proof.
  unfold profit_q_init, profit_init. change (amul (a:=RA) 10 1) with (10 * 1). rewrite !plog_R.
  destruct (Rle_dec (10 * 1) 0); [lra|]. destruct (Rle_dec 5 0); [lra|]. reflexivity.
Qed.
Lemma oq0_d : describes mq0 oq0.
Proof. unfold describes, mq0, oq0. cbn [m_price m_scale m_limit m_alpha m_beta m_v1 m_v2 p_logpa p_logk p_price p_elast p_idx]. repeat split; auto; lra. Qed.
Lemma dq0_d : describes_q mq0 dq0.
Proof.
  split; [exact oq0_d|]. split; [reflexivity|]. exists 1%Z, 1%Z. cbn. rewrite exp_0. repeat split; lia.
Qed.

Definition xq0 : vec RA := @cons R (ln (449/100)) [0].
Definition yq0 : vec RA := @cons R (ln 4) [ln 1].
Definition zq0 : vec RA := @cons R (ln 5) [0].

Lemma Rpower_half x : 0 < x -> Rpower x (1/2) = sqrt x.
Proof. intros H. replace (1/2) with (/2) by lra. apply Rpower_sqrt, H. Qed.
Lemma Rpower_1_base a : Rpower 1 a = 1.
Proof. unfold Rpower. rewrite ln_1, Rmult_0_r, exp_0. reflexivity. Qed.

Lemma profit_q0 y : 0 < y -> profit_of mq0 y 1 = 10 * sqrt y - y - 1.
Proof.
  intros H. unfold profit_of, revenue, cost, mq0. cbn. rewrite (Rpower_half y H), Rpower_1_base. ring.
Qed.

Lemma sqrt4 : sqrt 4 = 2.
Proof. replace 4 with (2 * 2) by ring. apply sqrt_square. lra. Qed.
Lemma sqrt449 : 2 <= sqrt (449/100).
Proof. rewrite <- sqrt4. apply sqrt_le_1; lra. Qed.
Lemma sqrt5 : 22/10 < sqrt 5.
Proof. apply Rsqr_incrst_0; [rewrite Rsqr_sqrt by lra; unfold Rsqr; lra|lra|apply sqrt_pos]. Qed.

Lemma Int_part_eq x k : IZR k <= x < IZR k + 1 -> Int_part x = k.
Proof.
  intros (H1 & H2). unfold Int_part. assert (E : (k + 1)%Z = up x); [|lia].
  apply tech_up; rewrite plus_IZR; lra.
Qed.

Lemma disc_q0 : discretise RT xq0 = yq0.
Proof.
  unfold xq0. rewrite discretise_eq. unfold yq0, disc1. rewrite exp_ln by lra. rewrite exp_0.
  unfold Rround, frac_part. rewrite (Int_part_eq (449/100) 4) by lra. rewrite (Int_part_eq 1 1) by lra.
  destruct (Rlt_dec (449/100 - 4) (1/2)); [|lra]. destruct (Rlt_dec (1 - 1) (1/2)); [|lra].
  destruct (Reqb_spec 4 0); [lra|]. destruct (Reqb_spec 1 0); [lra|]. reflexivity.
Qed.

Lemma feas_q0 : exists om, profit_assess_feas RT oq0 xq0 0 = (om, Ok None).
Proof.
  destruct (profit_assess_feas RT oq0 xq0 0) as [om r] eqn:E. exists om.
  destruct (profit_feas mq0 oq0 xq0 0 om r oq0_d eq_refl) with (2:=E) as (_ & I & _).
  - unfold cost_at, cost, mq0. cbn. pose proof (exp_pos (ln (449/100))). pose proof (exp_pos 0). lra.
  - f_equal. apply I. unfold in_limit, profit_at. cbn [fv nth xq0].
    change (fv xq0 0) with (ln (449/100)). change (fv xq0 1) with 0. rewrite exp_ln, exp_0 by lra.
    split; [cbn; lra|]. rewrite profit_q0 by lra. pose proof sqrt449. lra.
Qed.

Lemma optim_q0 om : describes mq0 om ->
  exists om', profit_assess_optim RT om yq0 0 = (om', Ok ((@cons R (-3/10) [-1/5] : vec RA, @CSingle RA 0), Some (15 : num RA))).
Proof.
  intros D. destruct (optim_outcome mq0 om (ln 4) (ln 1) 0 D) as (o1 & r & E & _ & F).
  exists o1. change (profit_assess_optim RT om yq0 0) with (profit_assess_optim RT om (@cons R (ln 4) [ln 1]) 0). rewrite E. f_equal.
  assert (P : profit_of mq0 (exp (ln 4)) (exp (ln 1)) = 15).
  { rewrite !exp_ln by lra. rewrite profit_q0 by lra. rewrite sqrt4. ring. }
  assert (C : cost mq0 (exp (ln 4)) (exp (ln 1)) = 5) by (rewrite !exp_ln by lra; unfold cost, mq0; cbn; ring).
  destruct F as [(_ & F)|[(ct & -> & o2 & Ef)|F]].
  - rewrite C in F. lra.
  - exfalso. destruct (profit_feas mq0 om (@cons R (ln 4) [ln 1]) 0 o2 (Ok (Some ct)) D eq_refl) with (2:=Ef) as (_ & I & _).
    + unfold cost_at. change (fv (@cons R (ln 4) [ln 1]) 0) with (ln 4). change (fv (@cons R (ln 4) [ln 1]) 1) with (ln 1). rewrite C. lra.
    + assert (Q : Ok (Some ct) = @Ok (option (cut RA)) None); [|discriminate].
      apply I. unfold in_limit, profit_at. change (fv (@cons R (ln 4) [ln 1]) 0) with (ln 4). change (fv (@cons R (ln 4) [ln 1]) 1) with (ln 1).
      rewrite P. split; [rewrite exp_ln by lra; cbn; lra|lra].
  - cbv zeta in F. destruct F as (-> & _). rewrite P, C. unfold slope. rewrite !exp_ln by lra. cbn [mq0 m_v1 m_v2 m_alpha m_beta].
    replace (1 * 4 / (15 + 5) - 1 / 2) with (-3/10) by lra. replace (1 * 1 / (15 + 5) - 1 / 4) with (-1/5) by lra. reflexivity.
Qed.

Definition bq0 : R := 0 + dot 2 (fv (@cons R (-3/10) [-1/5])) (fun i => fv yq0 i - fv xq0 i).

Lemma run_q0 : exists o', profit_assess_optim_q RT dq0 xq0 0 false =
  (o', Ok ((@cons R (-3/10) [-1/5] : vec RA, @CSingle RA bq0), yq0, Some (15 : num RA), true)) /\
  exists om', profit_assess_optim RT (pq_omega o') yq0 0 = (om', Ok ((@cons R (-3/10) [-1/5] : vec RA, @CSingle RA 0), Some (15 : num RA))).
Proof.
  destruct (profit_assess_optim_q RT dq0 xq0 0 false) as [o' r] eqn:E.
  destruct (q_phases mq0 dq0 xq0 0 false o' r dq0_d E) as (D' & [(_ & om & rf & Ef & _ & _ & P3)|(F & _)]); [|discriminate].
  destruct feas_q0 as (om1 & Ef1). change (pq_omega dq0) with oq0 in Ef. rewrite Ef in Ef1. injection Ef1 as <- ->.
  destruct (P3 eq_refl) as (_ & D2 & _ & F). 
  rewrite disc_q0 in D2, F.
  assert (X : exists ct v m, r = Ok (ct, yq0, v, m)).
  { unfold profit_q_finish in F. cbn [pq_omega pq_xd] in F. destruct (optim_q0 om (proj1 D2)) as (om' & Eo). rewrite Eo in F. cbn in F. injection F as _ <-. eauto. }
  destruct X as (ct & v & mm & ->).
  destruct (finish_state mq0 _ xq0 0 false o' _ D2 F) as (_ & _ & H). destruct (H _ _ _ _ eq_refl) as (_ & -> & gr & be & om' & Eo & _ & Ec0).
  cbn [pq_omega pq_xd] in Eo. destruct (optim_q0 om (proj1 D2)) as (om2 & Eo2). rewrite Eo in Eo2. injection Eo2 as -> -> -> ->.
  specialize (Ec0 eq_refl). subst ct. exists o'. split; [reflexivity|]. apply optim_q0, D'.
Qed.

Lemma cut_q0 : 0 < cutval 2 (fv (@cons R (-3/10) [-1/5])) (fv xq0) (fv zq0) + bq0.
Proof.
  unfold bq0, cutval, dot, fv, xq0, yq0, zq0. cbn [sumn nth]. rewrite ln_1.
  assert (L : ln 4 + ln 5 < ln (449/100) + ln (449/100)).
  { rewrite <- !ln_mult by lra. apply ln_increasing; lra. }
  lra.
Qed.

Lemma q_loses_better : exists m (o : profit_disc RA) x g o' gr be y v more z,
  describes_q m o /\ good_price m /\ 0 <= g /\ length x = 2%nat /\
  profit_assess_optim_q RT o x g false = (o', Ok ((gr, @CSingle RA be), y, Some v, more)) /\
  integer_point z /\ in_limit m z /\ v < profit_at m z /\ 0 < cutval 2 (fv gr) (fv x) z + be.
Proof.
  destruct run_q0 as (o' & E & _).
  exists mq0, dq0, xq0, 0, o', (@cons R (-3/10) [-1/5]), bq0, yq0, 15, true, (fv zq0).
  split; [exact dq0_d|]. split; [split; cbn; lra|]. split; [lra|]. split; [reflexivity|]. split; [exact E|].
  split; [exists 5%Z, 1%Z; change (fv zq0 0) with (ln 5); change (fv zq0 1) with 0; rewrite exp_ln, exp_0 by lra; repeat split; lia|].
  unfold in_limit, profit_at. change (fv zq0 0) with (ln 5). change (fv zq0 1) with 0. rewrite exp_ln, exp_0 by lra.
  split; [cbn; lra|]. split; [|exact cut_q0]. rewrite profit_q0 by lra. pose proof sqrt5. lra.
Qed.

Lemma q_shift_wrong : exists m (o : profit_disc RA) x g o' gr be y v more om om' be0 z,
  describes_q m o /\ good_price m /\ 0 <= g /\ length x = 2%nat /\
  profit_assess_optim_q RT o x g false = (o', Ok ((gr, @CSingle RA be), y, Some v, more)) /\
  describes m om /\ profit_assess_optim RT om y g = (om', Ok ((gr, @CSingle RA be0), Some v)) /\
  cutval 2 (fv gr) (fv x) z + be <> cutval 2 (fv gr) (fv y) z + be0.
Proof.
  destruct run_q0 as (o' & E & om' & E').
  exists mq0, dq0, xq0, 0, o', (@cons R (-3/10) [-1/5]), bq0, yq0, 15, true, (pq_omega o'), om', 0, (fv zq0).
  split; [exact dq0_d|]. split; [split; cbn; lra|]. split; [lra|]. split; [reflexivity|]. split; [exact E|].
  assert (D' : describes mq0 (pq_omega o')).
  { destruct (q_phases mq0 dq0 xq0 0 false o' _ dq0_d E) as (D & _). apply D. }
  split; [exact D'|]. split; [exact E'|].
  pose proof cut_q0 as C. apply Rgt_not_eq.
  assert (N : cutval 2 (fv (@cons R (-3/10) [-1/5])) (fv yq0) (fv zq0) + 0 <= 0).
  { unfold cutval, dot, fv, yq0, zq0. cbn [sumn nth]. rewrite ln_1. assert (ln 4 < ln 5) by (apply ln_increasing; lra). lra. }
  lra.
Qed.
