(** The profit oracles as oracles of the drivers; the robust oracle. *)
From Coq Require Import Reals List Arith ZArith Lia Lra Bool.
From Verif Require Import Arith Vec Broadcast PBroadcast ModelCalc ModelEll ModelCut ModelSpaces ModelProfit Spec SpecCut SpecDrivers SpecSearch SpecProfit
  PCalc PAlg PSum PVec PCG2 PProfit.
Import ListNotations.
Local Open Scope R_scope.

(** points of the wrong length: the first condition is still cut off
    correctly, and nothing else is ever answered *)
Lemma round_short m o x g o' r : describes m o -> length x <> 2%nat -> profit_round RT o x g = (o', r) ->
  describes m o' /\ (r = Ok None -> p_idx o' = 0%Z /\ x <> []) /\
  (forall ct, r = Ok (Some ct) -> 0 < fv x 0 - ln (m_limit m) /\ ct = (@grad1 RA, @CSingle RA (fv x 0 - ln (m_limit m)))).
Proof.
  intros D Hx E. unfold profit_round in E. destruct (next_idx m o D) as [En|[En E0]]; cbv zeta in En, E; rewrite En in E.
  - assert (D1 : describes m (set_idx o 0)) by (apply describes_idx; auto).
    change (fns RT 0 (set_idx o 0) x g) with (set_idx o 0, fn1 (set_idx o 0) x) in E.
    destruct x as [|x0 xs]; [injection E as <- <-; split; [exact D1|split; intros; discriminate]|].
    cbn [fn1] in E. destruct D as (_ & _ & _ & E2 & _). change (p_logk (set_idx o 0)) with (p_logk o) in E. rewrite E2 in E.
    change (asub (a:=RA) x0 (ln (m_limit m))) with (x0 - ln (m_limit m)) in E. change (fv (x0 :: xs) 0) with x0.
    cbn [altb azero RA] in E. unfold Rltb in E. destruct (Rlt_dec 0 (x0 - ln (m_limit m))) as [Q|Q]; injection E as <- <-; (split; [exact D1|]).
    + split; [discriminate|]. intros ct H. injection H as <-. auto.
    + split; [|discriminate]. intros _. split; [reflexivity|discriminate].
  - assert (D1 : describes m (set_idx o 1)) by (apply describes_idx; auto).
    change (fns RT 1 (set_idx o 1) x g) with (fn2 RT (set_idx o 1) x g) in E. unfold fn2 in E.
    assert (L : Nat.eqb (length (p_elast (set_idx o 1))) (length x) = false).
    { destruct D as (_ & _ & _ & _ & _ & E4 & _). cbn [set_idx p_elast]. rewrite E4. apply Nat.eqb_neq. intros H. apply Hx. symmetry. exact H. }
    rewrite L in E. cbn [negb] in E. injection E as <- <-. split; [exact D1|split; intros; discriminate].
Qed.

Lemma feas_short m o x g o' r : describes m o -> length x <> 2%nat -> profit_assess_feas RT o x g = (o', r) ->
  describes m o' /\ r <> Ok None /\
  (forall ct, r = Ok (Some ct) -> 0 < fv x 0 - ln (m_limit m) /\ ct = (@grad1 RA, @CSingle RA (fv x 0 - ln (m_limit m)))).
Proof.
  intros D Hx E. unfold profit_assess_feas in E. destruct (profit_round RT o x g) as [o1 r1] eqn:E1.
  destruct (round_short m o x g o1 r1 D Hx E1) as (D1 & N1 & S1).
  destruct r1 as [[ct|]|e].
  - injection E as <- <-. split; [exact D1|]. split; [discriminate|]. intros c H. injection H as <-. apply S1; reflexivity.
  - destruct (N1 eq_refl) as (I1 & _). destruct (round_short m o1 x g o' r D1 Hx E) as (D2 & N2 & S2).
    split; [exact D2|]. split; [|exact S2]. intros ->.
    unfold profit_round in E. rewrite I1 in E. change (0 + 1)%Z with 1%Z in E. cbv zeta in E. cbn [Z.eqb Pos.eqb] in E.
    change (fns RT 1 (set_idx o1 1) x g) with (fn2 RT (set_idx o1 1) x g) in E. unfold fn2 in E.
    assert (L : Nat.eqb (length (p_elast (set_idx o1 1))) (length x) = false).
    { destruct D1 as (_ & _ & _ & _ & _ & E4 & _). cbn [set_idx p_elast]. rewrite E4. apply Nat.eqb_neq. intros H. apply Hx. symmetry. exact H. }
    rewrite L in E. discriminate.
  - injection E as <- <-. split; [exact D1|]. split; intros; discriminate.
Qed.

Lemma optim_len m o x g o' ct v : describes m o -> profit_assess_optim RT o x g = (o', Ok (ct, v)) ->
  describes m o' /\ (length x = 2%nat \/ (v = None /\ 0 < fv x 0 - ln (m_limit m) /\ ct = (@grad1 RA, @CSingle RA (fv x 0 - ln (m_limit m))))).
Proof.
  intros D E. destruct (Nat.eq_dec (length x) 2) as [L|L].
  - split; [|auto]. destruct (two_list x L) as (x0 & x1 & ->).
    destruct (optim_outcome m o x0 x1 g D) as (o1 & r1 & E1 & D1 & _). rewrite E in E1. injection E1 as <- _. exact D1.
  - unfold profit_assess_optim in E. destruct (profit_assess_feas RT o x g) as [o1 r1] eqn:E1.
    destruct (feas_short m o x g o1 r1 D L E1) as (D1 & N1 & S1).
    destruct r1 as [[c|]|e]; [|congruence|discriminate]. injection E as <- <- <-. split; [exact D1|]. right. split; [reflexivity|]. apply S1. reflexivity.
Qed.

Lemma limit_cut_any m (x : vec RA) z : 0 < m_limit m -> in_limit m z ->
  cutval 2 (fv (@grad1 RA)) (fv x) z + (fv x 0 - ln (m_limit m)) <= 0.
Proof.
  intros Hk Hz. apply (limit_log m _ Hk) in Hz. unfold cutval, dot, grad1. cbn [sumn]. unfold fv at 1 3. cbn [nth]. 
  change (aone (a:=RA)) with 1. change (azero (a:=RA)) with 0. lra.
Qed.

(** feasible points with profit above [g] *)

Lemma profit_oracle_ok m o g p : describes m o -> good_price m -> 0 <= g ->
  optim_oracle 2 p (better m) (profit_assess_optim RT) o g.
Proof.
  intros D GP Hg. exists (fun o g => describes m o /\ 0 <= g). split; [auto|]. clear o g D Hg.
  intros o x g o' [gr be] v (D & Hg) E. destruct (optim_len m o x g o' (gr, be) v D E) as (D' & [L|(-> & Hp & Ec)]).
  - destruct (profit_optim_cut m o x g o' gr be v D GP Hg L E) as (_ & _ & ep & -> & H).
    destruct v as [v|].
    + destruct (profit_value m o x g o' _ v D L E) as (_ & Hv & _ & _). split; [split; [exact D'|change R with (num RA); lra]|].
      destruct H as (-> & H). split; [split; [discriminate|]|].
      * intros z (Z1 & Z2). specialize (H z Z1 (Rlt_le _ _ Z2)). cbn [fst snd]. split; [|exact I]. rewrite Rplus_0_r in H. exact H.
      * intros z (Z1 & Z2). split; [exact Z1|lra].
    + split; [auto|]. destruct H as (Hp & H). split.
      * intros _. right. exists ep. split; [reflexivity|lra].
      * intros z (Z1 & Z2). specialize (H z Z1 (Rlt_le _ _ Z2)). cbn [fst snd]. split; [|exact I]. cbn [first_beta]. apply (Rplus_le_reg_r ep). rewrite Rplus_opp_l. exact H.
  - injection Ec as -> ->. split; [auto|]. split.
    + intros _. right. eexists. split; [reflexivity|lra].
    + intros z (Z1 & Z2). cbn [fst snd]. split; [|exact I]. cbn [first_beta]. apply (Rplus_le_reg_r (fv x 0 - ln (m_limit m))). rewrite Rplus_opp_l. apply limit_cut_any; [apply D|exact Z1].
Qed.

(** ** The robust oracle *)
Definition shift_R (u x : R) : R := if Rlt_dec 0 x then - u else u.
Lemma rb_shift_R u x : rb_shift (A:=RA) u x = shift_R u x.
Proof. unfold rb_shift, shift_R. cbn. unfold Rltb. destruct (Rlt_dec 0 x); reflexivity. Qed.

(** the worst realisation at the point [x] *)
Definition worst (m : market) (b : box) (x0 x1 : R) : market :=
  mkMarket (m_price m - b_e3 b) (m_scale m) (m_limit m - b_e4 b)
    (m_alpha m + shift_R (b_e1 b) x0) (m_beta m + shift_R (b_e2 b) x1) (m_v1 m + b_e5 b) (m_v2 m + b_e5 b).

Lemma shift_abs u x : 0 <= u -> Rabs (shift_R u x) <= u.
Proof. intros H. unfold shift_R. destruct (Rlt_dec 0 x); [rewrite Rabs_Ropp|]; rewrite Rabs_right; lra. Qed.

Lemma worst_realises m b x0 x1 : radii_ok b -> realises m b (worst m b x0 x1).
Proof.
  intros (H1 & H2 & H3 & H4 & H5). unfold realises, worst. cbn [m_alpha m_beta m_price m_limit m_v1 m_v2 m_scale].
  repeat split.
  - replace (m_alpha m + shift_R (b_e1 b) x0 - m_alpha m) with (shift_R (b_e1 b) x0) by ring. apply shift_abs, H1.
  - replace (m_beta m + shift_R (b_e2 b) x1 - m_beta m) with (shift_R (b_e2 b) x1) by ring. apply shift_abs, H2.
  - replace (m_price m - b_e3 b - m_price m) with (- b_e3 b) by ring. rewrite Rabs_Ropp, Rabs_right; lra.
  - replace (m_limit m - b_e4 b - m_limit m) with (- b_e4 b) by ring. rewrite Rabs_Ropp, Rabs_right; lra.
  - replace (m_v1 m + b_e5 b - m_v1 m) with (b_e5 b) by ring. rewrite Rabs_right; lra.
  - replace (m_v2 m + b_e5 b - m_v2 m) with (b_e5 b) by ring. rewrite Rabs_right; lra.
Qed.

Lemma shift_min a a' u x : Rabs (a' - a) <= u -> (a + shift_R u x) * x <= a' * x.
Proof.
  intros H. assert (- u <= a' - a <= u) by (split; [|]; revert H; unfold Rabs; destruct (Rcase_abs _); lra).
  unfold shift_R. destruct (Rlt_dec 0 x) as [P|P]; nra.
Qed.

Lemma worst_profit m b x0 x1 m' : realises m b m' -> 0 < m_scale m -> 0 < m_price m - b_e3 b ->
  profit_of (worst m b x0 x1) (exp x0) (exp x1) <= profit_of m' (exp x0) (exp x1).
Proof.
  intros (H1 & H2 & H3 & H4 & H5 & H6 & H7) Hs Hp.
  assert (P3 : m_price m - b_e3 b <= m_price m') by (revert H3; unfold Rabs; destruct (Rcase_abs _); lra).
  assert (P5 : m_v1 m' <= m_v1 m + b_e5 b) by (revert H5; unfold Rabs; destruct (Rcase_abs _); lra).
  assert (P6 : m_v2 m' <= m_v2 m + b_e5 b) by (revert H6; unfold Rabs; destruct (Rcase_abs _); lra).
  assert (Q1 := shift_min _ _ _ x0 H1). assert (Q2 := shift_min _ _ _ x1 H2).
  assert (Hpa : 0 < m_price (worst m b x0 x1) * m_scale (worst m b x0 x1)) by (cbn; apply Rmult_lt_0_compat; assumption).
  assert (Hpa' : 0 < m_price m' * m_scale m') by (rewrite H7; apply Rmult_lt_0_compat; lra).
  unfold profit_of. rewrite !revenue_exp by assumption.
  assert (C : cost m' (exp x0) (exp x1) <= cost (worst m b x0 x1) (exp x0) (exp x1)).
  { unfold cost, worst. cbn [m_v1 m_v2]. pose proof (exp_pos x0). pose proof (exp_pos x1). nra. }
  assert (L : logcobb (worst m b x0 x1) x0 x1 <= logcobb m' x0 x1).
  { unfold logcobb. cbn [worst m_price m_scale m_alpha m_beta].
    assert (Ln : ln ((m_price m - b_e3 b) * m_scale m) <= ln (m_price m' * m_scale m')).
    { rewrite H7. cbn in Hpa. destruct (Rle_lt_or_eq_dec _ _ P3) as [S|S]; [|rewrite S; lra].
      left. apply ln_increasing; [exact Hpa|]. apply Rmult_lt_compat_r; assumption. }
    lra. }
  assert (E : exp (logcobb (worst m b x0 x1) x0 x1) <= exp (logcobb m' x0 x1)).
  { destruct (Rle_lt_or_eq_dec _ _ L) as [S|S]; [left; apply exp_increasing, S|right; rewrite S; reflexivity]. }
  lra.
Qed.

Lemma worst_limit m b x0 x1 m' : realises m b m' -> exp x0 <= m_limit (worst m b x0 x1) -> exp x0 <= m_limit m'.
Proof.
  intros (_ & _ & _ & H4 & _). cbn. intros H. revert H4. unfold Rabs. destruct (Rcase_abs _); lra.
Qed.

Lemma rb_step m b o x g o' r : describes_rb m b o -> profit_rb_assess_optim RT o x g = (o', r) ->
  (r = Err IndexError /\ o' = o /\ (length x < 2)%nat) \/
  exists x0 x1 rest om, x = x0 :: x1 :: rest /\
    describes (worst m b x0 x1) om /\ profit_assess_optim RT om x g = (rb_omega o', r) /\
    (describes (worst m b x0 x1) (rb_omega o') -> describes_rb m b o').
Proof.
  intros (Hb & Hs & Hp & Hk & E1 & E2 & E3 & E4 & E5 & E6) E. unfold profit_rb_assess_optim in E. rewrite E1 in E.
  destruct x as [|x0 [|x1 rest]]; try (injection E as <- <-; left; cbn; repeat split; lia).
  rewrite E2 in E. cbn [fst snd] in E. rewrite !rb_shift_R in E.
  set (om := set_elast (rb_omega o) _) in E.
  destruct (profit_assess_optim RT om (x0 :: x1 :: rest) g) as [om' r'] eqn:Eo. injection E as <- <-.
  right. exists x0, x1, rest, om. split; [reflexivity|].
  split; [|split; [exact Eo|]].
  - unfold describes, worst, om. cbn [m_price m_scale m_limit m_alpha m_beta m_v1 m_v2 set_elast p_logpa p_logk p_price p_elast p_idx].
    repeat split; auto. apply Rmult_lt_0_compat; assumption.
  - intros (_ & _ & D3 & D4 & D5 & _ & D7). cbn [worst m_price m_scale m_limit m_v1 m_v2 rb_omega] in *.
    unfold describes_rb. cbn [rb_omega rb_elast rb_uie]. repeat split; auto; apply Hb.
Qed.

Lemma rb_value m b o x g o' ct v : describes_rb m b o -> length x = 2%nat ->
  profit_rb_assess_optim RT o x g = (o', Ok (ct, Some v)) ->
  describes_rb m b o' /\ g <= v /\
  (forall m', realises m b m' -> v <= profit_at m' (fv x) /\ in_limit m' (fv x)) /\
  (exists m', realises m b m' /\ profit_at m' (fv x) = v).
Proof.
  intros D Hx E. destruct (rb_step m b o x g o' _ D E) as [(F & _)|(x0 & x1 & rest & om & -> & Dw & Eo & Hd)]; [discriminate|].
  destruct (profit_value _ om _ g _ ct v Dw Hx Eo) as (Ev & Hg & Hl & D').
  split; [apply Hd, D'|]. split; [exact Hg|]. 
  destruct D as (Hb & Hs & Hp & _).
  unfold profit_at, in_limit in *. change (fv (x0 :: x1 :: rest) 0) with x0 in *. change (fv (x0 :: x1 :: rest) 1) with x1 in *.
  split.
  - intros m' Hm. split; [rewrite Ev; apply worst_profit; assumption|eapply worst_limit; eassumption].
  - exists (worst m b x0 x1). split; [apply worst_realises, Hb|]. symmetry. exact Ev.
Qed.

(** robustly feasible points with robust profit at least [g] satisfy the cuts *)

Lemma rb_cut m b o x g o' gr be v : describes_rb m b o -> good_price m -> 0 <= g -> length x = 2%nat ->
  profit_rb_assess_optim RT o x g = (o', Ok ((gr, be), v)) ->
  describes_rb m b o' /\ length gr = 2%nat /\ exists ep, be = @CSingle RA ep /\ 0 <= ep /\
  forall z, robust_ge m b (match v with Some w => w | None => g end) z -> cutval 2 (fv gr) (fv x) z + ep <= 0.
Proof.
  intros D (V1 & V2) Hg Hx E. destruct (rb_step m b o x g o' _ D E) as [(F & _)|(x0 & x1 & rest & om & -> & Dw & Eo & Hd)]; [discriminate|].
  assert (GW : good_price (worst m b x0 x1)).
  { destruct D as ((_ & _ & _ & _ & H5) & _). split; cbn; lra. }
  destruct (profit_optim_cut _ om _ g _ gr be v Dw GW Hg Hx Eo) as (D' & L & ep & -> & H).
  split; [apply Hd, D'|]. split; [exact L|]. exists ep. split; [reflexivity|].
  assert (W : realises m b (worst m b x0 x1)) by (apply worst_realises, D).
  destruct v as [v|]; [destruct H as (-> & H)|destruct H as (Hp & H)]; (split; [lra|]); intros z Hz; destruct (Hz _ W) as (Z1 & Z2); apply H; assumption.
Qed.

Lemma rb_reports m b o x g o' r : describes_rb m b o -> length x = 2%nat ->
  (forall m', realises m b m' -> 0 < g + cost_at m' (fv x)) ->
  profit_rb_assess_optim RT o x g = (o', r) ->
  describes_rb m b o' /\ exists ct v, r = Ok (ct, v) /\ (v <> None <-> robust_ge m b g (fv x)).
Proof.
  intros D Hx Hc E. destruct (rb_step m b o x g o' _ D E) as [(_ & _ & F)|(x0 & x1 & rest & om & -> & Dw & Eo & Hd)].
  { change (@length (num RA) x < 2)%nat in F. change (@length (num RA) x = 2%nat) in Hx. rewrite Hx in F. lia. }
  assert (W : realises m b (worst m b x0 x1)) by (apply worst_realises, D).
  destruct (profit_reports _ om _ g _ r Dw Hx (Hc _ W) Eo) as ((ct & v & -> & I) & D').
  split; [apply Hd, D'|]. exists ct, v. split; [reflexivity|]. rewrite I. 
  destruct D as (Hb & Hs & Hp & _). split.
  - intros (L & P) m' Hm. unfold profit_at, in_limit in *. change (fv (x0 :: x1 :: rest) 0) with x0 in *. change (fv (x0 :: x1 :: rest) 1) with x1 in *.
    split; [eapply worst_limit; eassumption|]. eapply Rle_trans; [exact P|]. apply worst_profit; assumption.
  - intros H. apply H, W.
Qed.

Lemma rb_init_ok p a k al be v1 v2 e1 e2 e3 e4 e5 o : 0 < a ->
  0 <= e1 -> 0 <= e2 -> 0 <= e3 -> 0 <= e4 -> 0 <= e5 ->
  profit_rb_init (A:=RA) RT (p, a, k) (@cons R al [be]) (@cons R v1 [v2]) (e1, e2, e3, e4, e5) = Ok o ->
  describes_rb (mkMarket p a k al be v1 v2) (mkBox e1 e2 e3 e4 e5) o.
Proof.
  intros Ha H1 H2 H3 H4 H5 E. unfold profit_rb_init in E. rewrite bcast2_eq in E by reflexivity. cbn [bind] in E.
  match type of E with bind ?t _ = _ => destruct t as [om|e] eqn:Eo end; cbn [bind] in E; [|discriminate].
  injection E as <-. pose proof (profit_describes (p - e3) a (k - e4) al be (v1 + e5) (v2 + e5) om Eo) as D.
  destruct D as (D1 & D2 & D3 & D4 & D5 & D6 & D7). cbn in D1, D2, D3, D4, D5, D6.
  unfold describes_rb. cbn. repeat split; auto.
  apply (Rmult_lt_reg_r a); [exact Ha|]. rewrite Rmult_0_l. exact D1.
Qed.

Lemma rb_oracle_ok m b o g p : describes_rb m b o -> good_price m -> 0 <= g ->
  optim_oracle 2 p (fun g z => robust_ge m b g z /\ forall m', realises m b m' -> g < profit_at m' z) (profit_rb_assess_optim RT) o g.
Proof.
  intros D GP Hg. exists (fun o g => describes_rb m b o /\ 0 <= g). split; [auto|]. clear o g D Hg.
  intros o x g o' [gr be] v (D & Hg) E.
  destruct (rb_step m b o x g o' _ D E) as [(F & _)|(x0 & x1 & rest & om & -> & Dw & Eo & Hd)]; [discriminate|].
  destruct (optim_len _ om _ g _ (gr, be) v Dw Eo) as (D' & [L|(-> & Hp & Ec)]).
  - destruct (rb_cut m b o _ g o' gr be v D GP Hg L E) as (_ & _ & ep & -> & He & H).
    destruct v as [v|].
    + destruct (rb_value m b o _ g o' _ v D L E) as (_ & Hv & _ & _). split; [split; [apply Hd, D'|change R with (num RA); lra]|].
      assert (GW : good_price (worst m b x0 x1)) by (destruct D as ((_ & _ & _ & _ & H5) & _); destruct GP; split; cbn; lra).
      destruct (profit_optim_cut _ om _ g _ gr _ _ Dw GW Hg L Eo) as (_ & _ & ep' & E' & -> & _).
      injection E' as ->. split; [split; [discriminate|]|].
      * intros z (Z1 & Z2). specialize (H z Z1). cbn [fst snd]. split; [|exact I]. rewrite Rplus_0_r in H. exact H.
      * intros z (Z1 & Z2). split.
        -- intros m' Hm. destruct (Z1 m' Hm) as (Q1 & Q2). split; [exact Q1|lra].
        -- intros m' Hm. specialize (Z2 m' Hm). lra.
    + split; [split; [apply Hd, D'|exact Hg]|]. split.
      * intros _. right. exists ep. split; [reflexivity|lra].
      * intros z (Z1 & Z2). specialize (H z Z1). cbn [fst snd]. split; [|exact I]. cbn [first_beta]. apply (Rplus_le_reg_r ep). rewrite Rplus_opp_l. exact H.
  - injection Ec as -> ->. split; [split; [apply Hd, D'|exact Hg]|]. split.
    + intros _. right. eexists. split; [reflexivity|apply Rlt_le, Hp].
    + intros z (Z1 & Z2). cbn [fst snd]. split; [|exact I]. cbn [first_beta]. match goal with |- _ <= - ?t => apply (Rplus_le_reg_r t) end. rewrite Rplus_opp_l. apply (limit_cut_any (worst m b x0 x1)); [apply Dw|].
      apply (Z1 _ (worst_realises m b x0 x1 (proj1 D))).
Qed.

(** an empty point, and a fresh discrete oracle *)
Lemma profit_empty p a k el pr o g :
  profit_init (A:=RA) RT (p, a, k) el pr = Ok o ->
  snd (profit_assess_feas RT o [] g) = Err IndexError.
Proof.
  intros Hi. destruct (profit_init_ok p a k el pr) as (H1 & H2 & _). destruct (H1 _ Hi) as [P1 P2].
  destruct (H2 P1 P2) as (o1 & E1 & A1 & A2 & A3 & A4 & A5). assert (o1 = o) by congruence. subst o1.
  unfold profit_assess_feas, profit_round. rewrite A5. reflexivity.
Qed.

Lemma profit_q_fresh p a k el pr d x g :
  profit_q_init (A:=RA) RT (p, a, k) el pr = Ok d ->
  profit_init (A:=RA) RT (p, a, k) el pr = Ok (pq_omega d) /\
  forall o' ct y v more, profit_assess_optim_q RT d x g true = (o', Ok (ct, y, v, more)) ->
  y = @cons R 0 [0] /\ more = false.
Proof.
  intros Hi. unfold profit_q_init in Hi.
  destruct (profit_init (A:=RA) RT (p, a, k) el pr) as [om|] eqn:Ei; cbn [bind] in Hi; [ | discriminate ].
  injection Hi as <-. split; [ reflexivity | ].
  intros o' ct y v more H. unfold profit_assess_optim_q, profit_q_finish in H. cbn [pq_xd pq_omega] in H.
  destruct (profit_assess_optim RT om _ g) as [om' [[[gr [be|be]] gn]|]]; try discriminate.
  injection H as _ H. destruct (bcast2 _ _ _) as [dd|]; cbn [bind] in H; [|discriminate].
  destruct (Nat.eqb _ _); [|discriminate]. injection H as _ <- _ <-. split; reflexivity.
Qed.
