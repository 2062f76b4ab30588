(** The discrete driver with an oracle that keeps and hands out references. *)
From Coq Require Import List Arith ZArith Bool Lia.
From Verif Require Import Arith Vec ModelCalc ModelCut ModelHeap ModelEll ModelProfit ModelHeapQ SpecHeap PHeap PHeap2.
Import ListNotations.

Section SimQ.
Context {A : Arith} {St V C Oh Ov G : Type}.
Variable dflt : V.
Variable sp : space_ops A St V C.
Variable opt : options A.
Hypothesis L : xc_attribute sp.
Notation val := (value_of dflt sp).

Variable fh : Oh -> addr -> G -> bool -> list V -> Oh * list V * res (C * addr * option G * bool).
Variable f : Ov -> V -> G -> bool -> Ov * res (C * V * option G * bool).
Variable view : Oh -> list V -> Ov.
Variable inv : Oh -> addr -> list V -> Prop.

Definition deref_q (h : list V) (r : res (C * addr * option G * bool)) : res (C * V * option G * bool) :=
  match r with Ok (c, x, v, alt) => Ok (c, nth x h dflt, v, alt) | Err e => Err e end.

Hypothesis step : forall o c g rt h o1 h1 r, (c < length h)%nat -> inv o c h -> fh o c g rt h = (o1, h1, r) ->
  (length h <= length h1)%nat /\ (forall b, (b < length h)%nat -> nth b h1 dflt = nth b h dflt) /\ inv o1 c h1 /\
  f (view o h) (nth c h dflt) g rt = (view o1 h1, deref_q h1 r) /\
  (forall ct x v alt, r = Ok (ct, x, Some v, alt) -> (x < length h1)%nat /\ x <> c).
Hypothesis stable : forall o c h x, inv o c h -> inv o c (hset h c x) /\ view o (hset h c x) = view o h.

Lemma optim_q_loop_view fuel : forall niter o (s : hspace (St:=St)) h xb g rt o' s' h' r,
  (snd s < length h)%nat -> old (snd s) h xb -> inv o (snd s) h ->
  h_optim_q_loop dflt sp opt fh fuel niter o s h xb g rt = (o', s', h', r) ->
  optim_q_loop f sp opt fuel niter (view o h) (val h s) (deref dflt h xb) g rt = (view o' h', val h' s', optim_res dflt h' r) /\
  snd s' = snd s /\ (length h <= length h')%nat /\
  (forall b, (b < length h)%nat -> b <> snd s -> nth b h' dflt = nth b h dflt).
Proof.
  induction fuel; intros niter o s h xb g rt o' s' h' r Hs Hb Hi H; cbn [h_optim_q_loop optim_q_loop] in *.
  - inversion H; subst. repeat split; reflexivity || lia.
  - rewrite (xc_val dflt sp L). change (h_xc s) with (snd s) in H.
    destruct (fh o (snd s) g rt h) as [[o1 h1] ro] eqn:Ef.
    destruct (step _ _ _ _ _ _ _ _ Hs Hi Ef) as (Hl & Hold & Hi1 & Ef' & Hx0). rewrite Ef'. clear Ef Ef'.
    assert (V1 : val h1 s = val h s) by (unfold value_of; rewrite Hold by exact Hs; reflexivity).
    destruct ro as [[[[ct xq] g1] alt]|e]; cbn [deref_q].
    2: { inversion H; subst. rewrite V1. repeat split; auto. }
    set (xb1 := match g1 with Some _ => @Some addr xq | None => xb end : option addr).
    set (xv := match g1 with Some _ => Some (nth xq h1 dflt) | None => deref dflt h xb end).
    set (gg := match g1 with Some v => v | None => g end).
    replace (match g1 with Some g2 => (@Some addr xq, g2) | None => (xb, g) end) with (xb1, gg) in H by (unfold xb1, gg; destruct g1; reflexivity).
    replace (match g1 with Some g2 => (Some (nth xq h1 dflt), g2) | None => (deref dflt h xb, g) end) with (xv, gg) by (unfold xv, gg; destruct g1; reflexivity).
    assert (Hx : old (snd s) h1 xb1).
    { intros b E. unfold xb1 in E. destruct g1 as [v|]; [injection E as <-; destruct (Hx0 _ _ _ _ eq_refl); auto|]. destruct (Hb b E). split; auto; lia. }
    assert (Ex : deref dflt h1 xb1 = xv).
    { unfold xb1, xv. destruct g1; cbn; [reflexivity|]. destruct xb as [b|]; [|reflexivity]. cbn. f_equal. apply Hold, (Hb b eq_refl). }
    clear Hx0. clearbody xb1 xv gg.
    destruct (sp_q sp ct (val h s)) as [s1 rs] eqn:Eb. rewrite <- V1 in Eb.
    assert (Hs1 : (snd s < length h1)%nat) by lia.
    destruct (upd_val dflt sp L _ _ _ _ _ _ Hs1 Eb) as (Eu & Ev). rewrite Eu in H. clear Eu.
    destruct (stable o1 (snd s) h1 (sp_xc sp s1) Hi1) as (Hi2 & Vw).
    set (h2 := hset h1 (snd s) (sp_xc sp s1)) in *.
    assert (Fr : forall b, (b < length h)%nat -> b <> snd s -> nth b h2 dflt = nth b h dflt)
      by (intros b Hb1 Hb2; unfold h2, hset; rewrite nth_upd_other by auto; auto).
    assert (Le : length h2 = length h1) by (unfold h2, hset; apply upd_length).
    assert (Ex2 : deref dflt h2 xb1 = xv).
    { rewrite <- Ex. destruct xb1 as [b|]; [|reflexivity]. cbn. f_equal. destruct (Hx b eq_refl). unfold h2, hset. apply nth_upd_other. auto. }
    assert (Ho : old (snd s) h2 xb1) by (intros b Eb'; rewrite Le; apply Hx, Eb').
    rewrite <- Vw. clearbody h2.
    assert (Stop : (o1, (s1, snd s), h2, Ok (xb1, gg, niter)) = (o', s', h', r) ->
      (view o1 h2, s1, Ok (xv, gg, niter)) = (view o' h', val h' s', optim_res dflt h' r) /\ snd s' = snd s /\ (length h <= length h')%nat /\
      (forall b, (b < length h)%nat -> b <> snd s -> nth b h' dflt = nth b h dflt)).
    { intros X. inversion X; subst o' s' h' r. rewrite Ev. cbn [optim_res]. rewrite Ex2. repeat split; [lia|exact Fr]. }
    assert (Cont : forall rt', (if altb (h_tsq sp (s1, snd s)) (tolerance opt) then (o1, (s1, snd s), h2, Ok (xb1, gg, niter))
         else h_optim_q_loop dflt sp opt fh fuel (niter + 1)%Z o1 (s1, snd s) h2 xb1 gg rt') = (o', s', h', r) ->
      (if altb (sp_tsq sp s1) (tolerance opt) then (view o1 h2, s1, Ok (xv, gg, niter)) else optim_q_loop f sp opt fuel (niter + 1)%Z (view o1 h2) s1 xv gg rt')
        = (view o' h', val h' s', optim_res dflt h' r) /\ snd s' = snd s /\ (length h <= length h')%nat /\
      (forall b, (b < length h)%nat -> b <> snd s -> nth b h' dflt = nth b h dflt)).
    { intros rt' X. change (h_tsq sp (s1, snd s)) with (sp_tsq sp s1) in X. destruct (altb _ _); [apply Stop, X|].
      assert (Hs2 : (snd (s1, snd s) < length h2)%nat) by (rewrite Le; exact Hs1).
      destruct (IHfuel _ _ _ _ _ _ _ _ _ _ _ Hs2 Ho Hi2 X) as (E & E1 & E2 & E3). rewrite Ev, Ex2 in E. rewrite E. cbn [snd] in *.
      repeat split; [exact E1|lia|]. intros b Hb1 Hb2. rewrite E3 by (auto; lia). auto. }
    destruct rs as [st|e].
    + destruct st; [apply Cont, H|apply Stop, H| |apply Cont, H]. destruct (negb alt); [apply Stop, H|apply Cont, H].
    + inversion H; subst o' s' h' r. rewrite Ev. repeat split; [lia|exact Fr].
Qed.
End SimQ.

(** ** ProfitQOracle *)
Section ProfitQ.
Context {A : Arith}.
Variable T : Trans A.

Definition pq_view (o : hprofit_q) (h : list (vec A)) : profit_disc A := mkProfitQ (fst o) (nth (snd o) h []).
Definition pq_inv (o : hprofit_q (A:=A)) (c : addr) (h : list (vec A)) : Prop := (snd o < length h)%nat /\ snd o <> c.

Lemma finish_view o c g rt h o1 h1 r : (c < length h)%nat -> pq_inv o c h ->
  hprofit_q_finish T o c g rt h = (o1, h1, r) ->
  h1 = h /\ snd o1 = snd o /\
  profit_q_finish T (pq_view o h) (nth c h []) g rt = (pq_view o1 h1, deref_q [] h1 r) /\
  (forall ct x v alt, r = Ok (ct, x, v, alt) -> x = snd o).
Proof.
  intros Hc Hi H. destruct o as [omega xd]. unfold hprofit_q_finish in H. unfold pq_view. cbn [fst snd] in *.
  change (hget [] h xd) with (nth xd h []) in H. change (hget [] h c) with (nth c h []) in H.
  destruct (profit_q_finish T (mkProfitQ omega (nth xd h [])) (nth c h []) g rt) as [o2 r2] eqn:E.
  injection H as <- <- <-. split; [reflexivity|]. split; [reflexivity|]. cbn [fst snd].
  assert (Ex : pq_xd o2 = nth xd h [] /\ forall ct x v alt, r2 = Ok (ct, x, v, alt) -> x = nth xd h []).
  { unfold profit_q_finish in E. cbn [pq_xd pq_omega] in E.
    destruct (profit_assess_optim T omega (nth xd h []) g) as [om [[[gr be] gn]|e]].
    - destruct be as [b|l].
      + injection E as <- E2. split; [reflexivity|]. intros ct x v alt ->.
        destruct (Broadcast.bcast2 asub (nth xd h []) (nth c h [])) as [d|e]; [|discriminate]. cbn [bind] in E2.
        destruct (Nat.eqb (length gr) (length d)); [|discriminate]. injection E2. auto.
      + injection E as <- <-. split; [reflexivity|discriminate].
    - injection E as <- <-. split; [reflexivity|discriminate]. }
  destruct Ex as (E1 & E2). split.
  - destruct o2 as [om x2]. cbn [pq_xd pq_omega] in *. subst x2.
    destruct r2 as [[[[ct x] v] alt]|e]; cbn [bind deref_q]; [|reflexivity]. rewrite (E2 _ _ _ _ eq_refl). reflexivity.
  - intros ct x v alt Hr. destruct r2 as [[[[ct2 x2] v2] alt2]|e]; [|discriminate]. cbn [bind] in Hr. injection Hr. auto.
Qed.

Lemma assess_view o c g rt h o1 h1 r : (c < length h)%nat -> pq_inv o c h -> hprofit_q_assess T o c g rt h = (o1, h1, r) ->
  (length h <= length h1)%nat /\ (forall b, (b < length h)%nat -> nth b h1 [] = nth b h []) /\ pq_inv o1 c h1 /\
  profit_assess_optim_q T (pq_view o h) (nth c h []) g rt = (pq_view o1 h1, deref_q [] h1 r) /\
  (forall ct x v alt, r = Ok (ct, x, Some v, alt) -> (x < length h1)%nat /\ x <> c).
Proof.
  intros Hc Hi H. unfold hprofit_q_assess in H. unfold profit_assess_optim_q. destruct rt.
  - destruct (finish_view _ _ _ _ _ _ _ _ Hc Hi H) as (-> & E1 & E2 & E3).
    destruct Hi as (I1 & I2). split; [lia|]. split; [auto|]. split; [split; rewrite E1; assumption|]. split; [exact E2|].
    intros ct x v alt Hr. rewrite (E3 _ _ _ _ Hr). auto.
  - destruct o as [omega xd]. unfold pq_view at 1 2. cbn [pq_omega pq_xd fst snd].
    change (hget [] h c) with (nth c h []) in H.
    destruct (profit_assess_feas T omega (nth c h []) g) as [om [[ct|]|e]].
    + injection H as <- <- <-. split; [lia|]. split; [auto|]. split; [exact Hi|]. split; [reflexivity|]. intros; discriminate.
    + unfold halloc in H. set (h2 := h ++ [discretise T (nth c h [])]) in *.
      assert (Hl : length h2 = S (length h)) by (unfold h2; rewrite app_length; cbn; lia).
      assert (Hold : forall b, (b < length h)%nat -> nth b h2 [] = nth b h []) by (intros; apply (nth_app_old (V:=vec A)); assumption).
      assert (Hi2 : pq_inv (om, length h) c h2) by (split; cbn [snd]; lia).
      assert (Hc2 : (c < length h2)%nat) by lia.
      destruct (finish_view _ _ _ _ _ _ _ _ Hc2 Hi2 H) as (-> & E1 & E2 & E3).
      split; [lia|]. split; [exact Hold|]. destruct Hi2 as (I1 & I2). split; [split; rewrite E1; assumption|].
      rewrite Hold in E2 by exact Hc. unfold pq_view at 1 in E2. cbn [fst snd] in E2.
      unfold h2 in E2 at 1. rewrite (nth_app_new (V:=vec A)) in E2. split; [exact E2|].
      intros ct x v alt Hr. rewrite (E3 _ _ _ _ Hr). auto.
    + injection H as <- <- <-. split; [lia|]. split; [auto|]. split; [exact Hi|]. split; [reflexivity|]. intros; discriminate.
Qed.

Lemma pq_stable o c h x : pq_inv o c h -> pq_inv o c (hset h c x) /\ pq_view o (hset h c x) = pq_view o h.
Proof.
  intros (I1 & I2). unfold pq_inv, pq_view, hset. rewrite upd_length. split; [auto|]. rewrite nth_upd_other by auto. reflexivity.
Qed.

Lemma profit_q_same St (sp : space_ops A St (vec A) (cut A)) (opt : options A) o s h g o' s' h' r :
  xc_attribute sp -> (snd s < length h)%nat -> (snd o < length h)%nat -> snd o <> snd s ->
  h_cutting_plane_optim_q [] sp opt (hprofit_q_assess T) o s h g = (o', s', h', r) ->
  cutting_plane_optim_q (profit_assess_optim_q T) sp opt (mkProfitQ (fst o) (nth (snd o) h [])) (value_of [] sp h s) g =
    (mkProfitQ (fst o') (nth (snd o') h' []), value_of [] sp h' s', optim_res [] h' r) /\
  only_centre_changed [] sp s h s' h'.
Proof.
  intros Lx Hs Ho Hn H.
  destruct (optim_q_loop_view [] sp opt Lx (hprofit_q_assess T) (profit_assess_optim_q T) pq_view pq_inv
    assess_view pq_stable _ _ _ _ _ None _ _ _ _ _ _ Hs ltac:(discriminate) (conj Ho Hn) H) as (E & E1 & E2 & E3).
  split; [exact E|]. apply frame_ok; assumption.
Qed.

(** a new oracle beside any space *)
Lemma profit_q_start params el pr h h1 o : hprofit_q_init T params el pr h = (h1, Ok o) ->
  snd o = length h /\ (snd o < length h1)%nat /\ (forall b, (b < length h)%nat -> nth b h1 [] = nth b h []) /\
  profit_q_init T params el pr = Ok (mkProfitQ (fst o) (nth (snd o) h1 [])).
Proof.
  unfold hprofit_q_init, profit_q_init. destruct (profit_init T params el pr) as [om|e]; [|discriminate].
  unfold halloc. intros H. injection H as <- <-. cbn [fst snd bind]. rewrite (nth_app_new (V:=vec A)), app_length. cbn [length].
  split; [reflexivity|]. split; [lia|]. split; [intros; apply (nth_app_old (V:=vec A)); assumption|reflexivity].
Qed.
End ProfitQ.
