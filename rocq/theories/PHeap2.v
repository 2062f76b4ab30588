(** The drivers on references compute what the drivers on values compute. *)
From Coq Require Import List Arith ZArith Bool Lia.
From Verif Require Import Arith Vec ModelCalc ModelCut ModelHeap ModelEll ModelStable ModelSpaces SpecHeap PHeap.
Import ListNotations.

Section Sim.
Context {A : Arith} {St V C : Type}.
Variable dflt : V.
Variable sp : space_ops A St V C.
Variable opt : options A.
Hypothesis L : xc_attribute sp.

Notation val := (value_of dflt sp).

Lemma xc_val h (s : hspace (St:=St)) : sp_xc sp (val h s) = nth (snd s) h dflt.
Proof. apply L. Qed.

(** an in-place update *)
Lemma upd_val (f : C -> St -> St * res cut_status) c (s : hspace (St:=St)) h s1 r : (snd s < length h)%nat ->
  f c (val h s) = (s1, r) ->
  h_update dflt sp f c s h = ((s1, snd s), hset h (snd s) (sp_xc sp s1), r) /\
  val (hset h (snd s) (sp_xc sp s1)) (s1, snd s) = s1.
Proof.
  intros Hs E. unfold h_update. change (hget dflt h (snd s)) with (nth (snd s) h dflt). change (sp_set_xc sp (nth (snd s) h dflt) (fst s)) with (val h s).
  rewrite E. split; [reflexivity|]. unfold value_of. cbn [fst snd]. unfold hset. rewrite nth_upd_same by exact Hs. apply L.
Qed.

Lemma nth_app_old (h : list V) x b : (b < length h)%nat -> nth b (h ++ [x]) dflt = nth b h dflt.
Proof. intros. apply app_nth1. assumption. Qed.
Lemma nth_app_new (h : list V) x : nth (length h) (h ++ [x]) dflt = x.
Proof. rewrite app_nth2, Nat.sub_diag by lia. reflexivity. Qed.

Section Feas.
Context {Orc : Type}.
Variable f : Orc -> V -> Orc * res (option C).

Lemma feas_loop_sim fuel : forall niter o (s : hspace (St:=St)) h o' s' h' r, (snd s < length h)%nat ->
  h_feas_loop dflt sp opt (reads dflt f) fuel niter o s h = (o', s', h', r) ->
  feas_loop f sp opt fuel niter o (val h s) = (o', val h' s', feas_res dflt h' r) /\
  snd s' = snd s /\ length h' = length h /\
  (forall b, b <> snd s -> nth b h' dflt = nth b h dflt).
Proof.
  induction fuel; intros niter o s h o' s' h' r Hs H; cbn [h_feas_loop feas_loop] in *.
  - inversion H; subst. repeat split; reflexivity.
  - rewrite xc_val. unfold reads in H at 1. change (h_xc s) with (snd s) in H.
    destruct (f o (nth (snd s) h dflt)) as [o1 [[ct|]|e]].
    + destruct (sp_bias sp ct (val h s)) as [s1 rs] eqn:Eb. destruct (upd_val _ _ _ _ _ _ Hs Eb) as (Eu & Ev). rewrite Eu in H.
      assert (Fr : forall b, b <> snd s -> nth b (hset h (snd s) (sp_xc sp s1)) dflt = nth b h dflt)
        by (intros b Hb; unfold hset; apply nth_upd_other; auto).
      assert (Le : length (hset h (snd s) (sp_xc sp s1)) = length h) by (unfold hset; apply upd_length).
      destruct rs as [st|e].
      * change (h_stop sp opt st (s1, snd s)) with (stop_test sp opt st s1) in H.
        destruct (stop_test sp opt st s1).
        -- inversion H; subst. rewrite Ev. repeat split; [exact Le|exact Fr].
        -- assert (Hs1 : (snd (s1, snd s) < length (hset h (snd s) (sp_xc sp s1)))%nat) by (rewrite Le; exact Hs).
           destruct (IHfuel _ _ _ _ _ _ _ _ Hs1 H) as (E & E1 & E2 & E3). rewrite Ev in E. cbn [snd] in E1, E3.
           rewrite E. repeat split; [exact E1|lia|]. intros b Hb. rewrite E3 by exact Hb. apply Fr, Hb.
      * inversion H; subst. rewrite Ev. repeat split; [exact Le|exact Fr].
    + inversion H; subst. cbn [feas_res deref option_map]. repeat split; reflexivity.
    + inversion H; subst. repeat split; reflexivity.
Qed.

Lemma feas_sim o (s : hspace (St:=St)) h o' s' h' r : (snd s < length h)%nat ->
  h_cutting_plane_feas dflt sp opt (reads dflt f) o s h = (o', s', h', r) ->
  cutting_plane_feas f sp opt o (val h s) = (o', val h' s', feas_res dflt h' r) /\
  snd s' = snd s /\ length h' = length h /\
  (forall b, b <> snd s -> nth b h' dflt = nth b h dflt).
Proof. apply feas_loop_sim. Qed.

(** ** the adaptor *)
Context {P : Type}.
Variable update : P -> Orc -> Orc.

Lemma adaptor_sim (ad : Orc * hspace (St:=St)) gamma h ad' h' r : (snd (snd ad) < length h)%nat ->
  h_assess_bs dflt sp opt (reads dflt f) update ad gamma h = (ad', h', r) ->
  assess_bs f update sp opt (fst ad, val h (snd ad)) gamma = ((fst ad', val h' (snd ad')), r) /\
  (snd (snd ad') < length h')%nat /\ (length h <= length h')%nat /\
  (forall b, (b < length h)%nat -> nth b h' dflt = nth b h dflt) /\
  (r = Ok true -> (length h <= snd (snd ad'))%nat) /\ (r <> Ok true -> snd (snd ad') = snd (snd ad)).
Proof.
  destruct ad as [o s]. cbn [fst snd]. intros Hs H. unfold h_assess_bs, halloc in H. unfold assess_bs.
  set (h1 := h ++ [hget dflt h (h_xc s)]) in H.
  destruct (h_cutting_plane_feas dflt sp opt (reads dflt f) (update gamma o) (@pair St addr (fst s) (length h)) h1) as [[[o2 s2] h2] r2] eqn:Er.
  assert (L1 : length h1 = S (length h)) by (unfold h1; rewrite app_length; cbn; lia).
  assert (N1 : nth (length h) h1 dflt = nth (snd s) h dflt) by (unfold h1; apply nth_app_new).
  assert (O1 : forall b, (b < length h)%nat -> nth b h1 dflt = nth b h dflt) by (intros; apply nth_app_old; assumption).
  assert (Hl : (snd (@pair St addr (fst s) (length h)) < length h1)%nat) by (rewrite L1; cbn; lia).
  destruct (feas_sim _ _ _ _ _ _ _ Hl Er) as (E & E1 & E2 & E3). cbn [snd] in E1, E3.
  assert (V1 : val h1 (@pair St addr (fst s) (length h)) = val h s) by (unfold value_of; cbn [fst snd]; rewrite N1; reflexivity).
  rewrite V1 in E. rewrite E.
  assert (Fr : forall b, (b < length h)%nat -> nth b h2 dflt = nth b h dflt) by (intros b Hb; rewrite E3 by lia; auto).
  assert (Same : val h2 s = val h s) by (unfold value_of; rewrite Fr by exact Hs; reflexivity).
  destruct r2 as [[[x|] k]|e]; cbn [feas_res deref option_map]; inversion H; subst ad' h' r; cbn [fst snd].
  - destruct (h_feas_alias dflt sp opt _ _ _ _ _ _ _ _ _ Er) as (Ex & Ex2). change (h_xc s2) with (snd s2) in *. cbn [h_xc snd] in Ex2.
    assert (x = length h) by congruence. subst x.
    split; [|cbn [h_set_xc snd]; repeat split; try lia; [exact Fr|intros X; exfalso; apply X; reflexivity]].
    f_equal. f_equal. unfold value_of, h_set_xc. cbn [fst snd]. destruct L as (_ & _ & L3). apply L3.
  - rewrite Same. repeat split; try lia; [exact Fr|discriminate].
  - rewrite Same. repeat split; try lia; [exact Fr|discriminate].
Qed.
End Feas.

Section Optim.
Context {Orc G : Type}.
Variable f : Orc -> V -> G -> Orc * res (C * option G).

Definition old (a : addr) (h : list V) (x : option addr) : Prop := forall b, x = Some b -> (b < length h)%nat /\ b <> a.

Lemma optim_loop_sim fuel : forall niter o (s : hspace (St:=St)) h xb g o' s' h' r, (snd s < length h)%nat -> old (snd s) h xb ->
  h_optim_loop dflt sp opt (reads_g dflt f) fuel niter o s h xb g = (o', s', h', r) ->
  optim_loop f sp opt fuel niter o (val h s) (deref dflt h xb) g = (o', val h' s', optim_res dflt h' r) /\
  snd s' = snd s /\ (length h <= length h')%nat /\
  (forall b, (b < length h)%nat -> b <> snd s -> nth b h' dflt = nth b h dflt).
Proof.
  induction fuel; intros niter o s h xb g o' s' h' r Hs Hb H; cbn [h_optim_loop optim_loop] in *.
  - inversion H; subst. repeat split; reflexivity || lia.
  - rewrite xc_val. unfold reads_g in H at 1. change (h_xc s) with (snd s) in H.
    destruct (f o (nth (snd s) h dflt) g) as [o1 [[ct g1]|e]].
    2: { inversion H; subst. repeat split; reflexivity || lia. }
    assert (Step : forall (h1 : list V) (xb1 : option addr) (xv : option V) gg (upd : C -> St -> St * res cut_status),
      (length h <= length h1)%nat -> (forall b, (b < length h)%nat -> nth b h1 dflt = nth b h dflt) ->
      old (snd s) h1 xb1 -> deref dflt h1 xb1 = xv ->
      (let '(s1, h2, rs) := h_update dflt sp upd ct s h1 in
       match rs with
       | Ok st => if h_stop sp opt st s1 then (o1, s1, h2, Ok (xb1, gg, niter))
                  else h_optim_loop dflt sp opt (reads_g dflt f) fuel (niter + 1)%Z o1 s1 h2 xb1 gg
       | Err x => (o1, s1, h2, Err x)
       end) = (o', s', h', r) ->
      (let '(s1, rs) := upd ct (val h s) in
       match rs with
       | Ok st => if stop_test sp opt st s1 then (o1, s1, Ok (xv, gg, niter)) else optim_loop f sp opt fuel (niter + 1)%Z o1 s1 xv gg
       | Err x => (o1, s1, Err x)
       end) = (o', val h' s', optim_res dflt h' r) /\
      snd s' = snd s /\ (length h <= length h')%nat /\ (forall b, (b < length h)%nat -> b <> snd s -> nth b h' dflt = nth b h dflt)).
    { clear H. intros h1 xb1 xv gg upd Hl Hold Hx Ex H.
      assert (V1 : val h1 s = val h s) by (unfold value_of; rewrite Hold by exact Hs; reflexivity).
      destruct (upd ct (val h s)) as [s1 rs] eqn:Eb. rewrite <- V1 in Eb.
      assert (Hs1 : (snd s < length h1)%nat) by lia.
      destruct (upd_val _ _ _ _ _ _ Hs1 Eb) as (Eu & Ev). rewrite Eu in H. set (h2 := hset h1 (snd s) (sp_xc sp s1)) in *.
      assert (Fr : forall b, (b < length h)%nat -> b <> snd s -> nth b h2 dflt = nth b h dflt)
        by (intros b Hb1 Hb2; unfold h2, hset; rewrite nth_upd_other by auto; auto).
      assert (Le : length h2 = length h1) by (unfold h2, hset; apply upd_length).
      assert (Ex2 : deref dflt h2 xb1 = xv).
      { rewrite <- Ex. destruct xb1 as [b|]; [|reflexivity]. cbn. f_equal. destruct (Hx b eq_refl). unfold h2, hset. apply nth_upd_other. auto. }
      assert (Ho : old (snd s) h2 xb1) by (intros b Eb'; rewrite Le; apply Hx, Eb').
      destruct rs as [st|e].
      - change (h_stop sp opt st (s1, snd s)) with (stop_test sp opt st s1) in H. destruct (stop_test sp opt st s1).
        + inversion H; subst o' s' h' r. rewrite Ev. cbn [optim_res]. rewrite Ex2. repeat split; [lia|exact Fr].
        + assert (Hs2 : (snd (s1, snd s) < length h2)%nat) by (rewrite Le; exact Hs1).
          destruct (IHfuel _ _ _ _ _ _ _ _ _ _ Hs2 Ho H) as (E & E1 & E2 & E3). rewrite Ev, Ex2 in E. rewrite E. cbn [snd] in *.
          repeat split; [exact E1|lia|]. intros b Hb1 Hb2. rewrite E3 by (auto; lia). auto.
      - inversion H; subst o' s' h' r. rewrite Ev. repeat split; [lia|exact Fr]. }
    destruct g1 as [g1|].
    + unfold halloc in H. change (hget dflt h (snd s)) with (nth (snd s) h dflt) in H.
      refine (Step (h ++ [nth (snd s) h dflt]) (Some (length h)) _ g1 (sp_central sp) _ _ _ _ H).
      * rewrite app_length. lia.
      * intros b Hb1. apply nth_app_old, Hb1.
      * intros b E. injection E as <-. rewrite app_length. cbn. lia.
      * cbn. f_equal. apply nth_app_new.
    + refine (Step h xb _ g (sp_bias sp) _ _ Hb eq_refl H); auto.
Qed.

Lemma optim_sim o (s : hspace (St:=St)) h g o' s' h' r : (snd s < length h)%nat ->
  h_cutting_plane_optim dflt sp opt (reads_g dflt f) o s h g = (o', s', h', r) ->
  cutting_plane_optim f sp opt o (val h s) g = (o', val h' s', optim_res dflt h' r) /\
  snd s' = snd s /\ (length h <= length h')%nat /\
  (forall b, (b < length h)%nat -> b <> snd s -> nth b h' dflt = nth b h dflt).
Proof. intros Hs H. exact (optim_loop_sim _ _ _ _ _ None _ _ _ _ _ Hs ltac:(discriminate) H). Qed.
End Optim.

Section OptimQ.
Context {Orc G : Type}.
Variable f : Orc -> V -> G -> bool -> Orc * res (C * V * option G * bool).

Lemma optim_q_loop_sim fuel : forall niter o (s : hspace (St:=St)) h xb g rt o' s' h' r, (snd s < length h)%nat -> old (snd s) h xb ->
  h_optim_q_loop dflt sp opt (reads_q dflt f) fuel niter o s h xb g rt = (o', s', h', r) ->
  optim_q_loop f sp opt fuel niter o (val h s) (deref dflt h xb) g rt = (o', val h' s', optim_res dflt h' r) /\
  snd s' = snd s /\ (length h <= length h')%nat /\
  (forall b, (b < length h)%nat -> b <> snd s -> nth b h' dflt = nth b h dflt).
Proof.
  induction fuel; intros niter o s h xb g rt o' s' h' r Hs Hb H; cbn [h_optim_q_loop optim_q_loop] in *.
  - inversion H; subst. repeat split; reflexivity || lia.
  - rewrite xc_val. unfold reads_q in H at 1. change (h_xc s) with (snd s) in H.
    destruct (f o (nth (snd s) h dflt) g rt) as [o1 [[[[ct xq] g1] alt]|e]].
    2: { inversion H; subst. repeat split; reflexivity || lia. }
    set (h1 := h ++ [xq]) in *.
    assert (Hold : forall b, (b < length h)%nat -> nth b h1 dflt = nth b h dflt) by (intros; apply nth_app_old; assumption).
    assert (Hl : length h1 = S (length h)) by (unfold h1; rewrite app_length; cbn; lia).
    set (xb1 := match g1 with Some _ => @Some addr (length h) | None => xb end : option addr).
    set (xv := match g1 with Some _ => Some xq | None => deref dflt h xb end).
    set (gg := match g1 with Some v => v | None => g end).
    replace (match g1 with Some g2 => (@Some addr (length h), g2) | None => (xb, g) end) with (xb1, gg) in H by (unfold xb1, gg; destruct g1; reflexivity).
    replace (match g1 with Some g2 => (Some xq, g2) | None => (deref dflt h xb, g) end) with (xv, gg) by (unfold xv, gg; destruct g1; reflexivity).
    assert (Hx : old (snd s) h1 xb1).
    { intros b E. unfold xb1 in E. destruct g1; [injection E as <-; lia|]. destruct (Hb b E). lia. }
    assert (Ex : deref dflt h1 xb1 = xv).
    { unfold xb1, xv. destruct g1; cbn; [f_equal; apply nth_app_new|]. destruct xb as [b|]; [|reflexivity]. cbn. f_equal. apply Hold, (Hb b eq_refl). }
    clearbody xb1 xv gg.
    assert (V1 : val h1 s = val h s) by (unfold value_of; rewrite Hold by exact Hs; reflexivity).
    destruct (sp_q sp ct (val h s)) as [s1 rs] eqn:Eb. rewrite <- V1 in Eb.
    assert (Hs1 : (snd s < length h1)%nat) by lia.
    destruct (upd_val _ _ _ _ _ _ Hs1 Eb) as (Eu & Ev). rewrite Eu in H. clear Eu. set (h2 := hset h1 (snd s) (sp_xc sp s1)) in *.
    assert (Fr : forall b, (b < length h)%nat -> b <> snd s -> nth b h2 dflt = nth b h dflt)
      by (intros b Hb1 Hb2; unfold h2, hset; rewrite nth_upd_other by auto; auto).
    assert (Le : length h2 = length h1) by (unfold h2, hset; apply upd_length).
    assert (Ex2 : deref dflt h2 xb1 = xv).
    { rewrite <- Ex. destruct xb1 as [b|]; [|reflexivity]. cbn. f_equal. destruct (Hx b eq_refl). unfold h2, hset. apply nth_upd_other. auto. }
    assert (Ho : old (snd s) h2 xb1) by (intros b Eb'; rewrite Le; apply Hx, Eb').
    clearbody h2.
    assert (Stop : (o1, (s1, snd s), h2, Ok (xb1, gg, niter)) = (o', s', h', r) ->
      (o1, s1, Ok (xv, gg, niter)) = (o', val h' s', optim_res dflt h' r) /\ snd s' = snd s /\ (length h <= length h')%nat /\
      (forall b, (b < length h)%nat -> b <> snd s -> nth b h' dflt = nth b h dflt)).
    { intros X. inversion X; subst o' s' h' r. rewrite Ev. cbn [optim_res]. rewrite Ex2. repeat split; [lia|exact Fr]. }
    assert (Cont : forall rt', (if altb (h_tsq sp (s1, snd s)) (tolerance opt) then (o1, (s1, snd s), h2, Ok (xb1, gg, niter))
         else h_optim_q_loop dflt sp opt (reads_q dflt f) fuel (niter + 1)%Z o1 (s1, snd s) h2 xb1 gg rt') = (o', s', h', r) ->
      (if altb (sp_tsq sp s1) (tolerance opt) then (o1, s1, Ok (xv, gg, niter)) else optim_q_loop f sp opt fuel (niter + 1)%Z o1 s1 xv gg rt')
        = (o', val h' s', optim_res dflt h' r) /\ snd s' = snd s /\ (length h <= length h')%nat /\
      (forall b, (b < length h)%nat -> b <> snd s -> nth b h' dflt = nth b h dflt)).
    { intros rt' X. change (h_tsq sp (s1, snd s)) with (sp_tsq sp s1) in X. destruct (altb _ _); [apply Stop, X|].
      assert (Hs2 : (snd (s1, snd s) < length h2)%nat) by (rewrite Le; exact Hs1).
      destruct (IHfuel _ _ _ _ _ _ _ _ _ _ _ Hs2 Ho X) as (E & E1 & E2 & E3). rewrite Ev, Ex2 in E. rewrite E. cbn [snd] in *.
      repeat split; [exact E1|lia|]. intros b Hb1 Hb2. rewrite E3 by (auto; lia). auto. }
    destruct rs as [st|e].
    + destruct st; [apply Cont, H|apply Stop, H| |apply Cont, H]. destruct (negb alt); [apply Stop, H|apply Cont, H].
    + inversion H; subst o' s' h' r. rewrite Ev. repeat split; [lia|exact Fr].
Qed.

Lemma optim_q_sim o (s : hspace (St:=St)) h g o' s' h' r : (snd s < length h)%nat ->
  h_cutting_plane_optim_q dflt sp opt (reads_q dflt f) o s h g = (o', s', h', r) ->
  cutting_plane_optim_q f sp opt o (val h s) g = (o', val h' s', optim_res dflt h' r) /\
  snd s' = snd s /\ (length h <= length h')%nat /\
  (forall b, (b < length h)%nat -> b <> snd s -> nth b h' dflt = nth b h dflt).
Proof. intros Hs H. exact (optim_q_loop_sim _ _ _ _ _ None _ _ _ _ _ _ Hs ltac:(discriminate) H). Qed.
End OptimQ.
End Sim.

(** the two spaces of the package *)
Lemma ell_xc_attribute (A : Arith) : xc_attribute (ell_space A).
Proof. repeat split. intros []. reflexivity. Qed.
Lemma stable_xc_attribute (A : Arith) : xc_attribute (stable_space A).
Proof. repeat split. intros []. reflexivity. Qed.

Section Frame.
Context {A : Arith} {St V C : Type}.
Variables (dflt : V) (sp : space_ops A St V C) (opt : options A).

Lemma frame_ok (s : hspace (St:=St)) h s' h' : xc_attribute sp -> snd s' = snd s -> (length h <= length h')%nat ->
  (forall b, (b < length h)%nat -> b <> snd s -> nth b h' dflt = nth b h dflt) -> only_centre_changed dflt sp s h s' h'.
Proof.
  intros L E1 E2 E3. split; [exact E1|]. split; [|auto]. unfold value_of. destruct L as (L1 & _). rewrite L1, E1. reflexivity.
Qed.

Lemma feas_same Orc (f : Orc -> V -> Orc * res (option C)) o s h o' s' h' r : xc_attribute sp -> (snd s < length h)%nat ->
  h_cutting_plane_feas dflt sp opt (reads dflt f) o s h = (o', s', h', r) ->
  cutting_plane_feas f sp opt o (value_of dflt sp h s) = (o', value_of dflt sp h' s', feas_res dflt h' r) /\
  only_centre_changed dflt sp s h s' h'.
Proof.
  intros L Hs H. destruct (feas_sim dflt sp opt L f _ _ _ _ _ _ _ Hs H) as (E & E1 & E2 & E3). split; [exact E|].
  apply frame_ok; [exact L|exact E1|lia|]. intros b _ Hb. exact (E3 b Hb).
Qed.
Lemma optim_same Orc G (f : Orc -> V -> G -> Orc * res (C * option G)) o s h g o' s' h' r : xc_attribute sp -> (snd s < length h)%nat ->
  h_cutting_plane_optim dflt sp opt (reads_g dflt f) o s h g = (o', s', h', r) ->
  cutting_plane_optim f sp opt o (value_of dflt sp h s) g = (o', value_of dflt sp h' s', optim_res dflt h' r) /\
  only_centre_changed dflt sp s h s' h'.
Proof.
  intros L Hs H. destruct (optim_sim dflt sp opt L f _ _ _ _ _ _ _ _ Hs H) as (E & E1 & E2 & E3). split; [exact E|].
  apply frame_ok; [exact L|exact E1|lia|exact E3].
Qed.
Lemma optim_q_same Orc G (f : Orc -> V -> G -> bool -> Orc * res (C * V * option G * bool)) o s h g o' s' h' r :
  xc_attribute sp -> (snd s < length h)%nat ->
  h_cutting_plane_optim_q dflt sp opt (reads_q dflt f) o s h g = (o', s', h', r) ->
  cutting_plane_optim_q f sp opt o (value_of dflt sp h s) g = (o', value_of dflt sp h' s', optim_res dflt h' r) /\
  only_centre_changed dflt sp s h s' h'.
Proof.
  intros L Hs H. destruct (optim_q_sim dflt sp opt L f _ _ _ _ _ _ _ _ Hs H) as (E & E1 & E2 & E3). split; [exact E|].
  apply frame_ok; [exact L|exact E1|lia|exact E3].
Qed.
Lemma adaptor_same Orc P (f : Orc -> V -> Orc * res (option C)) (update : P -> Orc -> Orc) o (s : hspace (St:=St)) gamma h o' s' h' r :
  xc_attribute sp -> (snd s < length h)%nat ->
  h_assess_bs dflt sp opt (reads dflt f) update (o, s) gamma h = ((o', s'), h', r) ->
  assess_bs f update sp opt (o, value_of dflt sp h s) gamma = ((o', value_of dflt sp h' s'), r) /\
  (snd s' < length h')%nat /\ (length h <= length h')%nat /\
  (forall b, (b < length h)%nat -> nth b h' dflt = nth b h dflt) /\
  (r = Ok true -> (length h <= snd s')%nat) /\ (r <> Ok true -> snd s' = snd s).
Proof. intros L Hs H. exact (adaptor_sim dflt sp opt L f update (o, s) gamma h (o', s') h' r Hs H). Qed.
End Frame.
