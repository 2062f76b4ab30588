(** Aliasing: what the returned references denote. *)
From Coq Require Import List Arith ZArith Bool Lia.
From Verif Require Import Arith Vec ModelCalc ModelCut ModelHeap.
Import ListNotations.

Lemma upd_length {T} (l : list T) i x : length (upd l i x) = length l.
Proof. revert i. induction l; destruct i; cbn; auto. Qed.

Lemma nth_upd_same {T} (l : list T) i x d : (i < length l)%nat -> nth i (upd l i x) d = x.
Proof. revert i. induction l; destruct i; cbn; intros; try lia; auto. apply IHl. lia. Qed.

Lemma nth_upd_other {T} (l : list T) i j x d : i <> j -> nth j (upd l i x) d = nth j l d.
Proof. revert i j. induction l; destruct i, j; cbn; intros; auto; try lia. Qed.

Section PHeap.
Context {A : Arith} {St V C : Type}.
Variable dflt : V.
Variable sp : space_ops A St V C.
Variable opt : options A.

Notation hget := (hget dflt).

Lemma hget_hset_other (h : list V) a b v : a <> b -> hget (hset h a v) b = hget h b.
Proof. intros. apply nth_upd_other. auto. Qed.

Section Optim.
Context {Orc G : Type}.
Variable f : Orc -> addr -> G -> list V -> Orc * list V * res (C * option G).

(** The arrays an oracle may write to are those it owns.  It never owns the
    caller's arrays nor copies made by the driver: it can only own what it owned
    at the start and what it allocates itself. *)
Variable owns : Orc -> addr -> Prop.
Definition well_behaved : Prop :=
  forall o a g h o' h' r, f o a g h = (o', h', r) ->
    (length h <= length h')%nat /\
    (forall b, (b < length h)%nat -> ~ owns o b -> hget h' b = hget h b) /\
    (forall b, owns o' b -> owns o b \/ (length h <= b < length h')%nat).

(** record the contents of the array at the time of the call *)
Definition hlogged (o : Orc * list (V * G * res (C * option G))) (a : addr) (g : G) (h : list V) :=
  let '(o1, h1, r) := f (fst o) a g h in ((o1, (hget h1 a, g, r) :: snd o), h1, r).

Fixpoint hlast (l : list (V * G * res (C * option G))) (g : G) : option V * G :=
  match l with
  | [] => (None, g)
  | (x, _, Ok (_, Some v)) :: _ => (Some x, v)
  | _ :: l' => hlast l' g
  end.

Lemma h_optim_loop_safe g0 (Hf : well_behaved) fuel :
  forall niter o l s h xb g o' l' s' h' x g' k,
  h_optim_loop dflt sp opt hlogged fuel niter (o, l) s h xb g
    = ((o', l'), s', h', Ok (x, g', k)) ->
  (snd s < length h)%nat ->
  (forall b, owns o b -> (b < length h)%nat) ->
  (forall b, xb = Some b -> (b < length h)%nat /\ b <> snd s /\ ~ owns o b) ->
  (option_map (hget h) xb, g) = hlast l g0 ->
  (option_map (hget h') x, g') = hlast l' g0 /\
  (forall b, x = Some b -> b <> snd s').
Proof.
  induction fuel; intros niter o l s h xb g o' l' s' h' x g' k H Hs Ho Hb Hv; cbn [h_optim_loop] in H.
  - inversion H; subst. split; [exact Hv|]. intros b Eb. apply Hb. exact Eb.
  - unfold hlogged at 1 in H. cbn [fst snd] in H.
    destruct (f o (h_xc s) g h) as [[o1 h1] r] eqn:Ef. cbn [fst snd] in H.
    destruct (Hf _ _ _ _ _ _ _ Ef) as (Hlen & Hfr & Hown).
    destruct r as [[ct g1]|e]; [|discriminate].
    assert (Ho1 : forall b, owns o1 b -> (b < length h1)%nat).
    { intros b Hob. destruct (Hown b Hob) as [H1|H1]; [specialize (Ho b H1); lia|lia]. }
    destruct g1 as [v|].
    + unfold halloc in H. cbn [h_xc] in H. unfold h_update in H.
      set (h2 := h1 ++ [hget h1 (h_xc s)]) in H.
      assert (Hl2 : length h2 = S (length h1)) by (unfold h2; rewrite app_length; cbn; lia).
      assert (Hnew : hget h2 (length h1) = hget h1 (snd s)).
      { unfold h2, ModelHeap.hget. rewrite app_nth2, Nat.sub_diag by lia. reflexivity. }
      destruct (sp_central sp ct (sp_set_xc sp (hget h2 (snd s)) (fst s))) as [s1 rs].
      assert (Hnv : hget (hset h2 (snd s) (sp_xc sp s1)) (length h1) = hget h1 (snd s)).
      { rewrite hget_hset_other; [exact Hnew|lia]. }
      destruct rs as [st|e]; [|discriminate].
      destruct (h_stop sp opt st (s1, snd s)).
      * inversion H; subst. cbn [snd option_map hlast]. split.
        -- change (h_xc s) with (snd s). rewrite Hnv. reflexivity.
        -- intros b Eb. inversion Eb; subst. lia.
      * eapply IHfuel; [exact H| | | |].
        -- cbn [snd]. unfold hset. rewrite upd_length. lia.
        -- intros b Hob. unfold hset. rewrite upd_length. specialize (Ho1 b Hob). lia.
        -- intros b Eb. inversion Eb; subst. cbn [snd]. unfold hset. rewrite upd_length.
           split; [lia|]. split; [lia|]. intros Hc. specialize (Ho1 _ Hc). lia.
        -- cbn [option_map hlast]. change (h_xc s) with (snd s). rewrite Hnv. reflexivity.
    + unfold h_update in H.
      destruct (sp_bias sp ct (sp_set_xc sp (hget h1 (snd s)) (fst s))) as [s1 rs].
      assert (Hkeep : option_map (hget (hset h1 (snd s) (sp_xc sp s1))) xb = option_map (hget h) xb).
      { destruct xb as [b|]; [|reflexivity]. cbn [option_map]. f_equal.
        destruct (Hb b eq_refl) as (Hb1 & Hb2 & Hb3).
        rewrite hget_hset_other by auto. apply Hfr; auto. }
      destruct rs as [st|e]; [|discriminate].
      destruct (h_stop sp opt st (s1, snd s)).
      * inversion H; subst. cbn [snd hlast]. split.
        -- rewrite Hkeep. exact Hv.
        -- intros b Eb. destruct (Hb b Eb) as (_ & Hb2 & _). exact Hb2.
      * eapply IHfuel; [exact H| | | |].
        -- cbn [snd]. unfold hset. rewrite upd_length. lia.
        -- intros b Hob. unfold hset. rewrite upd_length. apply Ho1. exact Hob.
        -- intros b Eb. destruct (Hb b Eb) as (Hb1 & Hb2 & Hb3). cbn [snd]. unfold hset.
           rewrite upd_length. split; [lia|]. split; [exact Hb2|].
           intros Hc. destruct (Hown b Hc) as [H1|H1]; [auto|lia].
        -- cbn [hlast]. rewrite Hkeep. exact Hv.
Qed.

Lemma hlast_inv l g x g' :
  (x, g') = hlast l g ->
  (x = None /\ g' = g /\ forall y gi c v, ~ In (y, gi, Ok (c, Some v)) l) \/
  (exists y gin c post pre, x = Some y /\ l = post ++ (y, gin, Ok (c, Some g')) :: pre /\
     forall y gi c v, ~ In (y, gi, Ok (c, Some v)) post).
Proof.
  induction l as [|[[y gin] a] l IH]; cbn [hlast]; intros H.
  - inversion H; subst. left. auto.
  - destruct a as [[c [v|]]|e].
    + inversion H; subst. right. exists y, gin, c, [], l. auto.
    + destruct (IH H) as [(E1 & E2 & HF)|(y' & gin' & c' & post & pre & E1 & E2 & HF)].
      * left. repeat split; auto. intros ? ? ? ? [E|Hin]; [discriminate|eapply HF; eauto].
      * right. exists y', gin', c', ((y, gin, Ok (c, None)) :: post), pre. subst.
        repeat split; auto. intros ? ? ? ? [E|Hin]; [discriminate|eapply HF; eauto].
    + destruct (IH H) as [(E1 & E2 & HF)|(y' & gin' & c' & post & pre & E1 & E2 & HF)].
      * left. repeat split; auto. intros ? ? ? ? [E|Hin]; [discriminate|eapply HF; eauto].
      * right. exists y', gin', c', ((y, gin, Err e) :: post), pre. subst.
        repeat split; auto. intros ? ? ? ? [E|Hin]; [discriminate|eapply HF; eauto].
Qed.

Theorem h_optim_safe o s h g o' l' s' h' x g' k :
  well_behaved ->
  (snd s < length h)%nat -> (forall b, owns o b -> (b < length h)%nat) ->
  h_cutting_plane_optim dflt sp opt hlogged (o, []) s h g = ((o', l'), s', h', Ok (x, g', k)) ->
  (forall a, x = Some a -> a <> snd s') /\
  ((x = None /\ g' = g /\ forall y gi c v, ~ In (y, gi, Ok (c, Some v)) l') \/
   (exists a gin c post pre, x = Some a /\
      l' = post ++ (hget h' a, gin, Ok (c, Some g')) :: pre /\
      forall y gi c v, ~ In (y, gi, Ok (c, Some v)) post)).
Proof.
  intros Hf Hs Ho H.
  destruct (h_optim_loop_safe g Hf _ _ _ _ _ _ _ _ _ _ _ _ _ _ _ H Hs Ho) as [Hv Ha].
  - intros b E. discriminate.
  - reflexivity.
  - split; [exact Ha|].
    destruct (hlast_inv _ _ _ _ Hv) as [(E1 & E2 & HF)|(y & gin & c & post & pre & E1 & E2 & HF)].
    + left. destruct x; [discriminate|]. auto.
    + right. destruct x as [a|]; [|discriminate]. cbn in E1. inversion E1; subst.
      exists a, gin, c, post, pre. auto.
Qed.

End Optim.

(** ** the discrete driver keeps a reference *)
Section OptimQ.
Context {Orc G : Type}.
Variable f : Orc -> addr -> G -> bool -> list V -> Orc * list V * res (C * addr * option G * bool).
Variable owns : Orc -> addr -> Prop.

(** As above, and an array handed out together with a value is neither the
    centre array nor written to by the oracle afterwards. *)
Definition well_behaved_q : Prop :=
  forall o a g rt h o' h' r, f o a g rt h = (o', h', r) -> (a < length h)%nat ->
    (length h <= length h')%nat /\
    (forall b, (b < length h)%nat -> ~ owns o b -> hget h' b = hget h b) /\
    (forall b, owns o' b -> owns o b \/ (length h <= b < length h')%nat) /\
    (forall c xq v alt, r = Ok (c, xq, Some v, alt) ->
       (xq < length h')%nat /\ xq <> a /\ ~ owns o' xq).

(** record the contents handed out *)
Definition hlogged_q (o : Orc * list (option (V * G))) (a : addr) (g : G) (rt : bool) (h : list V) :=
  let '(o1, h1, r) := f (fst o) a g rt h in
  ((o1, match r with
        | Ok (_, xq, Some v, _) => Some (hget h1 xq, v)
        | _ => None
        end :: snd o), h1, r).

Fixpoint hlast_q (l : list (option (V * G))) (g : G) : option V * G :=
  match l with
  | [] => (None, g)
  | Some (x, v) :: _ => (Some x, v)
  | None :: l' => hlast_q l' g
  end.

Lemma h_optim_q_loop_safe g0 (Hf : well_behaved_q) fuel :
  forall niter o l s h xb g rt o' l' s' h' x g' k,
  h_optim_q_loop dflt sp opt hlogged_q fuel niter (o, l) s h xb g rt
    = ((o', l'), s', h', Ok (x, g', k)) ->
  (snd s < length h)%nat ->
  (forall b, xb = Some b -> (b < length h)%nat /\ b <> snd s /\ ~ owns o b) ->
  (option_map (hget h) xb, g) = hlast_q l g0 ->
  (option_map (hget h') x, g') = hlast_q l' g0.
Proof.
  induction fuel; intros niter o l s h xb g rt o' l' s' h' x g' k H Hs Hb Hv;
    cbn [h_optim_q_loop] in H.
  - inversion H; subst. exact Hv.
  - unfold hlogged_q at 1 in H. cbn [fst snd] in H.
    destruct (f o (h_xc s) g rt h) as [[o1 h1] r] eqn:Ef. cbn [fst snd] in H.
    destruct (Hf _ _ _ _ _ _ _ _ Ef Hs) as (Hlen & Hfr & Hown & Hxq).
    destruct r as [[[[ct xq] g1] alt]|e]; [|discriminate].
    set (ent := match g1 with Some v => Some (hget h1 xq, v) | None => None end) in *.
    set (xb1 := match g1 with Some _ => Some xq | None => xb end).
    set (gg := match g1 with Some v => v | None => g end).
    replace (match g1 with Some g2 => (Some xq, g2) | None => (xb, g) end) with (xb1, gg) in H
      by (unfold xb1, gg; destruct g1; reflexivity).
    unfold h_update in H.
    destruct (sp_q sp ct (sp_set_xc sp (hget h1 (snd s)) (fst s))) as [s1 rs] eqn:Eq.
    set (h2 := hset h1 (snd s) (sp_xc sp s1)) in *.
    assert (Hl2 : length h2 = length h1) by (unfold h2, hset; apply upd_length).
    assert (Hb1 : forall b, xb1 = Some b -> (b < length h2)%nat /\ b <> snd s /\ ~ owns o1 b).
    { intros b Eb. rewrite Hl2. unfold xb1 in Eb. destruct g1 as [v|].
      - inversion Eb; subst. destruct (Hxq _ _ _ _ eq_refl) as (X1 & X2 & X3). auto.
      - destruct (Hb b Eb) as (X1 & X2 & X3). split; [lia|]. split; [exact X2|].
        intros Hc. destruct (Hown b Hc); [auto|lia]. }
    assert (Hv1 : (option_map (hget h2) xb1, gg) = hlast_q (ent :: l) g0).
    { unfold xb1, gg, ent. destruct g1 as [v|]; cbn [hlast_q option_map].
      - destruct (Hxq _ _ _ _ eq_refl) as (X1 & X2 & X3). unfold h2.
        rewrite hget_hset_other by (intros E; apply X2; symmetry; exact E). reflexivity.
      - rewrite <- Hv. f_equal. destruct xb as [b|]; [|reflexivity]. cbn. f_equal.
        destruct (Hb b eq_refl) as (X1 & X2 & X3). unfold h2.
        rewrite hget_hset_other by auto. apply Hfr; auto. }
    assert (Hs2 : (snd s < length h2)%nat) by lia.
    clearbody xb1 gg ent h2.
    assert (Hcont : forall rt',
      (if altb (h_tsq sp (s1, snd s)) (tolerance opt)
       then ((o1, ent :: l), (s1, snd s), h2, Ok (xb1, gg, niter))
       else h_optim_q_loop dflt sp opt hlogged_q fuel (niter + 1)%Z (o1, ent :: l) (s1, snd s) h2 xb1 gg rt')
      = (o', l', s', h', Ok (x, g', k)) -> (option_map (hget h') x, g') = hlast_q l' g0).
    { intros rt' Hrun. destruct (altb _ _).
      - inversion Hrun; subst. exact Hv1.
      - eapply IHfuel; [exact Hrun|exact Hs2|exact Hb1|exact Hv1]. }
    destruct rs as [st|e]; [|discriminate].
    destruct st; try (eapply Hcont; exact H).
    + inversion H; subst. exact Hv1.
    + destruct (negb alt); [inversion H; subst; exact Hv1|eapply Hcont; exact H].
Qed.

Theorem h_optim_q_safe o s h g o' l' s' h' x g' k :
  well_behaved_q -> (snd s < length h)%nat ->
  h_cutting_plane_optim_q dflt sp opt hlogged_q (o, []) s h g = ((o', l'), s', h', Ok (x, g', k)) ->
  (option_map (hget h') x, g') = hlast_q l' g.
Proof.
  intros Hf Hs H. eapply h_optim_q_loop_safe; [exact Hf|exact H|exact Hs| |reflexivity].
  intros b E. discriminate.
Qed.

End OptimQ.

(** ** the feasibility driver hands out the centre array itself *)
Section Feas.
Context {Orc : Type}.
Variable f : Orc -> addr -> list V -> Orc * list V * res (option C).

Theorem h_feas_alias o s h o' s' h' x k :
  h_cutting_plane_feas dflt sp opt f o s h = (o', s', h', Ok (Some x, k)) ->
  x = h_xc s' /\ h_xc s' = h_xc s.
Proof.
  unfold h_cutting_plane_feas. generalize 0%Z as niter. generalize (budget opt) as fuel.
  intros fuel. revert o s h.
  induction fuel; intros o s h niter H; cbn [h_feas_loop] in H; [discriminate|].
  destruct (f o (h_xc s) h) as [[o1 h1] r].
  destruct r as [[ct|]|e]; [|inversion H; subst; auto|discriminate].
  unfold h_update in H.
  destruct (sp_bias sp ct (sp_set_xc sp (hget h1 (snd s)) (fst s))) as [s1 rs].
  destruct rs as [st|e]; [|discriminate].
  destruct (h_stop sp opt st (s1, snd s)); [discriminate|].
  destruct (IHfuel _ _ _ _ H) as [E1 E2]. split; [exact E1|]. rewrite E2. reflexivity.
Qed.
End Feas.

End PHeap.
