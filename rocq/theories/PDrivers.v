(** Proofs about the cutting-plane drivers. *)
From Coq Require Import List Arith ZArith Bool Lia.
From Verif Require Import Arith ModelCalc ModelCut SpecDrivers.
Import ListNotations.

Section Feas.
Context {A : Arith} {St V C Orc : Type}.
Variable f : Orc -> V -> Orc * res (option C).
Variable sp : space_ops A St V C.
Variable opt : options A.

Notation ev := (upd_event A C).

Definition feas_post (fuel : nat) (niter : Z) (dl : list (V * res (option C))) (du : list ev)
    (s' : St) (r : res (option V * Z)) : Prop :=
  (length dl <= fuel)%nat /\
  match r with
  | Ok (Some x, k) =>
      exists dl1, dl = (x, Ok None) :: dl1 /\ Forall2 feas_match dl1 du /\
        Forall (went_on (tolerance opt)) du /\ k = (niter + Z.of_nat (length dl1))%Z /\
        x = sp_xc sp s'
  | Ok (None, k) =>
      Forall2 feas_match dl du /\
      ((Forall (went_on (tolerance opt)) du /\ length du = fuel /\ k = max_iters opt) \/
       (exists e du1 st, du = e :: du1 /\ Forall (went_on (tolerance opt)) du1 /\
          ev_res e = Ok st /\ (st <> Success \/ altb (ev_tsq e) (tolerance opt) = true) /\
          k = (niter + Z.of_nat (length du1))%Z))
  | Err x =>
      (exists y dl1, dl = (y, Err x) :: dl1 /\ Forall2 feas_match dl1 du /\
          Forall (went_on (tolerance opt)) du) \/
      (exists e du1, du = e :: du1 /\ ev_res e = Err x /\ Forall2 feas_match dl du /\
          Forall (went_on (tolerance opt)) du1)
  end.

Lemma stop_test_false st s :
  stop_test sp opt st s = false -> st = Success /\ altb (sp_tsq sp s) (tolerance opt) = false.
Proof. unfold stop_test. destruct st; simpl; intros; auto; discriminate. Qed.

Lemma stop_test_true st s :
  stop_test sp opt st s = true -> st <> Success \/ altb (sp_tsq sp s) (tolerance opt) = true.
Proof. unfold stop_test. destruct st; simpl; intros; auto; left; discriminate. Qed.

Lemma feas_loop_spec fuel : forall niter o l s u o' l' s' u' r,
  feas_loop (logged_feas f) (logged_space sp) opt fuel niter (o, l) (s, u)
    = ((o', l'), (s', u'), r) ->
  exists dl du, l' = dl ++ l /\ u' = du ++ u /\ feas_post fuel niter dl du s' r.
Proof.
  induction fuel; intros niter o l s u o' l' s' u' r H; cbn [feas_loop] in H.
  - inversion H; subst. exists [], []. repeat split; simpl; auto.
  - unfold logged_feas at 1 in H. cbn [fst snd logged_space sp_xc] in H.
    destruct (f o (sp_xc sp s)) as [o1 r1] eqn:Ef. cbn [fst snd] in H.
    destruct r1 as [[ct|]|x].
    + cbn [sp_bias logged_space] in H. unfold log_upd at 1 in H. cbn [fst snd] in H.
      destruct (sp_bias sp ct s) as [s1 rs] eqn:Eb.
      destruct rs as [st|x].
      * destruct (stop_test (logged_space sp) opt st _) eqn:Est.
        -- inversion H; subst. apply stop_test_true in Est.
           exists [(sp_xc sp s, Ok (Some ct))], [mkEv OpBias ct (Ok st) (sp_tsq sp s')].
           repeat split; simpl; auto with arith; try lia.
           ++ constructor; [split; reflexivity|constructor].
           ++ right. exists (mkEv OpBias ct (Ok st) (sp_tsq sp s')), [], st.
              repeat split; auto. simpl. lia.
        -- assert (Hw : went_on (tolerance opt)
              (mkEv OpBias ct (Ok st) (sp_tsq sp s1))).
           { unfold stop_test in Est. cbn [sp_tsq logged_space fst] in Est.
             apply Bool.orb_false_elim in Est. destruct Est as [E1 E2].
             split; cbn; [destruct st; try discriminate; reflexivity|exact E2]. }
           apply IHfuel in H. destruct H as (dl & du & E1 & E2 & Hlen & Hp).
           exists (dl ++ [(sp_xc sp s, Ok (Some ct))]),
                  (du ++ [mkEv OpBias ct (Ok st) (sp_tsq sp s1)]).
           subst. rewrite <- !app_assoc. cbn [app].
           assert (Hm : feas_match (sp_xc sp s, Ok (Some ct))
                          (mkEv OpBias ct (Ok st) (sp_tsq sp s1)))
             by (split; reflexivity).
           split; [reflexivity|]. split; [reflexivity|]. split.
           { rewrite app_length. simpl. lia. }
           destruct r as [[[x|] k]|x].
           ++ destruct Hp as (dl1 & -> & HF & HG & Hk & Hx).
              exists (dl1 ++ [(sp_xc sp s, Ok (Some ct))]). repeat split; auto.
              ** apply Forall2_app; auto.
              ** apply Forall_app; auto.
              ** rewrite app_length. simpl. lia.
           ++ destruct Hp as (HF & [(HG & HL & Hk)|(e & du1 & st' & -> & HG & He & Hst & Hk)]).
              ** split; [apply Forall2_app; auto|]. left.
                 repeat split; auto; [apply Forall_app; auto|].
                 rewrite app_length. simpl. lia.
              ** split; [apply Forall2_app; auto|]. right.
                 exists e, (du1 ++ [mkEv OpBias ct (Ok st) (sp_tsq sp s1)]), st'.
                 repeat split; auto; [apply Forall_app; auto|].
                 rewrite app_length. simpl. lia.
           ++ destruct Hp as [(y & dl1 & -> & HF & HG)|(e & du1 & -> & He & HF & HG)].
              ** left. exists y, (dl1 ++ [(sp_xc sp s, Ok (Some ct))]).
                 repeat split; [apply Forall2_app; auto|apply Forall_app; auto].
              ** right. exists e, (du1 ++ [mkEv OpBias ct (Ok st) (sp_tsq sp s1)]).
                 repeat split; auto; [apply Forall2_app; auto|apply Forall_app; auto].
      * inversion H; subst.
        exists [(sp_xc sp s, Ok (Some ct))], [mkEv OpBias ct (Err x) (sp_tsq sp s')].
        repeat split; simpl; auto with arith; try lia.
        right. exists (mkEv OpBias ct (Err x) (sp_tsq sp s')), [].
        repeat split; auto. constructor; [split; reflexivity|constructor].
    + inversion H; subst.
      exists [(sp_xc sp s', Ok None)], []. repeat split; simpl; auto; try lia.
      exists []. repeat split; auto. simpl. lia.
    + inversion H; subst.
      exists [(sp_xc sp s', Err x)], []. repeat split; simpl; auto; try lia.
      left. exists (sp_xc sp s'), []. repeat split; auto.
Qed.

(** logging does not change the run *)
Lemma feas_loop_logged fuel : forall niter o l s u o' s' r,
  feas_loop f sp opt fuel niter o s = (o', s', r) ->
  exists l' u', feas_loop (logged_feas f) (logged_space sp) opt fuel niter (o, l) (s, u)
    = ((o', l'), (s', u'), r).
Proof.
  induction fuel; intros niter o l s u o' s' r H; cbn [feas_loop] in *.
  - inversion H; subst. eauto.
  - unfold logged_feas at 1. cbn [fst snd logged_space sp_xc].
    destruct (f o (sp_xc sp s)) as [o1 r1].
    destruct r1 as [[ct|]|x]; cbn [fst snd].
    + cbn [sp_bias logged_space]. unfold log_upd at 1. cbn [fst snd].
      destruct (sp_bias sp ct s) as [s1 rs].
      destruct rs as [st|x].
      * replace (stop_test (logged_space sp) opt st
                   (s1, mkEv OpBias ct (Ok st) (sp_tsq sp s1) :: u))
          with (stop_test sp opt st s1) by reflexivity.
        destruct (stop_test sp opt st s1); [inversion H; subst; eauto|].
        eapply IHfuel in H. destruct H as (l' & u' & H). eauto.
      * inversion H; subst; eauto.
    + inversion H; subst; eauto.
    + inversion H; subst; eauto.
Qed.

Theorem feas_run_spec o s o' s' r :
  cutting_plane_feas f sp opt o s = (o', s', r) ->
  exists l u,
    cutting_plane_feas (logged_feas f) (logged_space sp) opt (o, []) (s, []) = ((o', l), (s', u), r) /\
    feas_post (Z.to_nat (max_iters opt)) 0 l u s' r.
Proof.
  intros H. destruct (feas_loop_logged _ _ _ [] _ [] _ _ _ H) as (l & u & Hl).
  exists l, u. split; [exact Hl|].
  apply feas_loop_spec in Hl. destruct Hl as (dl & du & E1 & E2 & Hp).
  rewrite app_nil_r in E1, E2. subst. exact Hp.
Qed.

End Feas.

Section Optim.
Context {A : Arith} {St V C Orc G : Type}.
Variable f : Orc -> V -> G -> Orc * res (C * option G).
Variable sp : space_ops A St V C.
Variable opt : options A.

Notation ev := (upd_event A C).
Notation qry := (V * G * res (C * option G))%type.

Definition optim_post (fuel : nat) (niter : Z) (dl : list qry) (du : list ev)
    (xb : option V) (g : G) (r : res (option V * G * Z)) : Prop :=
  (length dl <= fuel)%nat /\ gammas_ok dl g /\
  match r with
  | Ok (x, g', k) =>
      (x, g') = last_value dl xb g /\ Forall2 optim_match dl du /\
      ((Forall (went_on (tolerance opt)) du /\ length du = fuel /\ k = max_iters opt) \/
       (exists e du1 st, du = e :: du1 /\ Forall (went_on (tolerance opt)) du1 /\
          ev_res e = Ok st /\ (st <> Success \/ altb (ev_tsq e) (tolerance opt) = true) /\
          k = (niter + Z.of_nat (length du1))%Z))
  | Err x =>
      (exists y gy dl1, dl = (y, gy, Err x) :: dl1 /\ Forall2 optim_match dl1 du /\
          Forall (went_on (tolerance opt)) du) \/
      (exists e du1, du = e :: du1 /\ ev_res e = Err x /\ Forall2 optim_match dl du /\
          Forall (went_on (tolerance opt)) du1)
  end.

Lemma last_value_app (dl : list qry) (q : qry) xb g :
  last_value (dl ++ [q]) xb g =
  match value_of q with
  | Some v => last_value dl (Some (fst (fst q))) v
  | None => last_value dl xb g
  end.
Proof.
  induction dl as [|a dl IH]; cbn [app last_value].
  - destruct (value_of q); reflexivity.
  - destruct (value_of a); [destruct (value_of q); reflexivity|]. exact IH.
Qed.

Lemma last_value_snd (dl : list qry) xb xb' g : snd (last_value dl xb g) = snd (last_value dl xb' g).
Proof. induction dl; cbn; auto. destruct (value_of a); auto. Qed.

Lemma gammas_ok_app (dl : list qry) (q : qry) g :
  snd (fst q) = g ->
  gammas_ok dl (match value_of q with Some v => v | None => g end) ->
  gammas_ok (dl ++ [q]) g.
Proof.
  intros Hq. induction dl as [|a dl IH]; cbn [app gammas_ok].
  - intros _. split; [exact Hq|exact I].
  - intros [H1 H2]. split; [|auto]. rewrite last_value_app, H1.
    destruct (value_of q); [apply last_value_snd|reflexivity].
Qed.

Lemma optim_loop_spec fuel : forall niter o l s u xb g o' l' s' u' r,
  optim_loop (logged_optim f) (logged_space sp) opt fuel niter (o, l) (s, u) xb g
    = ((o', l'), (s', u'), r) ->
  exists dl du, l' = dl ++ l /\ u' = du ++ u /\ optim_post fuel niter dl du xb g r.
Proof.
  induction fuel; intros niter o l s u xb g o' l' s' u' r H; cbn [optim_loop] in H.
  - inversion H; subst. exists [], []. repeat split; simpl; auto.
  - unfold logged_optim at 1 in H. cbn [fst snd logged_space sp_xc] in H.
    destruct (f o (sp_xc sp s) g) as [o1 r1] eqn:Ef. cbn [fst snd] in H.
    destruct r1 as [[ct g1]|x].
    2:{ inversion H; subst. exists [(sp_xc sp s', g, Err x)], [].
        repeat split; simpl; auto; try lia.
        left. exists (sp_xc sp s'), g, []. repeat split; auto. }
    set (xb1 := match g1 with Some _ => Some (sp_xc sp s) | None => xb end) in *.
    set (gg := match g1 with Some v => v | None => g end) in *.
    set (kd := match g1 with Some _ => OpCentral | None => OpBias end) in *.
    set (up := match g1 with Some _ => sp_central sp ct s | None => sp_bias sp ct s end).
    assert (H' : (let s1 := fst up in
            match snd up with
            | Err x => ((o1, (sp_xc sp s, g, Ok (ct, g1)) :: l),
                        (s1, mkEv kd ct (snd up) (sp_tsq sp s1) :: u), Err x)
            | Ok st =>
                if stop_test (logged_space sp) opt st (s1, mkEv kd ct (snd up) (sp_tsq sp s1) :: u)
                then ((o1, (sp_xc sp s, g, Ok (ct, g1)) :: l),
                      (s1, mkEv kd ct (snd up) (sp_tsq sp s1) :: u), Ok (xb1, gg, niter))
                else optim_loop (logged_optim f) (logged_space sp) opt fuel (niter + 1)%Z
                       (o1, (sp_xc sp s, g, Ok (ct, g1)) :: l)
                       (s1, mkEv kd ct (snd up) (sp_tsq sp s1) :: u) xb1 gg
            end) = ((o', l'), (s', u'), r)).
    { rewrite <- H. clear. unfold xb1, gg, kd, up.
      destruct g1; cbn [sp_central sp_bias logged_space]; unfold log_upd;
      cbn [fst snd]; [destruct (sp_central sp ct s) as [? [?|?]]|destruct (sp_bias sp ct s) as [? [?|?]]];
      reflexivity. }
    clear H. rename H' into H. cbv zeta in H.
    destruct up as [s1 rs]. cbn [fst snd] in H.
    set (q := (sp_xc sp s, g, Ok (ct, g1)) : qry) in *.
    assert (Hq : forall rs (t : num A), optim_match q ((mkEv kd ct rs t : ev))).
    { intros. unfold optim_match, q, kd. destruct g1; [left; eexists; split; reflexivity|right; split; reflexivity]. }
    assert (Hvq : value_of q = g1) by reflexivity.
    assert (Hgq : gammas_ok [q] g) by (cbn; auto).
    assert (Hlv1 : last_value [q] xb g = (xb1, gg)).
    { cbn [last_value]. rewrite Hvq. unfold xb1, gg. destruct g1; reflexivity. }
    assert (Hqg : snd (fst q) = g) by reflexivity.
    assert (Hlvapp : forall dl, last_value (dl ++ [q]) xb g = last_value dl xb1 gg).
    { intros dl. rewrite last_value_app, Hvq. unfold xb1, gg. destruct g1; reflexivity. }
    assert (Hgapp : forall dl, gammas_ok dl gg -> gammas_ok (dl ++ [q]) g).
    { intros dl Hd. apply gammas_ok_app; [reflexivity|]. rewrite Hvq. exact Hd. }
    clearbody q xb1 gg kd.
    destruct rs as [st|x].
    + destruct (stop_test (logged_space sp) opt st _) eqn:Est.
      * inversion H; subst. apply stop_test_true in Est.
        exists [q], [mkEv kd ct (Ok st) (sp_tsq sp s')].
        split; [reflexivity|]. split; [reflexivity|]. split; [simpl; lia|].
        split; [exact Hgq|]. cbn beta iota. split; [symmetry; exact Hlv1|].
        split; [constructor; auto|].
        right. exists (mkEv kd ct (Ok st) (sp_tsq sp s')), [], st.
        repeat split; auto. simpl. lia.
      * assert (Hw : went_on (tolerance opt) (mkEv kd ct (Ok st) (sp_tsq sp s1))).
        { unfold stop_test in Est. cbn [sp_tsq logged_space fst] in Est.
          apply Bool.orb_false_elim in Est. destruct Est as [E1 E2].
          split; cbn; [destruct st; try discriminate; reflexivity|exact E2]. }
        apply IHfuel in H. destruct H as (dl & du & E1 & E2 & Hlen & Hg & Hp).
        exists (dl ++ [q]), (du ++ [mkEv kd ct (Ok st) (sp_tsq sp s1)]).
        subst. rewrite <- !app_assoc. cbn [app].
        split; [reflexivity|]. split; [reflexivity|]. split.
        { rewrite app_length. simpl. lia. }
        split; [apply Hgapp, Hg|].
        destruct r as [[[x g'] k]|x].
        -- destruct Hp as (Hlv & HF & Hc). split.
           { rewrite Hlvapp. exact Hlv. }
           split; [apply Forall2_app; auto|].
           destruct Hc as [(HG & HL & Hk)|(e & du1 & st' & -> & HG & He & Hst & Hk)].
           ++ left. repeat split; auto; [apply Forall_app; auto|].
              rewrite app_length. simpl. lia.
           ++ right. exists e, (du1 ++ [mkEv kd ct (Ok st) (sp_tsq sp s1)]), st'.
              repeat split; auto; [apply Forall_app; auto|].
              rewrite app_length. simpl. lia.
        -- destruct Hp as [(y & gy & dl1 & -> & HF & HG)|(e & du1 & -> & He & HF & HG)].
           ++ left. exists y, gy, (dl1 ++ [q]).
              repeat split; [apply Forall2_app; auto|apply Forall_app; auto].
           ++ right. exists e, (du1 ++ [mkEv kd ct (Ok st) (sp_tsq sp s1)]).
              repeat split; auto; [apply Forall2_app; auto|apply Forall_app; auto].
    + inversion H; subst.
      exists [q], [mkEv kd ct (Err x) (sp_tsq sp s')].
      split; [reflexivity|]. split; [reflexivity|]. split; [simpl; lia|].
      split; [exact Hgq|]. right. exists (mkEv kd ct (Err x) (sp_tsq sp s')), [].
      repeat split; auto.
Qed.

Lemma optim_loop_logged fuel : forall niter o l s u xb g o' s' r,
  optim_loop f sp opt fuel niter o s xb g = (o', s', r) ->
  exists l' u', optim_loop (logged_optim f) (logged_space sp) opt fuel niter (o, l) (s, u) xb g
    = ((o', l'), (s', u'), r).
Proof.
  induction fuel; intros niter o l s u xb g o' s' r H; cbn [optim_loop] in *.
  - inversion H; subst. eauto.
  - unfold logged_optim at 1. cbn [fst snd logged_space sp_xc].
    destruct (f o (sp_xc sp s) g) as [o1 r1].
    destruct r1 as [[ct g1]|x]; cbn [fst snd]; [|inversion H; subst; eauto].
    destruct g1 as [v|]; cbn [sp_central sp_bias logged_space]; unfold log_upd; cbn [fst snd].
    + destruct (sp_central sp ct s) as [s1 rs].
      destruct rs as [st|x]; [|inversion H; subst; eauto].
      match goal with |- context [stop_test ?a ?b ?c ?d] =>
        replace (stop_test a b c d) with (stop_test sp opt st s1) by reflexivity end.
      destruct (stop_test sp opt st s1); [inversion H; subst; eauto|].
      eapply IHfuel in H. destruct H as (l' & u' & H). eauto.
    + destruct (sp_bias sp ct s) as [s1 rs].
      destruct rs as [st|x]; [|inversion H; subst; eauto].
      match goal with |- context [stop_test ?a ?b ?c ?d] =>
        replace (stop_test a b c d) with (stop_test sp opt st s1) by reflexivity end.
      destruct (stop_test sp opt st s1); [inversion H; subst; eauto|].
      eapply IHfuel in H. destruct H as (l' & u' & H). eauto.
Qed.

Theorem optim_run_spec o s g o' s' r :
  cutting_plane_optim f sp opt o s g = (o', s', r) ->
  exists l u,
    cutting_plane_optim (logged_optim f) (logged_space sp) opt (o, []) (s, []) g
      = ((o', l), (s', u), r) /\
    optim_post (Z.to_nat (max_iters opt)) 0 l u None g r.
Proof.
  intros H. destruct (optim_loop_logged _ _ _ [] _ [] _ _ _ _ _ H) as (l & u & Hl).
  exists l, u. split; [exact Hl|].
  apply optim_loop_spec in Hl. destruct Hl as (dl & du & E1 & E2 & Hp).
  rewrite app_nil_r in E1, E2. subst. exact Hp.
Qed.

(** explicit form of [last_value] *)
Lemma last_value_inv (l : list qry) g x g' :
  (x, g') = last_value l None g ->
  (x = None /\ g' = g /\ Forall (fun q => value_of q = None) l) \/
  (exists y gin c post pre,
     x = Some y /\ l = post ++ (y, gin, Ok (c, Some g')) :: pre /\
     Forall (fun q => value_of q = None) post).
Proof.
  induction l as [|[[y gin] a] l IH]; cbn [last_value]; intros H.
  - inversion H; subst. left. auto.
  - destruct (value_of (y, gin, a)) as [v|] eqn:E.
    + inversion H; subst. right. destruct a as [[c o]|e]; cbn in E; [|discriminate].
      subst o. exists y, gin, c, [], l. auto.
    + specialize (IH H). destruct IH as [(E1 & E2 & HF)|(y' & gin' & c & post & pre & E1 & E2 & HF)].
      * left. auto.
      * right. exists y', gin', c, ((y, gin, a) :: post), pre. subst. auto.
Qed.

(** the answers recorded in the log are answers the oracle gave *)
Definition answers_ok (l : list qry) : Prop :=
  Forall (fun q => exists o o', f o (fst (fst q)) (snd (fst q)) = (o', snd q)) l.

Lemma optim_loop_answers fuel : forall niter o l s u xb g o' l' s' u' r,
  optim_loop (logged_optim f) (logged_space sp) opt fuel niter (o, l) (s, u) xb g
    = ((o', l'), (s', u'), r) -> answers_ok l -> answers_ok l'.
Proof.
  induction fuel; intros niter o l s u xb g o' l' s' u' r H Hl; cbn [optim_loop] in H.
  - inversion H; subst. auto.
  - unfold logged_optim at 1 in H. cbn [fst snd] in H.
    destruct (f o (sp_xc (logged_space sp) (s, u)) g) as [o1 r1] eqn:Ef. cbn [fst snd] in H.
    assert (Hl1 : answers_ok ((sp_xc (logged_space sp) (s, u), g, r1) :: l)).
    { constructor; [cbn; eauto|exact Hl]. }
    destruct r1 as [[ct g1]|x]; [|inversion H; subst; auto].
    destruct g1 as [v|];
      [destruct (sp_central (logged_space sp) ct (s, u)) as [[s1 u1] rs]
      |destruct (sp_bias (logged_space sp) ct (s, u)) as [[s1 u1] rs]];
      (destruct rs as [st|x]; [|inversion H; subst; auto]);
      (destruct (stop_test _ _ _ _); [inversion H; subst; auto|]);
      eapply IHfuel; eauto.
Qed.

(** C04 *)
Theorem optim_best (better : G -> G -> Prop) :
  (forall g, better g g) -> (forall a b c, better a b -> better b c -> better a c) ->
  (forall o x g o' c v, f o x g = (o', Ok (c, Some v)) -> better v g) ->
  forall o s g o' s' x g' k,
  cutting_plane_optim f sp opt o s g = (o', s', Ok (x, g', k)) ->
  exists l u,
    cutting_plane_optim (logged_optim f) (logged_space sp) opt (o, []) (s, []) g
      = ((o', l), (s', u), Ok (x, g', k)) /\
    better g' g /\ (forall q v, In q l -> value_of q = Some v -> better g' v).
Proof.
  intros Hr Ht Hc o s g o' s' x g' k H.
  destruct (optim_run_spec _ _ _ _ _ _ H) as (l & u & Hl & _ & Hg & Hlv & _).
  exists l, u. split; [exact Hl|].
  assert (Ha : answers_ok l).
  { eapply optim_loop_answers; [exact Hl|constructor]. }
  assert (Main : forall l, answers_ok l -> gammas_ok l g ->
     better (snd (last_value l None g)) g /\
     forall q v, In q l -> value_of q = Some v -> better (snd (last_value l None g)) v).
  { clear - Hr Ht Hc. induction l as [|q l IH]; intros Ha Hg.
    - cbn. split; [apply Hr|intros q v []].
    - inversion Ha as [|? ? Ha1 Ha2]; subst. destruct Hg as [Hg1 Hg2].
      destruct (IH Ha2 Hg2) as [IH1 IH2]. cbn [last_value].
      destruct (value_of q) as [v|] eqn:Ev.
      + destruct q as [[y gin] a]. cbn [fst snd] in *.
        destruct Ha1 as (o1 & o2 & Hf). unfold value_of in Ev. cbn in Ev.
        destruct a as [[c w]|e]; [|discriminate]. subst w.
        assert (Hb : better v (snd (last_value l None g))).
        { rewrite <- Hg1. eapply Hc. exact Hf. }
        split; [eapply Ht; eauto|].
        intros q' v' [E|Hin] Hv'.
        * subst q'. unfold value_of in Hv'. cbn in Hv'. inversion Hv'; subst. apply Hr.
        * eapply Ht; [exact Hb|]. eapply IH2; eauto.
      + split; [exact IH1|]. intros q' v' [E|Hin] Hv'.
        * subst. congruence.
        * eapply IH2; eauto. }
  specialize (Main l Ha Hg). rewrite <- Hlv in Main. exact Main.
Qed.

End Optim.
