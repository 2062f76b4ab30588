(** The drivers never lose a point that satisfies every cut; generic part. *)
From Coq Require Import List Arith ZArith Bool Lia Reals.
From Verif Require Import Arith ModelCalc ModelCut SpecDrivers.
Import ListNotations.

Section Target.
Context {A : Arith} {St V C : Type}.
Variable sp : space_ops A St V C.
Variable opt : options A.
(** the state is sound and contains the target point *)
Variable good : St -> Prop.
(** the target satisfies the cut [c] given at centre [x] *)
Variable holds : op_kind -> C -> V -> Prop.
(** what an accepted update says about the target *)
Variable near : C -> V -> num A -> Prop.

Definition upd_of (k : op_kind) : C -> St -> St * res cut_status :=
  match k with OpBias => sp_bias sp | OpCentral => sp_central sp | OpQ => sp_q sp end.

(** whether an exception in an update leaves the state good *)
Variable safe : Prop.
Definition fine {T} (r : res T) : Prop := safe \/ exists v, r = Ok v.

Hypothesis step : forall k c s s1 r, good s -> holds k c (sp_xc sp s) -> upd_of k c s = (s1, r) ->
  (fine r -> good s1) /\ r <> Ok NoSoln /\ (r = Ok Success -> near c (sp_xc sp s) (sp_tsq sp s1)).

Definition no_nosoln (e : upd_event A C) : Prop := ev_res e <> Ok NoSoln.

Section F.
Context {Orc : Type}.
Variable f : Orc -> V -> Orc * res (option C).
Variable inv : Orc -> Prop.
Hypothesis valid : forall o x o' c, inv o -> f o x = (o', Ok (Some c)) -> inv o' /\ holds OpBias c x.

Lemma feas_target fuel : forall k o s l u o' s' l' u' r,
  feas_loop (logged_feas f) (logged_space sp) opt fuel k (o, l) (s, u) = ((o', l'), (s', u'), r) ->
  inv o -> good s -> Forall no_nosoln u ->
  Forall2 (fun q e => ev_res e = Ok Success -> near (ev_cut e) (fst q) (ev_tsq e)) l u ->
  (fine r -> good s') /\ Forall no_nosoln u' /\
  (forall m, r = Ok (None, m) -> Forall2 (fun q e => ev_res e = Ok Success -> near (ev_cut e) (fst q) (ev_tsq e)) l' u').
Proof.
  induction fuel as [|fuel IH]; intros k o s l u o' s' l' u' r H HI Hg Hn Hl.
  - injection H as <- <- <- <- <-. split; [intros _; exact Hg|]. split; [exact Hn|]. intros _ _; exact Hl.
  - cbn [feas_loop] in H. unfold logged_feas at 1 in H. cbn [fst snd] in H.
    change (sp_xc (logged_space sp) (s, u)) with (sp_xc sp s) in H.
    destruct (f o (sp_xc sp s)) as [o1 ra] eqn:Ef. destruct ra as [[c|]|x].
    + change (sp_bias (logged_space sp) c (s, u)) with (log_upd OpBias (sp_bias sp) (sp_tsq sp) c (s, u)) in H.
      unfold log_upd in H. cbn [fst snd] in H. destruct (sp_bias sp c s) as [s1 rs] eqn:Eu.
      destruct (valid _ _ _ _ HI Ef) as [HI1 Hh].
      destruct (step OpBias c s s1 rs Hg Hh Eu) as (G1 & G2 & G3).
      set (e := mkEv OpBias c rs (sp_tsq sp s1)) in *.
      assert (Hn' : Forall no_nosoln (e :: u)) by (constructor; assumption).
      assert (Hl' : Forall2 (fun q e => ev_res e = Ok Success -> near (ev_cut e) (fst q) (ev_tsq e))
                      ((sp_xc sp s, Ok (Some c)) :: l) (e :: u)) by (constructor; assumption).
      destruct rs as [st|x].
      * destruct (stop_test _ _ _ _).
        -- injection H as <- <- <- <- <-. split; [intros _; apply G1; right; eauto|]. split; [exact Hn'|]. intros _ _; exact Hl'.
        -- exact (IH _ _ _ _ _ _ _ _ _ _ H HI1 (G1 (or_intror (ex_intro _ st eq_refl))) Hn' Hl').
      * injection H as <- <- <- <- <-. split; [intros [Hs|[v Hv]]; [apply G1; left; exact Hs|discriminate]|]. split; [exact Hn'|]. intros _ _; exact Hl'.
    + injection H as <- <- <- <- <-. split; [intros _; exact Hg|]. split; [exact Hn|]. discriminate.
    + injection H as <- <- <- <- <-. split; [intros _; exact Hg|]. split; [exact Hn|]. discriminate.
Qed.
End F.

Section O.
Context {Orc G : Type}.
Variable f : Orc -> V -> G -> Orc * res (C * option G).
(** the target is better than gamma *)
Variable better : G -> Prop.
Variable inv : Orc -> G -> Prop.
Hypothesis keep : forall o x g o' c v, inv o g -> f o x g = (o', Ok (c, v)) ->
  inv o' (match v with Some g' => g' | None => g end).
Hypothesis valid_none : forall o x g o' c, inv o g -> f o x g = (o', Ok (c, None)) -> better g -> holds OpBias c x.
Hypothesis valid_some : forall o x g o' c g', inv o g -> f o x g = (o', Ok (c, Some g')) -> better g' ->
  better g /\ holds OpCentral c x.
Hypothesis mono : forall o x g o' c g', inv o g -> f o x g = (o', Ok (c, Some g')) -> better g' -> better g.

Definition qcentre (q : V * G * res (C * option G)) : V := fst (fst q).

(** the value only improves, so the target beats every gamma on the way *)
Lemma optim_back fuel : forall k o s l u xb g o' s' l' u' x g' m,
  optim_loop (logged_optim f) (logged_space sp) opt fuel k (o, l) (s, u) xb g
    = ((o', l'), (s', u'), Ok (x, g', m)) -> inv o g -> better g' -> better g.
Proof.
  induction fuel as [|fuel IH]; intros k o s l u xb g o' s' l' u' x g' m H HI Hb.
    - injection H as _ _ _ _ _ <- _. exact Hb.
    - cbn [optim_loop] in H. unfold logged_optim at 1 in H. cbn [fst snd] in H.
      change (sp_xc (logged_space sp) (s, u)) with (sp_xc sp s) in H.
      destruct (f o (sp_xc sp s) g) as [o1 ra] eqn:Ef. destruct ra as [[c [g1|]]|e].
      + change (sp_central (logged_space sp) c (s, u)) with (log_upd OpCentral (sp_central sp) (sp_tsq sp) c (s, u)) in H.
        unfold log_upd in H. cbn [fst snd] in H.
        destruct (sp_central sp c s) as [s1 [st|e]]; [|discriminate].
        destruct (stop_test _ _ _ _).
        * injection H as _ _ _ _ _ <- _. apply (mono _ _ _ _ _ _ HI Ef Hb).
        * apply IH in H; [|exact (keep _ _ _ _ _ _ HI Ef)|exact Hb]. apply (mono _ _ _ _ _ _ HI Ef H).
      + change (sp_bias (logged_space sp) c (s, u)) with (log_upd OpBias (sp_bias sp) (sp_tsq sp) c (s, u)) in H.
        unfold log_upd in H. cbn [fst snd] in H.
        destruct (sp_bias sp c s) as [s1 [st|e]]; [|discriminate].
        destruct (stop_test _ _ _ _).
        * injection H as _ _ _ _ _ <- _. exact Hb.
        * apply IH in H; [|exact (keep _ _ _ _ _ _ HI Ef)|exact Hb]. exact H.
      + discriminate.
Qed.

Lemma optim_target fuel : forall k o s l u xb g o' s' l' u' x g' m,
  optim_loop (logged_optim f) (logged_space sp) opt fuel k (o, l) (s, u) xb g
    = ((o', l'), (s', u'), Ok (x, g', m)) ->
  inv o g -> good s -> Forall no_nosoln u ->
  Forall2 (fun q e => ev_res e = Ok Success -> near (ev_cut e) (qcentre q) (ev_tsq e)) l u ->
  better g' ->
  better g /\ good s' /\ Forall no_nosoln u' /\
  Forall2 (fun q e => ev_res e = Ok Success -> near (ev_cut e) (qcentre q) (ev_tsq e)) l' u'.
Proof.
  pose proof optim_back as Hback.
  induction fuel as [|fuel IH]; intros k o s l u xb g o' s' l' u' x g' m H HI Hg Hn Hl Hb.
  - injection H as <- <- <- <- _ <- _. auto.
  - pose proof (Hback _ _ _ _ _ _ _ _ _ _ _ _ _ _ _ H HI Hb) as Hbg. split; [exact Hbg|].
    cbn [optim_loop] in H. unfold logged_optim at 1 in H. cbn [fst snd] in H.
    change (sp_xc (logged_space sp) (s, u)) with (sp_xc sp s) in H.
    destruct (f o (sp_xc sp s) g) as [o1 ra] eqn:Ef. destruct ra as [[c [g1|]]|e].
    + change (sp_central (logged_space sp) c (s, u)) with (log_upd OpCentral (sp_central sp) (sp_tsq sp) c (s, u)) in H.
      unfold log_upd in H. cbn [fst snd] in H.
      destruct (sp_central sp c s) as [s1 rs] eqn:Eu. destruct rs as [st|e]; [|discriminate].
      assert (Hb1 : better g1).
      { destruct (stop_test _ _ _ _).
        - injection H as _ _ _ _ _ <- _. exact Hb.
        - exact (Hback _ _ _ _ _ _ _ _ _ _ _ _ _ _ _ H (keep _ _ _ _ _ _ HI Ef) Hb). }
      destruct (step OpCentral c s s1 (Ok st) Hg (proj2 (valid_some _ _ _ _ _ _ HI Ef Hb1)) Eu) as (G1 & G2 & G3).
      specialize (G1 (or_intror (ex_intro _ st eq_refl))).
      destruct (stop_test _ _ _ _).
      * injection H as <- <- <- <- _ _ _. split; [exact G1|]. split; constructor; assumption.
      * eapply IH in H; [apply H|exact (keep _ _ _ _ _ _ HI Ef)|exact G1|constructor; assumption|constructor; assumption|exact Hb].
    + change (sp_bias (logged_space sp) c (s, u)) with (log_upd OpBias (sp_bias sp) (sp_tsq sp) c (s, u)) in H.
      unfold log_upd in H. cbn [fst snd] in H.
      destruct (sp_bias sp c s) as [s1 rs] eqn:Eu. destruct rs as [st|e]; [|discriminate].
      destruct (step OpBias c s s1 (Ok st) Hg (valid_none _ _ _ _ _ HI Ef Hbg) Eu) as (G1 & G2 & G3).
      specialize (G1 (or_intror (ex_intro _ st eq_refl))).
      destruct (stop_test _ _ _ _).
      * injection H as <- <- <- <- _ _ _. split; [exact G1|]. split; constructor; assumption.
      * eapply IH in H; [apply H|exact (keep _ _ _ _ _ _ HI Ef)|exact G1|constructor; assumption|constructor; assumption|exact Hb].
    + discriminate.
Qed.
End O.

Section Q.
Context {Orc G : Type}.
Variable f : Orc -> V -> G -> bool -> Orc * res (C * V * option G * bool).
Variable better : G -> Prop.
Variable inv : Orc -> G -> Prop.
Hypothesis keep : forall o x g b o' c y v m, inv o g -> f o x g b = (o', Ok (c, y, v, m)) ->
  inv o' (match v with Some g' => g' | None => g end).
Hypothesis valid_none : forall o x g b o' c y m, inv o g -> f o x g b = (o', Ok (c, y, None, m)) -> better g -> holds OpQ c x.
Hypothesis valid_some : forall o x g b o' c y g' m, inv o g -> f o x g b = (o', Ok (c, y, Some g', m)) -> better g' ->
  better g /\ holds OpQ c x.

Definition qqcentre (q : V * G * bool * res (C * V * option G * bool)) : V := fst (fst (fst q)).

Lemma optim_q_target fuel : forall k o s l u xb g b o' s' l' u' x g' m,
  optim_q_loop (logged_q f) (logged_space sp) opt fuel k (o, l) (s, u) xb g b
    = ((o', l'), (s', u'), Ok (x, g', m)) ->
  inv o g -> better g' ->
  better g /\
  (good s -> Forall no_nosoln u ->
   Forall2 (fun q e => ev_res e = Ok Success -> near (ev_cut e) (qqcentre q) (ev_tsq e)) l u ->
   good s' /\ Forall no_nosoln u' /\
   Forall2 (fun q e => ev_res e = Ok Success -> near (ev_cut e) (qqcentre q) (ev_tsq e)) l' u').
Proof.
  induction fuel as [|fuel IH]; intros k o s l u xb g b o' s' l' u' x g' m H HI Hb.
  - injection H as <- <- <- <- _ <- _. auto.
  - cbn [optim_q_loop] in H. unfold logged_q at 1 in H. cbn [fst snd] in H.
    change (sp_xc (logged_space sp) (s, u)) with (sp_xc sp s) in H.
    destruct (f o (sp_xc sp s) g b) as [o1 ra] eqn:Ef. destruct ra as [[[[c y] v] alt]|e]; [|discriminate].
    change (sp_q (logged_space sp) c (s, u)) with (log_upd OpQ (sp_q sp) (sp_tsq sp) c (s, u)) in H.
    unfold log_upd in H. cbn [fst snd] in H. destruct (sp_q sp c s) as [s1 rs] eqn:Eu.
    set (e := mkEv OpQ c rs (sp_tsq sp s1)) in *.
    set (qq := (sp_xc sp s, g, b, Ok (c, y, v, alt))) in *.
    set (P := fun (q : V * G * bool * res (C * V * option G * bool)) e => ev_res e = Ok Success -> near (ev_cut e) (qqcentre q) (ev_tsq e)) in *.
    (* whatever the outcome, the run ends with value g' from (xb1, g1) *)
    set (g1 := match v with Some w => w | None => g end).
    set (xb1 := match v with Some _ => Some y | None => xb end).
    assert (Hcase : (better g1) /\
      (good s1 -> Forall no_nosoln (e :: u) -> Forall2 P (qq :: l) (e :: u) ->
       good s' /\ Forall no_nosoln u' /\ Forall2 P l' u')).
    { assert (Hst : forall b1,
        (if altb (sp_tsq (logged_space sp) (s1, e :: u)) (tolerance opt)
         then ((o1, qq :: l), (s1, e :: u), Ok (xb1, g1, k))
         else optim_q_loop (logged_q f) (logged_space sp) opt fuel (k + 1)%Z (o1, qq :: l) (s1, e :: u) xb1 g1 b1)
        = ((o', l'), (s', u'), Ok (x, g', m)) ->
        better g1 /\
        (good s1 -> Forall no_nosoln (e :: u) -> Forall2 P (qq :: l) (e :: u) ->
         good s' /\ Forall no_nosoln u' /\ Forall2 P l' u')).
      { intros b1 E. destruct (altb _ _).
        - injection E as <- <- <- <- _ <- _. auto.
        - apply IH in E; [|exact (keep _ _ _ _ _ _ _ _ _ HI Ef)|exact Hb]. exact E. }
      assert (Hfin : ((o1, qq :: l), (s1, e :: u), Ok (xb1, g1, k)) = ((o', l'), (s', u'), Ok (x, g', m)) ->
        better g1 /\
        (good s1 -> Forall no_nosoln (e :: u) -> Forall2 P (qq :: l) (e :: u) ->
         good s' /\ Forall no_nosoln u' /\ Forall2 P l' u')).
      { intros E. injection E as <- <- <- <- _ <- _. auto. }
      destruct v as [w|]; (destruct rs as [[]|ex]; [| | | |discriminate]);
        (destruct alt; cbn [negb] in H) || idtac; first [exact (Hst _ H)|exact (Hfin H)]. }
    destruct Hcase as [Hb1 Hrest].
    assert (Hh : better g /\ holds OpQ c (sp_xc sp s)).
    { destruct v as [w|]; [apply (valid_some _ _ _ _ _ _ _ _ _ HI Ef Hb1)|].
      split; [exact Hb1|apply (valid_none _ _ _ _ _ _ _ _ HI Ef Hb1)]. }
    destruct Hh as [Hbg Hh]. split; [exact Hbg|]. intros Hg Hn Hl.
    destruct (step OpQ c s s1 rs Hg Hh Eu) as (G1 & G2 & G3).
    assert (Hrs : exists st, rs = Ok st).
    { destruct rs as [st|ex]; [exists st; reflexivity|]. destruct v as [w|]; discriminate. }
    apply Hrest; [apply G1; right; exact Hrs|constructor; assumption|constructor; assumption].
Qed.
End Q.

End Target.
