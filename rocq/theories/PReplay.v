(** Proofs: the drivers query the successive centres; exceptions pass through. *)
From Coq Require Import List Arith ZArith Bool Lia.
From Verif Require Import Arith ModelCalc ModelCut SpecDrivers SpecReplay PDrivers PDrivers2.
Import ListNotations.

Section FeasR.
Context {A : Arith} {St V C Orc : Type}.
Variable f : Orc -> V -> Orc * res (option C).
Variable sp : space_ops A St V C.
Variable opt : options A.
Variable s0 : St.
Notation pt := (fun q : V * res (option C) => fst q).

Lemma feas_loop_replay fuel : forall niter o l s u o' l' s' u' r,
  s = replay sp s0 u -> in_step sp pt s0 l u ->
  feas_loop (logged_feas f) (logged_space sp) opt fuel niter (o, l) (s, u) = ((o', l'), (s', u'), r) ->
  run_in_step sp pt s0 s' l' u'.
Proof.
  induction fuel; intros niter o l s u o' l' s' u' r Es Hi H; cbn [feas_loop] in H.
  - inversion H; subst. split; [reflexivity|]. now left.
  - unfold logged_feas at 1 in H. cbn [fst snd logged_space sp_xc] in H.
    destruct (f o (sp_xc sp s)) as [o1 [[ct|]|x]]; cbn [fst snd] in H.
    + cbn [sp_bias logged_space] in H. unfold log_upd at 1 in H. cbn [fst snd] in H.
      destruct (sp_bias sp ct s) as [s1 rs] eqn:Eb.
      assert (E1 : s1 = replay sp s0 (mkEv OpBias ct rs (sp_tsq sp s1) :: u)).
      { cbn [replay ev_kind ev_cut method]. rewrite <- Es, Eb. reflexivity. }
      assert (Hi1 : in_step sp pt s0 ((sp_xc sp s, Ok (Some ct)) :: l) (mkEv OpBias ct rs (sp_tsq sp s1) :: u)).
      { cbn [in_step fst]. rewrite <- E1, <- Es. cbn [ev_res ev_tsq ev_kind ev_cut method]. rewrite Eb. auto. }
      destruct rs as [st|x].
      * destruct (stop_test _ _ _ _).
        -- inversion H; subst. split; [exact E1|]. left. exact Hi1.
        -- eapply IHfuel; [exact E1|exact Hi1|exact H].
      * inversion H; subst. split; [exact E1|]. left. exact Hi1.
    + inversion H; subst. split; [reflexivity|]. right. do 2 eexists. split; [reflexivity|]. split; [exact Hi|reflexivity].
    + inversion H; subst. split; [reflexivity|]. right. do 2 eexists. split; [reflexivity|]. split; [exact Hi|reflexivity].
Qed.
End FeasR.

Lemma feas_replay {A : Arith} {St V C Orc : Type} (f : Orc -> V -> Orc * res (option C))
    (sp : space_ops A St V C) (opt : options A) o s o' s' r :
  cutting_plane_feas f sp opt o s = (o', s', r) ->
  exists l u, cutting_plane_feas (logged_feas f) (logged_space sp) opt (o, []) (s, []) = ((o', l), (s', u), r) /\
  run_in_step sp fst s s' l u.
Proof.
  intros H. destruct (feas_run_spec _ _ _ _ _ _ _ _ H) as (l & u & Hl & _). exists l, u. split; [exact Hl|].
  unfold cutting_plane_feas in Hl. eapply feas_loop_replay; [| |exact Hl]; [reflexivity|exact I].
Qed.

Lemma feas_raises {A : Arith} {St V C Orc : Type} (f : Orc -> V -> Orc * res (option C))
    (sp : space_ops A St V C) (opt : options A) o s o' s' e :
  cutting_plane_feas f sp opt o s = (o', s', Err e) ->
  exists l u, cutting_plane_feas (logged_feas f) (logged_space sp) opt (o, []) (s, []) = ((o', l), (s', u), Err e) /\
  ((exists y l1, l = (y, Err e) :: l1 /\ Forall2 feas_match l1 u /\ Forall (went_on (tolerance opt)) u) \/
   (exists ev u1, u = ev :: u1 /\ ev_res ev = Err e /\ Forall2 feas_match l u /\ Forall (went_on (tolerance opt)) u1)).
Proof.
  intros H. destruct (feas_run_spec _ _ _ _ _ _ _ _ H) as (l & u & Hl & _ & Hp). exists l, u. split; [exact Hl|exact Hp].
Qed.

Section OptimR.
Context {A : Arith} {St V C Orc G : Type}.
Variable f : Orc -> V -> G -> Orc * res (C * option G).
Variable sp : space_ops A St V C.
Variable opt : options A.
Variable s0 : St.
Notation pt := (fun q : V * G * res (C * option G) => fst (fst q)).

Lemma optim_loop_replay fuel : forall niter o l s u xb g o' l' s' u' r,
  s = replay sp s0 u -> in_step sp pt s0 l u ->
  optim_loop (logged_optim f) (logged_space sp) opt fuel niter (o, l) (s, u) xb g = ((o', l'), (s', u'), r) ->
  run_in_step sp pt s0 s' l' u'.
Proof.
  induction fuel; intros niter o l s u xb g o' l' s' u' r Es Hi H; cbn [optim_loop] in H.
  - inversion H; subst. split; [reflexivity|]. now left.
  - unfold logged_optim at 1 in H. cbn [fst snd logged_space sp_xc] in H.
    destruct (f o (sp_xc sp s) g) as [o1 [[ct g1]|x]]; cbn [fst snd] in H.
    + set (k := match g1 with Some _ => OpCentral | None => OpBias end).
      assert (H' : exists xb1 g', (let '(s1, rs) := log_upd k (method sp k) (sp_tsq sp) ct (s, u) in
          match rs with
          | Err x => ((o1, (sp_xc sp s, g, Ok (ct, g1)) :: l), s1, Err x)
          | Ok st => if stop_test (logged_space sp) opt st s1
                     then ((o1, (sp_xc sp s, g, Ok (ct, g1)) :: l), s1, Ok (xb1, g', niter))
                     else optim_loop (logged_optim f) (logged_space sp) opt fuel (niter + 1)
                            (o1, (sp_xc sp s, g, Ok (ct, g1)) :: l) s1 xb1 g' end) = ((o', l'), (s', u'), r)).
      { destruct g1 as [v|]; do 2 eexists; exact H. }
      clear H. destruct H' as (xb1 & g' & H). unfold log_upd at 1 in H. cbn [fst snd] in H.
      destruct (method sp k ct s) as [s1 rs] eqn:Eb.
      assert (E1 : s1 = replay sp s0 (mkEv k ct rs (sp_tsq sp s1) :: u)).
      { cbn [replay ev_kind ev_cut]. rewrite <- Es, Eb. reflexivity. }
      assert (Hi1 : in_step sp pt s0 ((sp_xc sp s, g, Ok (ct, g1)) :: l) (mkEv k ct rs (sp_tsq sp s1) :: u)).
      { cbn [in_step fst]. rewrite <- E1, <- Es. cbn [ev_res ev_tsq ev_kind ev_cut]. rewrite Eb. auto. }
      destruct rs as [st|x].
      * destruct (stop_test _ _ _ _).
        -- inversion H; subst. split; [exact E1|]. left. exact Hi1.
        -- eapply IHfuel; [exact E1|exact Hi1|exact H].
      * inversion H; subst. split; [exact E1|]. left. exact Hi1.
    + inversion H; subst. split; [reflexivity|]. right. do 2 eexists. split; [reflexivity|]. split; [exact Hi|reflexivity].
Qed.
End OptimR.

Lemma optim_replay {A : Arith} {St V C Orc G : Type} (f : Orc -> V -> G -> Orc * res (C * option G))
    (sp : space_ops A St V C) (opt : options A) o s g o' s' r :
  cutting_plane_optim f sp opt o s g = (o', s', r) ->
  exists l u, cutting_plane_optim (logged_optim f) (logged_space sp) opt (o, []) (s, []) g = ((o', l), (s', u), r) /\
  run_in_step sp (fun q => fst (fst q)) s s' l u.
Proof.
  intros H. destruct (optim_run_spec _ _ _ _ _ _ _ _ _ H) as (l & u & Hl & _). exists l, u. split; [exact Hl|].
  unfold cutting_plane_optim in Hl. eapply optim_loop_replay; [| |exact Hl]; [reflexivity|exact I].
Qed.

Lemma optim_raises {A : Arith} {St V C Orc G : Type} (f : Orc -> V -> G -> Orc * res (C * option G))
    (sp : space_ops A St V C) (opt : options A) o s g o' s' e :
  cutting_plane_optim f sp opt o s g = (o', s', Err e) ->
  exists l u, cutting_plane_optim (logged_optim f) (logged_space sp) opt (o, []) (s, []) g = ((o', l), (s', u), Err e) /\
  ((exists y gy l1, l = (y, gy, Err e) :: l1 /\ Forall2 optim_match l1 u /\ Forall (went_on (tolerance opt)) u) \/
   (exists ev u1, u = ev :: u1 /\ ev_res ev = Err e /\ Forall2 optim_match l u /\ Forall (went_on (tolerance opt)) u1)).
Proof.
  intros H. destruct (optim_run_spec _ _ _ _ _ _ _ _ _ H) as (l & u & Hl & _ & _ & Hp). exists l, u. split; [exact Hl|exact Hp].
Qed.

Section OptimQR.
Context {A : Arith} {St V C Orc G : Type}.
Variable f : Orc -> V -> G -> bool -> Orc * res (C * V * option G * bool).
Variable sp : space_ops A St V C.
Variable opt : options A.
Variable s0 : St.
Notation pt := (fun q : V * G * bool * res (C * V * option G * bool) => fst (fst (fst q))).

Lemma optim_q_loop_replay fuel : forall niter o l s u xb g rt o' l' s' u' r,
  s = replay sp s0 u -> in_step sp pt s0 l u ->
  optim_q_loop (logged_q f) (logged_space sp) opt fuel niter (o, l) (s, u) xb g rt = ((o', l'), (s', u'), r) ->
  run_in_step sp pt s0 s' l' u'.
Proof.
  induction fuel; intros niter o l s u xb g rt o' l' s' u' r Es Hi H; cbn [optim_q_loop] in H.
  - inversion H; subst. split; [reflexivity|]. now left.
  - unfold logged_q at 1 in H. cbn [fst snd logged_space sp_xc] in H.
    destruct (f o (sp_xc sp s) g rt) as [o1 [[[[ct xq] g1] alt]|x]]; cbn [fst snd] in H.
    + destruct (match g1 with Some v => (Some xq, v) | None => (xb, g) end) as [xb1 g'].
      cbn [sp_q logged_space] in H. unfold log_upd at 1 in H. cbn [fst snd] in H.
      destruct (sp_q sp ct s) as [s1 rs] eqn:Eb.
      assert (E1 : s1 = replay sp s0 (mkEv OpQ ct rs (sp_tsq sp s1) :: u)).
      { cbn [replay ev_kind ev_cut method]. rewrite <- Es, Eb. reflexivity. }
      assert (Hi1 : in_step sp pt s0 ((sp_xc sp s, g, rt, Ok (ct, xq, g1, alt)) :: l) (mkEv OpQ ct rs (sp_tsq sp s1) :: u)).
      { cbn [in_step fst]. rewrite <- E1, <- Es. cbn [ev_res ev_tsq ev_kind ev_cut method]. rewrite Eb. auto. }
      destruct rs as [[ | | | ]|x]; try (destruct (negb alt)); try (destruct (altb _ _));
        first [ inversion H; subst; split; [exact E1|]; left; exact Hi1 | eapply IHfuel; [exact E1|exact Hi1|exact H] ].
    + inversion H; subst. split; [reflexivity|]. right. do 2 eexists. split; [reflexivity|]. split; [exact Hi|reflexivity].
Qed.
End OptimQR.

Lemma optim_q_replay {A : Arith} {St V C Orc G : Type}
    (f : Orc -> V -> G -> bool -> Orc * res (C * V * option G * bool))
    (sp : space_ops A St V C) (opt : options A) o s g o' s' r :
  cutting_plane_optim_q f sp opt o s g = (o', s', r) ->
  exists l u, cutting_plane_optim_q (logged_q f) (logged_space sp) opt (o, []) (s, []) g = ((o', l), (s', u), r) /\
  run_in_step sp (fun q => fst (fst (fst q))) s s' l u.
Proof.
  intros H. destruct (optim_q_run_spec _ _ _ _ _ _ _ _ _ H) as (l & u & Hl & _). exists l, u. split; [exact Hl|].
  unfold cutting_plane_optim_q in Hl. eapply optim_q_loop_replay; [| |exact Hl]; [reflexivity|exact I].
Qed.

Lemma optim_q_raises {A : Arith} {St V C Orc G : Type}
    (f : Orc -> V -> G -> bool -> Orc * res (C * V * option G * bool))
    (sp : space_ops A St V C) (opt : options A) o s g o' s' e :
  cutting_plane_optim_q f sp opt o s g = (o', s', Err e) ->
  exists l u, cutting_plane_optim_q (logged_q f) (logged_space sp) opt (o, []) (s, []) g = ((o', l), (s', u), Err e) /\
  ((exists q lq, l = q :: lq /\ snd q = Err e /\ q_history (tolerance opt) g lq u /\
      q_retry q = retry_after lq u /\ q_gamma q = snd (last_value_q lq g)) \/
   (exists q ev alt lq le, l = q :: lq /\ u = ev :: le /\ q_history (tolerance opt) g lq le /\
      q_match q ev alt /\ q_retry q = retry_after lq le /\ q_gamma q = snd (last_value_q lq g) /\ ev_res ev = Err e)).
Proof.
  intros H. destruct (optim_q_run_spec _ _ _ _ _ _ _ _ _ H) as (l & u & Hl & Hp & _). exists l, u. split; [exact Hl|exact Hp].
Qed.

Lemma bsearch_raises {B N : Type} (f : B -> N -> B * res bool) (narrow : N -> N -> bool) (mid : N -> N -> N)
    (maxit : Z) o lower upper o' e :
  bsearch f narrow mid maxit o lower upper = (o', Err e) ->
  exists l, bsearch (logged_bs f) narrow mid maxit (o, []) lower upper = ((o', l), Err e) /\
    bs_queries_ok narrow mid l lower upper /\ exists y l', l = (y, Err e) :: l' /\ Forall answered l'.
Proof.
  intros H. destruct (bsearch_run_spec _ _ _ _ _ _ _ _ _ H) as (l & Hl & _ & Hq & Hp). exists l. split; [exact Hl|]. split; [exact Hq|exact Hp].
Qed.
