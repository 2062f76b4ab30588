(** The low-pass oracle with no sample in its stop band, in doubles. *)
From Coq Require Import List Arith ZArith Bool Lia PrimFloat.
From Verif Require Import Arith Vec Broadcast ModelCalc ModelEll ModelCut ModelSpaces ModelLowpass.
Import ListNotations.

Section Keep.
Context {A : Arith}.
Definition kept (o1 o : lowpass A) : Prop := lw_spectrum o1 = lw_spectrum o /\ lw_nwstop o1 = lw_nwstop o.
Definition kept_max (o1 o : lowpass A) : Prop := lw_fmax o1 = lw_fmax o /\ lw_kmax o1 = lw_kmax o.

Lemma pass_kept x (o o1 : lowpass A) r : pass_step x o = (o1, r) -> kept o1 o.
Proof.
  unfold pass_step. destruct (response_at _ _ _) as [[c v]|e]; [|intros [= <- _]; split; reflexivity].
  destruct (altb _ _); [intros [= <- _]; split; reflexivity|]. destruct (altb _ _); intros [= <- _]; split; reflexivity.
Qed.
Lemma trans_kept x (o o1 : lowpass A) r : trans_step x o = (o1, r) -> kept o1 o /\ kept_max o1 o.
Proof.
  unfold trans_step. destruct (response_at _ _ _) as [[c v]|e]; [|intros [= <- _]; split; split; reflexivity].
  destruct (altb _ _); intros [= <- _]; split; split; reflexivity.
Qed.
Lemma stop_kept x (o o1 : lowpass A) r : stop_step x o = (o1, r) -> kept o1 o.
Proof.
  unfold stop_step. cbv zeta. destruct (response_at _ _ _) as [[c v]|e]; [|intros [= <- _]; split; reflexivity].
  destruct (altb _ _); [intros [= <- _]; split; reflexivity|]. destruct (altb _ _); [intros [= <- _]; split; reflexivity|].
  destruct (exceeds _ _); intros [= <- _]; split; reflexivity.
Qed.
Lemma scan_keeps (P : lowpass A -> lowpass A -> Prop) body : (forall o, P o o) -> (forall a b c, P a b -> P b c -> P a c) ->
  (forall o o1 r, body o = (o1, r) -> P o1 o) -> forall fuel o o1 r, scan fuel body o = (o1, r) -> P o1 o.
Proof.
  intros Hr Ht Hb. induction fuel as [|f IH]; intros o o1 r; cbn [scan]; [intros [= <- _]; apply Hr|].
  destruct (body o) as [o2 r2] eqn:E. pose proof (Hb _ _ _ E) as H2.
  destruct r2 as [[c|]|e]; [intros [= <- _]; exact H2| |intros [= <- _]; exact H2].
  intros H. exact (Ht _ _ _ (IH _ _ _ H) H2).
Qed.
Lemma kept_refl (o : lowpass A) : kept o o. Proof. split; reflexivity. Qed.
Lemma kept_trans (a b c : lowpass A) : kept a b -> kept b c -> kept a c.
Proof. intros [] []. split; congruence. Qed.
Lemma both_refl (o : lowpass A) : kept o o /\ kept_max o o. Proof. split; split; reflexivity. Qed.
Lemma both_trans (a b c : lowpass A) : kept a b /\ kept_max a b -> kept b c /\ kept_max b c -> kept a c /\ kept_max a c.
Proof. intros [[][]] [[][]]. split; split; congruence. Qed.

Lemma first_kept x (o o1 : lowpass A) r : first_coef x o = (o1, r) -> o1 = o.
Proof. unfold first_coef. cbv zeta. destruct x; [intros [= <- _]; reflexivity|]. destruct (altb _ _); intros [= <- _]; reflexivity. Qed.

Lemma feas_kept x (o o1 : lowpass A) r : lowpass_assess_feas o x = (o1, r) -> kept o1 o.
Proof.
  unfold lowpass_assess_feas, andthen. cbv zeta.
  destruct (scan _ (pass_step x) o) as [a ra] eqn:Ea. pose proof (scan_keeps kept _ kept_refl kept_trans (pass_kept x) _ _ _ _ Ea) as Ka.
  destruct ra as [[c|]|e]; [intros [= <- _]; exact Ka| |intros [= <- _]; exact Ka].
  destruct (scan _ (stop_step x) _) as [b rb] eqn:Eb. pose proof (scan_keeps kept _ kept_refl kept_trans (stop_kept x) _ _ _ _ Eb) as Kb.
  assert (Kb' : kept b o) by (apply (kept_trans _ _ _ Kb), Ka).
  destruct rb as [[c|]|e]; [intros [= <- _]; exact Kb'| |intros [= <- _]; exact Kb'].
  destruct (scan _ (trans_step x) _) as [d rd] eqn:Ed. pose proof (scan_keeps _ _ both_refl both_trans (trans_kept x) _ _ _ _ Ed) as [Kd _].
  pose proof (kept_trans _ _ _ Kd Kb') as Kd'.
  destruct rd as [[c|]|e]; [intros [= <- _]; exact Kd'| |intros [= <- _]; exact Kd'].
  intros H. apply first_kept in H as ->. exact Kd'.
Qed.

Lemma feas_no_stop x (o o1 : lowpass A) : (Z.of_nat (length (lw_spectrum o)) <= lw_nwstop o)%Z ->
  lowpass_assess_feas o x = (o1, Ok None) -> kept o1 o /\ lw_fmax o1 = None /\ lw_kmax o1 = 0%Z.
Proof.
  intros Hm H. split; [exact (feas_kept _ _ _ _ H)|]. revert H.
  unfold lowpass_assess_feas, andthen. cbv zeta.
  destruct (scan _ (pass_step x) o) as [a ra] eqn:Ea. pose proof (scan_keeps kept _ kept_refl kept_trans (pass_kept x) _ _ _ _ Ea) as [Ka1 Ka2].
  destruct ra as [[c|]|e]; [discriminate| |discriminate].
  replace (Z.to_nat (Z.of_nat (length (lw_spectrum o)) - lw_nwstop a)) with 0%nat by (rewrite Ka2; lia).
  cbn [scan].
  destruct (scan _ (trans_step x) _) as [d rd] eqn:Ed. pose proof (scan_keeps _ _ both_refl both_trans (trans_kept x) _ _ _ _ Ed) as [_ [K1 K2]].
  destruct rd as [[c|]|e]; [discriminate| |discriminate].
  intros H. apply first_kept in H as ->. rewrite K1, K2. split; reflexivity.
Qed.
End Keep.

Lemma no_stop_value (o o' : lowpass FA) row rest x g : lw_spectrum o = row :: rest ->
  (Z.of_nat (length (lw_spectrum o)) <= lw_nwstop o)%Z ->
  lowpass_assess_feas (set_sp o g) x = (o', Ok None) ->
  lowpass_assess_optim o x g =
    (o', Ok ((row, CList [Some (PrimFloat.zero : num FA); Some (neg_infinity : num FA)]), Some (neg_infinity : num FA))).
Proof.
  intros Hs Hm E. destruct (feas_no_stop x (set_sp o g) o' Hm E) as ((K1 & K2) & F1 & F2).
  unfold lowpass_assess_optim. rewrite E, F1, F2, K1. change (lw_spectrum (set_sp o g)) with (lw_spectrum o). rewrite Hs.
  replace (row_at (row :: rest) 0) with (Ok row) by (unfold row_at; cbn [length nth]; rewrite Nat2Z.inj_succ;
    destruct (Z.leb_spec 0 0); [|lia]; destruct (Z.ltb_spec 0 (Z.succ (Z.of_nat (length rest)))); [reflexivity|lia]).
  reflexivity.
Qed.

Lemma no_stop_any (o o' : lowpass FA) x g c v : lw_spectrum o <> [] ->
  (Z.of_nat (length (lw_spectrum o)) <= lw_nwstop o)%Z ->
  lowpass_assess_optim o x g = (o', Ok (c, v)) ->
  kept o' o /\ (forall f, v = Some f -> f = neg_infinity /\ exists gr, c = (gr, CList [Some (PrimFloat.zero : num FA); Some (neg_infinity : num FA)])).
Proof.
  intros Hs Hm H. destruct (lw_spectrum o) as [|row rest] eqn:S; [congruence|].
  destruct (lowpass_assess_feas (set_sp o g) x) as [o1 r1] eqn:E.
  pose proof (feas_kept _ _ _ _ E) as K.
  destruct r1 as [[ct|]|e].
  - unfold lowpass_assess_optim in H. rewrite E in H. injection H as <- <- <-. split; [exact K|discriminate].
  - rewrite (no_stop_value o o1 row rest x g S ltac:(rewrite S; exact Hm) E) in H. injection H as <- <- <-.
    split; [exact K|]. intros f [= <-]. split; [reflexivity|]. exists row. reflexivity.
  - unfold lowpass_assess_optim in H. rewrite E in H. discriminate.
Qed.

Lemma ell_helper (k : strategy FA) ct (e e' : ell FA) r : ell_update_core k ct e = (e', r) -> helper e' = helper e.
Proof.
  unfold ell_update_core. destruct ct as [gr be]. destruct (forallb _ gr); [intros [= <- _]; reflexivity|].
  destruct (negb _); [intros [= <- _]; reflexivity|]. cbv zeta. destruct (aeqb _ _); [intros [= <- _]; reflexivity|].
  destruct (k _ _ _) as [[st [[[rh si] de]|]]|x]; [|intros [= <- _]; reflexivity|intros [= <- _]; reflexivity].
  destruct (isub _ _); [|intros [= <- _]; reflexivity]. destruct (no_defer_trick e); intros [= <- _]; reflexivity.
Qed.

Lemma central_ninf (gr : vec FA) (e e' : ell FA) st : use_parallel_cut (helper e) = true ->
  ell_update_central_cut (gr, CList [Some (PrimFloat.zero : num FA); Some (neg_infinity : num FA)]) e = (e', Ok st) ->
  is_success st = false /\ xc e' = xc e.
Proof.
  intros Hp. unfold ell_update_central_cut, ell_update_core. destruct (forallb _ gr); [discriminate|].
  destruct (negb _); [discriminate|]. cbv zeta. destruct (aeqb _ _); [intros [= <- <-]; split; reflexivity|].
  unfold calc_single_or_parallel_central_cut. rewrite Hp. cbn [length Nat.ltb Nat.leb negb orb].
  change (altb (neg_infinity : num FA) azero) with true. cbv iota.
  intros [= <- <-]. split; reflexivity.
Qed.

(** A run answers the first acceptable centre, with minus infinity. *)
Lemma no_stop_loop opt : forall fuel k (o : lowpass FA) (e : ell FA) g o' e' x g' m,
  lw_spectrum o <> [] -> (Z.of_nat (length (lw_spectrum o)) <= lw_nwstop o)%Z -> use_parallel_cut (helper e) = true ->
  optim_loop lowpass_assess_optim (ell_space FA) opt fuel k o e None g = (o', e', Ok (x, g', m)) ->
  match x with Some y => y = xc e' /\ g' = neg_infinity | None => g' = g end.
Proof.
  induction fuel as [|fuel IH]; intros k o e g o' e' x g' m Hs Hm Hp H; cbn [optim_loop] in H.
  { injection H as _ _ <- <- _. reflexivity. }
  destruct (lowpass_assess_optim o (sp_xc (ell_space FA) e) g) as [o1 [[c v]|er]] eqn:E; [|discriminate].
  destruct (no_stop_any _ _ _ _ _ _ Hs Hm E) as ((K1 & K2) & Hv).
  destruct v as [v|].
  - destruct (Hv v eq_refl) as (-> & gr & ->).
    destruct (sp_central (ell_space FA) _ e) as [s1 [st|er]] eqn:U; [|discriminate].
    destruct (central_ninf _ _ _ _ Hp U) as (Hst & Hx).
    unfold stop_test in H. rewrite Hst in H. cbn [negb orb] in H. injection H as _ <- <- <- _.
    split; [symmetry; exact Hx|reflexivity].
  - destruct (sp_bias (ell_space FA) c e) as [s1 [st|er]] eqn:U; [|discriminate].
    destruct (stop_test _ _ _ _).
    + injection H as _ _ <- <- _. reflexivity.
    + apply (IH _ _ _ _ _ _ _ _ _) in H; [exact H|rewrite K1; exact Hs|rewrite K1, K2; exact Hm|].
      rewrite (ell_helper _ _ _ _ _ U). exact Hp.
Qed.

Lemma no_stop_run opt (o : lowpass FA) (e : ell FA) g o' e' x g' m :
  lw_spectrum o <> [] -> (Z.of_nat (length (lw_spectrum o)) <= lw_nwstop o)%Z -> use_parallel_cut (helper e) = true ->
  cutting_plane_optim lowpass_assess_optim (ell_space FA) opt o e g = (o', e', Ok (x, g', m)) ->
  match x with Some y => y = xc e' /\ g' = neg_infinity | None => g' = g end.
Proof. apply no_stop_loop. Qed.

(** Two samples, both in the pass band. *)
Definition lp_nostop : lowpass FA :=
  mkLowpass (A:=FA) [[1; 2]; [1; -2]]%float 2 2 (1/2)%float 2%float 1%float 0 2 2 None 0.
Definition e_nostop : res (ell FA) := ell_init (A:=FA) (VScalar (A:=FA) 1%float) [1; 0]%float.

Definition run_nostop : res (bool * (res (option (vec FA) * num FA * Z))) :=
  let* e := e_nostop in
  Ok (use_parallel_cut (helper e),
      snd (cutting_plane_optim lowpass_assess_optim (ell_space FA) (mkOptions (A:=FA) 10 1%float) lp_nostop e (5 : num FA)%float)).

Lemma run_nostop_is : run_nostop = Ok (true, Ok (Some ([1; 0]%float : vec FA), neg_infinity : num FA, 0%Z)).
Proof. vm_cast_no_check (eq_refl (Ok (true, Ok (Some ([1; 0]%float : vec FA), neg_infinity : num FA, 0%Z)))). Qed.

Lemma no_stop_case : exists e o' e', e_nostop = Ok e /\ use_parallel_cut (helper e) = true /\
  cutting_plane_optim lowpass_assess_optim (ell_space FA) (mkOptions (A:=FA) 10 1%float) lp_nostop e (5 : num FA)%float =
    (o', e', Ok (Some [1; 0]%float, neg_infinity, 0%Z)).
Proof.
  pose proof run_nostop_is as H. unfold run_nostop in H. destruct e_nostop as [e|x]; [|discriminate H].
  cbn [bind] in H. injection H as H1 H2.
  destruct (cutting_plane_optim _ _ _ _ _ _) as [[o' e'] r] eqn:R.
  exists e, o', e'. split; [reflexivity|]. split; [exact H1|]. cbn [snd] in H2. etransitivity; [exact R|]. rewrite H2. reflexivity.
Qed.
