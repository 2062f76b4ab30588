(** [bsearch] over [BSearchAdaptor] over [Ell] or [EllStable]. *)
From Coq Require Import Reals List Arith Lia Lra Psatz Bool ZArith.
From Verif Require Import Arith Vec Broadcast PBroadcast ModelCalc ModelEll ModelStable ModelCut ModelSpaces
  SpecDrivers Spec SpecCut SpecEll SpecStable SpecSearch SpecConverge
  PSum PAlg PCalc PCalc2 PCalc3 PCalc5 PVec PGeo PEll PEll2 PEll3 PDrivers2 PStable PStable2 PStable5 PConv PConv2 PConv3.
Import ListNotations.
Local Open Scope R_scope.

Section Gen.
Context {St Orc : Type}.
Variables (n : nat) (sp : space_ops RA St (vec RA) (cut RA)) (opt : options RA).
Variables (f : Orc -> vec RA -> Orc * res (option (cut RA))) (update : R -> Orc -> Orc).
Variables (S T : R -> (nat -> R) -> Prop) (ok : ((nat -> R) -> Prop) -> cut RA -> vec RA -> Prop).
(** [W]: the states of a run; [P]: the states of the adaptor *)
Variables (W P : St -> Prop).
Hypothesis Wwf : forall s, W s -> vec_wf n (sp_xc sp s).
Hypothesis Wstep : forall ct s s' st, W s -> sp_bias sp ct s = (s', Ok st) -> W s'.
Hypothesis PW : forall s, P s -> W s.
Hypothesis Pset : forall s x g, P s -> vec_wf n x -> S g (fv x) -> P (sp_set_xc sp x s).
Hypothesis set_law : forall x s, sp_xc sp (sp_set_xc sp x s) = x.
Variables (inv : Orc -> Prop) (big : R -> Prop).
Hypothesis Hinv : forall o g, inv o -> exists inv' : Orc -> Prop, inv' (update g o) /\ (forall o, inv' o -> inv o) /\
  forall o x, inv' o -> vec_wf n x -> exists o' a, f o x = (o', Ok a) /\ inv' o' /\
  match a with None => S g (fv x) | Some ct => ok (T g) ct x end.
Hypothesis Hconv : forall s o g, P s -> big g ->
  (exists inv' : Orc -> Prop, inv' o /\ forall o x, inv' o -> vec_wf n x -> exists o' a, f o x = (o', Ok a) /\ inv' o' /\
   forall ct, a = Some ct -> ok (T g) ct x) ->
  exists o' s' x j, cutting_plane_feas f sp opt o s = (o', s', Ok (Some x, j)).

Lemma feas_keeps (inv' : Orc -> Prop) g :
  (forall o x, inv' o -> vec_wf n x -> exists o' a, f o x = (o', Ok a) /\ inv' o' /\
  match a with None => S g (fv x) | Some ct => ok (T g) ct x end) ->
  forall fuel i o s o' s' a k, inv' o -> W s -> feas_loop f sp opt fuel i o s = (o', s', Ok (a, k)) ->
  inv' o' /\ forall x, a = Some x -> vec_wf n x /\ S g (fv x).
Proof.
  intros Hf. induction fuel; intros i o s o' s' a k Ho Hs H; cbn [feas_loop] in H.
  - injection H as <- <- <- <-. split; [exact Ho|discriminate].
  - destruct (Hf o (sp_xc sp s) Ho (Wwf s Hs)) as (o1 & r & E & Ho1 & Hr). rewrite E in H. destruct r as [ct|].
    + destruct (sp_bias sp ct s) as [s1 [st|e]] eqn:Eb; [|discriminate]. destruct (stop_test sp opt st s1).
      * injection H as <- <- <- <-. split; [exact Ho1|discriminate].
      * eapply IHfuel; [exact Ho1|eapply Wstep; eassumption|exact H].
    + injection H as <- <- <- <-. split; [exact Ho1|]. intros x Ex. injection Ex as <-. split; [apply Wwf, Hs|exact Hr].
Qed.

Lemma assess_step o s g ad' b : inv o -> P s -> assess_bs f update sp opt (o, s) g = (ad', Ok b) ->
  inv (fst ad') /\ P (snd ad') /\ (b = true -> S g (fv (x_best sp ad'))) /\ (b = false -> ~ big g /\ x_best sp ad' = x_best sp (o, s)).
Proof.
  intros Ho Hs H. destruct (Hinv o g Ho) as (inv' & Hu & Hi & Hf). unfold assess_bs in H.
  destruct (cutting_plane_feas f sp opt (update g o) s) as [[o2 s2] rf] eqn:E. destruct rf as [[a k]|e]; [|discriminate].
  destruct (feas_keeps inv' g Hf _ _ _ _ _ _ _ _ Hu (PW s Hs) E) as (Ho2 & Ha). destruct a as [x|]; injection H as <- <-; cbn [fst snd].
  - destruct (Ha x eq_refl) as (Hx & HS). split; [apply Hi, Ho2|]. split; [eapply Pset; eassumption|]. split; [|discriminate].
    intros _. unfold x_best. cbn [snd]. rewrite set_law. exact HS.
  - split; [apply Hi, Ho2|]. split; [exact Hs|]. split; [discriminate|]. intros _. split; [|reflexivity]. intros B.
    destruct (Hconv s (update g o) g Hs B) as (o' & s' & x & j & E').
    + exists inv'. split; [exact Hu|]. intros o1 x1 H1 Hx1. destruct (Hf o1 x1 H1 Hx1) as (o' & a & E1 & H2 & H3). exists o', a. split; [exact E1|].
      split; [exact H2|]. intros ct ->. exact H3.
    + rewrite E in E'. discriminate.
Qed.

Variables (tol : R) (maxit : Z).

Lemma adaptor_witness : forall fuel i ad (lower upper : R) ad' (v : R) k,
  inv (fst ad) -> P (snd ad) ->
  bsearch_loop (assess_bs f update sp opt) (narrow_num (A := RA) tol) (mid_num (A := RA)) maxit fuel i ad lower upper = (ad', Ok (v, k)) ->
  (v = upper /\ x_best sp ad' = x_best sp ad) \/ S v (fv (x_best sp ad')).
Proof.
  induction fuel; intros i ad lower upper ad' v k Ho Hs H; cbn [bsearch_loop] in H.
  - injection H as <- <- <-. left. split; reflexivity.
  - destruct (narrow_num (A := RA) tol lower upper) eqn:En.
    { injection H as <- <- <-. left. split; reflexivity. }
    destruct ad as [o s]. destruct (assess_bs f update sp opt (o, s) (mid_num (A := RA) lower upper)) as [ad1 r] eqn:E.
    destruct r as [b|e]; [|discriminate]. destruct (assess_step o s _ ad1 b Ho Hs E) as (Ho1 & Hs1 & Ht & Hb).
    destruct b; destruct (IHfuel _ _ _ _ _ _ _ Ho1 Hs1 H) as [(A1 & A2)|A]; auto.
    + right. rewrite A2, A1. apply Ht. reflexivity.
    + left. split; [exact A1|]. rewrite A2. apply Hb. reflexivity.
Qed.

Variable g0 : R.
Hypothesis Hmono : forall g, g0 <= g -> big g.

Lemma adaptor_loop : forall fuel i ad (lower upper : R) ad' (v : R) k,
  inv (fst ad) -> P (snd ad) -> lower <= g0 -> (i + Z.of_nat fuel = maxit)%Z ->
  bsearch_loop (assess_bs f update sp opt) (narrow_num (A := RA) tol) (mid_num (A := RA)) maxit fuel i ad lower upper = (ad', Ok (v, k)) ->
  ((k < maxit)%Z -> v < g0 + 2 * tol) /\ (k = maxit -> v <= g0 + (upper - lower) / 2 ^ fuel).
Proof.
  induction fuel; intros i ad lower upper ad' v k Ho Hs Hl Hi H; cbn [bsearch_loop] in H.
  - injection H as <- <- <-. split; [lia|]. intros _. change (2 ^ 0) with 1. unfold Rdiv. rewrite Rinv_1. change (num RA) with R in *. lra.
  - destruct (narrow_num (A := RA) tol lower upper) eqn:En.
    { injection H as <- <- <-. apply narrowR_true in En. split; [intros _; lra|lia]. }
    destruct ad as [o s]. destruct (assess_bs f update sp opt (o, s) (mid_num (A := RA) lower upper)) as [ad1 r] eqn:E.
    destruct r as [b|e]; [|discriminate]. destruct (assess_step o s _ ad1 b Ho Hs E) as (Ho1 & Hs1 & _ & Hb). rewrite midR_eq in *.
    pose proof (pow2_pos fuel) as Hp. assert (Hi' : (i + 1 + Z.of_nat fuel = maxit)%Z) by lia. destruct b.
    + destruct (IHfuel _ _ _ _ _ _ _ Ho1 Hs1 Hl Hi' H) as (A1 & A2). split; [exact A1|]. intros Ek. specialize (A2 Ek).
      replace ((upper - lower) / 2 ^ Datatypes.S fuel) with ((lower + (upper - lower) / 2 - lower) / 2 ^ fuel); [exact A2|]. cbn [pow]. field. lra.
    + destruct (Hb eq_refl) as (Nb & _). assert (Hl' : lower + (upper - lower) / 2 <= g0).
      { apply Rnot_lt_le. intros C. apply Nb, Hmono. lra. }
      destruct (IHfuel _ _ _ _ _ _ _ Ho1 Hs1 Hl' Hi' H) as (A1 & A2). split; [exact A1|]. intros Ek. specialize (A2 Ek).
      replace ((upper - lower) / 2 ^ Datatypes.S fuel) with ((upper - (lower + (upper - lower) / 2)) / 2 ^ fuel); [exact A2|]. cbn [pow]. field. lra.
Qed.
End Gen.

(** the states of a run keep the lengths *)
Lemma ell_len n (ct : cut RA) (e e' : ell RA) st : vec_wf n (xc e) -> ell_update_bias_cut ct e = (e', Ok st) -> vec_wf n (xc e').
Proof.
  unfold vec_wf, ell_update_bias_cut, ell_update_core. intros Hx H. destruct ct as [g be].
  destruct (forallb _ g); [discriminate|]. destruct (negb _); [discriminate|]. destruct (aeqb _ _); [injection H as <- _; exact Hx|].
  destruct (calc_single_or_parallel _ _ _) as [[st1 [[[rho sig] de]|]]|x]; [|injection H as <- _; exact Hx|discriminate].
  match type of H with context [isub ?u ?v] => destruct (isub u v) as [x1|] eqn:El; [|discriminate]; apply isub_length in El end.
  destruct (no_defer_trick e); injection H as <- _; cbn [xc]; exact (eq_trans El Hx).
Qed.

Lemma fwd_len n (m : mat RA) (g : vec RA) : length (snd (fwd_subst n m g)) = length g.
Proof.
  unfold fwd_subst. generalize (seq 0 (n - 1)) as l. intros l. revert m g. induction l as [|j l IH]; intros m g; cbn [fold_left]; [reflexivity|].
  unfold fwd_outer at 2. generalize (seq (S j) (n - S j)) as l2. intros l2. revert m g. induction l2 as [|i l2 IH2]; intros m g; cbn [fold_left]; [apply IH|].
  unfold fwd_inner at 2. rewrite IH2. apply vset_len.
Qed.

Lemma stable_len n (ct : cut RA) (e e' : stable RA) st : s_ndim e = n /\ vec_wf n (s_xc e) -> (1 <= n)%nat -> stable_update_bias_cut ct e = (e', Ok st) ->
  s_ndim e' = n /\ vec_wf n (s_xc e').
Proof.
  unfold vec_wf, stable_update_bias_cut, stable_update_core. intros (Hn & Hx) H1 H. destruct ct as [g be].
  destruct (Nat.ltb (length g) (s_ndim e) || Nat.ltb (length (s_mq e)) (s_ndim e)); [discriminate|].
  destruct (fwd_subst (s_ndim e) (s_mq e) g) as [m1 w].
  destruct (calc_single_or_parallel _ _ _) as [[st1 [[[rho sig] de]|]]|x]; [|injection H as <- _; split; assumption|discriminate].
  destruct (ndiv rho _) as [ro|]; [|discriminate].
  destruct (Nat.eqb (length (s_xc e)) _) eqn:El; [|discriminate]. cbn [negb] in H. apply Nat.eqb_eq in El.
  assert (L : length (vsub (s_xc e) (vscale ro (bwd_subst (s_ndim e) m1 (diag_scale (s_ndim e) m1 w)))) = n).
  { unfold vsub. rewrite map2_length; [exact Hx|]. unfold vscale. rewrite map_length. exact El. }
  destruct (pdiv sig _) as [mu|]; [|discriminate]. destruct (aeqb mu azero); [injection H as <- _; split; assumption|].
  destruct (rank1_loop _ _ _ _ _ _) as [m2 [u|]]; [|discriminate]. destruct (s_no_defer_trick e); injection H as <- _; split; assumption.
Qed.

Lemma ell_recentre k p (x x' : vec RA) (e : ell RA) : ell_init (@VScalar RA k) x = Ok e -> length x' = length x ->
  exists e', ell_init (@VScalar RA k) x' = Ok e' /\ ell_set_xc (ell_set_parallel e p) x' = ell_set_parallel e' p.
Proof.
  intros E L. unfold ell_init in *. change (length (A := num RA) x') with (length x'). rewrite L. destruct (calc_init (length x)) as [h|]; [|discriminate].
  cbn [bind] in *. injection E as <-. eexists. split; reflexivity.
Qed.
Lemma stable_recentre k p (x x' : vec RA) (e : stable RA) : stable_init (@VScalar RA k) x = Ok e -> length x' = length x ->
  exists e', stable_init (@VScalar RA k) x' = Ok e' /\ stable_set_xc (stable_set_parallel e p) x' = stable_set_parallel e' p.
Proof.
  intros E L. unfold stable_init in *. change (length (A := num RA) x') with (length x'). rewrite L. destruct (calc_init (length x)) as [h|]; [|discriminate].
  cbn [bind] in *. injection E as <-. eexists. split; reflexivity.
Qed.

Definition ell_P n p k c r (e : ell RA) : Prop := exists x e1, ell_init (@VScalar RA k) x = Ok e1 /\ vec_wf n x /\
  e = ell_set_parallel e1 p /\ forall z, ball n c r z -> ball n (fv x) (sqrt k) z.
Definition stable_P n p k c r (e : stable RA) : Prop := exists x e1, stable_init (@VScalar RA k) x = Ok e1 /\ vec_wf n x /\
  e = stable_set_parallel e1 p /\ forall z, ball n c r z -> ball n (fv x) (sqrt k) z.

Lemma ell_P_wf n p k c r e : ell_P n p k c r e -> vec_wf n (xc e).
Proof. intros (x & e1 & E & Hx & -> & _). destruct (init_inv _ x e1 E) as (_ & _ & Exc & _). cbn [ell_set_parallel xc]. rewrite Exc. exact Hx. Qed.
Lemma stable_P_wf n p k c r e : stable_P n p k c r e -> s_ndim e = n /\ vec_wf n (s_xc e).
Proof.
  intros (x & e1 & E & Hx & -> & _). unfold stable_init in E. destruct (calc_init (length x)) as [h|]; [|discriminate]. cbn [bind] in E. injection E as <-.
  split; exact Hx.
Qed.

Section Inst.
Variables (n : nat) (p : bool) (k : R) (x0 : vec RA) (c : nat -> R) (r : R) (opt : options RA) (Orc : Type).
Variables (f : Orc -> vec RA -> Orc * res (option (cut RA))) (update : R -> Orc -> Orc) (S T : R -> (nat -> R) -> Prop).
Variables (ok : ((nat -> R) -> Prop) -> cut RA -> vec RA -> Prop) (o : Orc) (tol : R) (maxit : Z) (lower upper g0 : R).
Hypothesis Hx0 : vec_wf n x0.
Hypothesis Hk : 0 < k.
Hypothesis Hr : 0 < r.
Hypothesis Ho : para_oracle n S T ok f update o.
Hypothesis HT : forall g z, g0 <= g -> ball n c r z -> T g z.
Hypothesis H0 : forall z, ball n c r z -> ball n (fv x0) (sqrt k) z.
Hypothesis HS : forall g x z, S g x -> ball n c r z -> ball n x (sqrt k) z.
Hypothesis Hl : lower <= g0.
Hypothesis Hm : (0 <= maxit)%Z.

Lemma ell_adaptor_gen (e0 : ell RA) ad' v j : ell_init (@VScalar RA k) x0 = Ok e0 ->
  (forall x e g o, ell_init (@VScalar RA k) x = Ok e -> vec_wf n x -> (forall z, ball n c r z -> ball n (fv x) (sqrt k) z /\ T g z) ->
   (exists inv' : Orc -> Prop, inv' o /\ forall o x, inv' o -> vec_wf n x -> exists o' a, f o x = (o', Ok a) /\ inv' o' /\ forall ct, a = Some ct -> ok (T g) ct x) ->
   exists o' s' x' j, cutting_plane_feas f (ell_space RA) opt o (ell_set_parallel e p) = (o', s', Ok (Some x', j))) ->
  bsearch (assess_bs f update (ell_space RA) opt) (narrow_num (A := RA) tol) (mid_num (A := RA)) maxit (o, ell_set_parallel e0 p) lower upper = (ad', Ok (v, j)) ->
  (v = upper /\ x_best (ell_space RA) ad' = x0 \/ S v (fv (x_best (ell_space RA) ad'))) /\
  ((j < maxit)%Z -> v < g0 + 2 * tol) /\ (j = maxit -> v <= g0 + (upper - lower) / 2 ^ Z.to_nat maxit).
Proof.
  intros E Hc H. destruct Ho as (inv & Hi & Hf).
  assert (P0 : ell_P n p k c r (ell_set_parallel e0 p)) by (exists x0, e0; auto).
  assert (Pset : forall s x g, ell_P n p k c r s -> vec_wf n x -> S g (fv x) -> ell_P n p k c r (ell_set_xc s x)).
  { intros s x g (x1 & e1 & E1 & Hx1 & -> & _) Hx HSx. destruct (ell_recentre k p x1 x e1 E1) as (e' & E' & Eq); [rewrite Hx1; exact Hx|].
    exists x, e'. split; [exact E'|]. split; [exact Hx|]. split; [exact Eq|]. intros z. apply (HS g); exact HSx. }
  assert (Hconv : forall s o g, ell_P n p k c r s -> (forall z, ball n c r z -> T g z) ->
    (exists inv' : Orc -> Prop, inv' o /\ forall o x, inv' o -> vec_wf n x -> exists o' a, f o x = (o', Ok a) /\ inv' o' /\ forall ct, a = Some ct -> ok (T g) ct x) ->
    exists o' s' x j, cutting_plane_feas f (ell_space RA) opt o s = (o', s', Ok (Some x, j))).
  { intros s o1 g (x1 & e1 & E1 & Hx1 & -> & Hb) HB Hor. apply (Hc x1 e1 g o1 E1 Hx1); [|exact Hor]. intros z Hz. split; auto. }
  assert (Wstep : forall ct (s s' : ell RA) st, vec_wf n (xc s) -> sp_bias (ell_space RA) ct s = (s', Ok st) -> vec_wf n (xc s')).
  { intros ct s s' st. apply ell_len. }
  unfold bsearch in H. split.
  - pose proof (adaptor_witness n (ell_space RA) opt f update S T ok (fun s => vec_wf n (xc s)) (ell_P n p k c r) (fun s h => h) Wstep (ell_P_wf n p k c r) Pset (fun x s => eq_refl) inv (fun g => forall z, ball n c r z -> T g z) Hf Hconv tol maxit _ _ (o, ell_set_parallel e0 p) lower upper ad' v j Hi P0 H) as A.
    destruct A as [(A1 & A2)|A]; [left|right; exact A]. split; [exact A1|]. rewrite A2. unfold x_best. cbn [snd sp_xc ell_space ell_set_parallel xc]. apply (init_inv _ x0 e0 E).
  - refine (adaptor_loop n (ell_space RA) opt f update S T ok (fun s => vec_wf n (xc s)) (ell_P n p k c r) (fun s h => h) Wstep (ell_P_wf n p k c r) Pset (fun x s => eq_refl) inv (fun g => forall z, ball n c r z -> T g z) Hf Hconv tol maxit g0 _ _ 0%Z (o, ell_set_parallel e0 p) lower upper ad' v j Hi P0 Hl _ H).
    + intros g Hg z. apply HT, Hg.
    + rewrite Z2Nat.id by exact Hm. reflexivity.
Qed.

Lemma stable_adaptor_gen (e0 : stable RA) ad' v j : stable_init (@VScalar RA k) x0 = Ok e0 ->
  (forall x e g o, stable_init (@VScalar RA k) x = Ok e -> vec_wf n x -> (forall z, ball n c r z -> ball n (fv x) (sqrt k) z /\ T g z) ->
   (exists inv' : Orc -> Prop, inv' o /\ forall o x, inv' o -> vec_wf n x -> exists o' a, f o x = (o', Ok a) /\ inv' o' /\ forall ct, a = Some ct -> ok (T g) ct x) ->
   exists o' s' x' j, cutting_plane_feas f (stable_space RA) opt o (stable_set_parallel e p) = (o', s', Ok (Some x', j))) ->
  bsearch (assess_bs f update (stable_space RA) opt) (narrow_num (A := RA) tol) (mid_num (A := RA)) maxit (o, stable_set_parallel e0 p) lower upper = (ad', Ok (v, j)) ->
  (v = upper /\ x_best (stable_space RA) ad' = x0 \/ S v (fv (x_best (stable_space RA) ad'))) /\
  ((j < maxit)%Z -> v < g0 + 2 * tol) /\ (j = maxit -> v <= g0 + (upper - lower) / 2 ^ Z.to_nat maxit).
Proof.
  intros E Hc H. destruct Ho as (inv & Hi & Hf). destruct (init_both _ x0 e0 E) as (ee & Ee). assert (Hn : (1 <= n)%nat).
  { destruct (init_inv _ x0 ee Ee) as (Hn & _). unfold vec_wf in Hx0. rewrite <- Hx0. clear - Hn. change (num RA) with R in *. lia. }
  assert (P0 : stable_P n p k c r (stable_set_parallel e0 p)) by (exists x0, e0; auto).
  assert (Pset : forall s x g, stable_P n p k c r s -> vec_wf n x -> S g (fv x) -> stable_P n p k c r (stable_set_xc s x)).
  { intros s x g (x1 & e1 & E1 & Hx1 & -> & _) Hx HSx. destruct (stable_recentre k p x1 x e1 E1) as (e' & E' & Eq); [rewrite Hx1; exact Hx|].
    exists x, e'. split; [exact E'|]. split; [exact Hx|]. split; [exact Eq|]. intros z. apply (HS g); exact HSx. }
  assert (Hconv : forall s o g, stable_P n p k c r s -> (forall z, ball n c r z -> T g z) ->
    (exists inv' : Orc -> Prop, inv' o /\ forall o x, inv' o -> vec_wf n x -> exists o' a, f o x = (o', Ok a) /\ inv' o' /\ forall ct, a = Some ct -> ok (T g) ct x) ->
    exists o' s' x j, cutting_plane_feas f (stable_space RA) opt o s = (o', s', Ok (Some x, j))).
  { intros s o1 g (x1 & e1 & E1 & Hx1 & -> & Hb) HB Hor. apply (Hc x1 e1 g o1 E1 Hx1); [|exact Hor]. intros z Hz. split; auto. }
  assert (Wstep : forall ct (s s' : stable RA) st, s_ndim s = n /\ vec_wf n (s_xc s) -> sp_bias (stable_space RA) ct s = (s', Ok st) -> s_ndim s' = n /\ vec_wf n (s_xc s')).
  { intros ct s s' st Hw. apply stable_len; assumption. }
  unfold bsearch in H. split.
  - pose proof (adaptor_witness n (stable_space RA) opt f update S T ok (fun s => s_ndim s = n /\ vec_wf n (s_xc s)) (stable_P n p k c r) (fun s h => proj2 h) Wstep (stable_P_wf n p k c r) Pset (fun x s => eq_refl) inv (fun g => forall z, ball n c r z -> T g z) Hf Hconv tol maxit _ _ (o, stable_set_parallel e0 p) lower upper ad' v j Hi P0 H) as A.
    destruct A as [(A1 & A2)|A]; [left|right; exact A]. split; [exact A1|]. rewrite A2. unfold x_best. cbn [snd sp_xc stable_space stable_set_parallel s_xc].
    unfold stable_init in E. destruct (calc_init (length x0)) as [h|]; [|discriminate]. cbn [bind] in E. injection E as <-. reflexivity.
  - refine (adaptor_loop n (stable_space RA) opt f update S T ok (fun s => s_ndim s = n /\ vec_wf n (s_xc s)) (stable_P n p k c r) (fun s h => proj2 h) Wstep (stable_P_wf n p k c r) Pset (fun x s => eq_refl) inv (fun g => forall z, ball n c r z -> T g z) Hf Hconv tol maxit g0 _ _ 0%Z (o, stable_set_parallel e0 p) lower upper ad' v j Hi P0 Hl _ H).
    + intros g Hg z. apply HT, Hg.
    + rewrite Z2Nat.id by exact Hm. reflexivity.
Qed.
End Inst.

Lemma ell_adaptor n p k x0 (e0 : ell RA) c r gmin (opt : options RA) (Orc : Type) (f : Orc -> vec RA -> Orc * res (option (cut RA)))
    (update : R -> Orc -> Orc) (S T : R -> (nat -> R) -> Prop) (o : Orc) tol maxit lower upper g0 ad' v j :
  ell_init (@VScalar RA k) x0 = Ok e0 -> vec_wf n x0 -> 0 < k -> 0 < r -> 0 < gmin ->
  para_oracle n S T (fun U ct x => good_cut n p U gmin OpBias ct x) f update o ->
  (forall g z, g0 <= g -> ball n c r z -> T g z) ->
  (forall z, ball n c r z -> ball n (fv x0) (sqrt k) z) ->
  (forall g x z, S g x -> ball n c r z -> ball n x (sqrt k) z) ->
  tolerance opt <= r * r * (gmin * gmin) ->
  INR n * (INR n + 1) * ln (k / (r * r)) < IZR (max_iters opt) ->
  lower <= g0 -> (0 <= maxit)%Z ->
  bsearch (assess_bs f update (ell_space RA) opt) (narrow_num (A := RA) tol) (mid_num (A := RA)) maxit (o, ell_set_parallel e0 p) lower upper = (ad', Ok (v, j)) ->
  (v = upper /\ x_best (ell_space RA) ad' = x0 \/ S v (fv (x_best (ell_space RA) ad'))) /\
  ((j < maxit)%Z -> v < g0 + 2 * tol) /\ (j = maxit -> v <= g0 + (upper - lower) / 2 ^ Z.to_nat maxit).
Proof.
  intros E Hx Hk Hr Hg Ho HT H0 HS Ht HV Hl Hm.
  apply (ell_adaptor_gen n p k x0 c r opt Orc f update S T _ o tol maxit lower upper g0 Hx Ho HT H0 HS Hl Hm e0 ad' v j E).
  intros x e g o1 E1 Hx1 Hb Hf. destruct (ell_feas_ball n p k x e c r gmin opt Orc f (T g) o1 E1 Hx1 Hk Hr Hg Hb Hf Ht HV) as (o' & e' & x' & i & R & _). eauto.
Qed.

Lemma stable_adaptor n p k x0 (e0 : stable RA) c r gmin (opt : options RA) (Orc : Type) (f : Orc -> vec RA -> Orc * res (option (cut RA)))
    (update : R -> Orc -> Orc) (S T : R -> (nat -> R) -> Prop) (o : Orc) tol maxit lower upper g0 ad' v j :
  stable_init (@VScalar RA k) x0 = Ok e0 -> vec_wf n x0 -> 0 < k -> 0 < r -> 0 < gmin ->
  para_oracle n S T (fun U ct x => good_cut n p U gmin OpBias ct x) f update o ->
  (forall g z, g0 <= g -> ball n c r z -> T g z) ->
  (forall z, ball n c r z -> ball n (fv x0) (sqrt k) z) ->
  (forall g x z, S g x -> ball n c r z -> ball n x (sqrt k) z) ->
  tolerance opt <= r * r * (gmin * gmin) ->
  INR n * (INR n + 1) * ln (k / (r * r)) < IZR (max_iters opt) ->
  lower <= g0 -> (0 <= maxit)%Z ->
  bsearch (assess_bs f update (stable_space RA) opt) (narrow_num (A := RA) tol) (mid_num (A := RA)) maxit (o, stable_set_parallel e0 p) lower upper = (ad', Ok (v, j)) ->
  (v = upper /\ x_best (stable_space RA) ad' = x0 \/ S v (fv (x_best (stable_space RA) ad'))) /\
  ((j < maxit)%Z -> v < g0 + 2 * tol) /\ (j = maxit -> v <= g0 + (upper - lower) / 2 ^ Z.to_nat maxit).
Proof.
  intros E Hx Hk Hr Hg Ho HT H0 HS Ht HV Hl Hm.
  apply (stable_adaptor_gen n p k x0 c r opt Orc f update S T _ o tol maxit lower upper g0 Hx Ho HT H0 HS Hl Hm e0 ad' v j E).
  intros x e g o1 E1 Hx1 Hb Hf. destruct (stable_feas_ball n p k x e c r gmin opt Orc f (T g) o1 E1 Hx1 Hk Hr Hg Hb Hf Ht HV) as (o' & e' & x' & i & R & _). eauto.
Qed.

Lemma ell_adaptor_m n p k x0 (e0 : ell RA) c r eps (opt : options RA) (Orc : Type) (f : Orc -> vec RA -> Orc * res (option (cut RA)))
    (update : R -> Orc -> Orc) (S T : R -> (nat -> R) -> Prop) (o : Orc) tol maxit lower upper g0 ad' v j :
  ell_init (@VScalar RA k) x0 = Ok e0 -> vec_wf n x0 -> 0 < k -> 0 < r -> 0 < eps ->
  para_oracle n S T (fun U ct x => margin_cut n p U eps OpBias ct x) f update o ->
  (forall g z, g0 <= g -> ball n c r z -> T g z) ->
  (forall z, ball n c r z -> ball n (fv x0) (sqrt k) z) ->
  (forall g x z, S g x -> ball n c r z -> ball n x (sqrt k) z) ->
  tolerance opt <= eps * eps ->
  INR n * (INR n + 1) * ln (k / (r * r)) < IZR (max_iters opt) ->
  lower <= g0 -> (0 <= maxit)%Z ->
  bsearch (assess_bs f update (ell_space RA) opt) (narrow_num (A := RA) tol) (mid_num (A := RA)) maxit (o, ell_set_parallel e0 p) lower upper = (ad', Ok (v, j)) ->
  (v = upper /\ x_best (ell_space RA) ad' = x0 \/ S v (fv (x_best (ell_space RA) ad'))) /\
  ((j < maxit)%Z -> v < g0 + 2 * tol) /\ (j = maxit -> v <= g0 + (upper - lower) / 2 ^ Z.to_nat maxit).
Proof.
  intros E Hx Hk Hr Hg Ho HT H0 HS Ht HV Hl Hm.
  apply (ell_adaptor_gen n p k x0 c r opt Orc f update S T _ o tol maxit lower upper g0 Hx Ho HT H0 HS Hl Hm e0 ad' v j E).
  intros x e g o1 E1 Hx1 Hb Hf. destruct (ell_feas_ball_m n p k x e c r eps opt Orc f (T g) o1 E1 Hx1 Hk Hr Hg Hb Hf Ht HV) as (o' & e' & x' & i & R & _). eauto.
Qed.

Lemma stable_adaptor_m n p k x0 (e0 : stable RA) c r eps (opt : options RA) (Orc : Type) (f : Orc -> vec RA -> Orc * res (option (cut RA)))
    (update : R -> Orc -> Orc) (S T : R -> (nat -> R) -> Prop) (o : Orc) tol maxit lower upper g0 ad' v j :
  stable_init (@VScalar RA k) x0 = Ok e0 -> vec_wf n x0 -> 0 < k -> 0 < r -> 0 < eps ->
  para_oracle n S T (fun U ct x => margin_cut n p U eps OpBias ct x) f update o ->
  (forall g z, g0 <= g -> ball n c r z -> T g z) ->
  (forall z, ball n c r z -> ball n (fv x0) (sqrt k) z) ->
  (forall g x z, S g x -> ball n c r z -> ball n x (sqrt k) z) ->
  tolerance opt <= eps * eps ->
  INR n * (INR n + 1) * ln (k / (r * r)) < IZR (max_iters opt) ->
  lower <= g0 -> (0 <= maxit)%Z ->
  bsearch (assess_bs f update (stable_space RA) opt) (narrow_num (A := RA) tol) (mid_num (A := RA)) maxit (o, stable_set_parallel e0 p) lower upper = (ad', Ok (v, j)) ->
  (v = upper /\ x_best (stable_space RA) ad' = x0 \/ S v (fv (x_best (stable_space RA) ad'))) /\
  ((j < maxit)%Z -> v < g0 + 2 * tol) /\ (j = maxit -> v <= g0 + (upper - lower) / 2 ^ Z.to_nat maxit).
Proof.
  intros E Hx Hk Hr Hg Ho HT H0 HS Ht HV Hl Hm.
  apply (stable_adaptor_gen n p k x0 c r opt Orc f update S T _ o tol maxit lower upper g0 Hx Ho HT H0 HS Hl Hm e0 ad' v j E).
  intros x e g o1 E1 Hx1 Hb Hf. destruct (stable_feas_ball_m n p k x e c r eps opt Orc f (T g) o1 E1 Hx1 Hk Hr Hg Hb Hf Ht HV) as (o' & e' & x' & i & R & _). eauto.
Qed.
