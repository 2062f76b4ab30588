(** Runs of the drivers on [Ell]. *)
From Coq Require Import Reals List Arith Lia Lra Psatz Bool ZArith.
From Verif Require Import Arith Vec ModelCalc ModelEll ModelCut ModelSpaces SpecDrivers Spec SpecCut SpecEll SpecSearch
  PSum PAlg PCalc PCalc2 PCalc3 PCalc5 PVec PGeo PEll PEll2 PTarget.
Import ListNotations.
Local Open Scope R_scope.

Lemma deep_bias n k p (beta : cutchoice RA) T : 0 <= T -> (k = OpBias -> deep k beta) -> bias_cond n k p beta T.
Proof.
  intros HT H -> b0 b1 E0 E1 Hle. destruct (H eq_refl) as [H'|(b & Hb & Hb0)]; [discriminate|].
  rewrite E0 in Hb. injection Hb as <-.
  assert (0 <= INR n * (b0 * b1)) by (apply Rmult_le_pos; [apply pos_INR|nra]). lra.
Qed.

Definition tholds (n : nat) (p : bool) (z : nat -> R) (k : op_kind) (ct : cut RA) (x : vec RA) : Prop :=
  (k = OpBias -> deep k (snd ct)) /\ cut_holds k p (snd ct) (cutval n (fv (fst ct)) (fv x) z).
Definition tnear (n : nat) (z : nat -> R) (ct : cut RA) (x : vec RA) (T : num RA) : Prop :=
  cutval n (fv (fst ct)) (fv x) z * cutval n (fv (fst ct)) (fv x) z <= T.

Section Runs.
Variables (n : nat) (p : bool) (opt : options RA).

Context {St : Type}.
Variable sp : space_ops RA St (vec RA) (cut RA).
Variable sound : St -> Prop.
Variable inside : St -> (nat -> R) -> Prop.
Definition sgood (z : nat -> R) (s : St) : Prop := sound s /\ inside s z.
Variable safe : Prop.
Hypothesis sstep : forall z k c s s1 r, sgood z s -> tholds n p z k c (sp_xc sp s) ->
  upd_of sp k c s = (s1, r) ->
  (fine safe r -> sgood z s1) /\ r <> Ok NoSoln /\ (r = Ok Success -> tnear n z c (sp_xc sp s) (sp_tsq sp s1)).

Lemma feas_kept {Orc} (f : Orc -> vec RA -> Orc * res (option (cut RA))) (S : (nat -> R) -> Prop) o (e : St) o' e' l u r :
  sound e -> feas_oracle n p S f o ->
  cutting_plane_feas (logged_feas f) (logged_space sp) opt (o, []) (e, []) = ((o', l), (e', u), r) ->
  forall z, S z -> inside e z ->
  (fine safe r -> inside e' z) /\ ~ said_nosoln u /\
  (forall m, r = Ok (None, m) -> Forall2 (fun q ev => confined n z (fst q) ev) l u).
Proof.
  intros He (inv & HI & Hf) Hrun z HS Hz.
  destruct (feas_target sp opt (sgood z) (tholds n p z) (tnear n z) safe (sstep z) f inv
    (fun o x o' c HI Hc => let H := Hf o x o' c HI Hc in conj (proj1 H) (conj (proj1 (proj2 H)) (proj2 (proj2 H) z HS)))
    (budget opt) 0%Z o e [] [] o' e' l u r Hrun HI (conj He Hz) (Forall_nil _) (Forall2_nil _)) as (G1 & G2 & G3).
  split; [intros Hr; apply G1, Hr|]. split.
  - intros (ev & Hin & Hev). exact (proj1 (Forall_forall _ _) G2 ev Hin Hev).
  - exact G3.
Qed.

Lemma optim_kept {Orc G} (f : Orc -> vec RA -> G -> Orc * res (cut RA * option G)) (S : G -> (nat -> R) -> Prop)
    o (e : St) g o' e' l u x g' k :
  sound e -> optim_oracle n p S f o g ->
  cutting_plane_optim (logged_optim f) (logged_space sp) opt (o, []) (e, []) g
    = ((o', l), (e', u), Ok (x, g', k)) ->
  forall z, S g' z -> S g z /\ (inside e z ->
  inside e' z /\ ~ said_nosoln u /\ Forall2 (fun q ev => confined n z (fst (fst q)) ev) l u).
Proof.
  intros He (inv & HI & Hf) Hrun z HS.
  assert (K : forall o x g o' c v, inv o g -> f o x g = (o', Ok (c, v)) -> inv o' (match v with Some g' => g' | None => g end)).
  { intros o0 x0 g0 o1 c v HI0 Hc. apply (Hf _ _ _ _ _ _ HI0 Hc). }
  assert (V0 : forall o x g o' c, inv o g -> f o x g = (o', Ok (c, None)) -> S g z -> tholds n p z OpBias c x).
  { intros o0 x0 g0 o1 c HI0 Hc Hg. destruct (Hf _ _ _ _ _ _ HI0 Hc) as [_ [H1 H2]]. split; [exact H1|apply H2, Hg]. }
  assert (V1 : forall o x g o' c g', inv o g -> f o x g = (o', Ok (c, Some g')) -> S g' z ->
     S g z /\ tholds n p z OpCentral c x).
  { intros o0 x0 g0 o1 c g1 HI0 Hc Hg. destruct (Hf _ _ _ _ _ _ HI0 Hc) as [_ [[H1 H2] H3]].
    split; [apply H3, Hg|]. split; [exact H1|apply H2, Hg]. }
  assert (Hb : S g z).
  { apply (optim_back sp opt f (fun g => S g z) inv K (fun o x g o' c g' H0 H1 H2 => proj1 (V1 o x g o' c g' H0 H1 H2))
      (budget opt) 0%Z o e [] [] None g o' e' l u x g' k Hrun HI HS). }
  split; [exact Hb|]. intros Hz.
  destruct (optim_target sp opt (sgood z) (tholds n p z) (tnear n z) safe (sstep z) f (fun g => S g z) inv K V0 V1
    (fun o x g o' c g' H0 H1 H2 => proj1 (V1 o x g o' c g' H0 H1 H2))
    (budget opt) 0%Z o e [] [] None g o' e' l u x g' k Hrun HI (conj He Hz) (Forall_nil _) (Forall2_nil _) HS)
    as (_ & (_ & G1) & G2 & G3).
  split; [exact G1|]. split.
  - intros (ev & Hin & Hev). exact (proj1 (Forall_forall _ _) G2 ev Hin Hev).
  - exact G3.
Qed.

Lemma optim_q_kept {Orc G} (f : Orc -> vec RA -> G -> bool -> Orc * res (cut RA * vec RA * option G * bool))
    (S : G -> (nat -> R) -> Prop) o (e : St) g o' e' l u x g' k :
  sound e -> optim_q_oracle n p S f o g ->
  cutting_plane_optim_q (logged_q f) (logged_space sp) opt (o, []) (e, []) g
    = ((o', l), (e', u), Ok (x, g', k)) ->
  forall z, S g' z -> S g z /\ (inside e z ->
  inside e' z /\ ~ said_nosoln u /\ Forall2 (fun q ev => confined n z (fst (fst (fst q))) ev) l u).
Proof.
  intros He (inv & HI & Hf) Hrun z HS.
  assert (K : forall o x g b o' c y v m, inv o g -> f o x g b = (o', Ok (c, y, v, m)) -> inv o' (match v with Some g' => g' | None => g end)).
  { intros o0 x0 g0 b0 o1 c y v m HI0 Hc. apply (Hf _ _ _ _ _ _ _ _ _ HI0 Hc). }
  assert (V0 : forall o x g b o' c y m, inv o g -> f o x g b = (o', Ok (c, y, None, m)) -> S g z -> tholds n p z OpQ c x).
  { intros o0 x0 g0 b0 o1 c y m HI0 Hc Hg. destruct (Hf _ _ _ _ _ _ _ _ _ HI0 Hc) as [_ [H1 H2]]. split; [exact H1|apply H2, Hg]. }
  assert (V1 : forall o x g b o' c y g' m, inv o g -> f o x g b = (o', Ok (c, y, Some g', m)) -> S g' z ->
     S g z /\ tholds n p z OpQ c x).
  { intros o0 x0 g0 b0 o1 c y g1 m HI0 Hc Hg. destruct (Hf _ _ _ _ _ _ _ _ _ HI0 Hc) as [_ [[H1 H2] H3]].
    split; [apply H3, Hg|]. split; [exact H1|apply H2, Hg]. }
  destruct (optim_q_target sp opt (sgood z) (tholds n p z) (tnear n z) safe (sstep z) f (fun g => S g z) inv K V0 V1
    (budget opt) 0%Z o e [] [] None g false o' e' l u x g' k Hrun HI HS) as (Hb & Hrest).
  split; [exact Hb|]. intros Hz. destruct (Hrest (conj He Hz) (Forall_nil _) (Forall2_nil _)) as ((_ & G1) & G2 & G3).
  split; [exact G1|]. split.
  - intros (ev & Hin & Hev). exact (proj1 (Forall_forall _ _) G2 ev Hin Hev).
  - exact G3.
Qed.

Lemma feas_infeasible {Orc} (f : Orc -> vec RA -> Orc * res (option (cut RA))) (S : (nat -> R) -> Prop) o (e : St) o' e' l u r :
  sound e -> feas_oracle n p S f o ->
  cutting_plane_feas (logged_feas f) (logged_space sp) opt (o, []) (e, []) = ((o', l), (e', u), r) ->
  said_nosoln u -> forall z, inside e z -> ~ S z.
Proof.
  intros He Hf Hrun Hno z Hz HS. destruct (feas_kept f S o e o' e' l u r He Hf Hrun z HS Hz) as (_ & H & _). auto.
Qed.

Lemma feas_small {Orc} (f : Orc -> vec RA -> Orc * res (option (cut RA))) (S : (nat -> R) -> Prop) o (e : St) o' e' l u m :
  sound e -> feas_oracle n p S f o ->
  cutting_plane_feas (logged_feas f) (logged_space sp) opt (o, []) (e, []) = ((o', l), (e', u), Ok (None, m)) ->
  stopped_small opt u ->
  forall z, S z -> inside e z -> exists x a l' ev u', l = (x, a) :: l' /\ u = ev :: u' /\
    cutval n (fv (fst (ev_cut ev))) (fv x) z * cutval n (fv (fst (ev_cut ev))) (fv x) z < tolerance opt.
Proof.
  intros He Hf Hrun (ev & u' & -> & Hok & Hlt) z HS Hz.
  destruct (feas_kept f S o e o' e' l (ev :: u') _ He Hf Hrun z HS Hz) as (_ & _ & H).
  specialize (H m eq_refl). inversion H as [|[x a] ? l' ? Hc Hr E1 E2]. subst.
  exists x, a, l', ev, u'. repeat split; auto. eapply Rle_lt_trans; [apply Hc, Hok|exact Hlt].
Qed.

Lemma optim_optimal {Orc G} (f : Orc -> vec RA -> G -> Orc * res (cut RA * option G)) (S : G -> (nat -> R) -> Prop)
    o (e : St) g o' e' l u x g' k :
  sound e -> optim_oracle n p S f o g ->
  cutting_plane_optim (logged_optim f) (logged_space sp) opt (o, []) (e, []) g
    = ((o', l), (e', u), Ok (x, g', k)) ->
  said_nosoln u -> forall z, inside e z -> ~ S g' z.
Proof.
  intros He Hf Hrun Hno z Hz HS. destruct (optim_kept f S o e g o' e' l u x g' k He Hf Hrun z HS) as [_ H].
  destruct (H Hz) as (_ & H' & _). auto.
Qed.

Lemma optim_q_optimal {Orc G} (f : Orc -> vec RA -> G -> bool -> Orc * res (cut RA * vec RA * option G * bool))
    (S : G -> (nat -> R) -> Prop) o (e : St) g o' e' l u x g' k :
  sound e -> optim_q_oracle n p S f o g ->
  cutting_plane_optim_q (logged_q f) (logged_space sp) opt (o, []) (e, []) g
    = ((o', l), (e', u), Ok (x, g', k)) ->
  said_nosoln u -> forall z, inside e z -> ~ S g' z.
Proof.
  intros He Hf Hrun Hno z Hz HS. destruct (optim_q_kept f S o e g o' e' l u x g' k He Hf Hrun z HS) as [_ H].
  destruct (H Hz) as (_ & H' & _). auto.
Qed.
End Runs.

Lemma ell_target n p z k (ct : cut RA) (e e1 : ell RA) r :
  sgood (psd_ell n p) (ell_in n) z e -> tholds n p z k ct (xc e) -> ell_update k ct e = (e1, r) ->
  sgood (psd_ell n p) (ell_in n) z e1 /\ r <> Ok NoSoln /\ (r = Ok Success -> tnear n z ct (xc e) (tsq e1)).
Proof.
  intros [He Hz] [Hd Hh] Hu.
  assert (Hk : 0 <= cut_tsq n e ct -> bias_cond n k p (snd ct) (cut_tsq n e ct)) by (intros; apply deep_bias; assumption).
  pose proof He as (HM & Hxc & Hc & Hsym & Hp).
  assert (HT : cutval n (fv (fst ct)) (fv (xc e)) z * cutval n (fv (fst ct)) (fv (xc e)) z <= cut_tsq n e ct).
  { apply cutval_sq_le; assumption. }
  assert (HT0 : 0 <= cut_tsq n e ct) by (eapply Rle_trans; [|exact HT]; apply Rle_0_sqr).
  split; [|split].
  - destruct (res_dec r) as [->|Hr].
    + exact (step_contain n p e k ct e1 z He Hu (Hk HT0) Hz Hh).
    + destruct (unchanged_psd n p k ct e e1 r He Hu Hr) as [H1 H2]. split; [exact H1|apply H2, Hz].
  - intros ->. exact (step_nosoln n p e k ct e1 He Hu z Hz Hh).
  - intros ->. destruct (update_inv n e ct k e1 Success HM Hxc Hu) as (Hg & Hnz & [(_ & E & _)|(Hw & [H|(_ & E & _)])]);
      [discriminate| |congruence].
    destruct H as (rr & s & d & _ & _ & ->). unfold tnear, wq. rewrite new_tsq. exact HT.
Qed.

Lemma upd_of_ell k : upd_of (ell_space RA) k = ell_update k.
Proof. destruct k; reflexivity. Qed.

Lemma space_step n p z k c (s s1 : ell RA) r : sgood (psd_ell n p) (ell_in n) z s -> tholds n p z k c (sp_xc (ell_space RA) s) ->
  upd_of (ell_space RA) k c s = (s1, r) ->
  (fine True r -> sgood (psd_ell n p) (ell_in n) z s1) /\ r <> Ok NoSoln /\
  (r = Ok Success -> tnear n z c (sp_xc (ell_space RA) s) (sp_tsq (ell_space RA) s1)).
Proof.
  rewrite upd_of_ell. intros H1 H2 H3. destruct (ell_target n p z k c s s1 r H1 H2 H3) as (G1 & G2 & G3). auto.
Qed.


Lemma ell_feas_kept n p opt (Orc : Type) (f : Orc -> vec RA -> Orc * res (option (cut RA))) (S : (nat -> R) -> Prop) o (e : ell RA) o' e' l u r :
  psd_ell n p e -> feas_oracle n p S f o ->
  cutting_plane_feas (logged_feas f) (logged_space (ell_space RA)) opt (o, []) (e, []) = ((o', l), (e', u), r) ->
  forall z, S z -> ell_in n e z ->
  ell_in n e' z /\ ~ said_nosoln u /\
  (forall m, r = Ok (None, m) -> Forall2 (fun q ev => confined n z (fst q) ev) l u).
Proof.
  intros He Hf Hrun z HS Hz.
  destruct (@feas_kept n p opt _ (ell_space RA) (psd_ell n p) (ell_in n) True (space_step n p) Orc f S o e o' e' l u r He Hf Hrun z HS Hz)
    as (H1 & H2 & H3). split; [apply H1; left; exact I|auto].
Qed.
Definition ell_feas_infeasible n p opt (Orc : Type) := @feas_infeasible n p opt _ (ell_space RA) (psd_ell n p) (ell_in n) True (space_step n p) Orc.
Definition ell_feas_small n p opt (Orc : Type) := @feas_small n p opt _ (ell_space RA) (psd_ell n p) (ell_in n) True (space_step n p) Orc.
Definition ell_optim_kept n p opt (Orc G : Type) := @optim_kept n p opt _ (ell_space RA) (psd_ell n p) (ell_in n) True (space_step n p) Orc G.
Definition ell_optim_optimal n p opt (Orc G : Type) := @optim_optimal n p opt _ (ell_space RA) (psd_ell n p) (ell_in n) True (space_step n p) Orc G.
Definition ell_optim_q_kept n p opt (Orc G : Type) := @optim_q_kept n p opt _ (ell_space RA) (psd_ell n p) (ell_in n) True (space_step n p) Orc G.
Definition ell_optim_q_optimal n p opt (Orc G : Type) := @optim_q_optimal n p opt _ (ell_space RA) (psd_ell n p) (ell_in n) True (space_step n p) Orc G.
