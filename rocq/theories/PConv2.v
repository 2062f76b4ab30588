(** Convergence of the drivers. *)
From Coq Require Import Reals List Arith Lia Lra Psatz Bool ZArith.
From Verif Require Import Arith Vec ModelCalc ModelEll ModelStable ModelCut ModelSpaces SpecDrivers Spec SpecCut SpecEll SpecStable SpecSearch SpecConverge
  PSum PAlg PCalc PCalc2 PCalc3 PCalc5 PCalcEx PVec PGeo PEll PEll2 PEll3 PStable2 PStable4 PStable5 PTarget PSearch PSearchStable PConv.
Import ListNotations.
Local Open Scope R_scope.

Lemma good_cut_mono n p gmin (S S' : (nat -> R) -> Prop) k ct x : (forall z, S' z -> S z) -> good_cut n p S gmin k ct x -> good_cut n p S' gmin k ct x.
Proof. intros H (H1 & H2 & H3 & H4 & H5). split; [exact H1|]. split; [exact H2|]. split; [exact H3|]. split; [exact H4|]. intros z Hz. apply H5, H, Hz. Qed.
Lemma good_cut_deep n p gmin (S : (nat -> R) -> Prop) ct x : good_cut n p S gmin OpBias ct x -> deep OpBias (snd ct).
Proof. intros (_ & _ & _ & D & _). auto. Qed.
Lemma margin_cut_mono n p eps (S S' : (nat -> R) -> Prop) k ct x : (forall z, S' z -> S z) -> margin_cut n p S eps k ct x -> margin_cut n p S' eps k ct x.
Proof. intros H (H1 & H3 & (H4 & H5) & H6). split; [exact H1|]. split; [exact H3|]. split; [split; [exact H4|intros z Hz; apply H5, H, Hz]|]. intros z Hz. apply H6, H, Hz. Qed.
Lemma margin_cut_deep n p eps (S : (nat -> R) -> Prop) ct x : margin_cut n p S eps OpBias ct x -> deep OpBias (snd ct).
Proof. intros (_ & _ & (D & _) & _). auto. Qed.

Section Drivers.
Context {St : Type}.
Variables (n : nat) (p : bool) (sp : space_ops RA St (vec RA) (cut RA)) (opt : options RA).
Variables (S0 : (nat -> R) -> Prop) (low q tmin : R).
Variable GC : ((nat -> R) -> Prop) -> op_kind -> cut RA -> vec RA -> Prop.
Hypothesis GCmono : forall (S S' : (nat -> R) -> Prop) k ct x, (forall z, S' z -> S z) -> GC S k ct x -> GC S' k ct x.
Hypothesis GCdeep : forall S ct x, GC S OpBias ct x -> deep OpBias (snd ct).
Variable K : R -> St -> Prop.
Hypothesis Klow : forall V s, K V s -> low <= V.
Hypothesis Kxc : forall V s, K V s -> vec_wf n (sp_xc sp s).
Hypothesis Kstep : forall V s k ct, K V s -> deep k (snd ct) -> GC S0 k ct (sp_xc sp s) ->
  exists s1, upd_of sp k ct s = (s1, Ok Success) /\ K (V * q) s1 /\ tmin <= sp_tsq sp s1.
Hypothesis Htol : tolerance opt <= tmin.
Hypothesis Hq : 0 < q.

Lemma go_on st s1 : st = Success -> tmin <= sp_tsq sp s1 -> stop_test sp opt st s1 = false.
Proof.
  intros -> H. unfold stop_test. cbn [is_success negb orb]. change (altb (a:=RA) (sp_tsq sp s1) (tolerance opt)) with (Rltb (sp_tsq sp s1) (tolerance opt)).
  apply Rltb_false. change (num RA) with R in *. lra.
Qed.

Lemma conv_feas {Orc} (f : Orc -> vec RA -> Orc * res (option (cut RA))) (S : (nat -> R) -> Prop) (inv : Orc -> Prop) :
  (forall z, S0 z -> S z) ->
  (forall o x, inv o -> vec_wf n x -> exists o' a, f o x = (o', Ok a) /\ inv o' /\ forall ct, a = Some ct -> GC S OpBias ct x) ->
  forall fuel i o s V, inv o -> K V s -> V * q ^ fuel < low ->
  exists o' s' x j, feas_loop f sp opt fuel i o s = (o', s', Ok (Some x, (i + Z.of_nat j)%Z)) /\ vec_wf n x /\ (j < fuel)%nat /\ low <= V * q ^ j.
Proof.
  intros HS Hf. induction fuel as [|fuel IH]; intros i o s V Ho Hs HV.
  { pose proof (Klow V s Hs). cbn [pow] in HV. lra. }
  cbn [feas_loop]. destruct (Hf o (sp_xc sp s) Ho (Kxc V s Hs)) as (o1 & a & E & Ho1 & Hc). rewrite E. destruct a as [ct|].
  - specialize (Hc ct eq_refl). assert (D : deep OpBias (snd ct)) by (eapply GCdeep, Hc).
    destruct (Kstep V s OpBias ct Hs D (GCmono S S0 OpBias ct _ HS Hc)) as (s1 & U & K1 & T1). cbn [upd_of] in U. rewrite U.
    rewrite go_on by auto.
    destruct (IH (i + 1)%Z o1 s1 (V * q) Ho1 K1) as (o' & s' & x & j & R1 & R2 & R3 & R4). { cbn [pow] in HV. lra. }
    exists o', s', x, (Datatypes.S j). split; [rewrite R1; replace (i + Z.of_nat (Datatypes.S j))%Z with (i + 1 + Z.of_nat j)%Z by lia; reflexivity|]. split; [exact R2|]. split; [lia|]. cbn [pow]. lra.
  - exists o1, s, (sp_xc sp s), 0%nat. split; [replace (i + Z.of_nat 0)%Z with i by lia; reflexivity|]. split; [eapply Kxc, Hs|]. split; [lia|]. cbn [pow]. rewrite Rmult_1_r. eapply Klow, Hs.
Qed.

Section Opt.
Context {Orc G : Type}.
Variables (f : Orc -> vec RA -> G -> Orc * res (cut RA * option G)) (S : G -> (nat -> R) -> Prop) (inv : Orc -> G -> Prop).
Hypothesis Hf : forall o x g o' ct v, inv o g -> f o x g = (o', Ok (ct, v)) ->
  inv o' (match v with Some g' => g' | None => g end) /\
  match v with
  | None => vec_wf n x -> GC (S g) OpBias ct x
  | Some g' => (vec_wf n x -> GC (S g') OpCentral ct x) /\ (forall z, S g' z -> S g z)
  end.

Lemma optim_mono fuel : forall i o s x g o' s' x' g' k, inv o g ->
  optim_loop f sp opt fuel i o s x g = (o', s', Ok (x', g', k)) -> forall z, S g' z -> S g z.
Proof.
  induction fuel as [|fuel IH]; intros i o s x g o' s' x' g' k Ho E z Hz; cbn [optim_loop] in E.
  { injection E as _ _ _ <- _. exact Hz. }
  destruct (f o (sp_xc sp s) g) as [o1 [[ct v]|er]] eqn:Ef; [|discriminate].
  destruct (Hf _ _ _ _ _ _ Ho Ef) as (Ho1 & Hv). destruct v as [g1|].
  - destruct (sp_central sp ct s) as [s1 [st|er]]; [|discriminate]. apply (proj2 Hv). destruct (stop_test sp opt st s1).
    + injection E as _ _ _ <- _. exact Hz.
    + exact (IH _ _ _ _ _ _ _ _ _ _ Ho1 E z Hz).
  - destruct (sp_bias sp ct s) as [s1 [st|er]]; [|discriminate]. destruct (stop_test sp opt st s1).
    + injection E as _ _ _ <- _. exact Hz.
    + exact (IH _ _ _ _ _ _ _ _ _ _ Ho1 E z Hz).
Qed.

Lemma conv_optim fuel : forall i o s x g V o' s' x' g' k, inv o g -> K V s -> V * q ^ fuel < low ->
  optim_loop f sp opt fuel i o s x g = (o', s', Ok (x', g', k)) -> ~ (forall z, S0 z -> S g' z).
Proof.
  induction fuel as [|fuel IH]; intros i o s x g V o' s' x' g' k Ho Hs HV E HN.
  { pose proof (Klow V s Hs). cbn [pow] in HV. lra. }
  cbn [optim_loop] in E. destruct (f o (sp_xc sp s) g) as [o1 [[ct v]|er]] eqn:Ef; [|discriminate].
  destruct (Hf _ _ _ _ _ _ Ho Ef) as (Ho1 & Hv).
  assert (HV' : V * q * q ^ fuel < low) by (cbn [pow] in HV; lra).
  destruct v as [g1|].
  - assert (HS : forall z, S0 z -> S g1 z).
    { destruct (sp_central sp ct s) as [s1 [st|er]]; [|discriminate]. destruct (stop_test sp opt st s1).
      - injection E as _ _ _ -> _. exact HN.
      - intros z Hz. exact (optim_mono _ _ _ _ _ _ _ _ _ _ _ Ho1 E z (HN z Hz)). }
    destruct (Kstep V s OpCentral ct Hs (or_introl eq_refl) (GCmono _ _ _ _ _ HS (proj1 Hv (Kxc V s Hs)))) as (s1 & U & K1 & T1).
    cbn [upd_of] in U. rewrite U in E. rewrite go_on in E by auto. exact (IH _ _ _ _ _ _ _ _ _ _ _ Ho1 K1 HV' E HN).
  - assert (HS : forall z, S0 z -> S g z).
    { destruct (sp_bias sp ct s) as [s1 [st|er]]; [|discriminate]. destruct (stop_test sp opt st s1).
      - injection E as _ _ _ -> _. exact HN.
      - intros z Hz. exact (optim_mono _ _ _ _ _ _ _ _ _ _ _ Ho1 E z (HN z Hz)). }
    specialize (Hv (Kxc V s Hs)). assert (D : deep OpBias (snd ct)) by (eapply GCdeep, Hv).
    destruct (Kstep V s OpBias ct Hs D (GCmono _ _ _ _ _ HS Hv)) as (s1 & U & K1 & T1).
    cbn [upd_of] in U. rewrite U in E. rewrite go_on in E by auto. exact (IH _ _ _ _ _ _ _ _ _ _ _ Ho1 K1 HV' E HN).
Qed.
End Opt.
End Drivers.

(** ** The two spaces *)
Definition ell_K n p c r (V : R) (e : ell RA) : Prop := exists s, conv_inv n p c r e s V.
Definition stable_K n p c r (V : R) (s : stable RA) : Prop := exists e, conv_inv n p c r e s V.

Lemma ell_Kstep n p c r gmin V e k (ct : cut RA) : 0 < r -> 0 < gmin -> ell_K n p c r V e -> deep k (snd ct) ->
  good_cut n p (ball n c r) gmin k ct (sp_xc (ell_space RA) e) ->
  exists e1, upd_of (ell_space RA) k ct e = (e1, Ok Success) /\ ell_K n p c r (V * exp (- / (INR n + 1))) e1 /\ r * r * (gmin * gmin) <= sp_tsq (ell_space RA) e1.
Proof.
  intros Hr Hg (s & H) Hd Hc. destruct (conv_step n p c r gmin e s V k ct Hr Hg H Hd Hc) as (e1 & s1 & U & _ & I & T & _).
  exists e1. split; [rewrite upd_of_ell; exact U|]. split; [exists s1; exact I|exact T].
Qed.
Lemma stable_Kstep n p c r gmin V s k (ct : cut RA) : 0 < r -> 0 < gmin -> stable_K n p c r V s -> deep k (snd ct) ->
  good_cut n p (ball n c r) gmin k ct (sp_xc (stable_space RA) s) ->
  exists s1, upd_of (stable_space RA) k ct s = (s1, Ok Success) /\ stable_K n p c r (V * exp (- / (INR n + 1))) s1 /\ r * r * (gmin * gmin) <= sp_tsq (stable_space RA) s1.
Proof.
  intros Hr Hg (e & H) Hd Hc. change (sp_xc (stable_space RA) s) with (s_xc s) in Hc. pose proof H as (_ & _ & (Ex & _) & _). rewrite <- Ex in Hc.
  destruct (conv_step n p c r gmin e s V k ct Hr Hg H Hd Hc) as (e1 & s1 & _ & U & I & T & Et).
  exists s1. split; [rewrite upd_of_stable; exact U|]. split; [exists e1; exact I|]. change (r * r * (gmin * gmin) <= s_tsq s1). rewrite <- Et. exact T.
Qed.

Lemma ell_Kstep_m n p c r eps V e k (ct : cut RA) : 0 < r -> 0 < eps -> ell_K n p c r V e -> deep k (snd ct) ->
  margin_cut n p (ball n c r) eps k ct (sp_xc (ell_space RA) e) ->
  exists e1, upd_of (ell_space RA) k ct e = (e1, Ok Success) /\ ell_K n p c r (V * exp (- / (INR n + 1))) e1 /\ eps * eps <= sp_tsq (ell_space RA) e1.
Proof.
  intros Hr Hg (s & H) Hd Hc. destruct (conv_step_margin n p c r eps e s V k ct Hr Hg H Hd Hc) as (e1 & s1 & U & _ & I & T & _).
  exists e1. split; [rewrite upd_of_ell; exact U|]. split; [exists s1; exact I|exact T].
Qed.
Lemma stable_Kstep_m n p c r eps V s k (ct : cut RA) : 0 < r -> 0 < eps -> stable_K n p c r V s -> deep k (snd ct) ->
  margin_cut n p (ball n c r) eps k ct (sp_xc (stable_space RA) s) ->
  exists s1, upd_of (stable_space RA) k ct s = (s1, Ok Success) /\ stable_K n p c r (V * exp (- / (INR n + 1))) s1 /\ eps * eps <= sp_tsq (stable_space RA) s1.
Proof.
  intros Hr Hg (e & H) Hd Hc. change (sp_xc (stable_space RA) s) with (s_xc s) in Hc. pose proof H as (_ & _ & (Ex & _) & _). rewrite <- Ex in Hc.
  destruct (conv_step_margin n p c r eps e s V k ct Hr Hg H Hd Hc) as (e1 & s1 & _ & U & I & T & Et).
  exists s1. split; [rewrite upd_of_stable; exact U|]. split; [exists e1; exact I|]. change (eps * eps <= s_tsq s1). rewrite <- Et. exact T.
Qed.

(** ** From the constructor *)
Lemma agree_set_parallel n e s p : agree n e s -> agree n (ell_set_parallel e p) (stable_set_parallel s p).
Proof. intros (H1 & H2 & H3 & H4 & H5). repeat split; try assumption. cbn. rewrite H4. reflexivity. Qed.

Lemma init_conv n v x0 (e0 : ell RA) p c r : ell_init v x0 = Ok e0 -> vec_wf n x0 -> val_pos n v ->
  (forall z, ball n c r z -> ell_in n e0 z) ->
  exists s0, stable_init v x0 = Ok s0 /\ conv_inv n p c r (ell_set_parallel e0 p) (stable_set_parallel s0 p) (vol0 n v).
Proof.
  intros E Hx Hv Hb. destruct (init_agree n v x0 e0 E Hx Hv) as (s0 & Es & Hok & Ha & F1 & F2). exists s0. split; [exact Es|].
  pose proof (init_pd n v x0 e0 E Hx Hv) as Hpd.
  split; [eapply set_parallel_pd; exact Hpd|]. split; [eapply stable_set_parallel_ok; exact Hok|].
  split; [apply agree_set_parallel, Ha|]. split; [exact F2|]. split; [exact F1|]. split; [exact Hb|].
  right. unfold pot. change (s_kappa (stable_set_parallel s0 p)) with (s_kappa s0). change (s_mq (stable_set_parallel s0 p)) with (s_mq s0).
  destruct (init_inv v x0 e0 E) as (Hn & _ & _ & _ & _ & _ & Hk).
  destruct (init_entries v x0 e0 E) as [_ Hent].
  { destruct v; [exact I|]. unfold vec_wf in Hx. exact (eq_trans (proj1 Hv) (eq_sym Hx)). }
  unfold vec_wf in Hx. subst n.
  assert (Em : s_mq s0 = mq e0 /\ s_kappa s0 = kappa e0).
  { unfold ell_init in E. unfold stable_init in Es. destruct (calc_init (length x0)) as [ch|]; [|discriminate]. cbn [bind] in E, Es.
    destruct v; injection E as <-; injection Es as <-; split; reflexivity. }
  destruct Em as (-> & ->). rewrite Hk. destruct v as [k|d].
  - cbn [vol0]. rewrite (prodn_ext _ _ (fun _ => 1)).
    + rewrite prodn_const, pow1. ring.
    + intros i Hi. rewrite Hent by assumption. rewrite Nat.eqb_refl. reflexivity.
  - cbn [vol0]. rewrite (prodn_ext _ _ (fv d)).
    + change (aone (a:=RA)) with 1. rewrite pow1. ring.
    + intros i Hi. rewrite Hent by assumption. rewrite Nat.eqb_refl. reflexivity.
Qed.

Lemma exp_pow x k : exp x ^ k = exp (INR k * x).
Proof. induction k as [|k IH]; [cbn; rewrite Rmult_0_l, exp_0; reflexivity|]. rewrite S_INR. cbn [pow]. rewrite IH, <- exp_plus. f_equal. ring. Qed.
