(** The convergence theorems. *)
From Coq Require Import Reals List Arith Lia Lra Psatz Bool ZArith.
From Verif Require Import Arith Vec ModelCalc ModelEll ModelStable ModelCut ModelSpaces SpecDrivers Spec SpecCut SpecEll SpecStable SpecSearch SpecConverge
  PSum PAlg PCalc PCalc2 PCalc3 PVec PGeo PEll PEll2 PEll3 PStable2 PStable4 PStable5 PTarget PSearch PSearchStable PConv PConv2.
Import ListNotations.
Local Open Scope R_scope.

(** ** The number of iterations *)
Lemma enough n low V (opt : options RA) : 0 < low -> V < low * exp (IZR (max_iters opt) / (INR n + 1)) -> V * exp (- / (INR n + 1)) ^ budget opt < low.
Proof.
  intros Hl H. pose proof (pos_INR n). rewrite exp_pow. set (m := budget opt).
  assert (L : IZR (max_iters opt) <= INR m). { unfold m, budget. rewrite INR_IZR_INZ. apply IZR_le. lia. }
  replace (INR m * - / (INR n + 1)) with (- (INR m / (INR n + 1))) by (field; lra). rewrite exp_Ropp.
  assert (E : exp (IZR (max_iters opt) / (INR n + 1)) <= exp (INR m / (INR n + 1))).
  { destruct (Req_dec (IZR (max_iters opt)) (INR m)) as [->|N]; [lra|]. left. apply exp_increasing. unfold Rdiv. apply Rmult_lt_compat_r; [apply Rinv_0_lt_compat; lra|lra]. }
  pose proof (exp_pos (INR m / (INR n + 1))) as P. apply Rmult_lt_reg_r with (exp (INR m / (INR n + 1))); [exact P|]. rewrite Rmult_assoc, Rinv_l by lra. nra.
Qed.

Lemma used n low V j : low <= V * exp (- / (INR n + 1)) ^ j -> low * exp (INR j / (INR n + 1)) <= V.
Proof.
  intros H. pose proof (pos_INR n). rewrite exp_pow in H. pose proof (exp_pos (INR j / (INR n + 1))) as P.
  apply Rmult_le_compat_r with (r := exp (INR j / (INR n + 1))) in H; [|lra]. rewrite Rmult_assoc, <- exp_plus in H.
  replace (INR j * - / (INR n + 1) + INR j / (INR n + 1)) with 0 in H by (field; lra). rewrite exp_0 in H. lra.
Qed.

Lemma low_pos n r : 0 < r -> 0 < (r * r) ^ n.
Proof. intros H. apply pow_lt. nra. Qed.

Lemma exp_decay n : 0 < exp (- / (INR n + 1)).
Proof. apply exp_pos. Qed.

(** ** The drivers *)
Section Gen.
Context {St : Type}.
Variables (n : nat) (sp : space_ops RA St (vec RA) (cut RA)) (opt : options RA) (K : R -> St -> Prop) (c : nat -> R) (r tmin : R).
Variable GC : ((nat -> R) -> Prop) -> op_kind -> cut RA -> vec RA -> Prop.
Hypothesis GCmono : forall (S S' : (nat -> R) -> Prop) k ct x, (forall z, S' z -> S z) -> GC S k ct x -> GC S' k ct x.
Hypothesis GCdeep : forall S ct x, GC S OpBias ct x -> deep OpBias (snd ct).
Hypothesis Hr : 0 < r.
Hypothesis K1 : forall V s, K V s -> (r * r) ^ n <= V.
Hypothesis K2 : forall V s, K V s -> vec_wf n (sp_xc sp s).
Hypothesis K3 : forall V s k ct, K V s -> deep k (snd ct) -> GC (ball n c r) k ct (sp_xc sp s) ->
    exists s1, upd_of sp k ct s = (s1, Ok Success) /\ K (V * exp (- / (INR n + 1))) s1 /\ tmin <= sp_tsq sp s1.
Hypothesis Ht : tolerance opt <= tmin.

Lemma feas_conv_gen {Orc} f (S : (nat -> R) -> Prop) (o : Orc) (s : St) V :
  K V s -> (forall z, ball n c r z -> S z) ->
  (exists inv : Orc -> Prop, inv o /\ forall o x, inv o -> vec_wf n x -> exists o' a, f o x = (o', Ok a) /\ inv o' /\ forall ct, a = Some ct -> GC S OpBias ct x) ->
  V < (r * r) ^ n * exp (IZR (max_iters opt) / (INR n + 1)) ->
  exists o' s' x j, cutting_plane_feas f sp opt o s = (o', s', Ok (Some x, j)) /\ vec_wf n x /\
    (0 <= j < max_iters opt)%Z /\ (r * r) ^ n * exp (IZR j / (INR n + 1)) <= V.
Proof.
  intros HK HS (inv & Ho & Hf) HV.
  destruct (conv_feas n sp opt (ball n c r) ((r * r) ^ n) (exp (- / (INR n + 1))) tmin GC GCmono GCdeep K K1 K2 K3 Ht f S inv HS Hf (budget opt) 0%Z o s V Ho HK (enough n _ V opt (low_pos n r Hr) HV))
    as (o' & s' & x & j & E & Hx & Hj & HL).
  exists o', s', x, (Z.of_nat j). split; [exact E|]. split; [exact Hx|]. split; [unfold budget in Hj; lia|].
  apply used in HL. rewrite <- INR_IZR_INZ. exact HL.
Qed.

Lemma optim_conv_gen {Orc G} f (S : G -> (nat -> R) -> Prop) (o : Orc) (s : St) g V o' s' x' g' k :
  K V s ->
  (exists inv : Orc -> G -> Prop, inv o g /\
    forall o x g o' ct v, inv o g -> f o x g = (o', Ok (ct, v)) ->
    inv o' (match v with Some g' => g' | None => g end) /\
    match v with
    | None => vec_wf n x -> GC (S g) OpBias ct x
    | Some g' => (vec_wf n x -> GC (S g') OpCentral ct x) /\ (forall z, S g' z -> S g z)
    end) ->
  V < (r * r) ^ n * exp (IZR (max_iters opt) / (INR n + 1)) ->
  cutting_plane_optim f sp opt o s g = (o', s', Ok (x', g', k)) -> ~ (forall z, ball n c r z -> S g' z).
Proof.
  intros HK (inv & Ho & Hf) HV E.
  exact (conv_optim n sp opt (ball n c r) ((r * r) ^ n) (exp (- / (INR n + 1))) tmin GC GCmono GCdeep K K1 K2 K3 Ht f S inv Hf (budget opt) 0%Z o s None g V o' s' x' g' k Ho HK (enough n _ V opt (low_pos n r Hr) HV) E).
Qed.
End Gen.

Lemma ell_K1 n p c r V e : 0 < r -> ell_K n p c r V e -> (r * r) ^ n <= V.
Proof. intros Hr (s & H). eapply pot_lower; [|exact H]. lra. Qed.
Lemma ell_K2 n p c r V e : ell_K n p c r V e -> vec_wf n (sp_xc (ell_space RA) e).
Proof. intros (s & H). apply H. Qed.
Lemma stable_K1 n p c r V s : 0 < r -> stable_K n p c r V s -> (r * r) ^ n <= V.
Proof. intros Hr (e & H). eapply pot_lower; [|exact H]. lra. Qed.
Lemma stable_K2 n p c r V s : stable_K n p c r V s -> vec_wf n (sp_xc (stable_space RA) s).
Proof. intros (e & H). apply H. Qed.

Lemma init_both v x0 (s0 : stable RA) : stable_init v x0 = Ok s0 -> exists e0, ell_init (A:=RA) v x0 = Ok e0.
Proof. intros E. destruct (ell_init v x0) as [e0|x] eqn:Ee; [eauto|]. apply init_fail in Ee. congruence. Qed.

Lemma ell_init_K n p v x0 (e0 : ell RA) c r : ell_init v x0 = Ok e0 -> vec_wf n x0 -> val_pos n v ->
  (forall z, ball n c r z -> ell_in n e0 z) -> ell_K n p c r (vol0 n v) (ell_set_parallel e0 p).
Proof. intros E Hx Hv Hb. destruct (init_conv n v x0 e0 p c r E Hx Hv Hb) as (s0 & Es & HI). exists (stable_set_parallel s0 p). exact HI. Qed.
Lemma stable_init_K n p v x0 (s0 : stable RA) c r : stable_init v x0 = Ok s0 -> vec_wf n x0 -> val_pos n v ->
  (forall z, ball n c r z -> stable_in n s0 z) -> stable_K n p c r (vol0 n v) (stable_set_parallel s0 p).
Proof.
  intros E Hx Hv Hb. destruct (init_both v x0 s0 E) as (e0 & Ee). destruct (init_agree n v x0 e0 Ee Hx Hv) as (s1 & E1 & Hok & Ha & _).
  rewrite E in E1. injection E1 as <-.
  assert (Hb' : forall z, ball n c r z -> ell_in n e0 z). { intros z Hz. apply (same_set n e0 s0); [apply (init_pd n v x0 e0 Ee Hx Hv)|exact Ha|apply Hb, Hz]. }
  destruct (init_conv n v x0 e0 p c r Ee Hx Hv Hb') as (s1 & Es & HI). rewrite E in Es. injection Es as <-. exists (ell_set_parallel e0 p). exact HI.
Qed.

Lemma ell_feas_converges n p v x0 (e0 : ell RA) c r gmin (opt : options RA) (Orc : Type) (f : Orc -> vec RA -> Orc * res (option (cut RA))) (S : (nat -> R) -> Prop) (o : Orc) :
  ell_init v x0 = Ok e0 -> vec_wf n x0 -> val_pos n v -> 0 < r -> 0 < gmin ->
  (forall z, ball n c r z -> ell_in n e0 z /\ S z) -> good_feas_oracle n p S gmin f o ->
  tolerance opt <= r * r * (gmin * gmin) ->
  vol0 n v < (r * r) ^ n * exp (IZR (max_iters opt) / (INR n + 1)) ->
  exists o' e' x j, cutting_plane_feas f (ell_space RA) opt o (ell_set_parallel e0 p) = (o', e', Ok (Some x, j)) /\ vec_wf n x /\
    (0 <= j < max_iters opt)%Z /\ (r * r) ^ n * exp (IZR j / (INR n + 1)) <= vol0 n v.
Proof.
  intros E Hx Hv Hr Hg Hb Hf Ht HV.
  apply (feas_conv_gen n (ell_space RA) opt (ell_K n p c r) c r (r * r * (gmin * gmin)) (fun S => good_cut n p S gmin)) with (S := S); try assumption.
  - intros S1 S2. apply good_cut_mono.
  - intros S1. apply good_cut_deep.
  - intros V s. apply ell_K1, Hr.
  - intros V s. apply ell_K2.
  - intros. apply ell_Kstep; assumption.
  - apply (ell_init_K n p v x0); try assumption. apply Hb.
  - apply Hb.
Qed.

Lemma ell_optim_converges n p v x0 (e0 : ell RA) c r gmin (opt : options RA) (Orc G : Type) (f : Orc -> vec RA -> G -> Orc * res (cut RA * option G)) (S : G -> (nat -> R) -> Prop) (o : Orc) g o' s' x' g' k :
  ell_init v x0 = Ok e0 -> vec_wf n x0 -> val_pos n v -> 0 < r -> 0 < gmin ->
  (forall z, ball n c r z -> ell_in n e0 z) -> good_optim_oracle n p S gmin f o g ->
  tolerance opt <= r * r * (gmin * gmin) ->
  vol0 n v < (r * r) ^ n * exp (IZR (max_iters opt) / (INR n + 1)) ->
  cutting_plane_optim f (ell_space RA) opt o (ell_set_parallel e0 p) g = (o', s', Ok (x', g', k)) ->
  ~ (forall z, ball n c r z -> S g' z).
Proof.
  intros E Hx Hv Hr Hg Hb Hf Ht HV.
  apply (optim_conv_gen n (ell_space RA) opt (ell_K n p c r) c r (r * r * (gmin * gmin)) (fun S => good_cut n p S gmin)) with (V := vol0 n v); try assumption.
  - intros S1 S2. apply good_cut_mono.
  - intros S1. apply good_cut_deep.
  - intros V s. apply ell_K1, Hr.
  - intros V s. apply ell_K2.
  - intros. apply ell_Kstep; assumption.
  - apply (ell_init_K n p v x0); assumption.
Qed.

Lemma stable_feas_converges n p v x0 (s0 : stable RA) c r gmin (opt : options RA) (Orc : Type) (f : Orc -> vec RA -> Orc * res (option (cut RA))) (S : (nat -> R) -> Prop) (o : Orc) :
  stable_init v x0 = Ok s0 -> vec_wf n x0 -> val_pos n v -> 0 < r -> 0 < gmin ->
  (forall z, ball n c r z -> stable_in n s0 z /\ S z) -> good_feas_oracle n p S gmin f o ->
  tolerance opt <= r * r * (gmin * gmin) ->
  vol0 n v < (r * r) ^ n * exp (IZR (max_iters opt) / (INR n + 1)) ->
  exists o' e' x j, cutting_plane_feas f (stable_space RA) opt o (stable_set_parallel s0 p) = (o', e', Ok (Some x, j)) /\ vec_wf n x /\
    (0 <= j < max_iters opt)%Z /\ (r * r) ^ n * exp (IZR j / (INR n + 1)) <= vol0 n v.
Proof.
  intros E Hx Hv Hr Hg Hb Hf Ht HV.
  apply (feas_conv_gen n (stable_space RA) opt (stable_K n p c r) c r (r * r * (gmin * gmin)) (fun S => good_cut n p S gmin)) with (S := S); try assumption.
  - intros S1 S2. apply good_cut_mono.
  - intros S1. apply good_cut_deep.
  - intros V s. apply stable_K1, Hr.
  - intros V s. apply stable_K2.
  - intros. apply stable_Kstep; assumption.
  - apply (stable_init_K n p v x0); try assumption. apply Hb.
  - apply Hb.
Qed.

Lemma stable_optim_converges n p v x0 (s0 : stable RA) c r gmin (opt : options RA) (Orc G : Type) (f : Orc -> vec RA -> G -> Orc * res (cut RA * option G)) (S : G -> (nat -> R) -> Prop) (o : Orc) g o' s' x' g' k :
  stable_init v x0 = Ok s0 -> vec_wf n x0 -> val_pos n v -> 0 < r -> 0 < gmin ->
  (forall z, ball n c r z -> stable_in n s0 z) -> good_optim_oracle n p S gmin f o g ->
  tolerance opt <= r * r * (gmin * gmin) ->
  vol0 n v < (r * r) ^ n * exp (IZR (max_iters opt) / (INR n + 1)) ->
  cutting_plane_optim f (stable_space RA) opt o (stable_set_parallel s0 p) g = (o', s', Ok (x', g', k)) ->
  ~ (forall z, ball n c r z -> S g' z).
Proof.
  intros E Hx Hv Hr Hg Hb Hf Ht HV.
  apply (optim_conv_gen n (stable_space RA) opt (stable_K n p c r) c r (r * r * (gmin * gmin)) (fun S => good_cut n p S gmin)) with (V := vol0 n v); try assumption.
  - intros S1 S2. apply good_cut_mono.
  - intros S1. apply good_cut_deep.
  - intros V s. apply stable_K1, Hr.
  - intros V s. apply stable_K2.
  - intros. apply stable_Kstep; assumption.
  - apply (stable_init_K n p v x0); assumption.
Qed.

Lemma ell_feas_converges_m n p v x0 (e0 : ell RA) c r eps (opt : options RA) (Orc : Type) (f : Orc -> vec RA -> Orc * res (option (cut RA))) (S : (nat -> R) -> Prop) (o : Orc) :
  ell_init v x0 = Ok e0 -> vec_wf n x0 -> val_pos n v -> 0 < r -> 0 < eps ->
  (forall z, ball n c r z -> ell_in n e0 z /\ S z) -> margin_feas_oracle n p S eps f o ->
  tolerance opt <= eps * eps ->
  vol0 n v < (r * r) ^ n * exp (IZR (max_iters opt) / (INR n + 1)) ->
  exists o' e' x j, cutting_plane_feas f (ell_space RA) opt o (ell_set_parallel e0 p) = (o', e', Ok (Some x, j)) /\ vec_wf n x /\
    (0 <= j < max_iters opt)%Z /\ (r * r) ^ n * exp (IZR j / (INR n + 1)) <= vol0 n v.
Proof.
  intros E Hx Hv Hr Hg Hb Hf Ht HV.
  apply (feas_conv_gen n (ell_space RA) opt (ell_K n p c r) c r (eps * eps) (fun S => margin_cut n p S eps)) with (S := S); try assumption.
  - intros S1 S2. apply margin_cut_mono.
  - intros S1. apply margin_cut_deep.
  - intros V s. apply ell_K1, Hr.
  - intros V s. apply ell_K2.
  - intros. apply ell_Kstep_m; assumption.
  - apply (ell_init_K n p v x0); try assumption. apply Hb.
  - apply Hb.
Qed.

Lemma ell_optim_converges_m n p v x0 (e0 : ell RA) c r eps (opt : options RA) (Orc G : Type) (f : Orc -> vec RA -> G -> Orc * res (cut RA * option G)) (S : G -> (nat -> R) -> Prop) (o : Orc) g o' s' x' g' k :
  ell_init v x0 = Ok e0 -> vec_wf n x0 -> val_pos n v -> 0 < r -> 0 < eps ->
  (forall z, ball n c r z -> ell_in n e0 z) -> margin_optim_oracle n p S eps f o g ->
  tolerance opt <= eps * eps ->
  vol0 n v < (r * r) ^ n * exp (IZR (max_iters opt) / (INR n + 1)) ->
  cutting_plane_optim f (ell_space RA) opt o (ell_set_parallel e0 p) g = (o', s', Ok (x', g', k)) ->
  ~ (forall z, ball n c r z -> S g' z).
Proof.
  intros E Hx Hv Hr Hg Hb Hf Ht HV.
  apply (optim_conv_gen n (ell_space RA) opt (ell_K n p c r) c r (eps * eps) (fun S => margin_cut n p S eps)) with (V := vol0 n v); try assumption.
  - intros S1 S2. apply margin_cut_mono.
  - intros S1. apply margin_cut_deep.
  - intros V s. apply ell_K1, Hr.
  - intros V s. apply ell_K2.
  - intros. apply ell_Kstep_m; assumption.
  - apply (ell_init_K n p v x0); assumption.
Qed.

Lemma stable_feas_converges_m n p v x0 (s0 : stable RA) c r eps (opt : options RA) (Orc : Type) (f : Orc -> vec RA -> Orc * res (option (cut RA))) (S : (nat -> R) -> Prop) (o : Orc) :
  stable_init v x0 = Ok s0 -> vec_wf n x0 -> val_pos n v -> 0 < r -> 0 < eps ->
  (forall z, ball n c r z -> stable_in n s0 z /\ S z) -> margin_feas_oracle n p S eps f o ->
  tolerance opt <= eps * eps ->
  vol0 n v < (r * r) ^ n * exp (IZR (max_iters opt) / (INR n + 1)) ->
  exists o' e' x j, cutting_plane_feas f (stable_space RA) opt o (stable_set_parallel s0 p) = (o', e', Ok (Some x, j)) /\ vec_wf n x /\
    (0 <= j < max_iters opt)%Z /\ (r * r) ^ n * exp (IZR j / (INR n + 1)) <= vol0 n v.
Proof.
  intros E Hx Hv Hr Hg Hb Hf Ht HV.
  apply (feas_conv_gen n (stable_space RA) opt (stable_K n p c r) c r (eps * eps) (fun S => margin_cut n p S eps)) with (S := S); try assumption.
  - intros S1 S2. apply margin_cut_mono.
  - intros S1. apply margin_cut_deep.
  - intros V s. apply stable_K1, Hr.
  - intros V s. apply stable_K2.
  - intros. apply stable_Kstep_m; assumption.
  - apply (stable_init_K n p v x0); try assumption. apply Hb.
  - apply Hb.
Qed.

Lemma stable_optim_converges_m n p v x0 (s0 : stable RA) c r eps (opt : options RA) (Orc G : Type) (f : Orc -> vec RA -> G -> Orc * res (cut RA * option G)) (S : G -> (nat -> R) -> Prop) (o : Orc) g o' s' x' g' k :
  stable_init v x0 = Ok s0 -> vec_wf n x0 -> val_pos n v -> 0 < r -> 0 < eps ->
  (forall z, ball n c r z -> stable_in n s0 z) -> margin_optim_oracle n p S eps f o g ->
  tolerance opt <= eps * eps ->
  vol0 n v < (r * r) ^ n * exp (IZR (max_iters opt) / (INR n + 1)) ->
  cutting_plane_optim f (stable_space RA) opt o (stable_set_parallel s0 p) g = (o', s', Ok (x', g', k)) ->
  ~ (forall z, ball n c r z -> S g' z).
Proof.
  intros E Hx Hv Hr Hg Hb Hf Ht HV.
  apply (optim_conv_gen n (stable_space RA) opt (stable_K n p c r) c r (eps * eps) (fun S => margin_cut n p S eps)) with (V := vol0 n v); try assumption.
  - intros S1 S2. apply margin_cut_mono.
  - intros S1. apply margin_cut_deep.
  - intros V s. apply stable_K1, Hr.
  - intros V s. apply stable_K2.
  - intros. apply stable_Kstep_m; assumption.
  - apply (stable_init_K n p v x0); assumption.
Qed.

(** ** The initial ball *)
Lemma scalar_in n k x0 (e0 : ell RA) z : ell_init (@VScalar RA k) x0 = Ok e0 -> vec_wf n x0 ->
  dot n (fun i => z i - fv x0 i) (fun i => z i - fv x0 i) <= k -> ell_in n e0 z.
Proof.
  intros E Hx H. destruct (init_inv _ x0 e0 E) as (Hn & _ & Exc & _ & _ & _ & Hk). destruct (init_entries _ x0 e0 E I) as [_ Hent].
  unfold vec_wf in Hx. subst n. set (n := length x0) in *. unfold ell_in, in_ellipsoid. rewrite Exc, Hk. set (y := fun i => z i - fv x0 i) in *. exists y.
  assert (M : forall i, (i < n)%nat -> mv n (fm (mq e0)) y i = y i).
  { intros i Hi. unfold mv. rewrite (sumn_ext n _ (fun j => (if Nat.eqb j i then 1 else 0) * y j)); [apply (sumn_delta_l n i y Hi)|].
    intros j Hj. rewrite Hent by assumption. rewrite (Nat.eqb_sym i j). destruct (Nat.eqb j i); ring. }
  split; [intros i Hi; symmetry; apply M, Hi|]. unfold quad, bil. rewrite (dot_ext n _ _ y y); [exact H|reflexivity|exact M].
Qed.

Lemma scalar_count n k r (opt : options RA) : 0 < k -> 0 < r -> INR n * (INR n + 1) * ln (k / (r * r)) < IZR (max_iters opt) ->
  vol0 n (@VScalar RA k) < (r * r) ^ n * exp (IZR (max_iters opt) / (INR n + 1)).
Proof.
  intros Hk Hr H. cbn [vol0]. pose proof (pos_INR n) as Hn. assert (Hrr : 0 < r * r) by nra.
  replace k with (r * r * exp (ln (k / (r * r)))) at 1 by (rewrite exp_ln by (apply Rdiv_lt_0_compat; assumption); field; lra).
  rewrite Rpow_mult_distr, exp_pow. apply Rmult_lt_compat_l; [apply pow_lt, Hrr|]. apply exp_increasing.
  apply Rmult_lt_reg_r with (INR n + 1); [lra|]. replace (IZR (max_iters opt) / (INR n + 1) * (INR n + 1)) with (IZR (max_iters opt)) by (field; lra). lra.
Qed.

Lemma scalar_used n k r j : 0 < k -> 0 < r -> (r * r) ^ n * exp (IZR j / (INR n + 1)) <= vol0 n (@VScalar RA k) ->
  IZR j <= INR n * (INR n + 1) * ln (k / (r * r)).
Proof.
  intros Hk Hr H. apply Rnot_lt_le. intros L. pose proof (scalar_count n k r (@mkOptions RA j 0) Hk Hr L) as C. cbn [max_iters] in C. lra.
Qed.

Lemma ell_feas_ball n p k x0 (e0 : ell RA) c r gmin (opt : options RA) (Orc : Type) (f : Orc -> vec RA -> Orc * res (option (cut RA))) (S : (nat -> R) -> Prop) (o : Orc) :
  ell_init (@VScalar RA k) x0 = Ok e0 -> vec_wf n x0 -> 0 < k -> 0 < r -> 0 < gmin ->
  (forall z, ball n c r z -> ball n (fv x0) (sqrt k) z /\ S z) -> good_feas_oracle n p S gmin f o ->
  tolerance opt <= r * r * (gmin * gmin) ->
  INR n * (INR n + 1) * ln (k / (r * r)) < IZR (max_iters opt) ->
  exists o' e' x j, cutting_plane_feas f (ell_space RA) opt o (ell_set_parallel e0 p) = (o', e', Ok (Some x, j)) /\ vec_wf n x /\
    IZR j <= INR n * (INR n + 1) * ln (k / (r * r)).
Proof.
  intros E Hx Hk Hr Hg Hb Hf Ht HV.
  destruct (ell_feas_converges n p (@VScalar RA k) x0 e0 c r gmin opt Orc f S o E Hx Hk Hr Hg) as (o' & e' & x & j & H1 & H2 & H3 & H4); try assumption.
  - intros z Hz. destruct (Hb z Hz) as (B & Sz). split; [|exact Sz]. apply (scalar_in n k x0 e0 z E Hx). unfold ball in B. rewrite sqrt_sqrt in B by lra. exact B.
  - apply scalar_count; assumption.
  - exists o', e', x, j. split; [exact H1|]. split; [exact H2|]. apply scalar_used; assumption.
Qed.

Lemma stable_feas_ball n p k x0 (s0 : stable RA) c r gmin (opt : options RA) (Orc : Type) (f : Orc -> vec RA -> Orc * res (option (cut RA))) (S : (nat -> R) -> Prop) (o : Orc) :
  stable_init (@VScalar RA k) x0 = Ok s0 -> vec_wf n x0 -> 0 < k -> 0 < r -> 0 < gmin ->
  (forall z, ball n c r z -> ball n (fv x0) (sqrt k) z /\ S z) -> good_feas_oracle n p S gmin f o ->
  tolerance opt <= r * r * (gmin * gmin) ->
  INR n * (INR n + 1) * ln (k / (r * r)) < IZR (max_iters opt) ->
  exists o' e' x j, cutting_plane_feas f (stable_space RA) opt o (stable_set_parallel s0 p) = (o', e', Ok (Some x, j)) /\ vec_wf n x /\
    IZR j <= INR n * (INR n + 1) * ln (k / (r * r)).
Proof.
  intros E Hx Hk Hr Hg Hb Hf Ht HV.
  destruct (init_both _ x0 s0 E) as (e0 & Ee). destruct (init_agree n _ x0 e0 Ee Hx Hk) as (s1 & E1 & Hok & Ha & _). rewrite E in E1. injection E1 as <-.
  destruct (stable_feas_converges n p (@VScalar RA k) x0 s0 c r gmin opt Orc f S o E Hx Hk Hr Hg) as (o' & e' & x & j & H1 & H2 & H3 & H4); try assumption.
  - intros z Hz. destruct (Hb z Hz) as (B & Sz). split; [|exact Sz]. apply (same_set n e0 s0); [apply (init_pd n _ x0 e0 Ee Hx Hk)|exact Ha|].
    apply (scalar_in n k x0 e0 z Ee Hx). unfold ball in B. rewrite sqrt_sqrt in B by lra. exact B.
  - apply scalar_count; assumption.
  - exists o', e', x, j. split; [exact H1|]. split; [exact H2|]. apply scalar_used; assumption.
Qed.

Lemma ell_feas_ball_m n p k x0 (e0 : ell RA) c r eps (opt : options RA) (Orc : Type) (f : Orc -> vec RA -> Orc * res (option (cut RA))) (S : (nat -> R) -> Prop) (o : Orc) :
  ell_init (@VScalar RA k) x0 = Ok e0 -> vec_wf n x0 -> 0 < k -> 0 < r -> 0 < eps ->
  (forall z, ball n c r z -> ball n (fv x0) (sqrt k) z /\ S z) -> margin_feas_oracle n p S eps f o ->
  tolerance opt <= eps * eps ->
  INR n * (INR n + 1) * ln (k / (r * r)) < IZR (max_iters opt) ->
  exists o' e' x j, cutting_plane_feas f (ell_space RA) opt o (ell_set_parallel e0 p) = (o', e', Ok (Some x, j)) /\ vec_wf n x /\
    IZR j <= INR n * (INR n + 1) * ln (k / (r * r)).
Proof.
  intros E Hx Hk Hr Hg Hb Hf Ht HV.
  destruct (ell_feas_converges_m n p (@VScalar RA k) x0 e0 c r eps opt Orc f S o E Hx Hk Hr Hg) as (o' & e' & x & j & H1 & H2 & H3 & H4); try assumption.
  - intros z Hz. destruct (Hb z Hz) as (B & Sz). split; [|exact Sz]. apply (scalar_in n k x0 e0 z E Hx). unfold ball in B. rewrite sqrt_sqrt in B by lra. exact B.
  - apply scalar_count; assumption.
  - exists o', e', x, j. split; [exact H1|]. split; [exact H2|]. apply scalar_used; assumption.
Qed.

Lemma stable_feas_ball_m n p k x0 (s0 : stable RA) c r eps (opt : options RA) (Orc : Type) (f : Orc -> vec RA -> Orc * res (option (cut RA))) (S : (nat -> R) -> Prop) (o : Orc) :
  stable_init (@VScalar RA k) x0 = Ok s0 -> vec_wf n x0 -> 0 < k -> 0 < r -> 0 < eps ->
  (forall z, ball n c r z -> ball n (fv x0) (sqrt k) z /\ S z) -> margin_feas_oracle n p S eps f o ->
  tolerance opt <= eps * eps ->
  INR n * (INR n + 1) * ln (k / (r * r)) < IZR (max_iters opt) ->
  exists o' e' x j, cutting_plane_feas f (stable_space RA) opt o (stable_set_parallel s0 p) = (o', e', Ok (Some x, j)) /\ vec_wf n x /\
    IZR j <= INR n * (INR n + 1) * ln (k / (r * r)).
Proof.
  intros E Hx Hk Hr Hg Hb Hf Ht HV.
  destruct (init_both _ x0 s0 E) as (e0 & Ee). destruct (init_agree n _ x0 e0 Ee Hx Hk) as (s1 & E1 & Hok & Ha & _). rewrite E in E1. injection E1 as <-.
  destruct (stable_feas_converges_m n p (@VScalar RA k) x0 s0 c r eps opt Orc f S o E Hx Hk Hr Hg) as (o' & e' & x & j & H1 & H2 & H3 & H4); try assumption.
  - intros z Hz. destruct (Hb z Hz) as (B & Sz). split; [|exact Sz]. apply (same_set n e0 s0); [apply (init_pd n _ x0 e0 Ee Hx Hk)|exact Ha|].
    apply (scalar_in n k x0 e0 z Ee Hx). unfold ball in B. rewrite sqrt_sqrt in B by lra. exact B.
  - apply scalar_count; assumption.
  - exists o', e', x, j. split; [exact H1|]. split; [exact H2|]. apply scalar_used; assumption.
Qed.
