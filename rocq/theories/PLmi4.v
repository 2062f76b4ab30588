(** The LMI oracles under the feasibility driver: convergence. *)
From Coq Require Import Reals List Arith Lia Lra Bool ZArith.
From Verif Require Import Arith Vec ModelCalc ModelEll ModelStable ModelLdlt ModelLmi ModelCut ModelSpaces
  SpecDrivers Spec SpecCut SpecEll SpecSearch SpecStable SpecLdlt SpecConverge PSum PCalc PVec PEll PEll2 PLdlt4 PLmi PLmi2 PLmi3 PConv3.
Import ListNotations.
Local Open Scope R_scope.

Lemma quad_affine m (o : lmi RA) (x : vec RA) (g : vec RA) v z :
  (forall k, (k < length (mat_f o))%nat -> fv g k = quad m (fm (nth k (mat_f o) [])) v) ->
  cutval (length (mat_f o)) (fv g) (fv x) z =
  quad m (lmi_at (mat_f o) (mat_f0 o) (fv x)) v - quad m (lmi_at (mat_f o) (mat_f0 o) z) v.
Proof.
  intros HG. rewrite !quad_lmi.
  assert (EC : cutval (length (mat_f o)) (fv g) (fv x) z =
    sumn (length (mat_f o)) (fun k => quad m (fm (nth k (mat_f o) [])) v * z k) -
    sumn (length (mat_f o)) (fun k => quad m (fm (nth k (mat_f o) [])) v * fv x k)).
  { unfold cutval, dot. rewrite <- sumn_minus. apply sumn_ext. intros k Hk. rewrite HG by exact Hk. ring. }
  change (num RA) with R in *.
  match type of EC with _ = ?a - ?b => set (sz := a) in *; set (sx := b) in * end.
  etransitivity; [exact EC|]. change (num RA) with R in *.
  match goal with |- _ = _ - ?a - (_ - ?b) => change a with sx; change b with sz end. ring.
Qed.

Lemma quad_affine0 m (o : lmi0 RA) (x : vec RA) (g : vec RA) v z :
  (forall k, (k < length (mat0_f o))%nat -> fv g k = - quad m (fm (nth k (mat0_f o) [])) v) ->
  cutval (length (mat0_f o)) (fv g) (fv x) z =
  quad m (lmi0_at (mat0_f o) (fv x)) v - quad m (lmi0_at (mat0_f o) z) v.
Proof.
  intros HG. rewrite !quad_lmi0.
  assert (EC : cutval (length (mat0_f o)) (fv g) (fv x) z =
    sumn (length (mat0_f o)) (fun k => quad m (fm (nth k (mat0_f o) [])) v * fv x k) -
    sumn (length (mat0_f o)) (fun k => quad m (fm (nth k (mat0_f o) [])) v * z k)).
  { unfold cutval, dot. rewrite <- sumn_minus. apply sumn_ext. intros k Hk. rewrite HG by exact Hk. ring. }
  exact EC.
Qed.

Lemma above_psd m eps M : 0 <= eps -> above m eps M -> possemidef m M.
Proof.
  intros He H v. specialize (H v). assert (0 <= dot m v v) by (unfold dot; apply sumn_ge_0; intros; nra).
  nra.
Qed.

Lemma lmi_margin m n p eps (o : lmi RA) : lmi_wf m o -> length (mat_f o) = n -> 0 <= eps ->
  margin_feas_oracle n p (fun z => above m eps (lmi_at (mat_f o) (mat_f0 o) z)) eps lmi_assess_feas o.
Proof.
  intros Ho <- He. exists (fun q => lmi_wf m q /\ mat_f q = mat_f o /\ mat_f0 q = mat_f0 o).
  split; [auto|]. intros q x (Q1 & Q2 & Q3) Hx. destruct (lmi_assess_feas q x) as [q' r] eqn:E.
  destruct (lmi_decides m q x q' r Q1 E) as ((a & ->) & _ & R1 & R2 & R3).
  exists q', a. split; [reflexivity|]. split; [split; [exact R1|split; congruence]|].
  intros [g be] ->. destruct (lmi_call m q x q' _ Q1 E) as (_ & _ & _ & [[HH _]|(v & g' & ep & HH & _ & Hep & Hv & HQ & Hg & HG)]); [discriminate|].
  injection HH as <- ->.
  assert (HC : forall z, above m eps (lmi_at (mat_f o) (mat_f0 o) z) -> cutval (length (mat_f o)) (fv g) (fv x) z <= - eps - ep).
  { intros z Hz. pose proof (quad_affine m q x g v z HG) as EC. rewrite HQ in EC. rewrite Q2, Q3 in EC. specialize (Hz v). nra. }
  split; [cbn [fst]; unfold vec_wf; rewrite <- Q2; exact Hg|]. split; [exact I|]. split.
  - split.
    + intros _. right. exists ep. auto.
    + intros y Hy. cbn [fst snd]. unfold cut_holds; cbn [first_beta second_beta]. split; [|exact I].
      specialize (HC y Hy). change (num RA) with R in *. lra.
  - intros z Hz. cbn [fst]. specialize (HC z Hz). lra.
Qed.

Lemma shape_wf m (s : ldlt RA) : shape m s -> ldlt_wf m s.
Proof. intros H. exact H. Qed.

Lemma lmi0_step m (o : lmi0 RA) x o' r : lmi0_wf m o -> lmi0_assess_feas o x = (o', r) -> lmi0_wf m o' /\ mat0_f o' = mat0_f o.
Proof.
  intros (Hf & Hl) H. unfold lmi0_assess_feas in H.
  destruct (Nat.ltb _ _ && _)%bool; [injection H as <- _; split; [split; assumption|reflexivity]|].
  pose proof (factor_shape m (lmi0_elem (mat0_f o) x) _ Hl) as S1.
  destruct (factor (lmi0_elem (mat0_f o) x) (ldlt0_mgr o)) as [s1 b]. cbn [fst] in S1.
  destruct b; [injection H as <- _; split; [split; assumption|reflexivity]|].
  pose proof (witness_shape m s1 S1) as S2. destruct (witness s1) as [s2 ep]. cbn [fst] in S2.
  injection H as <- _. split; [split; assumption|reflexivity].
Qed.

Lemma lmi0_accepted {St} (sp : space_ops RA St (vec RA) (cut RA)) opt m (o : lmi0 RA) s o' s' x k : lmi0_wf m o ->
  cutting_plane_feas lmi0_assess_feas sp opt o s = (o', s', Ok (Some x, k)) -> (length x <= length (mat0_f o))%nat ->
  posdef m (lmi0_at (mat0_f o) (fv x)).
Proof.
  intros Ho H Hx. unfold cutting_plane_feas in H.
  destruct (feas_loop_inv (fun q => lmi0_wf m q /\ mat0_f q = mat0_f o) _ _ _
    ltac:(intros q y q' c (Q1 & Q2) E; destruct (lmi0_step m q y q' _ Q1 E) as (R1 & R2);
      split; [exact R1|congruence]) _ _ _ _ _ _ _ _ (conj Ho eq_refl) H) as (o1 & (Q1 & Q2) & E).
  rewrite <- Q2 in Hx. destruct (lmi0_decides m o1 x o' _ Q1 Hx E) as (_ & D & _). rewrite <- Q2. apply D. reflexivity.
Qed.

Lemma lmi0_margin m n p eps (o : lmi0 RA) : lmi0_wf m o -> length (mat0_f o) = n -> 0 <= eps ->
  margin_feas_oracle n p (fun z => above m eps (lmi0_at (mat0_f o) z)) eps lmi0_assess_feas o.
Proof.
  intros Ho <- He. exists (fun q => lmi0_wf m q /\ mat0_f q = mat0_f o).
  split; [auto|]. intros q x (Q1 & Q2) Hx. destruct (lmi0_assess_feas q x) as [q' r] eqn:E.
  assert (HL : (length x <= length (mat0_f q))%nat) by (unfold vec_wf in Hx; rewrite Q2; lia).
  destruct (lmi0_decides m q x q' r Q1 HL E) as ((a & ->) & _ & R1 & R2).
  exists q', a. split; [reflexivity|]. split; [split; [exact R1|congruence]|].
  intros [g be] ->. destruct (lmi0_call m q x q' _ Q1 HL E) as (_ & _ & [[HH _]|(v & g' & ep & HH & _ & Hep & Hv & HQ & Hg & HG)]); [discriminate|].
  injection HH as <- ->.
  assert (HC : forall z, above m eps (lmi0_at (mat0_f o) z) -> cutval (length (mat0_f o)) (fv g) (fv x) z <= - eps - ep).
  { intros z Hz. pose proof (quad_affine0 m q x g v z HG) as EC. rewrite HQ in EC. rewrite Q2 in EC. specialize (Hz v). nra. }
  split; [cbn [fst]; unfold vec_wf; rewrite <- Q2; exact Hg|]. split; [exact I|]. split.
  - split.
    + intros _. right. exists ep. auto.
    + intros y Hy. cbn [fst snd]. unfold cut_holds; cbn [first_beta second_beta]. split; [|exact I].
      specialize (HC y Hy). change (num RA) with R in *. lra.
  - intros z Hz. cbn [fst]. specialize (HC z Hz). lra.
Qed.

(** the older implementation *)
Lemma wf_same m (q : lmi RA) : lmi_wf m q -> lmi_same m q q.
Proof.
  intros ((B & _) & F & L). assert (H : lmi_shape m q) by (split; [exact B|split; [eapply Forall_impl; [|exact F]; intros a Ha; apply Ha|exact L]]).
  split; [exact H|]. split; [exact H|]. split; reflexivity.
Qed.
Lemma old_call m (q : lmi RA) x : lmi_wf m q -> length x = length (mat_f q) -> exists q',
  lmi_old_assess_feas q x = (q', snd (lmi_assess_feas q x)) /\ lmi_wf m q' /\ mat_f q' = mat_f q /\ mat_f0 q' = mat_f0 q.
Proof.
  intros Hq Hx. destruct (lmi_old_step m q q x (wf_same m q Hq) Hx) as (A1 & (_ & (_ & _ & A2) & A3 & A4) & A5).
  destruct (lmi_assess_feas q x) as [q1 r1] eqn:E1. cbn [fst snd] in *.
  destruct (lmi_decides m q x q1 r1 Hq E1) as (_ & _ & _ & E2 & E3).
  destruct (lmi_old_assess_feas q x) as [q' r]. cbn [fst snd] in *. subst r. exists q'. split; [reflexivity|].
  rewrite E2 in A3. rewrite E3 in A4. split; [|auto]. destruct Hq as (B & F & _). split; [rewrite A4; exact B|]. split; [rewrite A3; exact F|exact A2].
Qed.
Lemma old_keeps m (q : lmi RA) x q' r : lmi_wf m q -> lmi_old_assess_feas q x = (q', r) ->
  lmi_wf m q' /\ mat_f q' = mat_f q /\ mat_f0 q' = mat_f0 q.
Proof.
  intros (B & F & L) H. unfold lmi_old_assess_feas in H.
  destruct (Nat.ltb _ _); [injection H as <- _; split; [split; [exact B|split; assumption]|auto]|].
  unfold factorize in H. pose proof (factor_shape m (fun i j => mget (lmi_old_mat (mat_f q) (mat_f0 q) x) i j) _ L) as S1.
  destruct (factor _ (ldlt_mgr q)) as [s1 b]. cbn [fst] in S1.
  destruct b; [injection H as <- _; split; [split; [exact B|split; assumption]|auto]|].
  pose proof (witness_shape m s1 S1) as S2. destruct (witness s1) as [s2 ep]. cbn [fst] in S2.
  injection H as <- _. split; [split; [exact B|split; assumption]|auto].
Qed.
Lemma lmi_old_margin m n p eps (o : lmi RA) : lmi_wf m o -> length (mat_f o) = n -> 0 <= eps ->
  margin_feas_oracle n p (fun z => above m eps (lmi_at (mat_f o) (mat_f0 o) z)) eps lmi_old_assess_feas o.
Proof.
  intros Ho <- He. exists (fun q => lmi_wf m q /\ mat_f q = mat_f o /\ mat_f0 q = mat_f0 o).
  split; [auto|]. intros q x (Q1 & Q2 & Q3) Hx.
  assert (Hx' : length x = length (mat_f q)) by (rewrite Q2; exact Hx).
  destruct (old_call m q x Q1 Hx') as (q' & E & R1 & R2 & R3).
  destruct (lmi_margin m (length (mat_f q)) p eps q Q1 eq_refl He) as (inv & I0 & HI).
  destruct (HI q x I0 Hx') as (q1 & a & E1 & _ & HM). rewrite E1 in E. cbn [snd] in E.
  exists q', a. split; [exact E|]. split; [split; [exact R1|split; congruence]|]. rewrite Q2, Q3 in HM. exact HM.
Qed.
Lemma lmi_old_accepted {St} (sp : space_ops RA St (vec RA) (cut RA)) opt m (o : lmi RA) s o' s' x k : lmi_wf m o ->
  cutting_plane_feas lmi_old_assess_feas sp opt o s = (o', s', Ok (Some x, k)) -> length x = length (mat_f o) ->
  posdef m (lmi_at (mat_f o) (mat_f0 o) (fv x)).
Proof.
  intros Ho H Hx. unfold cutting_plane_feas in H.
  destruct (feas_loop_inv (fun q => lmi_wf m q /\ mat_f q = mat_f o /\ mat_f0 q = mat_f0 o) _ _ _
    ltac:(intros q y q' c (Q1 & Q2 & Q3) E; destruct (old_keeps m q y q' _ Q1 E) as (R1 & R2 & R3);
      split; [exact R1|split; congruence]) _ _ _ _ _ _ _ _ (conj Ho (conj eq_refl eq_refl)) H)
    as (o1 & (Q1 & Q2 & Q3) & E).
  destruct (old_call m o1 x Q1 ltac:(rewrite Q2; exact Hx)) as (q' & E' & _). rewrite E in E'. injection E' as _ E'.
  destruct (lmi_assess_feas o1 x) as [q1 r1] eqn:E1. cbn [snd] in E'.
  destruct (lmi_decides m o1 x q1 r1 Q1 E1) as (_ & D & _). rewrite <- Q2, <- Q3. apply D. symmetry. exact E'.
Qed.

Section Conv.
Variables (m n : nat) (p : bool) (k : R) (x0 : vec RA) (c : nat -> R) (r eps : R) (opt : options RA).
Hypotheses (Hx : vec_wf n x0) (Hk : 0 < k) (Hr : 0 < r) (He : 0 < eps) (Ht : tolerance opt <= eps * eps)
  (HI : INR n * (INR n + 1) * ln (k / (r * r)) < IZR (max_iters opt)).

Lemma lmi_ell_converges (o : lmi RA) (e0 : ell RA) : lmi_wf m o -> length (mat_f o) = n ->
  ell_init (@VScalar RA k) x0 = Ok e0 ->
  (forall z, ball n c r z -> ball n (fv x0) (sqrt k) z /\ above m eps (lmi_at (mat_f o) (mat_f0 o) z)) ->
  exists o' e' x j, cutting_plane_feas lmi_assess_feas (ell_space RA) opt o (ell_set_parallel e0 p) = (o', e', Ok (Some x, j)) /\
    vec_wf n x /\ posdef m (lmi_at (mat_f o) (mat_f0 o) (fv x)) /\ IZR j <= INR n * (INR n + 1) * ln (k / (r * r)).
Proof.
  intros Ho Hn E Hb.
  destruct (ell_feas_ball_m n p k x0 e0 c r eps opt _ lmi_assess_feas _ o E Hx Hk Hr He Hb (lmi_margin m n p eps o Ho Hn ltac:(lra)) Ht HI)
    as (o' & e' & x & j & H1 & H2 & H3).
  exists o', e', x, j. split; [exact H1|]. split; [exact H2|]. split; [|exact H3]. exact (lmi_accepted _ _ m o _ _ _ _ _ Ho H1).
Qed.

Lemma lmi_stable_converges (o : lmi RA) (s0 : stable RA) : lmi_wf m o -> length (mat_f o) = n ->
  stable_init (@VScalar RA k) x0 = Ok s0 ->
  (forall z, ball n c r z -> ball n (fv x0) (sqrt k) z /\ above m eps (lmi_at (mat_f o) (mat_f0 o) z)) ->
  exists o' s' x j, cutting_plane_feas lmi_assess_feas (stable_space RA) opt o (stable_set_parallel s0 p) = (o', s', Ok (Some x, j)) /\
    vec_wf n x /\ posdef m (lmi_at (mat_f o) (mat_f0 o) (fv x)) /\ IZR j <= INR n * (INR n + 1) * ln (k / (r * r)).
Proof.
  intros Ho Hn E Hb.
  destruct (stable_feas_ball_m n p k x0 s0 c r eps opt _ lmi_assess_feas _ o E Hx Hk Hr He Hb (lmi_margin m n p eps o Ho Hn ltac:(lra)) Ht HI)
    as (o' & e' & x & j & H1 & H2 & H3).
  exists o', e', x, j. split; [exact H1|]. split; [exact H2|]. split; [|exact H3]. exact (lmi_accepted _ _ m o _ _ _ _ _ Ho H1).
Qed.

Lemma lmi0_ell_converges (o : lmi0 RA) (e0 : ell RA) : lmi0_wf m o -> length (mat0_f o) = n ->
  ell_init (@VScalar RA k) x0 = Ok e0 ->
  (forall z, ball n c r z -> ball n (fv x0) (sqrt k) z /\ above m eps (lmi0_at (mat0_f o) z)) ->
  exists o' e' x j, cutting_plane_feas lmi0_assess_feas (ell_space RA) opt o (ell_set_parallel e0 p) = (o', e', Ok (Some x, j)) /\
    vec_wf n x /\ posdef m (lmi0_at (mat0_f o) (fv x)) /\ IZR j <= INR n * (INR n + 1) * ln (k / (r * r)).
Proof.
  intros Ho Hn E Hb.
  destruct (ell_feas_ball_m n p k x0 e0 c r eps opt _ lmi0_assess_feas _ o E Hx Hk Hr He Hb (lmi0_margin m n p eps o Ho Hn ltac:(lra)) Ht HI)
    as (o' & e' & x & j & H1 & H2 & H3).
  exists o', e', x, j. split; [exact H1|]. split; [exact H2|]. split; [|exact H3]. apply (lmi0_accepted _ _ m o _ _ _ _ _ Ho H1).
  unfold vec_wf in H2. change (num RA) with R in *. lia.
Qed.

Lemma lmi0_stable_converges (o : lmi0 RA) (s0 : stable RA) : lmi0_wf m o -> length (mat0_f o) = n ->
  stable_init (@VScalar RA k) x0 = Ok s0 ->
  (forall z, ball n c r z -> ball n (fv x0) (sqrt k) z /\ above m eps (lmi0_at (mat0_f o) z)) ->
  exists o' s' x j, cutting_plane_feas lmi0_assess_feas (stable_space RA) opt o (stable_set_parallel s0 p) = (o', s', Ok (Some x, j)) /\
    vec_wf n x /\ posdef m (lmi0_at (mat0_f o) (fv x)) /\ IZR j <= INR n * (INR n + 1) * ln (k / (r * r)).
Proof.
  intros Ho Hn E Hb.
  destruct (stable_feas_ball_m n p k x0 s0 c r eps opt _ lmi0_assess_feas _ o E Hx Hk Hr He Hb (lmi0_margin m n p eps o Ho Hn ltac:(lra)) Ht HI)
    as (o' & e' & x & j & H1 & H2 & H3).
  exists o', e', x, j. split; [exact H1|]. split; [exact H2|]. split; [|exact H3]. apply (lmi0_accepted _ _ m o _ _ _ _ _ Ho H1).
  unfold vec_wf in H2. change (num RA) with R in *. lia.
Qed.

Lemma lmi_old_ell_converges (o : lmi RA) (e0 : ell RA) : lmi_wf m o -> length (mat_f o) = n ->
  ell_init (@VScalar RA k) x0 = Ok e0 ->
  (forall z, ball n c r z -> ball n (fv x0) (sqrt k) z /\ above m eps (lmi_at (mat_f o) (mat_f0 o) z)) ->
  exists o' e' x j, cutting_plane_feas lmi_old_assess_feas (ell_space RA) opt o (ell_set_parallel e0 p) = (o', e', Ok (Some x, j)) /\
    vec_wf n x /\ posdef m (lmi_at (mat_f o) (mat_f0 o) (fv x)) /\ IZR j <= INR n * (INR n + 1) * ln (k / (r * r)).
Proof.
  intros Ho Hn E Hb.
  destruct (ell_feas_ball_m n p k x0 e0 c r eps opt _ lmi_old_assess_feas _ o E Hx Hk Hr He Hb (lmi_old_margin m n p eps o Ho Hn ltac:(lra)) Ht HI)
    as (o' & e' & x & j & H1 & H2 & H3).
  exists o', e', x, j. split; [exact H1|]. split; [exact H2|]. split; [|exact H3]. apply (lmi_old_accepted _ _ m o _ _ _ _ _ Ho H1). rewrite Hn. exact H2.
Qed.

Lemma lmi_old_stable_converges (o : lmi RA) (s0 : stable RA) : lmi_wf m o -> length (mat_f o) = n ->
  stable_init (@VScalar RA k) x0 = Ok s0 ->
  (forall z, ball n c r z -> ball n (fv x0) (sqrt k) z /\ above m eps (lmi_at (mat_f o) (mat_f0 o) z)) ->
  exists o' s' x j, cutting_plane_feas lmi_old_assess_feas (stable_space RA) opt o (stable_set_parallel s0 p) = (o', s', Ok (Some x, j)) /\
    vec_wf n x /\ posdef m (lmi_at (mat_f o) (mat_f0 o) (fv x)) /\ IZR j <= INR n * (INR n + 1) * ln (k / (r * r)).
Proof.
  intros Ho Hn E Hb.
  destruct (stable_feas_ball_m n p k x0 s0 c r eps opt _ lmi_old_assess_feas _ o E Hx Hk Hr He Hb (lmi_old_margin m n p eps o Ho Hn ltac:(lra)) Ht HI)
    as (o' & e' & x & j & H1 & H2 & H3).
  exists o', e', x, j. split; [exact H1|]. split; [exact H2|]. split; [|exact H3]. apply (lmi_old_accepted _ _ m o _ _ _ _ _ Ho H1). rewrite Hn. exact H2.
Qed.
End Conv.
