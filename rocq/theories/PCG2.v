(** The model of [conjugate_gradient] follows the documented recurrences. *)
From Coq Require Import Reals List Arith ZArith Lia Lra Bool.
From Verif Require Import Arith Vec Broadcast PBroadcast ModelCG Spec SpecCG PCalc PAlg PSum PVec PLdlt PCG.
Import ListNotations.
Local Open Scope R_scope.

Lemma aeqb_R (x y : R) : reflect (x = y) (aeqb (a:=RA) x y).
Proof. exact (Reqb_spec x y). Qed.
Lemma altb_R (x y : R) : reflect (x < y) (altb (a:=RA) x y).
Proof. exact (Rltb_spec x y). Qed.
Lemma aleb_R (x y : R) : reflect (x <= y) (aleb (a:=RA) x y).
Proof. exact (Rleb_spec x y). Qed.

Section Run.
Variables (n : nat) (M : mat RA) (b x0 : nat -> R) (tol : R).
Hypothesis MW : mat_wf n M.
Let S k := cg n (fm M) b x0 k.

Definition agree (l : vec RA) (f : nat -> R) : Prop := length l = n /\ forall i, (i < n)%nat -> fv l i = f i.

Lemma agree_dot l f : agree l f -> vdot l l = dot n f f.
Proof. intros (L & E). rewrite (vdot_R n) by exact L. apply dot_ext; exact E. Qed.
Lemma agree_mv l f : agree l f -> agree (mvmul M l) (mv n (fm M) f).
Proof.
  intros (L & E). split; [rewrite mvmul_length; apply MW|]. intros i Hi. rewrite (mvmul_R n) by auto.
  apply mv_ext; auto.
Qed.
Lemma agree_add l f k g c : agree l f -> agree k g -> agree (vadd l (vscale (A:=RA) c k)) (fun i => f i + c * g i).
Proof.
  intros (L & E) (L' & E'). assert (LL : length l = length (vscale (A:=RA) c k)) by (rewrite vscale_length; congruence).
  split; [rewrite vadd_length; [exact L|exact LL]|]. intros i Hi.
  assert (i < length l)%nat by (rewrite L; exact Hi). assert (i < length k)%nat by (rewrite L'; exact Hi).
  rewrite vadd_R by assumption. rewrite vscale_R by assumption. rewrite E, E' by exact Hi. reflexivity.
Qed.
Lemma agree_sub l f k g c : agree l f -> agree k g -> agree (vsub l (vscale (A:=RA) c k)) (fun i => f i - c * g i).
Proof.
  intros (L & E) (L' & E'). assert (LL : length l = length (vscale (A:=RA) c k)) by (rewrite vscale_length; congruence).
  split; [rewrite vsub_length; [exact L|exact LL]|]. intros i Hi.
  assert (i < length l)%nat by (rewrite L; exact Hi). assert (i < length k)%nat by (rewrite L'; exact Hi).
  rewrite vsub_R by assumption. rewrite vscale_R by assumption. rewrite E, E' by exact Hi. reflexivity.
Qed.

Definition hit (m : nat) : Prop := cg_first n (fm M) b x0 tol m /\ norm n (cg_r (S m)) < tol.

Lemma hit_unique m m' : (1 <= m)%nat -> (1 <= m')%nat -> hit m -> hit m' -> m = m'.
Proof.
  assert (H : forall a c, (1 <= a)%nat -> hit a -> hit c -> ~ (a < c)%nat).
  { intros a c Ha (_ & N) ((F & _) & _) L. specialize (F a (conj Ha L)). fold (S a) in F. lra. }
  intros L L' Hm Hm'. destruct (Nat.lt_trichotomy m m') as [Q|[Q|Q]]; auto; exfalso; [apply (H m m')|apply (H m' m)]; auto.
Qed.

Lemma loop_spec : forall fuel k sol rs dir,
  agree sol (cg_x (S k)) -> agree rs (cg_r (S k)) -> agree dir (cg_p (S k)) ->
  (forall j, (1 <= j <= k)%nat -> tol <= norm n (cg_r (S j))) ->
  (forall j, (j < k)%nat -> quad n (fm M) (cg_p (S j)) <> 0) ->
  match cg_loop fuel M tol sol rs dir (dot n (cg_r (S k)) (cg_r (S k))) with
  | Ok x => exists m, (k < m <= k + fuel)%nat /\ hit m /\ agree x (cg_x (S m))
  | Err e => e = ValueError /\ forall m, (1 <= m <= k + fuel)%nat -> ~ hit m
  end.
Proof.
  induction fuel as [|fuel IH]; intros k sol rs dir Ax Ar Ap Hn Hq.
  - cbn. split; [reflexivity|]. intros m Hm (_ & N). specialize (Hn m ltac:(lia)). lra.
  - cbn [cg_loop].
    assert (Ad := agree_mv _ _ Ap).
    assert (Q : vdot dir (mvmul M dir) = quad n (fm M) (cg_p (S k))).
    { rewrite (vdot_R n) by (apply Ap || apply Ad). unfold quad, bil. apply dot_ext; [apply Ap|apply Ad]. }
    rewrite Q. change (azero (a:=RA)) with 0. destruct (aeqb_R (quad n (fm M) (cg_p (S k))) 0) as [Ez|Ez].
    + split; [reflexivity|]. intros m Hm ((F1 & F2) & N).
      destruct (le_lt_dec m k) as [L|L]; [specialize (Hn m ltac:(lia)); lra|]. exact (F2 k L Ez).
    + set (al := adiv (a:=RA) (dot n (cg_r (S k)) (cg_r (S k))) (quad n (fm M) (cg_p (S k)))).
      assert (Ax' : agree (vadd sol (vscale al dir)) (cg_x (S (Datatypes.S k)))) by (apply agree_add; assumption).
      assert (Ar' : agree (vsub rs (vscale al (mvmul M dir))) (cg_r (S (Datatypes.S k)))) by (apply agree_sub; assumption).
      rewrite (agree_dot _ _ Ar').
      assert (Hq' : forall j, (j < Datatypes.S k)%nat -> quad n (fm M) (cg_p (S j)) <> 0).
      { intros j Hj. destruct (Nat.eq_dec j k) as [->|D]; [exact Ez|apply Hq; lia]. }
      match goal with |- context [altb (a:=RA) ?v tol] => destruct (altb_R v tol) as [Et|Et] end.
      * exists (Datatypes.S k). split; [lia|]. split; [|exact Ax']. split; [split|exact Et].
        -- intros j Hj. apply Hn. lia.
        -- exact Hq'.
      * apply Rnot_lt_le in Et.
        set (rs' := vsub rs (vscale al (mvmul M dir))) in *.
        specialize (IH (Datatypes.S k) (vadd sol (vscale al dir)) rs'
          (vadd rs' (vscale (adiv (a:=RA) (dot n (cg_r (S (Datatypes.S k))) (cg_r (S (Datatypes.S k)))) (dot n (cg_r (S k)) (cg_r (S k)))) dir)) Ax' Ar').
        replace (k + Datatypes.S fuel)%nat with (Datatypes.S k + fuel)%nat by lia.
        destruct (cg_loop fuel M tol _ rs' _ _) as [x|e] eqn:El.
        -- destruct IH as (m & Hm & Hh & Hx).
           ++ apply agree_add; assumption.
           ++ intros j Hj. destruct (Nat.eq_dec j (Datatypes.S k)) as [->|D]; [exact Et|apply Hn; lia].
           ++ exact Hq'.
           ++ exists m. split; [lia|]. auto.
        -- apply IH; auto.
           ++ apply agree_add; assumption.
           ++ intros j Hj. destruct (Nat.eq_dec j (Datatypes.S k)) as [->|D]; [exact Et|apply Hn; lia].
Qed.
End Run.

(** shapes, in any arithmetic *)
Section Shapes.
Context {A : Arith}.
Implicit Types (M : mat A) (b : vec A).

Lemma cg_open n M b x0 tol it (sol : vec A) : sol = match x0 with None => vzeros (length b) | Some x => x end ->
  length M = n -> Forall (fun row => length row = n) M -> length sol = n -> length b = n ->
  conjugate_gradient M b x0 tol it =
  cg_loop (Z.to_nat it) M tol sol (vsub b (mvmul M sol)) (vsub b (mvmul M sol)) (vdot (vsub b (mvmul M sol)) (vsub b (mvmul M sol))).
Proof.
  intros Es LM FM Ls Lb. unfold conjugate_gradient. rewrite <- Es, LM, Ls, Nat.eqb_refl. cbn [andb].
  replace (forallb _ M) with true
    by (symmetry; apply forallb_forall; intros row Hr; apply Nat.eqb_eq; rewrite Forall_forall in FM; exact (FM row Hr)).
  assert (Lm : length b = length (mvmul M sol)) by (unfold mvmul; rewrite map_length; exact (eq_trans Lb (eq_sym LM))).
  rewrite bcast2_eq by exact Lm. cbn [bind]. change (map2 asub b (mvmul M sol)) with (vsub b (mvmul M sol)).
  replace (Nat.eqb (length (vsub b (mvmul M sol))) n) with true; [reflexivity|].
  symmetry. apply Nat.eqb_eq. unfold vsub. rewrite map2_length by exact Lm. exact Lb.
Qed.

Lemma cg_stretch M (c : num A) (x : vec A) tol it : length M = length x ->
  conjugate_gradient M [c] (Some x) tol it = conjugate_gradient M (repeat c (length x)) (Some x) tol it.
Proof.
  intros L. unfold conjugate_gradient. destruct (_ && _); [|reflexivity].
  rewrite (bcast_one asub c (mvmul M x) (length x)) by (unfold mvmul; rewrite map_length; exact L). reflexivity.
Qed.

Lemma bcast_only_value (f : num A -> num A -> num A) u v e : bcast2 f u v = Err e -> e = ValueError.
Proof.
  unfold bcast2. destruct (Nat.eqb _ _); [discriminate|].
  destruct u as [|b0 [|b1 b]]; destruct v as [|m0 [|m1 m]]; intros E; try discriminate; injection E as <-; reflexivity.
Qed.

Lemma cg_misfit M b x0 tol it (n := match x0 with None => length b | Some x => length x end) :
  (length M <> n \/ Exists (fun row => length row <> n) M \/ length b <> n /\ length b <> 1%nat) ->
  conjugate_gradient M b x0 tol it = Err ValueError.
Proof.
  intros H. unfold conjugate_gradient. cbv zeta.
  match goal with |- context [Nat.eqb (length M) (@length _ ?s)] => set (sol := s) end.
  match goal with |- context [Nat.eqb (length M) ?s] => assert (Ls : s = n) by (unfold sol, n; destruct x0; [reflexivity|apply repeat_length]) end. rewrite !Ls.
  destruct (Nat.eqb_spec (length M) n) as [L|L]; [|reflexivity]. cbn [andb].
  destruct (forallb (fun row => Nat.eqb (length row) n) M) eqn:F; [|reflexivity].
  destruct H as [H|[H|(H & H1)]]; [contradiction| |].
  - exfalso. rewrite forallb_forall in F. apply Exists_exists in H. destruct H as (row & Hr & N). apply N, Nat.eqb_eq, F, Hr.
  - destruct (bcast2 asub b (mvmul M sol)) as [r|e] eqn:E; cbn [bind].
    + destruct (Nat.eqb_spec (length r) n) as [Lr|_]; [|reflexivity]. exfalso.
      assert (Lm : length (mvmul M sol) = n) by (unfold mvmul; rewrite map_length; exact L).
      generalize dependent (mvmul M sol). intros w E Lm.
      unfold bcast2 in E. destruct (Nat.eqb_spec (length b) (length w)) as [Q|Q]; [congruence|].
      destruct b as [|b0 [|b1 b]]; [|exfalso; apply H1; reflexivity|];
        destruct w as [|m0 [|m1 m]]; try discriminate; injection E as <-; rewrite ?map_length in Lr; cbn [length map] in *; congruence.
    + f_equal. exact (bcast_only_value _ _ _ _ E).
Qed.

Lemma cg_err M b x0 tol it e : conjugate_gradient M b x0 tol it = Err e -> e = ValueError.
Proof.
  unfold conjugate_gradient. destruct (_ && _); [|congruence].
  destruct (bcast2 _ _ _) as [rs|] eqn:Eb; cbn [bind]; [|intros H; injection H as <-; exact (bcast_only_value _ _ _ _ Eb)].
  destruct (Nat.eqb _ _); [|congruence].
  generalize (vdot rs rs). generalize rs at 2. generalize rs. clear Eb rs.
  generalize (match x0 with Some x => x | None => vzeros (length b) end).
  induction (Z.to_nat it) as [|f IH]; intros sol rs dir rr; cbn [cg_loop]; [congruence|].
  destruct (aeqb _ _); [congruence|]. destruct (altb _ _); [discriminate|]. apply IH.
Qed.
End Shapes.

Lemma mat_wf_rows n (M : list (list R)) : mat_wf n M -> Forall (fun row => length row = n) M.
Proof.
  intros (L & Rw). apply Forall_forall. intros row Hr. apply (In_nth _ _ nil) in Hr. destruct Hr as (i & Hi & <-).
  apply Rw. rewrite <- L. exact Hi.
Qed.

Lemma cg_run n (M : mat RA) (b : vec RA) (x0 : option (vec RA)) (tol : R) it : cg_shape n M b x0 ->
  match conjugate_gradient (A:=RA) M b x0 tol it with
  | Ok x => exists k, (1 <= k <= Z.to_nat it)%nat /\ hit n M (fv b) (cg_start x0) tol k /\ agree n x (cg_x (cg n (fm M) (fv b) (cg_start x0) k))
  | Err e => e = ValueError /\ forall k, (1 <= k <= Z.to_nat it)%nat -> ~ hit n M (fv b) (cg_start x0) tol k
  end.
Proof.
  intros (MW & LB & LX). unfold vec_wf in *.
  set (sol := match x0 with None => vzeros (A:=RA) n | Some x => x end).
  assert (As : agree n sol (cg_start x0)).
  { unfold sol. destruct x0 as [x|]; cbn.
    - split; [exact LX|]. intros; reflexivity.
    - split; [apply repeat_length|]. intros i Hi. apply (fv_repeat n 0 i Hi). }
  rewrite (cg_open n M b x0 tol it sol); [|unfold sol; change (@length (num RA) b) with (@length R b); rewrite LB; reflexivity|exact (proj1 MW)|exact (mat_wf_rows n M MW)|exact (proj1 As)|exact LB].
  assert (Ar : agree n (vsub b (mvmul M sol)) (fun i => fv b i - mv n (fm M) (cg_start x0) i)).
  { destruct (agree_mv n M MW _ _ As) as (L & E).
    assert (LL : @length (num RA) b = length (mvmul M sol)) by (rewrite L; exact LB).
    split; [rewrite vsub_length; [exact LB|exact LL]|]. intros i Hi.
    rewrite vsub_R; [|exact LL|change (i < @length R b)%nat; rewrite LB; exact Hi]. rewrite E by exact Hi. reflexivity. }
  rewrite (agree_dot n _ _ Ar).
  assert (P := loop_spec n M (fv b) (cg_start x0) tol MW (Z.to_nat it) 0 sol (vsub b (mvmul M sol)) (vsub b (mvmul M sol)) As Ar Ar).
  cbn [cg cg_r cg_p] in P.
  specialize (P ltac:(intros; lia) ltac:(intros; lia)).
  destruct (cg_loop _ M tol sol _ _ _) as [x|e].
  - destruct P as (m & Hm & H). exists m. split; [lia|exact H].
  - exact P.
Qed.

Lemma norm_ext n u v : (forall i, (i < n)%nat -> u i = v i) -> norm n u = norm n v.
Proof. intros E. unfold norm. f_equal. apply dot_ext; exact E. Qed.

Lemma cg_sound n M b x0 tol it x : cg_shape n M b x0 -> conjugate_gradient (A:=RA) M b x0 tol it = Ok x ->
  vec_wf n x /\ norm n (fun i => fv b i - mv n (fm M) (fv x) i) < tol.
Proof.
  intros Sh E. pose proof (cg_run n M b x0 tol it Sh) as P. rewrite E in P. destruct P as (k & _ & (_ & N) & (L & Ex)).
  split; [exact L|]. erewrite norm_ext; [exact N|]. intros i Hi. cbv beta. rewrite r_true. f_equal.
  apply mv_ext; auto.
Qed.

Lemma cg_first_hit n M b x0 tol it x : cg_shape n M b x0 -> conjugate_gradient (A:=RA) M b x0 tol it = Ok x ->
  exists k, (1 <= Z.of_nat k <= it)%Z /\ cg_first n (fm M) (fv b) (cg_start x0) tol k /\
    norm n (cg_r (cg n (fm M) (fv b) (cg_start x0) k)) < tol /\
    forall i, (i < n)%nat -> fv x i = cg_x (cg n (fm M) (fv b) (cg_start x0) k) i.
Proof.
  intros Sh E. pose proof (cg_run n M b x0 tol it Sh) as P. rewrite E in P. destruct P as (k & Hk & (F & N) & (_ & Ex)).
  exists k. split; [lia|]. auto.
Qed.

Lemma cg_fails n M b x0 tol it e : cg_shape n M b x0 -> conjugate_gradient (A:=RA) M b x0 tol it = Err e ->
  e = ValueError /\ forall k, (1 <= Z.of_nat k <= it)%Z -> cg_first n (fm M) (fv b) (cg_start x0) tol k ->
    tol <= norm n (cg_r (cg n (fm M) (fv b) (cg_start x0) k)).
Proof.
  intros Sh E. pose proof (cg_run n M b x0 tol it Sh) as P. rewrite E in P. destruct P as (V & H).
  split; [exact V|]. intros k Hk F. apply Rnot_lt_le. intros N. apply (H k ltac:(lia)). split; assumption.
Qed.

Lemma cg_nonzero_rr n M b x0 k : quad n M (cg_p (cg n M b x0 k)) <> 0 ->
  0 < dot n (cg_r (cg n M b x0 k)) (cg_r (cg n M b x0 k)).
Proof. apply rr_pos. Qed.

(** C58 *)
Lemma cg_converges n M b x0 tol it : cg_shape n M b x0 -> symmetric n (fm M) -> posdef n (fm M) -> 0 < tol ->
  (exists i, (i < n)%nat /\ mv n (fm M) (cg_start x0) i <> fv b i) -> (Z.of_nat n <= it)%Z ->
  exists x, conjugate_gradient (A:=RA) M b x0 tol it = Ok x.
Proof.
  intros Sh Ms Mp Ht (i & Hi & Ne) Hit.
  destruct (conjugate_gradient (A:=RA) M b x0 tol it) as [x|e] eqn:E; [exists x; reflexivity|]. exfalso.
  destruct (cg_fails n M b x0 tol it e Sh E) as (_ & F).
  destruct (residual_vanishes n (fm M) (fv b) (cg_start x0) Ms Mp) as (k & Hk & Z & P).
  assert (K1 : (1 <= k)%nat).
  { destruct k as [|k]; [|lia]. exfalso. apply Ne.
    assert (Q := sumn_eq_0 n _ (fun m _ => Rle_0_sqr (cg_r (cg n (fm M) (fv b) (cg_start x0) 0) m)) Z i Hi).
    apply Rsqr_0_uniq in Q. cbn in Q. lra. }
  assert (NQ : forall j, (j < k)%nat -> quad n (fm M) (cg_p (cg n (fm M) (fv b) (cg_start x0) j)) <> 0).
  { intros j Hj. apply Rgt_not_eq. destruct (orth_all n (fm M) (fv b) (cg_start x0) Ms Mp j) as (_ & _ & O3).
    - intros j' Hj'. apply P. lia.
    - apply quad_pos; [exact Mp|exact O3|apply P; exact Hj]. }
  (* the first index with a small residual *)
  set (nr := fun j => norm n (cg_r (cg n (fm M) (fv b) (cg_start x0) j))).
  assert (D : forall m, (exists j, (1 <= j <= m)%nat /\ nr j < tol /\ forall j', (1 <= j' < j)%nat -> tol <= nr j') \/ forall j, (1 <= j <= m)%nat -> tol <= nr j).
  { induction m as [|m [(j & Hj & N & B)|B]].
    - right. intros; lia.
    - left. exists j. repeat split; auto; lia.
    - destruct (Rlt_le_dec (nr (S m)) tol) as [L|L].
      + left. exists (S m). repeat split; auto; try lia. intros j' Hj'. apply B. lia.
      + right. intros j Hj. destruct (Nat.eq_dec j (S m)) as [->|N]; [exact L|apply B; lia]. }
  destruct (D k) as [(j & Hj & N & B)|B].
  - assert (C : cg_first n (fm M) (fv b) (cg_start x0) tol j).
    { split; [exact B|]. intros j' Hj'. apply NQ. lia. }
    specialize (F j ltac:(lia) C). unfold nr in N. lra.
  - specialize (B k ltac:(lia)). unfold nr, norm in B. rewrite Z, sqrt_0 in B. lra.
Qed.

(** C59 *)
Lemma cg_exact_start n M b x0 tol it : cg_shape n M b x0 ->
  (forall i, (i < n)%nat -> mv n (fm M) (cg_start x0) i = fv b i) ->
  conjugate_gradient (A:=RA) M b x0 tol it = Err ValueError.
Proof.
  intros Sh Ex. destruct (conjugate_gradient (A:=RA) M b x0 tol it) as [x|e] eqn:E.
  - exfalso. destruct (cg_first_hit n M b x0 tol it x Sh E) as (k & Hk & (_ & Q) & _).
    apply (Q 0%nat ltac:(lia)). apply quad_zero. intros i Hi. cbn. rewrite Ex by exact Hi. ring.
  - destruct (cg_fails n M b x0 tol it e Sh E) as (-> & _). reflexivity.
Qed.
