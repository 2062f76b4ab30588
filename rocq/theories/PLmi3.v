(** The LMI oracle under the feasibility driver. *)
From Coq Require Import Reals List Arith Lia Lra Bool ZArith.
From Verif Require Import Arith Vec ModelCalc ModelEll ModelStable ModelLdlt ModelLmi ModelCut ModelSpaces
  SpecDrivers Spec SpecCut SpecEll SpecSearch SpecStable SpecLdlt PSum PCalc PVec PEll PEll2 PEll3 PEllEx PSearchEx PTarget PSearch PSearchStable PLdlt4 PLmi.
Import ListNotations.
Local Open Scope R_scope.

Lemma feas_loop_inv {Orc St V C} {A : Arith} (inv : Orc -> Prop) (f : Orc -> V -> Orc * res (option C)) (sp : space_ops A St V C) opt :
  (forall o x o' c, inv o -> f o x = (o', Ok (Some c)) -> inv o') ->
  forall fuel k o s o' s' x m, inv o -> feas_loop f sp opt fuel k o s = (o', s', Ok (Some x, m)) ->
  exists o1, inv o1 /\ f o1 x = (o', Ok None).
Proof.
  intros HI. induction fuel as [|fuel IH]; intros k o s o' s' x m Ho H; cbn [feas_loop] in H; [discriminate|].
  destruct (f o (sp_xc sp s)) as [o1 [[c|]|e]] eqn:E.
  - destruct (sp_bias sp c s) as [s1 [st|e]]; [|discriminate]. destruct (stop_test _ _ _ _); [discriminate|].
    apply (IH _ _ _ _ _ _ _ (HI _ _ _ _ Ho E) H).
  - injection H as <- _ <- _. exists o. auto.
  - discriminate.
Qed.

Lemma lmi_accepted {St} (sp : space_ops RA St (vec RA) (cut RA)) opt m (o : lmi RA) s o' s' x k : lmi_wf m o ->
  cutting_plane_feas lmi_assess_feas sp opt o s = (o', s', Ok (Some x, k)) ->
  posdef m (lmi_at (mat_f o) (mat_f0 o) (fv x)).
Proof.
  intros Ho H. unfold cutting_plane_feas in H.
  destruct (feas_loop_inv (fun q => lmi_wf m q /\ mat_f q = mat_f o /\ mat_f0 q = mat_f0 o) _ _ _
    ltac:(intros q y q' c (Q1 & Q2 & Q3) E; destruct (lmi_decides m q y q' _ Q1 E) as (_ & _ & R1 & R2 & R3);
      split; [exact R1|split; congruence]) _ _ _ _ _ _ _ _ (conj Ho (conj eq_refl eq_refl)) H)
    as (o1 & (Q1 & Q2 & Q3) & E).
  destruct (lmi_decides m o1 x o' _ Q1 E) as (_ & D & _). rewrite <- Q2, <- Q3. apply D. reflexivity.
Qed.

Lemma lmi_feas_oracle m p (o : lmi RA) : lmi_wf m o ->
  feas_oracle (length (mat_f o)) p (fun y => possemidef m (lmi_at (mat_f o) (mat_f0 o) y)) lmi_assess_feas o.
Proof.
  intros Ho. exists (fun q => lmi_wf m q /\ mat_f q = mat_f o /\ mat_f0 q = mat_f0 o).
  split; [auto|]. intros q x q' [g be] (Q1 & Q2 & Q3) E.
  destruct (lmi_decides m q x q' _ Q1 E) as (_ & _ & R1 & R2 & R3). split; [split; [exact R1|split; congruence]|].
  destruct (lmi_cut m q x q' g be Q1 E) as (_ & ep & -> & He & HC). rewrite Q2, Q3 in HC. split.
  - intros _. right. exists ep. auto.
  - intros y Hy. cbn [fst snd]. unfold cut_holds; cbn [first_beta second_beta]. split; [|exact I].
    specialize (HC y Hy). change (num RA) with R in *. lra.
Qed.

Lemma lmi_ell_infeasible m n p opt (o : lmi RA) (e : ell RA) o' e' l u r :
  lmi_wf m o -> length (mat_f o) = n -> psd_ell n p e ->
  cutting_plane_feas (logged_feas lmi_assess_feas) (logged_space (ell_space RA)) opt (o, []) (e, []) = ((o', l), (e', u), r) ->
  said_nosoln u -> forall y, ell_in n e y -> ~ possemidef m (lmi_at (mat_f o) (mat_f0 o) y).
Proof.
  intros Ho <- He H. exact (ell_feas_infeasible _ p opt _ _ _ o e o' e' l u r He (lmi_feas_oracle m p o Ho) H).
Qed.

Lemma lmi_ell_small m n p opt (o : lmi RA) (e : ell RA) o' e' l u k :
  lmi_wf m o -> length (mat_f o) = n -> psd_ell n p e ->
  cutting_plane_feas (logged_feas lmi_assess_feas) (logged_space (ell_space RA)) opt (o, []) (e, [])
    = ((o', l), (e', u), Ok (None, k)) ->
  stopped_small opt u -> forall y, ell_in n e y -> possemidef m (lmi_at (mat_f o) (mat_f0 o) y) ->
  exists x a l' ev u', l = (x, a) :: l' /\ u = ev :: u' /\
    cutval n (fv (fst (ev_cut ev))) (fv x) y * cutval n (fv (fst (ev_cut ev))) (fv x) y < tolerance opt.
Proof.
  intros Ho <- He H Hs y Hy HP. exact (ell_feas_small _ p opt _ _ _ o e o' e' l u k He (lmi_feas_oracle m p o Ho) H Hs y HP Hy).
Qed.

Lemma lmi_stable_infeasible m n p opt (o : lmi RA) (e : stable RA) o' e' l u r :
  lmi_wf m o -> length (mat_f o) = n -> stable_sound n p e ->
  cutting_plane_feas (logged_feas lmi_assess_feas) (logged_space (stable_space RA)) opt (o, []) (e, []) = ((o', l), (e', u), r) ->
  said_nosoln u -> forall y, stable_in n e y -> ~ possemidef m (lmi_at (mat_f o) (mat_f0 o) y).
Proof.
  intros Ho <- He H. exact (stable_feas_infeasible _ p opt _ _ _ o e o' e' l u r He (lmi_feas_oracle m p o Ho) H).
Qed.

(** A hopeless inequality whose gradient vanishes. *)
Definition bad_lmi : lmi RA := lmi_init (A:=RA) [[[0]]; [[0]]] [[-1]].

Lemma bad_lmi_wf : lmi_wf 1 bad_lmi.
Proof.
  assert (S1 : forall a : R, sym_mat 1 [[a]]).
  { intros a. split.
    - split; [reflexivity|]. intros [|i] Hi; [reflexivity|lia].
    - intros [|i] [|j] Hi Hj; try lia. reflexivity. }
  split; [apply S1|]. split; [|apply (init_wf 1)]. repeat constructor; apply S1.
Qed.

Lemma bad_lmi_call (x : vec RA) : (length x = 2)%nat -> exists o' g ep, lmi_assess_feas bad_lmi x = (o', Ok (Some (g, @CSingle RA ep))) /\
  length g = 2%nat /\ ~ nonzero 2 (fv g) /\ 0 < ep.
Proof.
  intros Hx. destruct x as [|x0 [|x1 [|x2 x]]]; try discriminate.
  destruct (lmi_assess_feas bad_lmi [x0; x1]) as [o' r] eqn:E.
  destruct (lmi_call 1 _ _ _ _ bad_lmi_wf E) as (_ & _ & _ & [[_ HP]|(v & g & ep & -> & _ & He & Hv & HQ & Hg & HG)]).
  - exfalso. specialize (HP (fun _ => 1)). assert (HN : nonzero 1 (fun _ => 1)) by (exists 0%nat; split; [lia|lra]).
    specialize (HP HN). rewrite quad_lmi in HP. unfold quad, bil, dot, mv, sumn, fm, bad_lmi in HP. cbn in HP. lra.
  - exists o', g, ep. split; [reflexivity|]. split; [exact Hg|]. split.
    + intros (k & Hk & Hnz). apply Hnz. rewrite HG by exact Hk.
      destruct k as [|[|k]]; [| |lia]; unfold quad, bil, dot, mv, sumn, fm, bad_lmi; cbn; ring.
    + rewrite quad_lmi in HQ. unfold quad, bil, dot, mv, sumn, fm, bad_lmi in HQ. cbn in HQ.
      unfold dot, sumn in Hv. change (num RA) with R in *. lra.
Qed.

Lemma bad_lmi_crash opt (e : ell RA) : (0 < budget opt)%nat -> vec_wf 2 (xc e) -> exists o' e',
  cutting_plane_feas lmi_assess_feas (ell_space RA) opt bad_lmi e = (o', e', Err ValueError).
Proof.
  intros Hb Hx. unfold cutting_plane_feas. destruct (budget opt) as [|b]; [lia|]. cbn [feas_loop].
  destruct (bad_lmi_call (xc e) Hx) as (o' & g & ep & E & Hg & Hz & _).
  change (sp_xc (ell_space RA) e) with (xc e). rewrite E.
  change (sp_bias (ell_space RA) (g, @CSingle RA ep) e) with (ell_update OpBias (g, @CSingle RA ep) e).
  rewrite zero_gradient; [eexists; eexists; reflexivity|].
  intros Hn. apply Hz. assert (EL : @length R g = 2%nat) by exact Hg. rewrite <- EL. exact Hn.
Qed.

(** [x0 < -3], against the disc of radius 2 *)
Definition far_lmi : lmi RA := lmi_init (A:=RA) [[[1]]; [[0]]] [[-3]].

Lemma sym1 (a : R) : sym_mat 1 [[a]].
Proof.
  split.
  - split; [reflexivity|]. intros [|i] Hi; [reflexivity|lia].
  - intros [|i] [|j] Hi Hj; try lia. reflexivity.
Qed.

Lemma far_lmi_wf : lmi_wf 1 far_lmi.
Proof. split; [apply sym1|]. split; [|apply (init_wf 1)]. repeat constructor; apply sym1. Qed.

Lemma far_call : exists o', lmi_assess_feas far_lmi (xc e4) = (o', Ok (Some ct3)).
Proof.
  unfold lmi_assess_feas, factor. cbn [far_lmi lmi_init ldlt_mgr ldlt_init l_ndim length seq storage mat_f mat_f0 factor_loop].
  unfold factor_row at 1. cbn [Nat.sub seq fold_left].
  match goal with |- context [@aleb RA ?x azero] => set (d := x); change (@aleb RA d azero) with (Rleb d 0) end.
  assert (Hd : d = -3) by (unfold d; cbn; lra).
  rewrite Rleb_true by lra. unfold is_spd. cbn [pos snd Nat.eqb].
  unfold witness, is_spd. cbn [pos snd Nat.eqb Nat.sub seq rev fold_left bind map].
  eexists. unfold ct3, g1. do 3 f_equal.
  apply f_equal2.
  - unfold sym_quad, vdot, mvmul, vslice, vsum. cbn.
    apply f_equal2; [lra|]. apply f_equal2; [lra|reflexivity].
  - f_equal. unfold mget, vget, mset, mzeros, vzeros. cbn [repeat nth upd vset]. rewrite Hd. cbn. lra.
Qed.

Lemma far_run : exists o' l u e',
  cutting_plane_feas (logged_feas lmi_assess_feas) (logged_space (ell_space RA)) opt5 (far_lmi, []) (e4, [])
    = ((o', l), (e', u), Ok (None, 0%Z)) /\ said_nosoln u.
Proof.
  unfold cutting_plane_feas. change (budget opt5) with 5%nat. cbn [feas_loop].
  unfold logged_feas at 1. cbn [fst snd]. change (sp_xc (logged_space (ell_space RA)) (e4, [])) with (xc e4).
  destruct far_call as [o' E]. rewrite E.
  change (sp_bias (logged_space (ell_space RA)) ct3 (e4, [])) with
    (log_upd OpBias (ell_update OpBias) (@tsq RA) ct3 (e4, [])).
  unfold log_upd. cbn [fst snd]. rewrite e4_update3. cbn [stop_test].
  do 4 eexists. split; [reflexivity|]. eexists. split; [left; reflexivity|reflexivity].
Qed.

(** the example of the docstring: [2 I - x0 I - x1 J] *)
Definition doc_lmi : lmi RA := lmi_init (A:=RA) [[[1; 0]; [0; 1]]; [[0; 1]; [1; 0]]] [[2; 0]; [0; 2]].
Definition doc_lmi0 : lmi0 RA := mkLmi0 (A:=RA) [[[1; 0]; [0; 1]]; [[0; 1]; [1; 0]]] (ldlt_init 2).

Lemma sym_22 (a b c : R) : sym_mat 2 [[a; b]; [b; c]].
Proof.
  split.
  - split; [reflexivity|]. intros [|[|i]] Hi; [reflexivity|reflexivity|lia].
  - intros [|[|i]] [|[|j]] Hi Hj; try lia; reflexivity.
Qed.
Lemma doc_lmi_wf : lmi_wf 2 doc_lmi.
Proof. split; [apply sym_22|]. split; [|apply (init_wf 2)]. repeat constructor; apply sym_22. Qed.
Lemma doc_lmi0_wf : lmi0_wf 2 doc_lmi0.
Proof. split; [|apply (init_wf 2)]. repeat constructor; apply sym_22. Qed.
Lemma doc_lmi0_init : lmi0_init (A:=RA) [[[1; 0]; [0; 1]]; [[0; 1]; [1; 0]]] = Ok doc_lmi0.
Proof. reflexivity. Qed.

(** (0, 0) is inside, (3, 0) is not *)
Lemma doc_lmi_in : posdef 2 (lmi_at (mat_f doc_lmi) (mat_f0 doc_lmi) (fv [0; 0])).
Proof.
  intros v Hv. rewrite quad_lmi. unfold quad, bil, dot, mv, sumn, fm, fv, doc_lmi. cbn.
  destruct Hv as (i & Hi & Hv). pose proof (Rle_0_sqr (v O)) as H0. pose proof (Rle_0_sqr (v 1%nat)) as H1.
  pose proof (Rsqr_pos_lt _ Hv) as H2. unfold Rsqr in *. destruct i as [|[|i]]; [lra|lra|lia].
Qed.
Lemma doc_lmi_out : ~ posdef 2 (lmi_at (mat_f doc_lmi) (mat_f0 doc_lmi) (fv [3; 0])).
Proof.
  intros H. specialize (H (fun _ => 1)). assert (HN : nonzero 2 (fun _ => 1)) by (exists 0%nat; split; [lia|lra]).
  specialize (H HN). rewrite quad_lmi in H. unfold quad, bil, dot, mv, sumn, fm, fv, doc_lmi in H. cbn in H. lra.
Qed.
Lemma doc_lmi_cut : exists o' g be, lmi_assess_feas doc_lmi (@cons R 3 [0]) = (o', Ok (Some (g, be))).
Proof.
  destruct (lmi_assess_feas doc_lmi (@cons R 3 [0])) as [o' r] eqn:E.
  destruct (lmi_decides 2 _ _ _ _ doc_lmi_wf E) as ([a ->] & D & _).
  destruct a as [[g be]|]; [eauto|]. exfalso. apply doc_lmi_out. apply D. reflexivity.
Qed.
Lemma doc_lmi0_out : ~ posdef 2 (lmi0_at (mat0_f doc_lmi0) (fv [-1; 0])).
Proof.
  intros H. specialize (H (fun _ => 1)). assert (HN : nonzero 2 (fun _ => 1)) by (exists 0%nat; split; [lia|lra]).
  specialize (H HN). rewrite quad_lmi0 in H. unfold quad, bil, dot, mv, sumn, fm, fv, doc_lmi0 in H. cbn in H. lra.
Qed.
Lemma doc_lmi0_cut : exists o' g be, lmi0_assess_feas doc_lmi0 (@cons R (-1) [0]) = (o', Ok (Some (g, be))).
Proof.
  destruct (lmi0_assess_feas doc_lmi0 (@cons R (-1) [0])) as [o' r] eqn:E.
  destruct (lmi0_decides 2 _ (@cons R (-1) [0]) _ _ doc_lmi0_wf (le_n 2) E) as ([a ->] & D & _).
  destruct a as [[g be]|]; [eauto|]. exfalso. apply doc_lmi0_out. apply D. reflexivity.
Qed.

(** ** Constructors and shape errors *)
Lemma lmi_init_wf m (f : list (mat RA)) (b : mat RA) : sym_mat m b -> Forall (sym_mat m) f ->
  lmi_wf m (lmi_init f b) /\ mat_f (lmi_init f b) = f /\ mat_f0 (lmi_init f b) = b.
Proof.
  intros B F. split; [|split; reflexivity]. split; [exact B|]. split; [exact F|].
  destruct B as ((L & _) & _). subst m. apply init_wf.
Qed.
Lemma lmi0_init_wf m (f : list (mat RA)) : f <> [] -> Forall (sym_mat m) f ->
  exists o, lmi0_init f = Ok o /\ lmi0_wf m o /\ mat0_f o = f.
Proof.
  intros N F. destruct f as [|f0 f]; [congruence|]. eexists. split; [reflexivity|]. split; [|reflexivity].
  split; [exact F|]. cbn [ldlt0_mgr]. inversion F as [|? ? ((L & _) & _) _]; subst. apply init_wf.
Qed.
Lemma lmi_old_too_long (A : Arith) (o : lmi A) x : (length (mat_f o) < length x)%nat ->
  lmi_old_assess_feas o x = (o, Err IndexError).
Proof. intros H. unfold lmi_old_assess_feas. apply Nat.ltb_lt in H. rewrite H. reflexivity. Qed.
