(** Proofs about the LMI oracles. *)
From Coq Require Import Reals List Arith Lia Lra Bool.
From Verif Require Import Arith Vec ModelCalc ModelEll ModelLdlt ModelLmi Spec SpecLdlt PSum PCalc PVec PLdlt PLdlt2 PLdlt4.
Import ListNotations.
Local Open Scope R_scope.

Lemma sum_zip (h : mat RA -> R) : forall (f : list (mat RA)) (x : vec RA) c,
  fold_left Rplus (map2 (fun fk xk => h fk * xk) f x) c = c + sumn (length f) (fun k => h (nth k f []) * fv x k).
Proof.
  induction f as [|a f IH]; intros x c; [cbn; lra|].
  destruct x as [|y x].
  - cbn [map2 fold_left]. rewrite sumn_0; [lra|]. intros i _. unfold fv. destruct i; cbn; lra.
  - cbn [map2 fold_left length]. rewrite IH. rewrite sumn_S_l. cbn [nth]. unfold fv at 2. cbn [nth].
    rewrite Rplus_assoc. f_equal.
Qed.

Lemma lmi_elem_R f b (x : vec RA) i j : lmi_elem (A:=RA) f b x i j = lmi_at f b (fv x) i j.
Proof.
  unfold lmi_elem, lmi_at, vsum. change (@asub RA) with Rminus. change (@aadd RA) with Rplus. change (@azero RA) with 0.
  apply (f_equal2 Rminus); [reflexivity|].
  exact (eq_trans (sum_zip (fun fk => fm fk i j) f x 0) (Rplus_0_l _)).
Qed.

Lemma lmi0_elem_R f (x : vec RA) i j : (length x <= length f)%nat -> lmi0_elem (A:=RA) f x i j = lmi0_at f (fv x) i j.
Proof.
  intros Hx. unfold lmi0_elem, lmi0_at.
  transitivity (sumn (length x) (fun k => fm (nth k f []) i j * fv x (0 + k))).
  { exact (vsum_seq (fun k => fm (nth k f []) i j * fv x k) 0 (length x)). }
  symmetry. apply (sumn_cut (length f) (length x)); [exact Hx|].
  intros k [Hk _]. unfold fv. rewrite (nth_overflow x _ Hk). apply Rmult_0_r.
Qed.

Lemma quad_sum m n (F : nat -> nat -> nat -> R) (y : nat -> R) v :
  quad m (fun i j => sumn n (fun k => F k i j * y k)) v = sumn n (fun k => quad m (F k) v * y k).
Proof.
  induction n as [|n IH].
  - cbn [sumn]. unfold quad. rewrite bil_sum. apply sumn_0. intros i _. apply sumn_0. intros. ring.
  - cbn [sumn]. rewrite <- IH. unfold quad. rewrite !bil_sum.
    rewrite <- (sumn_scal_r m (y n)). rewrite <- sumn_plus. apply sumn_ext. intros i _.
    rewrite <- (sumn_scal_r m (y n)). rewrite <- sumn_plus. apply sumn_ext. intros j _. ring.
Qed.

Lemma quad_ext m M M' v : (forall i j, (i < m)%nat -> (j < m)%nat -> M i j = M' i j) -> quad m M v = quad m M' v.
Proof. intros H. apply bil_ext; auto. Qed.

Lemma quad_lmi m f b y v :
  quad m (lmi_at f b y) v = quad m (fm b) v - sumn (length f) (fun k => quad m (fm (nth k f [])) v * y k).
Proof.
  rewrite <- (quad_sum m (length f) (fun k => fm (nth k f []))). unfold quad. rewrite !bil_sum, <- sumn_minus.
  apply sumn_ext. intros i _. rewrite <- sumn_minus. apply sumn_ext. intros j _. unfold lmi_at. ring.
Qed.
Lemma quad_lmi0 m f y v :
  quad m (lmi0_at f y) v = sumn (length f) (fun k => quad m (fm (nth k f [])) v * y k).
Proof. exact (quad_sum m (length f) (fun k => fm (nth k f [])) y v). Qed.

Lemma sym_at m f y : Forall (sym_mat m) f -> symmetric m (lmi0_at f y).
Proof.
  intros Hf i j Hi Hj. unfold lmi0_at. apply sumn_ext. intros k Hk. f_equal.
  rewrite Forall_forall in Hf. apply (Hf (nth k f []) (nth_In _ _ Hk)); assumption.
Qed.
Lemma lmi_sym m f b y : sym_mat m b -> Forall (sym_mat m) f -> symmetric m (lmi_at f b y).
Proof.
  intros [_ Hb] Hf i j Hi Hj. unfold lmi_at. rewrite (Hb i j Hi Hj).
  pose proof (sym_at m f y Hf i j Hi Hj) as H. unfold lmi0_at in H. rewrite H. reflexivity.
Qed.

Lemma posdef_ext m M M' : (forall i j, (i < m)%nat -> (j < m)%nat -> M i j = M' i j) -> posdef m M <-> posdef m M'.
Proof.
  intros H. split; intros P v Hv; [rewrite <- (quad_ext m M M' v H)|rewrite (quad_ext m M M' v H)]; apply P; assumption.
Qed.

Lemma symmetric_ext m M M' : (forall i j, (i < m)%nat -> (j < m)%nat -> M i j = M' i j) -> symmetric m M' -> symmetric m M.
Proof. intros H HS i j Hi Hj. rewrite !H by assumption. apply HS; assumption. Qed.

Lemma fv_map (h : mat RA -> R) f k : (k < length f)%nat -> fv (map h f) k = h (nth k f []).
Proof. intros H. exact (nth_map_gen h f k [] 0 H). Qed.

Lemma unit_entry m (v : nat -> R) k : (k < m)%nat -> v k = 1 -> 1 <= dot m v v.
Proof.
  intros Hk H. unfold dot. pose proof (proj2 (sumn_term_le m (fun i => v i * v i) ltac:(cbv beta; intros; nra)) k Hk) as L. cbv beta in L. rewrite H in L. lra.
Qed.

(** Everything about one call. *)
Lemma lmi_call m (o : lmi RA) x o' r : lmi_wf m o -> lmi_assess_feas o x = (o', r) ->
  lmi_wf m o' /\ mat_f o' = mat_f o /\ mat_f0 o' = mat_f0 o /\
  (r = Ok None /\ posdef m (lmi_at (mat_f o) (mat_f0 o) (fv x)) \/
   exists v g ep, r = Ok (Some (g, @CSingle RA ep)) /\ ~ posdef m (lmi_at (mat_f o) (mat_f0 o) (fv x)) /\
     0 <= ep /\ 1 <= dot m v v /\ quad m (lmi_at (mat_f o) (mat_f0 o) (fv x)) v = - ep /\
     length g = length (mat_f o) /\
     forall k, (k < length (mat_f o))%nat -> fv g k = quad m (fm (nth k (mat_f o) [])) v).
Proof.
  intros (Hb & Hf & Hl) H. unfold lmi_assess_feas in H.
  destruct (factor (lmi_elem (mat_f o) (mat_f0 o) x) (ldlt_mgr o)) as [s1 b] eqn:E.
  assert (EX : forall i j, (i < m)%nat -> (j < m)%nat ->
    lmi_elem (A:=RA) (mat_f o) (mat_f0 o) x i j = lmi_at (mat_f o) (mat_f0 o) (fv x) i j) by (intros; apply lmi_elem_R).
  pose proof (symmetric_ext m _ _ EX (lmi_sym m _ _ (fv x) Hb Hf)) as HS.
  pose proof (factor_decides m _ _ _ _ Hl HS E) as HD.
  rewrite (posdef_ext m _ _ EX) in HD.
  pose proof (factor_witness m _ _ _ _ Hl HS E) as [_ HW].
  destruct (factor_cases m _ _ _ _ Hl E) as [Hl1 _].
  destruct b.
  - injection H as <- <-. split; [split; [exact Hb|split; [exact Hf|exact Hl1]]|].
    split; [reflexivity|split; [reflexivity|left; split; [reflexivity|apply HD; reflexivity]]].
  - destruct (HW eq_refl) as (s2 & ep & E2 & He & Hpos & H1 & _ & HQ & HB & Hl2).
    assert (Hnz : 1 <= dot m (wit_vec s2) (wit_vec s2)) by (apply (unit_entry m _ (snd (pos s2) - 1)); [lia|exact H1]).
    rewrite E2 in H. cbn [bind] in H. injection H as <- <-.
    split; [split; [exact Hb|split; [exact Hf|exact Hl2]]|].
    split; [reflexivity|split; [reflexivity|right]]. exists (wit_vec s2). do 2 eexists. split; [reflexivity|].
    split; [intros P; apply HD in P; discriminate|]. split; [exact He|]. split; [exact Hnz|].
    split; [rewrite <- HQ; symmetry; apply quad_ext; exact EX|].
    split; [apply map_length|]. intros k Hk. rewrite fv_map by exact Hk. apply HB.
    rewrite Forall_forall in Hf. apply (Hf _ (nth_In _ _ Hk)).
Qed.

Lemma lmi_decides m (o : lmi RA) x o' r : lmi_wf m o -> lmi_assess_feas o x = (o', r) ->
  (exists a, r = Ok a) /\ (r = Ok None <-> posdef m (lmi_at (mat_f o) (mat_f0 o) (fv x))) /\
  lmi_wf m o' /\ mat_f o' = mat_f o /\ mat_f0 o' = mat_f0 o.
Proof.
  intros Ho H. destruct (lmi_call m o x o' r Ho H) as (Ho' & E1 & E2 & [[-> HP]|(v & g & ep & -> & HN & _)]);
    (split; [eexists; reflexivity|]); (split; [|auto]); split; auto; try discriminate. intros HP. contradiction.
Qed.

Lemma lmi_cut m (o : lmi RA) x o' g be : lmi_wf m o -> lmi_assess_feas o x = (o', Ok (Some (g, be))) ->
  length g = length (mat_f o) /\ exists ep, be = @CSingle RA ep /\ 0 <= ep /\
  (forall y, possemidef m (lmi_at (mat_f o) (mat_f0 o) y) -> cutval (length (mat_f o)) (fv g) (fv x) y + ep <= 0).
Proof.
  intros Ho H. destruct (lmi_call m o x o' _ Ho H) as (_ & _ & _ & [[HH _]|(v & g' & ep & HH & _ & He & _ & HQ & Hg & HG)]);
    [discriminate|]. injection HH as -> ->. split; [exact Hg|]. exists ep. split; [reflexivity|]. split; [exact He|].
  intros y Hy. specialize (Hy v). rewrite quad_lmi in Hy, HQ.
  assert (EC : cutval (length (mat_f o)) (fv g') (fv x) y =
    sumn (length (mat_f o)) (fun k => quad m (fm (nth k (mat_f o) [])) v * y k) -
    sumn (length (mat_f o)) (fun k => quad m (fm (nth k (mat_f o) [])) v * fv x k)).
  { unfold cutval, dot. rewrite <- sumn_minus. apply sumn_ext. intros k Hk. rewrite HG by exact Hk. ring. }
  change (num RA) with R in *.
  match type of Hy with context [sumn ?n ?h] => set (sy := sumn n h) in Hy end.
  match type of HQ with context [sumn ?n ?h] => set (sx := sumn n h) in HQ end.
  assert (EC1 : cutval (length (mat_f o)) (fv g') (fv x) y = sy - sx) by exact EC.
  clearbody sx sy. change (num RA) with R in *. rewrite EC1. lra.
Qed.

(** The homogeneous oracle. *)
Lemma lmi0_call m (o : lmi0 RA) x o' r : lmi0_wf m o -> (length x <= length (mat0_f o))%nat -> lmi0_assess_feas o x = (o', r) ->
  lmi0_wf m o' /\ mat0_f o' = mat0_f o /\
  (r = Ok None /\ posdef m (lmi0_at (mat0_f o) (fv x)) \/
   exists v g ep, r = Ok (Some (g, @CSingle RA ep)) /\ ~ posdef m (lmi0_at (mat0_f o) (fv x)) /\
     0 <= ep /\ 1 <= dot m v v /\ quad m (lmi0_at (mat0_f o) (fv x)) v = - ep /\
     length g = length (mat0_f o) /\
     forall k, (k < length (mat0_f o))%nat -> fv g k = - quad m (fm (nth k (mat0_f o) [])) v).
Proof.
  intros (Hf & Hl) Hx H. unfold lmi0_assess_feas in H.
  assert (HL : Nat.ltb (length (mat0_f o)) (length x) = false) by (apply Nat.ltb_ge; exact Hx).
  rewrite HL in H. cbn [andb] in H.
  destruct (factor (lmi0_elem (mat0_f o) x) (ldlt0_mgr o)) as [s1 b] eqn:E.
  assert (EX : forall i j, (i < m)%nat -> (j < m)%nat ->
    lmi0_elem (A:=RA) (mat0_f o) x i j = lmi0_at (mat0_f o) (fv x) i j) by (intros; apply lmi0_elem_R; exact Hx).
  pose proof (symmetric_ext m _ _ EX (sym_at m _ (fv x) Hf)) as HS.
  pose proof (factor_decides m _ _ _ _ Hl HS E) as HD.
  rewrite (posdef_ext m _ _ EX) in HD.
  pose proof (factor_witness m _ _ _ _ Hl HS E) as [_ HW].
  destruct (factor_cases m _ _ _ _ Hl E) as [Hl1 _].
  destruct b.
  - injection H as <- <-. split; [split; [exact Hf|exact Hl1]|].
    split; [reflexivity|left; split; [reflexivity|apply HD; reflexivity]].
  - destruct (HW eq_refl) as (s2 & ep & E2 & He & Hpos & H1 & _ & HQ & HB & Hl2).
    assert (Hnz : 1 <= dot m (wit_vec s2) (wit_vec s2)) by (apply (unit_entry m _ (snd (pos s2) - 1)); [lia|exact H1]).
    rewrite E2 in H. cbn [bind] in H. injection H as <- <-.
    split; [split; [exact Hf|exact Hl2]|].
    split; [reflexivity|right]. exists (wit_vec s2). do 2 eexists. split; [reflexivity|].
    split; [intros P; apply HD in P; discriminate|]. split; [exact He|]. split; [exact Hnz|].
    split; [rewrite <- HQ; symmetry; apply quad_ext; exact EX|].
    split; [apply map_length|]. intros k Hk.
    transitivity (- sym_quad s2 (nth k (mat0_f o) [])); [exact (fv_map (fun fk => - sym_quad s2 fk) (mat0_f o) k Hk)|].
    f_equal. apply HB. rewrite Forall_forall in Hf. apply (Hf _ (nth_In _ _ Hk)).
Qed.

Lemma lmi0_decides m (o : lmi0 RA) x o' r : lmi0_wf m o -> (length x <= length (mat0_f o))%nat -> lmi0_assess_feas o x = (o', r) ->
  (exists a, r = Ok a) /\ (r = Ok None <-> posdef m (lmi0_at (mat0_f o) (fv x))) /\
  lmi0_wf m o' /\ mat0_f o' = mat0_f o.
Proof.
  intros Ho Hx H. destruct (lmi0_call m o x o' r Ho Hx H) as (Ho' & E1 & [[-> HP]|(v & g & ep & -> & HN & _)]);
    (split; [eexists; reflexivity|]); (split; [|auto]); split; auto; try discriminate. intros HP. contradiction.
Qed.

Lemma lmi0_too_long m (o : lmi0 RA) x : lmi0_wf m o -> (0 < m)%nat -> (length (mat0_f o) < length x)%nat ->
  lmi0_assess_feas o x = (o, Err IndexError).
Proof.
  intros [_ [Hn _]] Hm Hx. unfold lmi0_assess_feas. apply Nat.ltb_lt in Hx. rewrite Hx, Hn.
  destruct m; [lia|]. reflexivity.
Qed.

Lemma lmi0_no_rows (o : lmi0 RA) x : lmi0_wf 0 o -> snd (lmi0_assess_feas o x) = Ok None.
Proof.
  intros [_ [Hn _]]. unfold lmi0_assess_feas. rewrite Hn. cbn [Nat.eqb negb]. rewrite andb_false_r.
  unfold factor. rewrite Hn. reflexivity.
Qed.

Lemma lmi0_cut m (o : lmi0 RA) x o' g be : lmi0_wf m o -> (length x <= length (mat0_f o))%nat ->
  lmi0_assess_feas o x = (o', Ok (Some (g, be))) ->
  length g = length (mat0_f o) /\ exists ep, be = @CSingle RA ep /\ 0 <= ep /\
  (forall y, possemidef m (lmi0_at (mat0_f o) y) -> cutval (length (mat0_f o)) (fv g) (fv x) y + ep <= 0).
Proof.
  intros Ho Hx H. destruct (lmi0_call m o x o' _ Ho Hx H) as (_ & _ & [[HH _]|(v & g' & ep & HH & _ & He & _ & HQ & Hg & HG)]);
    [discriminate|]. injection HH as -> ->. split; [exact Hg|]. exists ep. split; [reflexivity|]. split; [exact He|].
  intros y Hy. specialize (Hy v). rewrite quad_lmi0 in Hy, HQ.
  assert (EC : cutval (length (mat0_f o)) (fv g') (fv x) y =
    - sumn (length (mat0_f o)) (fun k => quad m (fm (nth k (mat0_f o) [])) v * y k) +
    sumn (length (mat0_f o)) (fun k => quad m (fm (nth k (mat0_f o) [])) v * fv x k)).
  { unfold cutval, dot. rewrite <- sumn_opp, <- sumn_plus. apply sumn_ext. intros k Hk. rewrite HG by exact Hk. ring. }
  change (num RA) with R in *.
  match type of Hy with context [sumn ?n ?h] => set (sy := sumn n h) in Hy end.
  match type of HQ with context [sumn ?n ?h] => set (sx := sumn n h) in HQ end.
  assert (EC1 : cutval (length (mat0_f o)) (fv g') (fv x) y = - sy + sx) by exact EC.
  clearbody sx sy. change (num RA) with R in *. rewrite EC1. lra.
Qed.

(** A zero gradient with a positive violation. *)
Lemma lmi_zero_grad m (o : lmi RA) x o' g ep : lmi_wf m o -> lmi_assess_feas o x = (o', Ok (Some (g, @CSingle RA ep))) ->
  (forall k, (k < length (mat_f o))%nat -> fv g k = 0) -> 0 < ep ->
  forall y, ~ possemidef m (lmi_at (mat_f o) (mat_f0 o) y).
Proof.
  intros Ho H Hg He y Hy. destruct (lmi_cut m o x o' _ _ Ho H) as (_ & e & HE & _ & HC).
  injection HE as <-. specialize (HC y Hy).
  assert (EC : cutval (length (mat_f o)) (fv g) (fv x) y = 0).
  { unfold cutval, dot. apply sumn_0. intros k Hk. rewrite Hg by exact Hk. ring. }
  lra.
Qed.
