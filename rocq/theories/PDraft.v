(** Proofs about the drafts. *)
From Coq Require Import Reals List Arith Lia Lra Bool Psatz.
From Verif Require Import Arith Vec ModelCalc ModelEll ModelLdlt ModelLmi ModelPower ModelDraft Spec SpecLdlt SpecDraft.
From Verif Require Import PSum PCalc PVec PLdlt PLdlt2 PLdlt4 PLmi PLmi3 PPower.
Import ListNotations.
Local Open Scope R_scope.

(** ** The interval *)
Lemma ell1d_init_R (l u : R) : ell1d_init (A:=RA) l u = @mkEll1d RA ((u - l) / 2) (l + (u - l) / 2) 0.
Proof. unfold ell1d_init. replace (atwo (A:=RA)) with 2 by (unfold atwo; cbn; lra). reflexivity. Qed.

Lemma interval_init (l u y : R) : in_interval (ell1d_init (A:=RA) l u) y <-> l <= y <= u.
Proof. rewrite ell1d_init_R. unfold in_interval. cbn [d_rd d_xc]. split; intros; lra. Qed.

Definition ell1d_update_R (grad beta : R) (central : bool) (e : ell1d RA) : ell1d RA * res cut_status :=
  let rd : R := d_rd e in let xc : R := d_xc e in
  let tau := Rabs (rd * grad) in
  if central || Reqb beta 0 then (@mkEll1d RA (rd / 2) (xc + (if Rltb 0 grad then - (rd / 2) else rd / 2)) (tau * tau), Ok Success)
  else if Rltb tau beta then (@mkEll1d RA rd xc (tau * tau), Ok NoSoln)
  else if Rltb beta (- tau) then (@mkEll1d RA rd xc (tau * tau), Ok NoEffect)
  else if Reqb grad 0 then (@mkEll1d RA rd xc (tau * tau), Err ZeroDivision)
  else
    let bound := xc - beta / grad in
    let upper := if Rltb 0 grad then bound else xc + rd in
    let lower := if Rltb 0 grad then xc - rd else bound in
    (@mkEll1d RA ((upper - lower) / 2) (lower + (upper - lower) / 2) (tau * tau), Ok Success).

Lemma ell1d_update_eq (grad beta : R) central e : ell1d_update (A:=RA) grad beta central e = ell1d_update_R grad beta central e.
Proof.
  unfold ell1d_update, ell1d_update_R. replace (atwo (A:=RA)) with 2 by (unfold atwo; cbn; lra).
  rewrite (aabs_R (amul (a:=RA) (d_rd e) grad)). reflexivity.
Qed.

Lemma ell1d_exact (grad beta : R) central (e : ell1d RA) : 0 <= d_rd e ->
  grad <> 0 \/ central = false /\ beta <> 0 ->
  exists e' st, ell1d_update (A:=RA) grad beta central e = (e', Ok st) /\ d_tsq e' = Rsqr (d_rd e * grad) /\
  let b := if central then 0 else beta in
  match st with
  | Success => 0 <= d_rd e' /\ forall y, in_interval e' y <-> in_interval e y /\ half_line e grad b y
  | NoSoln => d_rd e' = d_rd e /\ d_xc e' = d_xc e /\ forall y, in_interval e y -> ~ half_line e grad b y
  | NoEffect => d_rd e' = d_rd e /\ d_xc e' = d_xc e /\ forall y, in_interval e y -> half_line e grad b y
  | Unknown => False
  end.
Proof.
  intros P G. rewrite ell1d_update_eq. unfold ell1d_update_R, in_interval, half_line.
  destruct e as [rd xc ts]. cbn [d_rd d_xc d_tsq] in *. change (num RA) with R in *.
  assert (T : Rabs (rd * grad) * Rabs (rd * grad) = Rsqr (rd * grad)) by (rewrite Rsqr_abs; reflexivity).
  rewrite T. clear T.
  assert (B : forall y, xc - rd <= y <= xc + rd -> Rabs (grad * (y - xc)) <= Rabs (rd * grad)).
  { intros y Hy. rewrite !Rabs_mult, (Rabs_right rd), Rmult_comm by lra.
    apply Rmult_le_compat_r; [apply Rabs_pos|]. apply Rabs_le. lra. }
  destruct (central || Reqb beta 0) eqn:C.
  - do 2 eexists. split; [reflexivity|]. cbn [d_rd d_xc d_tsq]. split; [reflexivity|].
    assert (b0 : (if central then 0 else beta) = 0).
    { destruct central; [reflexivity|]. cbn [orb] in C. destruct (Reqb_spec beta 0); [assumption|discriminate]. }
    assert (g0 : grad <> 0). { destruct G as [G|(-> & N)]; [exact G|contradiction]. }
    rewrite b0. split; [lra|]. intros y. destruct (Rltb_spec 0 grad) as [L|L].
    + split; [intros Hy; split; [lra|nra]|]. intros (Hy & H). split; [lra|]. assert (y - xc <= 0) by nra. lra.
    + assert (grad < 0) by lra. split; [intros Hy; split; [lra|nra]|]. intros (Hy & H'). split; [|lra]. assert (0 <= y - xc) by nra. lra.
  - apply orb_false_iff in C. destruct C as (-> & C). cbn [Reqb] in C. destruct (Reqb_spec beta 0) as [|nb]; [discriminate|]. clear C.
    destruct (Rltb_spec (Rabs (rd * grad)) beta) as [L|L].
    { do 2 eexists. split; [reflexivity|]. cbn [d_rd d_xc d_tsq]. repeat split. intros y Hy. specialize (B y Hy).
      pose proof (Rle_abs (- (grad * (y - xc)))) as A. rewrite Rabs_Ropp in A. lra. }
    destruct (Rltb_spec beta (- Rabs (rd * grad))) as [L2|L2].
    { do 2 eexists. split; [reflexivity|]. cbn [d_rd d_xc d_tsq]. repeat split. intros y Hy. specialize (B y Hy).
      pose proof (Rle_abs (grad * (y - xc))) as A. lra. }
    destruct (Reqb_spec grad 0) as [->|g0].
    { exfalso. rewrite Rmult_0_r, Rabs_R0 in L, L2. lra. }
    do 2 eexists. split; [reflexivity|]. cbn [d_rd d_xc d_tsq]. split; [reflexivity|].
    rewrite Rabs_mult, (Rabs_right rd) in L, L2 by lra.
    set (q := beta / grad). assert (Q : beta = grad * q) by (unfold q; field; exact g0). clearbody q. subst beta.
    destruct (Rltb_spec 0 grad) as [S|S].
    + rewrite (Rabs_right grad) in L, L2 by lra. assert (q <= rd) by nra. assert (- rd <= q) by nra.
      split; [lra|]. intros y. split; [intros Hy; split; [lra|]|intros (Hy & H1)].
      * replace (grad * (y - xc) + grad * q) with (grad * (y - xc + q)) by ring. nra.
      * assert (y - xc + q <= 0) by nra. lra.
    + assert (S' : grad < 0) by lra. rewrite (Rabs_left grad) in L, L2 by lra. assert (q <= rd) by nra. assert (- rd <= q) by nra.
      split; [lra|]. intros y. split; [intros Hy; split; [lra|]|intros (Hy & H1)].
      * replace (grad * (y - xc) + grad * q) with (grad * (y - xc + q)) by ring. nra.
      * assert (0 <= y - xc + q) by nra. lra.
Qed.

Lemma ell1d_halves (grad beta : R) central (e e' : ell1d RA) : 0 <= d_rd e -> central = true \/ 0 <= beta ->
  ell1d_update (A:=RA) grad beta central e = (e', Ok Success) -> 2 * d_rd e' <= d_rd e.
Proof.
  intros P G. rewrite ell1d_update_eq. unfold ell1d_update_R. destruct e as [rd xc ts]. cbn [d_rd d_xc d_tsq] in *. change (num RA) with R in *.
  destruct (central || Reqb beta 0) eqn:C; [intros H; injection H as <-; cbn [d_rd]; lra|].
  apply orb_false_iff in C. destruct C as (-> & _). destruct G as [|G]; [discriminate|].
  destruct (Rltb _ beta); [discriminate|]. destruct (Rltb beta _); [discriminate|].
  destruct (Reqb_spec grad 0) as [|g0]; [discriminate|]. intros H. injection H as <-. cbn [d_rd].
  set (q := beta / grad). assert (Q : beta = grad * q) by (unfold q; field; exact g0). clearbody q. subst beta.
  destruct (Rltb_spec 0 grad) as [S|S].
  - assert (0 <= q) by nra. lra.
  - assert (q <= 0) by nra. lra.
Qed.

Definition e01 : ell1d RA := ell1d_init (A:=RA) 0 1.
Lemma ell1d_zero : exists (e : ell1d RA) e' y, 0 <= d_rd e /\ ell1d_update (A:=RA) 0 0 false e = (e', Ok Success) /\
  in_interval e y /\ half_line e 0 0 y /\ ~ in_interval e' y.
Proof.
  exists e01. do 1 eexists. exists 0. unfold e01. rewrite ell1d_update_eq, ell1d_init_R. unfold ell1d_update_R, in_interval, half_line.
  cbn [d_rd d_xc d_tsq]. rewrite orb_false_l. destruct (Reqb_spec 0 0); [|contradiction].
  destruct (Rltb_spec 0 0); [lra|]. split; [lra|]. split; [reflexivity|]. cbn [d_rd d_xc]. split; [lra|]. split; lra.
Qed.

(** ** Both LMI drafts: one factorisation *)
Lemma factor_call m At elem (s s1 : ldlt RA) b : ldlt_wf m s -> symmetric m At ->
  (forall i j, (i < m)%nat -> (j < m)%nat -> elem i j = At i j) -> factor (A:=RA) elem s = (s1, b) ->
  ldlt_wf m s1 /\ (b = true <-> posdef m At) /\
  (b = false -> exists s2 ep, witness s1 = (s2, Ok ep) /\ ldlt_wf m s2 /\ 0 <= ep /\ quad m At (wit_vec s2) = - ep /\
    forall B, mat_wf m B -> sym_quad s2 B = quad m (fm B) (wit_vec s2)).
Proof.
  intros Hl HS EX E. pose proof (symmetric_ext m _ _ EX HS) as HS'.
  pose proof (factor_decides m _ _ _ _ Hl HS' E) as HD. rewrite (posdef_ext m _ _ EX) in HD.
  pose proof (factor_witness m _ _ _ _ Hl HS' E) as [_ HW]. destruct (factor_cases m _ _ _ _ Hl E) as [Hl1 _].
  split; [exact Hl1|]. split; [exact HD|]. intros Hb. destruct (HW Hb) as (s2 & ep & E2 & He & _ & _ & _ & HQ & HB & Hl2).
  exists s2, ep. split; [exact E2|]. split; [exact Hl2|]. split; [exact He|]. split; [|exact HB].
  rewrite <- HQ. symmetry. apply quad_ext. exact EX.
Qed.

Lemma quad_grad_R m (h : R -> R) (s : ldlt RA) f n : Forall (sym_mat m) f -> n = length f ->
  (forall B, mat_wf m B -> sym_quad s B = quad m (fm B) (wit_vec s)) ->
  length (quad_grad (A:=RA) h s f n) = n /\
  forall k, (k < n)%nat -> fv (quad_grad (A:=RA) h s f n) k = h (quad m (fm (nth k f [])) (wit_vec s)).
Proof.
  intros Hf En HB. unfold quad_grad. split; [rewrite map_length, seq_length; reflexivity|].
  intros k Hk. transitivity (h (sym_quad s (nth k f []))).
  - etransitivity; [exact (nth_map_gen (fun i => h (sym_quad s (nth i f []))) (seq 0 n) k 0%nat 0 ltac:(rewrite seq_length; exact Hk))|].
    rewrite seq_nth by exact Hk. reflexivity.
  - f_equal. apply HB. rewrite Forall_forall in Hf. apply (Hf _ (nth_In _ _ ltac:(rewrite <- En; exact Hk))).
Qed.

Lemma lmi2_elem_R f u (x : vec RA) i j : (length x <= length f)%nat -> lmi2_elem (A:=RA) f u x i j = lmi_at f u (fv x) i j.
Proof. intros Hx. exact (f_equal2 Rminus eq_refl (lmi0_elem_R f x i j Hx)). Qed.

Definition lmi2_fits m (o : lmi RA) (x : vec RA) := lmi_wf m o /\ length x = length (mat_f o).

Lemma lmi2_call m (o : lmi RA) x o' r : lmi_wf m o -> length x = length (mat_f o) -> lmi2_assess_feas o x = (o', r) ->
  lmi_wf m o' /\ mat_f o' = mat_f o /\ mat_f0 o' = mat_f0 o /\
  (r = Ok None /\ posdef m (lmi0_at (mat_f o) (fv x)) /\ posdef m (lmi_at (mat_f o) (mat_f0 o) (fv x)) \/
   exists v g f, r = Ok (Some (g, CList (A:=RA) [Some f; Some (f + quad m (fm (mat_f0 o)) v)])) /\ 0 <= f /\ length g = length (mat_f o) /\
     (~ posdef m (lmi_at (mat_f o) (mat_f0 o) (fv x)) /\ quad m (lmi_at (mat_f o) (mat_f0 o) (fv x)) v = - f /\
        (forall k, (k < length (mat_f o))%nat -> fv g k = quad m (fm (nth k (mat_f o) [])) v) \/
      ~ posdef m (lmi0_at (mat_f o) (fv x)) /\ quad m (lmi0_at (mat_f o) (fv x)) v = - f /\
        (forall k, (k < length (mat_f o))%nat -> fv g k = - quad m (fm (nth k (mat_f o) [])) v))).
Proof.
  intros (Hb & Hf & Hl) Hx H. unfold lmi2_assess_feas in H.
  assert (HL : Nat.ltb (length (mat_f o)) (length x) = false) by (apply Nat.ltb_ge; lia).
  rewrite HL in H. cbn [andb] in H.
  destruct (factor (lmi2_elem (mat_f o) (mat_f0 o) x) (ldlt_mgr o)) as [s1 b1] eqn:E1.
  destruct (factor_call m _ _ _ _ _ Hl (lmi_sym m _ _ (fv x) Hb Hf) (fun i j _ _ => lmi2_elem_R (mat_f o) (mat_f0 o) x i j ltac:(lia)) E1) as (W1 & D1 & C1).
  destruct b1; cbn [negb] in H.
  - destruct (factor (lmi0_elem (mat_f o) x) s1) as [s2 b2] eqn:E2.
    destruct (factor_call m _ _ _ _ _ W1 (sym_at m _ (fv x) Hf) (fun i j _ _ => lmi0_elem_R (mat_f o) x i j ltac:(lia)) E2) as (W2 & D2 & C2).
    destruct b2; cbn [negb] in H.
    + injection H as <- <-. split; [exact (conj Hb (conj Hf W2))|]. split; [reflexivity|]. split; [reflexivity|]. left.
      split; [reflexivity|]. split; [apply D2|apply D1]; reflexivity.
    + destruct (C2 eq_refl) as (s3 & ep & E3 & W3 & He & HQ & HB). rewrite E3 in H. cbn [bind] in H. injection H as <- <-.
      split; [exact (conj Hb (conj Hf W3))|]. split; [reflexivity|]. split; [reflexivity|]. right.
      destruct (quad_grad_R m Ropp s3 (mat_f o) (length x) Hf Hx HB) as (Lg & Gk).
      exists (wit_vec s3). do 2 eexists. split; [|split; [exact He|split; [etransitivity; [exact Lg|exact Hx]|right]]].
      { rewrite (HB (mat_f0 o)) by apply Hb. reflexivity. }
      split; [intros P; apply D2 in P; discriminate|]. split; [exact HQ|]. intros k Hk. apply Gk. lia.
  - destruct (C1 eq_refl) as (s3 & ep & E3 & W3 & He & HQ & HB). rewrite E3 in H. cbn [bind] in H. injection H as <- <-.
    split; [exact (conj Hb (conj Hf W3))|]. split; [reflexivity|]. split; [reflexivity|]. right.
    destruct (quad_grad_R m (fun a => a) s3 (mat_f o) (length x) Hf Hx HB) as (Lg & Gk).
    exists (wit_vec s3). do 2 eexists. split; [|split; [exact He|split; [etransitivity; [exact Lg|exact Hx]|left]]].
    { rewrite (HB (mat_f0 o)) by apply Hb. reflexivity. }
    split; [intros P; apply D1 in P; discriminate|]. split; [exact HQ|]. intros k Hk. apply Gk. lia.
Qed.

Lemma lmi2_decides m (o : lmi RA) x o' r : lmi_wf m o -> length x = length (mat_f o) -> lmi2_assess_feas o x = (o', r) ->
  (exists a, r = Ok a) /\
  (r = Ok None <-> posdef m (lmi0_at (mat_f o) (fv x)) /\ posdef m (lmi_at (mat_f o) (mat_f0 o) (fv x))) /\
  lmi_wf m o' /\ mat_f o' = mat_f o /\ mat_f0 o' = mat_f0 o.
Proof.
  intros Ho Hx H. destruct (lmi2_call m o x o' r Ho Hx H) as (Ho' & E1 & E2 & [(-> & P)|(v & g & f & -> & _ & _ & C)]).
  - split; [eexists; reflexivity|]. split; [|auto]. split; auto.
  - split; [eexists; reflexivity|]. split; [|auto]. split; [discriminate|]. intros (P0 & P1). destruct C as [(N & _)|(N & _)]; contradiction.
Qed.

Lemma lmi2_cut m (o : lmi RA) x o' g be : lmi_wf m o -> length x = length (mat_f o) ->
  lmi2_assess_feas o x = (o', Ok (Some (g, be))) ->
  length g = length (mat_f o) /\ exists b0 b1, be = CList (A:=RA) [Some b0; Some b1] /\ 0 <= b0 /\
  forall y, lmi2_sol m (mat_f o) (mat_f0 o) y -> sat_parallel (length (mat_f o)) (fv g) (fv x) b0 b1 y.
Proof.
  intros Ho Hx H. destruct (lmi2_call m o x o' _ Ho Hx H) as (_ & _ & _ & [(E & _)|(v & g' & f & E & He & Lg & C)]); [discriminate|].
  injection E as -> ->. split; [exact Lg|]. do 2 eexists. split; [reflexivity|]. split; [exact He|].
  intros y (S0 & S1). specialize (S0 v). specialize (S1 v). rewrite quad_lmi0 in S0. rewrite quad_lmi in S1. unfold sat_parallel.
  match type of S0 with context [sumn ?n ?h] => set (sy := sumn n h) in S0, S1 end.
  destruct C as [(_ & HQ & HG)|(_ & HQ & HG)].
  - rewrite quad_lmi in HQ. match type of HQ with context [sumn ?n ?h] => set (sx := sumn n h) in HQ end.
    assert (EC0 : cutval (length (mat_f o)) (fv g') (fv x) y =
      sumn (length (mat_f o)) (fun k => quad m (fm (nth k (mat_f o) [])) v * y k) - sumn (length (mat_f o)) (fun k => quad m (fm (nth k (mat_f o) [])) v * fv x k)).
    { unfold cutval, dot. rewrite <- sumn_minus. apply sumn_ext. intros k Hk. rewrite HG by exact Hk. ring. }
    assert (EC : cutval (length (mat_f o)) (fv g') (fv x) y = sy - sx) by exact EC0.
    change (num RA) with R in *. rewrite EC. clearbody sx sy. change (num RA) with R in *. lra.
  - rewrite quad_lmi0 in HQ. match type of HQ with context [sumn ?n ?h] => set (sx := sumn n h) in HQ end.
    assert (EC0 : cutval (length (mat_f o)) (fv g') (fv x) y =
      sumn (length (mat_f o)) (fun k => quad m (fm (nth k (mat_f o) [])) v * fv x k) - sumn (length (mat_f o)) (fun k => quad m (fm (nth k (mat_f o) [])) v * y k)).
    { unfold cutval, dot. rewrite <- sumn_minus. apply sumn_ext. intros k Hk. rewrite HG by exact Hk. ring. }
    assert (EC : cutval (length (mat_f o)) (fv g') (fv x) y = sx - sy) by exact EC0.
    change (num RA) with R in *. rewrite EC. clearbody sx sy. change (num RA) with R in *. lra.
Qed.

(** ** lmi3 *)
Lemma fm_neg (b : mat RA) i j : fm (map (map Ropp) b) i j = - fm b i j.
Proof.
  unfold fm. replace (nth i (map (map Ropp) b) []) with (map Ropp (nth i b [])).
  - destruct (Nat.lt_ge_cases j (length (nth i b []))) as [L|L].
    + rewrite (nth_map_gen Ropp (nth i b []) j 0 0 L). reflexivity.
    + rewrite !nth_overflow by (rewrite ?map_length; exact L). lra.
  - symmetry. exact (map_nth (map Ropp) b [] i).
Qed.

Lemma sym_neg m (b : mat RA) : sym_mat m b -> sym_mat m (map (map Ropp) b).
Proof.
  intros ((L & R) & S). split; [split|].
  - rewrite map_length. exact L.
  - intros i Hi. replace (nth i (map (map Ropp) b) nil) with (map Ropp (nth i b [])) by (symmetry; exact (map_nth (map Ropp) b [] i)).
    rewrite map_length. apply R, Hi.
  - intros i j Hi Hj. rewrite !fm_neg. rewrite (S i j Hi Hj). reflexivity.
Qed.

Lemma lmi3_init_wf m (f : list (mat RA)) (b : mat RA) : sym_mat m b -> Forall (sym_mat m) f ->
  lmi_wf m (lmi3_init f b) /\ mat_f (lmi3_init f b) = f /\ mat_f0 (lmi3_init f b) = map (map Ropp) b.
Proof.
  intros B F. split; [|split; reflexivity]. split; [exact (sym_neg m b B)|]. split; [exact F|].
  destruct B as ((L & _) & _). subst m. apply init_wf.
Qed.

Lemma lmi3_sym m f b y : sym_mat m b -> Forall (sym_mat m) f -> symmetric m (lmi3_at f b y).
Proof.
  intros [_ Hb] Hf i j Hi Hj. unfold lmi3_at. rewrite (Hb i j Hi Hj).
  pose proof (sym_at m f y Hf i j Hi Hj) as H. unfold lmi0_at in H. rewrite H. reflexivity.
Qed.

Lemma lmi3_elem_R f b (x : vec RA) i j : (length x <= length f)%nat ->
  lmi3_elem (A:=RA) f (map (map Ropp) b) x i j = lmi3_at f b (fv x) i j.
Proof.
  intros Hx. transitivity (fm (map (map Ropp) b) i j + lmi0_at f (fv x) i j).
  - exact (f_equal2 Rplus eq_refl (lmi0_elem_R f x i j Hx)).
  - rewrite fm_neg. unfold lmi3_at, lmi0_at, Rminus. apply Rplus_comm.
Qed.

Lemma quad_lmi3 m f b y v :
  quad m (lmi3_at f b y) v = sumn (length f) (fun k => quad m (fm (nth k f [])) v * y k) - quad m (fm b) v.
Proof.
  rewrite <- (quad_sum m (length f) (fun k => fm (nth k f []))). unfold quad. rewrite !bil_sum, <- sumn_minus.
  apply sumn_ext. intros i _. rewrite <- sumn_minus. apply sumn_ext. intros j _. unfold lmi3_at. ring.
Qed.

Lemma lmi3_call m b (o : lmi RA) x o' r : sym_mat m b -> lmi_wf m o -> mat_f0 o = map (map Ropp) b ->
  length x = length (mat_f o) -> lmi3_assess_feas o x = (o', r) ->
  lmi_wf m o' /\ mat_f o' = mat_f o /\ mat_f0 o' = mat_f0 o /\
  (r = Ok None /\ posdef m (lmi3_at (mat_f o) b (fv x)) \/
   exists v g f, r = Ok (Some (g, CSingle (A:=RA) f)) /\ 0 <= f /\ length g = length (mat_f o) /\
     ~ posdef m (lmi3_at (mat_f o) b (fv x)) /\ quad m (lmi3_at (mat_f o) b (fv x)) v = - f /\
     (forall k, (k < length (mat_f o))%nat -> fv g k = - quad m (fm (nth k (mat_f o) [])) v)).
Proof.
  intros Sb (Hb & Hf & Hl) Eb Hx H. unfold lmi3_assess_feas in H.
  assert (HL : Nat.ltb (length (mat_f o)) (length x) = false) by (apply Nat.ltb_ge; lia).
  rewrite HL in H. cbn [andb] in H.
  destruct (factor (lmi3_elem (mat_f o) (mat_f0 o) x) (ldlt_mgr o)) as [s1 b1] eqn:E1. rewrite Eb in E1.
  destruct (factor_call m _ _ _ _ _ Hl (lmi3_sym m _ b (fv x) Sb Hf) (fun i j _ _ => lmi3_elem_R (mat_f o) b x i j ltac:(lia)) E1) as (W1 & D1 & C1).
  destruct b1.
  - injection H as <- <-. split; [exact (conj Hb (conj Hf W1))|]. split; [reflexivity|]. split; [reflexivity|]. left.
    split; [reflexivity|]. apply D1. reflexivity.
  - destruct (C1 eq_refl) as (s3 & ep & E3 & W3 & He & HQ & HB). rewrite E3 in H. cbn [bind] in H. injection H as <- <-.
    split; [exact (conj Hb (conj Hf W3))|]. split; [reflexivity|]. split; [reflexivity|]. right.
    destruct (quad_grad_R m Ropp s3 (mat_f o) (length x) Hf Hx HB) as (Lg & Gk).
    exists (wit_vec s3). do 2 eexists. split; [reflexivity|]. split; [exact He|]. split; [etransitivity; [exact Lg|exact Hx]|].
    split; [intros P; apply D1 in P; discriminate|]. split; [exact HQ|]. intros k Hk. apply Gk. lia.
Qed.

Lemma lmi3_decides m b (o : lmi RA) x o' r : sym_mat m b -> lmi_wf m o -> mat_f0 o = map (map Ropp) b ->
  length x = length (mat_f o) -> lmi3_assess_feas o x = (o', r) ->
  (exists a, r = Ok a) /\ (r = Ok None <-> posdef m (lmi3_at (mat_f o) b (fv x))) /\
  lmi_wf m o' /\ mat_f o' = mat_f o /\ mat_f0 o' = mat_f0 o.
Proof.
  intros Sb Ho Eb Hx H. destruct (lmi3_call m b o x o' r Sb Ho Eb Hx H) as (Ho' & E1 & E2 & [(-> & P)|(v & g & f & -> & _ & _ & N & _)]);
    (split; [eexists; reflexivity|]); (split; [|auto]); split; auto; try discriminate. intros P. contradiction.
Qed.

Lemma lmi3_cut m b (o : lmi RA) x o' g be : sym_mat m b -> lmi_wf m o -> mat_f0 o = map (map Ropp) b ->
  length x = length (mat_f o) -> lmi3_assess_feas o x = (o', Ok (Some (g, be))) ->
  length g = length (mat_f o) /\ exists ep, be = CSingle (A:=RA) ep /\ 0 <= ep /\
  forall y, possemidef m (lmi3_at (mat_f o) b y) -> sat_single (length (mat_f o)) (fv g) (fv x) ep y.
Proof.
  intros Sb Ho Eb Hx H. destruct (lmi3_call m b o x o' _ Sb Ho Eb Hx H) as (_ & _ & _ & [(E & _)|(v & g' & f & E & He & Lg & _ & HQ & HG)]); [discriminate|].
  injection E as -> ->. split; [exact Lg|]. eexists. split; [reflexivity|]. split; [exact He|].
  intros y S0. specialize (S0 v). rewrite quad_lmi3 in S0, HQ. unfold sat_single.
  match type of S0 with context [sumn ?n ?h] => set (sy := sumn n h) in S0 end.
  match type of HQ with context [sumn ?n ?h] => set (sx := sumn n h) in HQ end.
  assert (EC0 : cutval (length (mat_f o)) (fv g') (fv x) y =
    sumn (length (mat_f o)) (fun k => quad m (fm (nth k (mat_f o) [])) v * fv x k) - sumn (length (mat_f o)) (fun k => quad m (fm (nth k (mat_f o) [])) v * y k)).
  { unfold cutval, dot. rewrite <- sumn_minus. apply sumn_ext. intros k Hk. rewrite HG by exact Hk. ring. }
  assert (EC : cutval (length (mat_f o)) (fv g') (fv x) y = sx - sy) by exact EC0.
  change (num RA) with R in *. rewrite EC. clearbody sx sy. change (num RA) with R in *. lra.
Qed.

Lemma drafts_too_long m (o : lmi RA) x : lmi_wf m o -> (0 < m)%nat -> (length (mat_f o) < length x)%nat ->
  lmi2_assess_feas o x = (o, Err IndexError) /\ lmi3_assess_feas o x = (o, Err IndexError).
Proof.
  intros (_ & _ & (Hn & _)) Hm Hx. unfold lmi2_assess_feas, lmi3_assess_feas. apply Nat.ltb_lt in Hx. rewrite Hx, Hn.
  destruct m; [lia|]. split; reflexivity.
Qed.

Lemma drafts_no_rows (o : lmi RA) x : lmi_wf 0 o ->
  snd (lmi2_assess_feas o x) = Ok None /\ snd (lmi3_assess_feas o x) = Ok None.
Proof.
  intros (_ & _ & (Hn & _)). unfold lmi2_assess_feas, lmi3_assess_feas. rewrite Hn. cbn [Nat.eqb negb]. rewrite andb_false_r.
  unfold factor. rewrite Hn. split; reflexivity.
Qed.
Lemma drafts_no_rows_case : lmi_wf 0 (lmi2_init (A:=RA) [[]] []).
Proof.
  assert (S : sym_mat 0 []) by (split; [split; [reflexivity|intros i Hi; lia]|intros i j Hi; lia]).
  exact (conj S (conj (Forall_cons _ S (Forall_nil _)) (init_wf 0))).
Qed.

(** ** Cases *)
Lemma doc_lmi2_sol : lmi2_sol 2 (mat_f doc_lmi) (mat_f0 doc_lmi) (fv [1; 0]).
Proof.
  split; intros v; [rewrite quad_lmi0|rewrite quad_lmi]; unfold quad, bil, dot, mv, sumn, fm, fv, doc_lmi; cbn;
    pose proof (Rle_0_sqr (v O)) as H0; pose proof (Rle_0_sqr (v 1%nat)) as H1; unfold Rsqr in *; lra.
Qed.
Lemma doc_lmi2_cut : exists o' g be, lmi2_assess_feas doc_lmi (@cons R 3 [0]) = (o', Ok (Some (g, be))).
Proof.
  destruct (lmi2_assess_feas doc_lmi (@cons R 3 [0])) as [o' r] eqn:E.
  destruct (lmi2_decides 2 _ (@cons R 3 [0]) _ _ doc_lmi_wf eq_refl E) as ([a ->] & D & _).
  destruct a as [[g be]|]; [eauto|]. exfalso. apply doc_lmi_out. apply D. reflexivity.
Qed.
Lemma doc_lmi2_cut0 : exists o' g be, lmi2_assess_feas doc_lmi (@cons R (-1) [0]) = (o', Ok (Some (g, be))).
Proof.
  destruct (lmi2_assess_feas doc_lmi (@cons R (-1) [0])) as [o' r] eqn:E.
  destruct (lmi2_decides 2 _ (@cons R (-1) [0]) _ _ doc_lmi_wf eq_refl E) as ([a ->] & D & _).
  destruct a as [[g be]|]; [eauto|]. exfalso. apply doc_lmi0_out. apply D. reflexivity.
Qed.

Definition doc_lmi3 : lmi RA := lmi3_init (A:=RA) [[[1; 0]; [0; 1]]; [[0; 1]; [1; 0]]] [[2; 0]; [0; 2]].
Lemma doc_lmi3_wf : lmi_wf 2 doc_lmi3 /\ mat_f0 doc_lmi3 = map (map Ropp) [[2; 0]; [0; 2]] /\ sym_mat 2 [[2; 0]; [0; 2]].
Proof.
  assert (S : sym_mat 2 [[2; 0]; [0; 2]]) by apply sym_22.
  destruct (lmi3_init_wf 2 [[[1; 0]; [0; 1]]; [[0; 1]; [1; 0]]] [[2; 0]; [0; 2]] S) as (W & _ & E); [repeat constructor; apply sym_22|].
  split; [exact W|]. split; [exact E|exact S].
Qed.
Lemma doc_lmi3_cut : exists o' g be, lmi3_assess_feas doc_lmi3 (@cons R 1 [0]) = (o', Ok (Some (g, be))).
Proof.
  destruct doc_lmi3_wf as (W & E0 & S). destruct (lmi3_assess_feas doc_lmi3 (@cons R 1 [0])) as [o' r] eqn:E.
  destruct (lmi3_decides 2 _ _ (@cons R 1 [0]) _ _ S W E0 eq_refl E) as ([a ->] & D & _).
  destruct a as [[g be]|]; [eauto|]. exfalso. destruct D as (D & _). specialize (D eq_refl (fun _ => 1)).
  assert (HN : nonzero 2 (fun _ => 1)) by (exists 0%nat; split; [lia|lra]). specialize (D HN).
  rewrite quad_lmi3 in D. unfold quad, bil, dot, mv, sumn, fm, fv, doc_lmi3 in D. cbn in D. lra.
Qed.
