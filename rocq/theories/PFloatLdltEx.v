(** Sign of the LMI cuts in doubles, and concrete runs of [LDLTMgr.factor] and
    [LMIOracle] in doubles. *)
From Coq Require Import Reals List Arith ZArith Bool Lia Lra Psatz Floats.
From Flocq Require Import Core.Core.
From Verif Require Import Arith Vec ModelCalc ModelEll ModelLdlt ModelLmi Spec SpecLdlt PSum.
From Verif Require Import SpecFloating SpecFloatLdlt PFloat PFloatLdlt PFloatLmi PFloatCut2 PFloatEx2.
Import ListNotations.
Local Open Scope R_scope.

(** ** The offset of a cut *)
Lemma fopp_nonneg (x : num FA) : @aleb FA x azero = true -> fnonneg (aneg (a:=FA) x).
Proof.
  intros H. change (PrimFloat.leb x PrimFloat.zero = true) in H. unfold fnonneg. change (aneg (a:=FA) x) with (PrimFloat.opp x).
  rewrite leb_spec in *. rewrite opp_spec. generalize (Prim2SF_valid x). destruct (Prim2SF x) as [s|s| |s m e].
  - reflexivity.
  - destruct s; [reflexivity|discriminate].
  - discriminate.
  - destruct s; [reflexivity|discriminate].
Qed.

Lemma wit_nonneg m g (s s1 : ldlt FA) m1 ep : shape m s -> factor g s = (s1, false) -> witness s1 = (m1, Ok ep) -> fnonneg ep.
Proof.
  intros Hs EF Ew.
  destruct (factor_rows g m _ s1 false Hs EF) as [_ [(Hb & _)|(_ & p & Eps & _ & _ & _ & Hd)]]; [discriminate|].
  unfold witness, is_spd in Ew. rewrite Eps in Ew. cbn [snd Nat.eqb] in Ew. injection Ew as _ <-.
  apply fopp_nonneg. cbn [Nat.sub]. rewrite Nat.sub_0_r. exact Hd.
Qed.

Lemma flmi_cut_nonneg m (o : lmi FA) x o' g be : shape m (ldlt_mgr o) ->
  lmi_assess_feas o x = (o', Ok (Some (g, be))) -> exists ep, be = CSingle ep /\ fnonneg ep.
Proof.
  intros Hs. unfold lmi_assess_feas. destruct (factor _ (ldlt_mgr o)) as [s1 b] eqn:EF. destruct b; [discriminate|].
  destruct (witness s1) as [m1 [ep|e]] eqn:Ew; [|discriminate]. cbn [bind]. intros H. injection H as _ _ <-.
  exists ep. split; [reflexivity|]. eapply wit_nonneg; eassumption.
Qed.
Lemma flmi_old_cut_nonneg m (o : lmi FA) x o' g be : shape m (ldlt_mgr o) ->
  lmi_old_assess_feas o x = (o', Ok (Some (g, be))) -> exists ep, be = CSingle ep /\ fnonneg ep.
Proof.
  intros Hs. unfold lmi_old_assess_feas, factorize. destruct (Nat.ltb _ _); [discriminate|].
  destruct (factor _ (ldlt_mgr o)) as [s1 b] eqn:EF. destruct b; [discriminate|].
  destruct (witness s1) as [m1 [ep|e]] eqn:Ew; [|discriminate]. cbn [bind]. intros H. injection H as _ _ <-.
  exists ep. split; [reflexivity|]. eapply wit_nonneg; eassumption.
Qed.
Lemma flmi0_cut_nonneg m (o : lmi0 FA) x o' g be : shape m (ldlt0_mgr o) ->
  lmi0_assess_feas o x = (o', Ok (Some (g, be))) -> exists ep, be = CSingle ep /\ fnonneg ep.
Proof.
  intros Hs. unfold lmi0_assess_feas. destruct (_ && _); [discriminate|].
  destruct (factor _ (ldlt0_mgr o)) as [s1 b] eqn:EF. destruct b; [discriminate|].
  destruct (witness s1) as [m1 [ep|e]] eqn:Ew; [|discriminate]. cbn [bind]. intros H. injection H as _ _ <-.
  exists ep. split; [reflexivity|]. eapply wit_nonneg; eassumption.
Qed.

Lemma init_shape {A : Arith} m : shape (A:=A) m (ldlt_init m).
Proof.
  unfold shape, ldlt_init. cbn [l_ndim wit storage]. unfold vzeros, mzeros.
  repeat split; [apply repeat_length|rewrite repeat_length; reflexivity|].
  intros i Hi. rewrite nth_indep with (d' := repeat azero m) by (rewrite repeat_length; exact Hi).
  rewrite nth_repeat. apply repeat_length.
Qed.

(** ** Indefinite and accepted *)
Definition nanb : mat FA := [[0x1p-1000; 0; 0x1p600]; [0; 1; 0]; [0x1p600; 0; 1]]%float.

Lemma fval_0 : fval 0%float = 0. Proof. reflexivity. Qed.
Lemma fval_big : 2 ^ 500 <= fval 0x1p600%float.
Proof.
  unfold fval. replace (Prim2SF 0x1p600%float) with (S754_finite false 4503599627370496 548) by (vm_compute; reflexivity).
  rewrite <- bp_powerRZ. replace (2 ^ 500) with (bpow radix2 500).
  - assert (bpow radix2 500 <= bpow radix2 548) by (apply bpow_le; lia). pose proof (bpow_gt_0 radix2 548). lra.
  - rewrite bp_powerRZ. replace 500%Z with (Z.of_nat 500) by reflexivity. rewrite <- pow_powerRZ. reflexivity.
Qed.
Lemma fval_small : fval 0x1p-1000%float <= 1.
Proof.
  unfold fval. replace (Prim2SF 0x1p-1000%float) with (S754_finite false 4503599627370496 (-1052)) by (vm_compute; reflexivity).
  rewrite <- bp_powerRZ. replace 4503599627370496%positive with (2 ^ 52)%positive by reflexivity.
  assert (E : IZR (Z.pos (2 ^ 52)) = bpow radix2 52) by (rewrite <- (IZR_Zpower radix2) by lia; reflexivity).
  rewrite E, Rmult_1_l, <- bpow_plus. change 1 with (bpow radix2 0). apply bpow_le. lia.
Qed.

Lemma nan_quad : quad 3 (ffm nanb) (fun i => match i with 0%nat => 1 | 1%nat => 0 | _ => -1 end) <= - 2 ^ 499 * dot 3 (fun i => match i with 0%nat => 1 | 1%nat => 0 | _ => -1 end) (fun i => match i with 0%nat => 1 | 1%nat => 0 | _ => -1 end).
Proof.
  unfold quad, bil, mv, dot. cbn [sumn].
  change (ffm nanb 0 0) with (fval 0x1p-1000%float). change (ffm nanb 0 2) with (fval 0x1p600%float).
  change (ffm nanb 2 0) with (fval 0x1p600%float). change (ffm nanb 2 2) with (fval 1%float).
  rewrite fval_1. pose proof fval_big as H1. pose proof fval_small as H2.
  assert (E : 2 ^ 500 = 2 * 2 ^ 499) by reflexivity.
  assert (1 <= 2 ^ 499) by (apply pow_R1_Rle; lra). set (t := 2 ^ 499) in *. set (u := 2 ^ 500) in *. clearbody t u.
  set (b := fval 0x1p600%float) in *. set (c := fval 0x1p-1000%float) in *. nra.
Qed.

Lemma nan_sym : symmetric 3 (ffm nanb).
Proof. intros [|[|[|i]]] [|[|[|j]]] Hi Hj; try lia; reflexivity. Qed.
Lemma nan_fin : forall i j, (i < 3)%nat -> (j < 3)%nat -> ffinite (mget nanb i j).
Proof. intros [|[|[|i]]] [|[|[|j]]] Hi Hj; try lia; vm_compute; exact I. Qed.

Lemma ex_nan_accept : exists (a : mat FA) s v,
  square_mat 3 a /\ symmetric 3 (ffm a) /\ (forall i j, (i < 3)%nat -> (j < 3)%nat -> ffinite (mget a i j)) /\
  s = ldlt_init 3 /\ snd (factorize a s) = true /\ nonzero 3 v /\ quad 3 (ffm a) v <= - 2 ^ 499 * dot 3 v v.
Proof.
  exists nanb, (ldlt_init (A:=FA) 3), (fun i => match i with 0%nat => 1 | 1%nat => 0 | _ => -1 end).
  split; [split; [reflexivity|]; intros [|[|[|i]]] Hi; try lia; reflexivity|].
  split; [exact nan_sym|]. split; [exact nan_fin|]. split; [reflexivity|]. split; [vm_compute; reflexivity|].
  split; [exists 0%nat; split; [lia|lra]|exact nan_quad].
Qed.

(** outcomes as booleans, to be computed *)
Definition is_none (r : res (option (cut FA))) : bool := match r with Ok None => true | _ => false end.
Definition is_single (r : res (option (cut FA))) : bool :=
  match r with Ok (Some (_, CSingle _)) => true | _ => false end.
Lemma is_none_ok r : is_none r = true -> r = Ok None.
Proof. destruct r as [[c|]|e]; intros H; [discriminate|reflexivity|discriminate]. Qed.
Lemma is_single_ok r : is_single r = true -> exists g ep, r = Ok (Some (g, CSingle ep)).
Proof. destruct r as [[[g [b|l]]|]|e]; intros H; try discriminate. eauto. Qed.

Definition zero3 : mat FA := [[0; 0; 0]; [0; 0; 0]; [0; 0; 0]]%float.
Lemma flmi0v b : flmi_at [zero3] b [0%float] = fun i j => ffm b i j - (0 + ffm zero3 i j * fval 0%float).
Proof. reflexivity. Qed.

Lemma nan_none : is_none (snd (lmi_assess_feas (lmi_init [zero3] nanb) [0%float])) = true.
Proof. vm_compute. reflexivity. Qed.

Lemma ex_nan_lmi : exists (f : list (mat FA)) b x v,
  flmi_wf 3 (lmi_init f b) /\ length x = length f /\
  (forall i j, (i < 3)%nat -> (j < 3)%nat -> ffinite (mget b i j)) /\
  snd (lmi_assess_feas (lmi_init f b) x) = Ok None /\ nonzero 3 v /\ quad 3 (flmi_at f b x) v < 0.
Proof.
  exists [zero3], nanb, [0%float], (fun i => match i with 0%nat => 1 | 1%nat => 0 | _ => -1 end).
  assert (Sz : fsym_mat 3 zero3).
  { split; [split; [reflexivity|]; intros [|[|[|i]]] Hi; try lia; reflexivity|].
    intros [|[|[|i]]] [|[|[|j]]] Hi Hj; try lia; reflexivity. }
  assert (Sb : fsym_mat 3 nanb).
  { split; [split; [reflexivity|]; intros [|[|[|i]]] Hi; try lia; reflexivity|exact nan_sym]. }
  split; [split; [exact Sb|split; [repeat constructor; apply Sz|apply init_shape]]|].
  split; [reflexivity|]. split; [exact nan_fin|]. split; [exact (is_none_ok _ nan_none)|].
  split; [exists 0%nat; split; [lia|lra]|].
  eapply Rle_lt_trans.
  - right. apply bil_ext with (M' := ffm nanb); [|reflexivity|reflexivity].
    intros i j _ _. rewrite flmi0v. cbv beta. rewrite fval_0. ring.
  - eapply Rle_lt_trans; [exact nan_quad|]. unfold dot. cbn [sumn].
    assert (1 <= 2 ^ 499) by (apply pow_R1_Rle; lra). set (t := 2 ^ 499) in *. clearbody t. lra.
Qed.

(** ** Ordinary runs *)
Definition pd2 : mat FA := [[4; 2]; [2; 3]]%float.
Definition nd2 : mat FA := [[1; 2]; [2; 1]]%float.
Definition run2 (a : mat FA) : ldlt FA * bool := factor (fun i j => mget a i j) (ldlt_init 2).
Lemma pd2_true : snd (run2 pd2) = true. Proof. vm_compute. reflexivity. Qed.
Lemma nd2_false : snd (run2 nd2) = false. Proof. vm_compute. reflexivity. Qed.
Lemma pd2_rows : rows 2 (fst (run2 pd2)) = 2%nat. Proof. vm_compute. reflexivity. Qed.
Lemma nd2_rows : rows 2 (fst (run2 nd2)) = 2%nat. Proof. vm_compute. reflexivity. Qed.
Lemma ex_accept : exists s1, factor (fun i j => mget pd2 i j) (ldlt_init 2) = (s1, true) /\ pivots_finite 2 s1 /\
  matrix_of 2 (fun i j => mget pd2 i j) (ffm pd2) /\ shape (A:=FA) 2 (ldlt_init 2) /\ INR 2 <= 1000000.
Proof.
  exists (fst (run2 pd2)). split; [rewrite <- pd2_true; apply surjective_pairing|].
  split; [|split; [|split; [apply init_shape|cbn; lra]]].
  - unfold pivots_finite. rewrite pd2_rows. intros [|[|k]] Hk; [vm_compute; exact I|vm_compute; exact I|lia].
  - split; [intros [|[|i]] [|[|j]] Hi Hj; try lia; reflexivity|reflexivity].
Qed.
Lemma ex_reject : exists s1, factor (fun i j => mget nd2 i j) (ldlt_init 2) = (s1, false) /\ pivots_finite 2 s1 /\
  matrix_of 2 (fun i j => mget nd2 i j) (ffm nd2) /\ shape (A:=FA) 2 (ldlt_init 2) /\ INR 2 <= 1000000.
Proof.
  exists (fst (run2 nd2)). split; [rewrite <- nd2_false; apply surjective_pairing|].
  split; [|split; [|split; [apply init_shape|cbn; lra]]].
  - unfold pivots_finite. rewrite nd2_rows. intros [|[|k]] Hk; [vm_compute; exact I|vm_compute; exact I|lia].
  - split; [intros [|[|i]] [|[|j]] Hi Hj; try lia; reflexivity|reflexivity].
Qed.

Definition id2 : mat FA := [[1; 0]; [0; 1]]%float.
Definition pd2b : mat FA := [[2; 1]; [1; 2]]%float.
Lemma two_wf : flmi_wf 2 (lmi_init [id2] pd2b).
Proof.
  assert (Sz : fsym_mat 2 id2).
  { split; [split; [reflexivity|]; intros [|[|i]] Hi; try lia; reflexivity|].
    intros [|[|i]] [|[|j]] Hi Hj; try lia; reflexivity. }
  assert (Sb : fsym_mat 2 pd2b).
  { split; [split; [reflexivity|]; intros [|[|i]] Hi; try lia; reflexivity|].
    intros [|[|i]] [|[|j]] Hi Hj; try lia; reflexivity. }
  split; [exact Sb|split; [repeat constructor; apply Sz|apply init_shape]].
Qed.
Lemma two_size x : x = 0.5%float \/ x = 2%float -> flmi_size 2 [id2] pd2b [x] 4.
Proof.
  intros Hx. assert (Hv : Rabs (ffv [x] 0) <= 2).
  { unfold ffv. cbn [nth]. destruct Hx as [-> | ->]; [rewrite fval_half|rewrite fval_2]; rewrite Rabs_pos_eq; lra. }
  pose proof (Rabs_pos (ffv [x] 0)).
  intros [|[|i]] [|[|j]] Hi Hj; try lia; cbn [length sumn nth];
    unfold ffm; cbn [nth pd2b id2]; rewrite ?fval_1, ?fval_2, ?fval_0, ?Rabs_R0, ?Rabs_R1; rewrite ?(Rabs_pos_eq 2) by lra; lra.
Qed.
Definition runl (x : num FA) : lmi FA * res (option (cut FA)) := lmi_assess_feas (lmi_init [id2] pd2b) [x].
Lemma half_none : is_none (snd (runl 0.5%float)) = true. Proof. vm_compute. reflexivity. Qed.
Lemma two_some : is_single (snd (runl 2%float)) = true. Proof. vm_compute. reflexivity. Qed.
Lemma half_rows : rows 2 (ldlt_mgr (fst (runl 0.5%float))) = 2%nat. Proof. vm_compute. reflexivity. Qed.
Lemma two_rows : rows 2 (ldlt_mgr (fst (runl 2%float))) = 1%nat. Proof. vm_compute. reflexivity. Qed.
Lemma ex_flmi : flmi_wf 2 (lmi_init [id2] pd2b) /\ flmi_size 2 [id2] pd2b [0.5%float] 4 /\ flmi_size 2 [id2] pd2b [2%float] 4 /\
  (exists o, lmi_assess_feas (lmi_init [id2] pd2b) [0.5%float] = (o, Ok None) /\ pivots_finite 2 (ldlt_mgr o)) /\
  (exists o g ep, lmi_assess_feas (lmi_init [id2] pd2b) [2%float] = (o, Ok (Some (g, CSingle ep))) /\ pivots_finite 2 (ldlt_mgr o)).
Proof.
  split; [exact two_wf|]. split; [apply two_size; left; reflexivity|]. split; [apply two_size; right; reflexivity|]. split.
  - exists (fst (runl 0.5%float)). split; [rewrite <- (is_none_ok _ half_none); apply surjective_pairing|].
    unfold pivots_finite. rewrite half_rows. intros [|[|k]] Hk; [vm_compute; exact I|vm_compute; exact I|lia].
  - destruct (is_single_ok _ two_some) as (g & ep & E). exists (fst (runl 2%float)), g, ep.
    split; [rewrite <- E; apply surjective_pairing|].
    unfold pivots_finite. rewrite two_rows. intros [|k] Hk; [vm_compute; exact I|lia].
Qed.
Lemma ex_margin : flmi_margin 2 1 4 <= / 10 ^ 12.
Proof.
  unfold flmi_margin, u53, tiny. rewrite <- !bp_powerRZ.
  assert (H1 : bpow radix2 (-53) <= / 9000000000000000).
  { change (-53)%Z with (- (53))%Z. rewrite bpow_opp. apply Rinv_le; [lra|]. cbn [bpow]. cbn. lra. }
  assert (H2 : bpow radix2 (-1074) <= bpow radix2 (-53)) by (apply bpow_le; lia).
  pose proof (bpow_gt_0 radix2 (-1074)). cbn [INR]. lra.
Qed.

Lemma init2_shape : shape (A:=FA) 2 (ldlt_init 2).
Proof. repeat split. intros [|[|i]] H; [reflexivity|reflexivity|lia]. Qed.
Lemma ex_cuts : shape 2 (ldlt_mgr (lmi_init [id2] pd2b)) /\
  (exists g ep, snd (lmi_assess_feas (lmi_init [id2] pd2b) [2%float]) = Ok (Some (g, CSingle ep))) /\
  (exists g ep, snd (lmi_old_assess_feas (lmi_init [id2] pd2b) [2%float]) = Ok (Some (g, CSingle ep))) /\
  exists o, lmi0_init [id2] = Ok o /\ shape 2 (ldlt0_mgr o) /\
    exists g ep, snd (lmi0_assess_feas o [(-1)%float]) = Ok (Some (g, CSingle ep)).
Proof.
  split; [exact init2_shape|]. split; [apply is_single_ok; vm_compute; reflexivity|].
  split; [apply is_single_ok; vm_compute; reflexivity|]. eexists. split; [reflexivity|]. split; [exact init2_shape|].
  apply is_single_ok. vm_compute. reflexivity.
Qed.
