(** [LMIOracle.assess_feas] in doubles. *)
From Coq Require Import Reals ZArith List Arith Lia Lra Psatz Bool Floats.
From Flocq Require Import Core.Core.
From Verif Require Import Arith Vec ModelCalc ModelEll ModelLdlt ModelLmi Spec SpecLdlt PSum PVec.
From Verif Require Import SpecFloating SpecFloatLdlt PFloat PFloatErr PFloatAcc PFloatBs.
From Verif Require Import PFloatLdlt PFloatLdlt2 PFloatLdlt3 PFloatLdlt4 PFloatLdlt5.
Import ListNotations.
Local Open Scope R_scope.

Lemma map2_seq {T U V} (h : T -> U -> V) (l : list T) (k : list U) dt du : length l = length k ->
  map2 h l k = map (fun i => h (nth i l dt) (nth i k du)) (seq 0 (length l)).
Proof.
  revert k. induction l as [|a l IH]; intros [|b k] H; try discriminate; [reflexivity|].
  cbn [map2 length seq map nth]. f_equal. rewrite <- seq_shift, map_map. apply IH. now injection H.
Qed.

Lemma quad_diff m A B E v : 0 <= E -> (forall i j, (i < m)%nat -> (j < m)%nat -> Rabs (A i j - B i j) <= E) ->
  Rabs (quad m A v - quad m B v) <= INR m * E * dot m v v.
Proof.
  intros HE H. unfold quad. rewrite !bil_sum, <- sumn_minus. eapply Rle_trans; [apply sumn_abs|].
  apply Rle_trans with (sumn m (fun i => E * (sumn m (fun j => Rabs (v j)) * Rabs (v i)))).
  - apply sumn_le. intros i Hi. rewrite <- sumn_minus. eapply Rle_trans; [apply sumn_abs|].
    rewrite <- sumn_scal_r, <- sumn_scal. apply sumn_le. intros j Hj.
    match goal with |- Rabs ?t <= _ => replace t with ((A i j - B i j) * (v i * v j)) by ring end.
    rewrite !Rabs_mult. rewrite (Rmult_comm (Rabs (v j))).
    apply Rmult_le_compat_r; [apply Rmult_le_pos; apply Rabs_pos|apply H; assumption].
  - rewrite !sumn_scal. replace (INR m * E * dot m v v) with (E * (INR m * dot m v v)) by ring.
    apply Rmult_le_compat_l; [exact HE|]. eapply Rle_trans; [apply sumn_sqr|]. right. f_equal.
    unfold dot. apply sumn_ext. intros i Hi. rewrite <- Rabs_mult. apply Rabs_pos_eq, Rle_0_sqr.
Qed.

(** one entry *)
Lemma elem_err (f : list (mat FA)) (b : mat FA) (x : vec FA) i j : length x = length f ->
  ffinite (lmi_elem (A:=FA) f b x i j) ->
  Rabs (fval (lmi_elem (A:=FA) f b x i j) - flmi_at f b x i j) <=
  (th ^ (S (S (length f))) - 1) * (Rabs (ffm b i j) + sumn (length f) (fun k => Rabs (ffm (nth k f []) i j) * Rabs (ffv x k))) +
  INR (length f) * th ^ (S (length f)) * eta0.
Proof.
  intros Hx Hf. apply ev_fin_iff in Hf. set (r := fval (lmi_elem (A:=FA) f b x i j)) in *.
  unfold lmi_elem in Hf. apply fin_sub in Hf. destruct Hf as (a & s & Ea & Es & Er).
  pose proof (ev_fmt _ _ Ea) as Fa. pose proof (ev_fmt _ _ Es) as Fs.
  rewrite (map2_seq _ f x [] (azero (a:=FA)) (eq_sym Hx)) in Es.
  destruct (vsum_err (fun k => mget (nth k f []) i j) (fun k => nth k x (azero (a:=FA))) (length f) s Es) as [_ He].
  unfold flmi_at. pose proof (fval_ev _ _ Ea) as Ea'. change (ffm b i j) with (fval (mget (A:=FA) b i j)). rewrite Ea'.
  set (n := length f) in *.
  change (Rabs (s - sumn n (fun k => ffm (nth k f []) i j * ffv x k)) <=
    (th ^ S n - 1) * sumn n (fun k => Rabs (ffm (nth k f []) i j) * Rabs (ffv x k)) + INR n * th ^ n * eta0) in He.
  set (Sm := sumn n (fun k => ffm (nth k f []) i j * ffv x k)) in *.
  set (Tm := sumn n (fun k => Rabs (ffm (nth k f []) i j) * Rabs (ffv x k))) in *.
  assert (HT : Rabs Sm <= Tm).
  { unfold Sm, Tm. eapply Rle_trans; [apply sumn_abs|]. right. apply sumn_ext. intros. apply Rabs_mult. }
  pose proof (err_minus a s Fa Fs) as Hr. rewrite <- Er in Hr.
  assert (Hs : Rabs s <= Tm + Rabs (s - Sm)).
  { replace s with (Sm + (s - Sm)) at 1 by ring. eapply Rle_trans; [apply Rabs_triang|]. lra. }
  assert (Has : Rabs (a - s) <= Rabs a + Rabs s).
  { unfold Rminus. eapply Rle_trans; [apply Rabs_triang|]. rewrite Rabs_Ropp. lra. }
  replace (r - (a - Sm)) with ((r - (a - s)) - (s - Sm)) by ring. unfold Rminus at 1.
  eapply Rle_trans; [apply Rabs_triang|]. rewrite Rabs_Ropp.
  pose proof uu_pos as U. pose proof th_uu as Hth. pose proof (thp_1 n) as P1. pose proof eta0_pos as E.
  pose proof (pos_INR n) as Hn. pose proof (Rabs_pos a) as Ha. pose proof (Rabs_pos Sm) as HSm.
  set (e := Rabs (s - Sm)) in *. change (th ^ S (S n)) with (th * th ^ S n). change (th ^ S n) with (th * th ^ n) in *.
  set (t := th ^ n) in *.
  assert (G1 : Rabs (r - (a - s)) <= uu * (Rabs a + Tm + e)).
  { eapply Rle_trans; [exact Hr|]. apply Rmult_le_compat_l; lra. }
  assert (G2 : (1 + uu) * e <= th * ((th * t - 1) * Tm + INR n * t * eta0)).
  { pose proof (Rabs_pos (s - Sm)). apply Rmult_le_compat; fold e in H |- *; lra. }
  assert (Ht : th <= th * t) by nra.
  assert (T1 : uu * Tm <= (th - 1) * Tm) by (apply Rmult_le_compat_r; lra).
  assert (T2 : uu * Rabs a <= (th * (th * t) - 1) * Rabs a).
  { apply Rmult_le_compat_r; [exact Ha|]. assert (th * 1 <= th * (th * t)) by (apply Rmult_le_compat_l; nra). lra. }
  lra.
Qed.

(** entries above the diagonal are never asked for *)
Definition low_of (g : nat -> nat -> num FA) : nat -> nat -> R :=
  fun i j => if Nat.leb j i then fval (g i j) else fval (g j i).
Lemma low_matrix n g : matrix_of n g (low_of g).
Proof.
  split.
  - intros i j _ _. unfold low_of. destruct (Nat.leb_spec j i), (Nat.leb_spec i j); try reflexivity; try lia.
    replace j with i by lia. reflexivity.
  - intros i j Hj. unfold low_of. destruct (Nat.leb_spec j i); [reflexivity|lia].
Qed.

Section Margin.
Variables (m n : nat) (B : R).
Hypothesis Hm : INR m <= 1000000.
Hypothesis Hn : INR n <= 1000000.
Hypothesis HB : 0 <= B.
Definition elerr : R := 2 * (INR n + 2) * uu * B + INR n * tiny.

Lemma elerr_pos : 0 <= elerr.
Proof.
  unfold elerr. rewrite tiny_eta. pose proof uu_pos. pose proof eta0_pos. pose proof (pos_INR n).
  apply Rplus_le_le_0_compat; repeat apply Rmult_le_pos; lra.
Qed.

Lemma elerr_ok T : 0 <= T <= B -> (th ^ (S (S n)) - 1) * T + INR n * th ^ (S n) * eta0 <= elerr.
Proof.
  intros HT. assert (Hn' : INR (S n) <= 1000001) by (rewrite S_INR; lra).
  pose proof uu_pos as U. pose proof uu_9 as Us. pose proof eta0_pos as E. pose proof (pos_INR n) as P.
  assert (K : th ^ (S (S n)) - 1 <= 2 * (INR n + 2) * uu).
  { set (y := (INR n + 2) * uu).
    assert (Hy : 0 <= y <= / 4).
    { unfold y. split; [apply Rmult_le_pos; lra|]. apply Rle_trans with (1000002 * / 9000000000000000); [|lra]. apply Rmult_le_compat; lra. }
    assert (Ht : th ^ (S (S n)) <= / (1 - y)).
    { unfold th. rewrite pow_inv. apply Rinv_le_contravar; [lra|].
      pose proof (om_pow (S (S n))) as H. rewrite !S_INR in H. unfold y. lra. }
    assert (Hi : / (1 - y) <= 1 + 2 * y).
    { apply Rmult_le_reg_l with (1 - y); [lra|]. rewrite Rinv_r by lra. nra. }
    unfold y in *. lra. }
  assert (K2 : th ^ (S n) <= 2).
  { pose proof (thp_le (S n) (S (S n)) ltac:(lia)) as H. 
    assert (2 * (INR n + 2) * uu <= 2 * 1000002 * / 9000000000000000) by (apply Rmult_le_compat; lra). lra. }
  pose proof (thp_1 (S (S n))) as K3.
  unfold elerr. rewrite tiny_eta. apply Rplus_le_compat.
  - apply Rmult_le_compat; lra.
  - replace (INR n * (2 * eta0)) with (INR n * 2 * eta0) by ring. apply Rmult_le_compat_r; [lra|]. apply Rmult_le_compat_l; lra.
Qed.

(** the whole margin *)
Lemma margin_ok (A : nat -> nat -> R) v : (forall i, (i < m)%nat -> Rabs (A i i) <= B + elerr) ->
  ldlt_tol m A v + INR m * elerr * dot m v v <= flmi_margin m n B * dot m v v.
Proof.
  intros HA. unfold ldlt_tol.
  pose proof uu_pos as U. pose proof uu_9 as Us. pose proof eta0_pos as E. pose proof (pos_INR n) as Pn. pose proof (pos_INR m) as Pm.
  pose proof (rel_small m Hm) as Rs. pose proof elerr_pos as Ep.
  assert (H1 : sumn m (fun i => A i i * (v i * v i)) <= (B + elerr) * dot m v v).
  { unfold dot. rewrite <- sumn_scal. apply sumn_le. intros i Hi. apply Rmult_le_compat_r; [apply Rle_0_sqr|].
    eapply Rle_trans; [apply Rle_abs|apply HA, Hi]. }
  assert (H1' : ldlt_rel m * sumn m (fun i => A i i * (v i * v i)) <= ldlt_rel m * (B + elerr) * dot m v v).
  { rewrite Rmult_assoc. apply Rmult_le_compat_l; [lra|exact H1]. }
  assert (H2 : sumn m (fun i => Rabs (A i i)) <= INR m * (B + elerr)).
  { rewrite <- sumn_const. apply sumn_le. intros i Hi. apply HA, Hi. }
  assert (Hel : elerr <= / 1000 * B + / 1000).
  { unfold elerr. apply Rplus_le_compat.
    - apply Rmult_le_compat_r; [lra|]. apply Rle_trans with (2 * 1000002 * / 9000000000000000); [|lra]. apply Rmult_le_compat; lra.
    - rewrite tiny_eta. assert (eta0 <= uu) by (apply bpow_le; lia).
      apply Rle_trans with (1000000 * (2 * / 9000000000000000)); [|lra]. apply Rmult_le_compat; lra. }
  set (x := INR m) in *. set (y := INR n) in *. set (d := dot m v v). assert (Hd : 0 <= d) by apply dot_self_ge_0.
  assert (H3 : ldlt_abs m A <= 8 * x * (x + 1) * tiny * (1 + x * (1001 / 1000 * B + / 1000))).
  { unfold ldlt_abs. fold x. apply Rmult_le_compat_l; [rewrite tiny_eta; repeat apply Rmult_le_pos; lra|].
    apply Rplus_le_compat_l. eapply Rle_trans; [exact H2|]. apply Rmult_le_compat_l; lra. }
  apply Rle_trans with ((ldlt_rel m * (B + elerr) + ldlt_abs m A + x * elerr) * d).
  { fold d in H1'. lra. }
  apply Rmult_le_compat_r; [exact Hd|].
  unfold flmi_margin. rewrite uu_u53. fold x y.
  destruct (Nat.eq_dec m 0) as [E0|E0].
  { assert (x0 : x = 0) by (unfold x; rewrite E0; reflexivity). unfold ldlt_rel, ldlt_abs. fold x. rewrite x0. lra. }
  assert (x1 : 1 <= x) by (unfold x; apply (le_INR 1); lia).
  assert (T0 : 0 < tiny) by (rewrite tiny_eta; lra).
  (* relative part *)
  assert (G1 : ldlt_rel m * B + x * (2 * (y + 2) * uu * B) <= (4 - / 100) * x * (x + y + 2) * uu * B).
  { unfold ldlt_rel. rewrite uu_u53. fold x.
    assert (0 <= uu * B) by (apply Rmult_le_pos; lra).
    replace (2 * x * (x + 1) * uu * B + x * (2 * (y + 2) * uu * B)) with ((2 * x * (x + y + 3)) * (uu * B)) by ring.
    replace ((4 - / 100) * x * (x + y + 2) * uu * B) with (((4 - / 100) * x * (x + y + 2)) * (uu * B)) by ring.
    apply Rmult_le_compat_r; [assumption|]. nra. }
  assert (G2 : ldlt_rel m * elerr <= / 1000 * (2 * (y + 2) * uu * B) + / 1000 * (y * tiny)).
  { unfold elerr at 1. fold y. apply Rle_trans with (/ 1000 * (2 * (y + 2) * uu * B + y * tiny)); [|lra].
    apply Rmult_le_compat_r; [fold elerr in Ep; unfold elerr in Ep; exact Ep|lra]. }
  assert (G3 : / 1000 * (2 * (y + 2) * uu * B) <= / 100 * x * (x + y + 2) * uu * B).
  { assert (0 <= uu * B) by (apply Rmult_le_pos; lra).
    replace (/ 1000 * (2 * (y + 2) * uu * B)) with (/ 1000 * 2 * (y + 2) * (uu * B)) by ring.
    replace (/ 100 * x * (x + y + 2) * uu * B) with (/ 100 * x * (x + y + 2) * (uu * B)) by ring.
    apply Rmult_le_compat_r; [assumption|]. nra. }
  assert (G4 : 8 * x * (x + 1) * tiny * (1 + x * (1001 / 1000 * B + / 1000)) + x * (y * tiny) + / 1000 * (y * tiny) <=
    20 * x * (x + 1) * (x + y + 1) * tiny * (1 + B)).
  { replace (8 * x * (x + 1) * tiny * (1 + x * (1001 / 1000 * B + / 1000)) + x * (y * tiny) + / 1000 * (y * tiny)) with
      (tiny * (8 * x * (x + 1) * (1 + x * (1001 / 1000 * B + / 1000)) + x * y + / 1000 * y)) by ring.
    replace (20 * x * (x + 1) * (x + y + 1) * tiny * (1 + B)) with (tiny * (20 * x * (x + 1) * (x + y + 1) * (1 + B))) by ring.
    apply Rmult_le_compat_l; [lra|].
    assert (Q : 8 * x * (x + 1) * (1 + x * (1001 / 1000 * B + / 1000)) <= 18 * (x * (x + 1) * (x + y + 1) * (1 + B))).
    { replace (8 * x * (x + 1) * (1 + x * (1001 / 1000 * B + / 1000))) with (x * (x + 1) * (8 * (1 + x * (1001 / 1000 * B + / 1000)))) by ring.
      replace (18 * (x * (x + 1) * (x + y + 1) * (1 + B))) with (x * (x + 1) * (18 * ((x + y + 1) * (1 + B)))) by ring.
      apply Rmult_le_compat_l; [apply Rmult_le_pos; lra|]. assert (0 <= x * B) by (apply Rmult_le_pos; lra). nra. }
    assert (Q2 : x * y + / 1000 * y <= 2 * (x * (x + 1) * (x + y + 1) * (1 + B))).
    { assert (x * y + / 1000 * y <= 2 * (x * (x + 1) * (x + y + 1))).
      { assert (0 <= x * y) by (apply Rmult_le_pos; lra). assert (x * y <= x * (x + 1) * (x + y + 1)).
        { replace (x * (x + 1) * (x + y + 1)) with (x * y + (x * x * (x + y + 1) + x * (x + 1))) by ring.
          assert (0 <= x * x * (x + y + 1) + x * (x + 1)) by (apply Rplus_le_le_0_compat; repeat apply Rmult_le_pos; lra). lra. }
        assert (y <= x * y) by nra. lra. }
      assert (0 <= x * (x + 1) * (x + y + 1)) by (repeat apply Rmult_le_pos; lra).
      assert (0 <= x * (x + 1) * (x + y + 1) * B) by (apply Rmult_le_pos; lra). lra. }
    lra. }
  assert (Gx : x * elerr = x * (2 * (y + 2) * uu * B) + x * (y * tiny)) by (unfold elerr; fold y; ring).
  lra.
Qed.
End Margin.

Section Oracle.
Variables (m : nat) (o : lmi FA) (x : vec FA) (B : R).
Hypothesis Ho : flmi_wf m o.
Hypothesis Hx : length x = length (mat_f o).
Hypothesis Hm : INR m <= 1000000.
Hypothesis Hn : INR (length x) <= 1000000.
Hypothesis HB : flmi_size m (mat_f o) (mat_f0 o) x B.
Let g := lmi_elem (A:=FA) (mat_f o) (mat_f0 o) x.
Let At := flmi_at (mat_f o) (mat_f0 o) x.

Lemma at_sym : symmetric m At.
Proof.
  intros i j Hi Hj. unfold At, flmi_at. destruct Ho as ((_ & S0) & Sf & _). f_equal; [apply S0; assumption|].
  apply sumn_ext. intros k Hk. f_equal. rewrite Forall_forall in Sf.
  destruct (Sf (nth k (mat_f o) []) (nth_In _ _ Hk)) as [_ S1]. apply S1; assumption.
Qed.

Lemma B_pos : (0 < m)%nat -> 0 <= B.
Proof.
  intros H. eapply Rle_trans; [|apply (HB 0%nat 0%nat H H)]. apply Rplus_le_le_0_compat; [apply Rabs_pos|].
  apply sumn_ge_0. intros. apply Rmult_le_pos; apply Rabs_pos.
Qed.

Lemma low_at p : (p <= m)%nat -> (forall i j, (j <= i < p)%nat -> ffinite (g i j)) -> (0 < m)%nat ->
  forall i j, (i < p)%nat -> (j < p)%nat -> Rabs (low_of g i j - At i j) <= elerr (length x) B.
Proof.
  intros Hp Hf H0. assert (G : forall i j, (j <= i < p)%nat -> Rabs (fval (g i j) - At i j) <= elerr (length x) B).
  { intros i j Hj. eapply Rle_trans; [apply elem_err; [exact Hx|apply Hf, Hj]|]. rewrite <- Hx.
    apply elerr_ok; [exact Hn|]. rewrite Hx. split.
    - apply Rplus_le_le_0_compat; [apply Rabs_pos|]. apply sumn_ge_0. intros. apply Rmult_le_pos; apply Rabs_pos.
    - apply HB; lia. }
  intros i j Hi Hj. unfold low_of. destruct (Nat.leb_spec j i); [apply G; lia|].
  rewrite (at_sym i j) by lia. apply G. lia.
Qed.

Lemma at_size i : (i < m)%nat -> Rabs (At i i) <= B.
Proof.
  intros Hi. eapply Rle_trans; [|apply (HB i i Hi Hi)]. unfold At, flmi_at, Rminus. eapply Rle_trans; [apply Rabs_triang|].
  rewrite Rabs_Ropp. apply Rplus_le_compat_l. eapply Rle_trans; [apply sumn_abs|]. right. apply sumn_ext. intros. apply Rabs_mult.
Qed.

Lemma low_size p : (p <= m)%nat -> (forall i j, (j <= i < p)%nat -> ffinite (g i j)) -> (0 < m)%nat ->
  forall i, (i < p)%nat -> Rabs (low_of g i i) <= B + elerr (length x) B.
Proof.
  intros Hp Hf H0 i Hi. replace (low_of g i i) with (At i i + (low_of g i i - At i i)) by ring.
  eapply Rle_trans; [apply Rabs_triang|]. apply Rplus_le_compat; [apply at_size; lia|apply (low_at p Hp Hf H0); assumption].
Qed.

Lemma flmi_accept o' : lmi_assess_feas o x = (o', Ok None) -> pivots_finite m (ldlt_mgr o') ->
  above m (- flmi_margin m (length x) B) At.
Proof.
  unfold lmi_assess_feas. fold g. destruct (factor g (ldlt_mgr o)) as [s1 b] eqn:EF. destruct b.
  2:{ destruct (witness s1) as [m1 [ep|e]]; discriminate. }
  intros H. injection H as <-. cbn [ldlt_mgr]. intros Hp v.
  destruct (Nat.eq_dec m 0) as [E0|E0].
  { rewrite E0. unfold quad, bil, dot. cbn [sumn]. lra. }
  destruct Ho as (_ & _ & Hsh).
  destruct (factor_rows g m _ s1 true Hsh EF) as [HR [(_ & En & _)|(Hb & _)]]; [|discriminate].
  assert (Hf : forall i j, (j <= i < m)%nat -> ffinite (g i j)).
  { intros i j Hj. unfold pivots_finite in Hp. rewrite En in HR, Hp.
    apply (g_finite g _ m HR (all_fin g _ m HR Hp) j i). lia. }
  pose proof (accept_near m g _ s1 (low_of g) Hsh Hm (low_matrix m g) EF Hp v) as HA.
  pose proof (quad_diff m (low_of g) At (elerr (length x) B) v (elerr_pos _ _ (B_pos ltac:(lia)))
    (low_at m (le_n m) Hf ltac:(lia))) as HQ.
  pose proof (margin_ok m (length x) B Hm Hn (B_pos ltac:(lia)) (low_of g) v (low_size m (le_n m) Hf ltac:(lia))) as HM.
  pose proof (Rle_abs (quad m (low_of g) v - quad m At v)). lra.
Qed.

Lemma flmi_reject o' c : lmi_assess_feas o x = (o', Ok (Some c)) -> pivots_finite m (ldlt_mgr o') ->
  exists v, nonzero m v /\ quad m At v <= flmi_margin m (length x) B * dot m v v.
Proof.
  unfold lmi_assess_feas. fold g. destruct (factor g (ldlt_mgr o)) as [s1 b] eqn:EF. destruct b; [discriminate|].
  destruct (witness s1) as [m1 ep] eqn:Ew. intros H. injection H as <- _. cbn [ldlt_mgr]. intros Hp.
  destruct Ho as (_ & _ & Hsh).
  destruct (factor_rows g m _ s1 false Hsh EF) as [HR [(Hb & _)|(_ & p & Eps & En & Hpm & _)]]; [discriminate|].
  assert (Em : pos m1 = pos s1 /\ storage m1 = storage s1).
  { unfold witness in Ew. unfold is_spd in Ew. rewrite Eps in Ew. cbn [snd Nat.eqb] in Ew.
    injection Ew as <- _. rewrite Eps. split; reflexivity. }
  assert (Hp' : pivots_finite m s1).
  { unfold pivots_finite, rows, is_spd in *. destruct Em as [E1 E2]. rewrite E1, E2 in Hp. exact Hp. }
  assert (Hf : forall i j, (j <= i < S p)%nat -> ffinite (g i j)).
  { intros i j Hj. unfold pivots_finite in Hp'. rewrite En in HR, Hp'.
    apply (g_finite g _ (S p) HR (all_fin g _ (S p) HR Hp') j i). lia. }
  set (A := fun i j => if Nat.ltb i (S p) && Nat.ltb j (S p) then low_of g i j else At i j).
  assert (HAl : forall i j, (i < S p)%nat -> (j < S p)%nat -> A i j = low_of g i j).
  { intros i j Hi Hj. unfold A. destruct (Nat.ltb_spec i (S p)), (Nat.ltb_spec j (S p)); try lia. reflexivity. }
  assert (HAa : forall i j, ~ ((i < S p)%nat /\ (j < S p)%nat) -> A i j = At i j).
  { intros i j Hij. unfold A. destruct (Nat.ltb_spec i (S p)), (Nat.ltb_spec j (S p)); try lia; reflexivity. }
  assert (HAd : forall i j, (i < m)%nat -> (j < m)%nat -> Rabs (A i j - At i j) <= elerr (length x) B).
  { intros i j Hi Hj. destruct (le_lt_dec (S p) i) as [H1|H1]; [|destruct (le_lt_dec (S p) j) as [H2|H2]].
    - rewrite HAa by lia. rewrite Rminus_eq_0, Rabs_R0. apply elerr_pos, B_pos. lia.
    - rewrite HAa by lia. rewrite Rminus_eq_0, Rabs_R0. apply elerr_pos, B_pos. lia.
    - rewrite HAl by assumption. apply (low_at (S p)); try assumption; lia. }
  assert (HAs : symmetric m A).
  { intros i j Hi Hj. destruct (le_lt_dec (S p) i) as [H1|H1]; [|destruct (le_lt_dec (S p) j) as [H2|H2]].
    - rewrite !HAa by lia. apply at_sym; assumption.
    - rewrite !HAa by lia. apply at_sym; assumption.
    - rewrite !HAl by assumption. apply (low_matrix m g); assumption. }
  destruct (reject_rows m g _ s1 A Hsh Hm HAs) as (v & Hv & Hq); [|exact EF|exact Hp'|].
  { intros i j Hj. rewrite En in Hj. rewrite HAl by lia. apply (low_matrix (S p) g). lia. }
  exists v. split; [exact Hv|].
  pose proof (quad_diff m A At (elerr (length x) B) v (elerr_pos _ _ (B_pos ltac:(lia))) HAd) as HQ.
  assert (HAz : forall i, (i < m)%nat -> Rabs (A i i) <= B + elerr (length x) B).
  { intros i Hi. replace (A i i) with (At i i + (A i i - At i i)) by ring.
    eapply Rle_trans; [apply Rabs_triang|]. apply Rplus_le_compat; [apply at_size; exact Hi|apply HAd; assumption]. }
  pose proof (margin_ok m (length x) B Hm Hn (B_pos ltac:(lia)) A v HAz) as HM.
  pose proof (Rle_abs (- (quad m A v - quad m At v))) as Ha. rewrite Rabs_Ropp in Ha. lra.
Qed.
End Oracle.
