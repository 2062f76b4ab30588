(** The ellipsoid kept by a cut is the smallest one around the kept part: linear algebra. *)
From Coq Require Import Reals Arith List Lia Lra Psatz Bool.
From Verif Require Import Arith Vec ModelLdlt Spec SpecStable SpecLdlt SpecDet
  PSum PAlg PVol PGeo PLdlt PLdlt2 PLdlt3 PLdlt4 PDet PDet2.
Local Open Scope R_scope.

Lemma pd_factor n M : symmetric n M -> posdef n M -> exists S : nat -> nat -> R,
  (forall k, (k < n)%nat -> 0 < S k k) /\
  (forall i j, (i < n)%nat -> (j < n)%nat -> M i j = sumn n (fun a => lowf S i a * S a a * lowf S j a)) /\
  det n M = prodn n (fun a => S a a).
Proof.
  intros Hs Hp.
  destruct (factor (A:=RA) M (ldlt_init n)) as [s1 b] eqn:E.
  assert (W : ldlt_wf n (ldlt_init n)) by apply init_wf.
  pose proof (proj2 (factor_decides n M _ s1 b W Hs E) Hp) as ->.
  destruct (factor_product n M _ s1 W Hs E) as (P & H). exists (fm (storage s1)). split; [exact P|]. split; [exact H|].
  set (S := fm (storage s1)) in *.
  rewrite (det_ext n M (fun i j => sumn n (fun k => sumn n (fun a => lowf S i a * S a a * lowf S k a) * (if Nat.eqb k j then 1 else 0)))).
  - rewrite det_mul_ldl, (det_diag n _ (fun _ => 1)) by reflexivity. rewrite prodn_const, pow1. apply Rmult_1_r.
  - intros i j Hi Hj. rewrite sumn_delta_r by exact Hj. apply H; assumption.
Qed.

Lemma bil_ldl n M S u v :
  (forall i j, (i < n)%nat -> (j < n)%nat -> M i j = sumn n (fun a => lowf S i a * S a a * lowf S j a)) ->
  bil n M u v = sumn n (fun a => S a a * (tL n S u a * tL n S v a)).
Proof.
  intros H. rewrite bil_sum.
  transitivity (sumn n (fun i => sumn n (fun a => sumn n (fun j => S a a * (lowf S i a * u i) * (lowf S j a * v j))))).
  - apply sumn_ext. intros i Hi. rewrite sumn_swap. apply sumn_ext. intros j Hj. rewrite (H i j Hi Hj).
    rewrite <- sumn_scal, <- ?sumn_scal_r. apply sumn_ext. intros. ring.
  - rewrite sumn_swap. apply sumn_ext. intros a Ha. unfold tL.
    rewrite (sumn_ext n _ (fun i => S a a * (lowf S i a * u i) * sumn n (fun j => lowf S j a * v j))).
    + rewrite sumn_scal_r. rewrite (sumn_scal n (S a a)). ring.
    + intros i Hi. apply sumn_scal.
Qed.

(** the rows of the inverse of the unit triangular factor *)
Lemma tri_dual n S : exists x : nat -> nat -> R, forall i, (i < n)%nat ->
  x i i = 1 /\ (forall j, (i < j)%nat -> x i j = 0) /\
  forall a, (a < n)%nat -> tL n S (x i) a = if Nat.eqb i a then 1 else 0.
Proof.
  enough (H : forall m, (m <= n)%nat -> exists x : nat -> nat -> R, forall i, (i < m)%nat ->
    x i i = 1 /\ (forall j, (i < j)%nat -> x i j = 0) /\
    forall a, (a < n)%nat -> tL n S (x i) a = if Nat.eqb i a then 1 else 0) by (apply (H n); lia).
  induction m as [|m IH]; intros Hm; [exists (fun _ _ => 0); intros; lia|].
  destruct IH as (x & Hx); [lia|].
  exists (fun i => if Nat.ltb i m then x i else fun j => (if Nat.eqb j m then 1 else 0) - sumn m (fun k => S m k * x k j)).
  intros i Hi. destruct (Nat.ltb_spec i m) as [Hl|Hl]; [apply Hx, Hl|]. assert (i = m) by lia. subst i.
  split; [|split].
  - rewrite Nat.eqb_refl, sumn_0; [ring|]. intros k Hk. rewrite (proj1 (proj2 (Hx k Hk)) m Hk). ring.
  - intros j Hj. destruct (Nat.eqb_spec j m); [lia|]. rewrite sumn_0; [ring|].
    intros k Hk. rewrite (proj1 (proj2 (Hx k Hk)) j) by lia. ring.
  - intros a Ha. unfold tL.
    rewrite (sumn_ext n _ (fun i => lowf S i a * (if Nat.eqb i m then 1 else 0) - sumn m (fun k => S m k * (lowf S i a * x k i)))).
    2:{ intros i Hi'. rewrite Rmult_minus_distr_l. f_equal. rewrite <- sumn_scal. apply sumn_ext. intros. ring. }
    rewrite sumn_minus, sumn_delta_r, (sumn_swap n m) by lia.
    rewrite (sumn_ext m _ (fun k => S m k * (if Nat.eqb k a then 1 else 0))).
    2:{ intros k Hk. rewrite sumn_scal. f_equal. apply (Hx k Hk), Ha. }
    unfold lowf. destruct (Nat.ltb_spec a m) as [Hlt|Hge].
    + rewrite sumn_delta_r by exact Hlt. destruct (Nat.eqb_spec m a); [lia|]. ring.
    + rewrite (sumn_0 m); [ring|]. intros k Hk. destruct (Nat.eqb_spec k a); [lia|]. ring.
Qed.

Lemma sumn_top n f i : (i < n)%nat -> (forall j, (i < j)%nat -> f j = 0) -> sumn n f = sumn (S i) f.
Proof.
  intros Hi H. induction n as [|n IH]; [lia|]. destruct (Nat.eq_dec i n) as [->|Hne]; [reflexivity|].
  cbn [sumn]. rewrite (H n) by lia. rewrite IH by lia. cbn [sumn]. ring.
Qed.

Lemma tri_zero n (x : nat -> nat -> R) v :
  (forall i, (i < n)%nat -> x i i = 1 /\ forall j, (i < j)%nat -> x i j = 0) ->
  (forall i, (i < n)%nat -> dot n (x i) v = 0) -> forall i, (i < n)%nat -> v i = 0.
Proof.
  intros Hx H. apply (well_founded_induction lt_wf (fun i => (i < n)%nat -> v i = 0)). intros i IH Hi.
  pose proof (H i Hi) as D. unfold dot in D. destruct (Hx i Hi) as (X1 & X2).
  rewrite (sumn_top n _ i) in D by (exact Hi || (intros j Hj; rewrite (X2 j Hj); ring)).
  cbn [sumn] in D. rewrite sumn_0 in D; [rewrite X1 in D; lra|]. intros k Hk. rewrite (IH k Hk) by lia. ring.
Qed.

(** a unit triangular direction sees at least the pivot *)
Lemma tL_own n S (x : nat -> R) i : (i < n)%nat -> x i = 1 -> (forall j, (i < j)%nat -> x j = 0) -> tL n S x i = 1.
Proof.
  intros Hi X1 X2. unfold tL. rewrite (sumn_top n _ i Hi) by (intros j Hj; rewrite (X2 j Hj); ring).
  cbn [sumn]. rewrite sumn_0.
  - unfold lowf. rewrite Nat.ltb_irrefl, Nat.eqb_refl, X1. ring.
  - intros k Hk. unfold lowf. destruct (Nat.ltb_spec i k); [lia|]. destruct (Nat.eqb_spec k i); [lia|]. ring.
Qed.

Lemma prod_ln n r : (forall i, (i < n)%nat -> 0 < r i) -> ln (prodn n r) = sumn n (fun i => ln (r i)).
Proof.
  induction n as [|n IH]; intros H; [apply ln_1|]. cbn [prodn sumn]. rewrite ln_mult, IH.
  - reflexivity.
  - intros; apply H; lia.
  - apply prodn_pos. intros; apply H; lia.
  - apply H; lia.
Qed.

Lemma amgm n r : (forall i, (i < n)%nat -> 0 < r i) -> sumn n r <= INR n ->
  prodn n r <= 1 /\ (prodn n r = 1 -> sumn n r = INR n /\ forall i, (i < n)%nat -> r i = 1).
Proof.
  intros H Hs. pose proof (prodn_pos n r H) as P. pose proof (prod_ln n r H) as L.
  assert (D : forall i, (i < n)%nat -> 0 <= r i - 1 - ln (r i)).
  { intros i Hi. pose proof (ln_le_sub1 (r i) (H i Hi)). lra. }
  assert (E : sumn n (fun i => r i - 1 - ln (r i)) = sumn n r - INR n - ln (prodn n r)).
  { rewrite !sumn_minus, sumn_const, L. ring. }
  pose proof (sumn_ge_0 n _ D) as G. rewrite E in G. split.
  - destruct (Rle_dec (prodn n r) 1) as [?|Hn]; [assumption|]. exfalso.
    assert (0 < ln (prodn n r)) by (rewrite <- ln_1; apply ln_increasing; lra). lra.
  - intros E1. rewrite E1, ln_1 in E, G. split; [lra|]. intros i Hi.
    pose proof (proj2 (sumn_term_le n _ D) i Hi) as B. pose proof (D i Hi) as B0. cbn beta in B.
    assert (Z : ln (r i) = r i - 1) by lra.
    destruct (Req_dec (r i) 1) as [?|Hne]; [assumption|exfalso].
    assert (N0 : ln (r i) <> 0) by lra.
    pose proof (exp_ineq1 (ln (r i)) N0) as X. rewrite exp_ln in X by apply H, Hi. lra.
Qed.

(** ** The window formulas *)
Definition window (N T a b rho sigma delta : R) : Prop :=
  (rho - a) * (b - rho) * N = delta * (1 - sigma) * T /\
  (T + a * b - rho * (a + b)) * N = delta * (N - 1) * T.

Lemma q_window N T a b : 2 <= N -> 0 < T -> a <= b -> reach T b ->
  window N T a b (q_rho N T a b) (q_sigma N T a b) (q_delta N T a b).
Proof.
  intros HN HT Hab Hr.
  pose proof (sigma_quadratic N T a b HN HT Hab Hr) as Q. pose proof (delta_identity N T a b HN HT Hab Hr) as D.
  pose proof (k_lin N T a b HN HT Hab Hr) as K. split.
  - unfold q_rho. set (s := q_sigma N T a b) in *. set (d := q_delta N T a b) in *. unfold q_A, q_eta, q_s in Q. unfold q_s in D.
    replace (d * (1 - s) * T) with ((1 - s) * (d * T - T) + (1 - s) * T) by ring. rewrite D. lra.
  - assert (X : q_xi N T a b = q_A N T a b - (N + 1) * (q_s a b * q_s a b) * q_sigma N T a b / 2) by (unfold q_k in K; lra).
    unfold q_rho, q_delta. rewrite X. unfold q_A, q_s. field. repeat split; first [lra | nra].
Qed.

Lemma tau_window N tau a : 2 <= N -> 0 < tau -> - tau < a <= tau ->
  window N (tau * tau) a tau ((tau + N * a) / (N + 1)) (2 * (tau + N * a) / ((N + 1) * (tau + a)))
    (N * N / (N * N - 1) * (1 - a / tau * (a / tau))).
Proof.
  intros HN Ht Ha. assert (N * N - 1 <> 0) by nra. split; field; repeat split; lra.
Qed.

(** ** Two rims and the trace *)
Section Rim.
Variable n : nat.
Variables M M' : nat -> nat -> R.
Variables g c c' : nat -> R.
Variables kap kap' : R.
Hypothesis Hsym : symmetric n M.
Hypothesis Hpd : posdef n M.
Hypothesis Hz : nonzero n g.
Let w := quad n M g.
Let T := kap * w.
Hypothesis Hk : 0 < kap.
Variables S S' : nat -> nat -> R.
Hypothesis HS : forall k, (k < n)%nat -> 0 < S k k.
Hypothesis HM : forall i j, (i < n)%nat -> (j < n)%nat -> M i j = sumn n (fun a => lowf S i a * S a a * lowf S j a).
Hypothesis HS' : forall k, (k < n)%nat -> 0 < S' k k.
Hypothesis HM' : forall i j, (i < n)%nat -> (j < n)%nat -> M' i j = sumn n (fun a => lowf S' i a * S' a a * lowf S' j a).
Variables x x' : nat -> nat -> R.
Hypothesis Hx : forall i, (i < n)%nat -> forall a, (a < n)%nat -> tL n S (x i) a = if Nat.eqb i a then 1 else 0.
Hypothesis Hx' : forall i, (i < n)%nat -> forall a, (a < n)%nat -> tL n S' (x' i) a = if Nat.eqb i a then 1 else 0.

Lemma rw_pos : 0 < w.
Proof. apply Hpd, Hz. Qed.

(** the other ellipsoid's form at [c + M y] *)
Definition rform (y : nat -> R) : R :=
  sumn n (fun i => (dot n (x' i) (fun k => c k - c' k) + bil n M (x' i) y) * (dot n (x' i) (fun k => c k - c' k) + bil n M (x' i) y) / S' i i).

Lemma rform_le y z : (forall i, (i < n)%nat -> z i - c i = mv n M y i) -> in_ellipsoid n c' kap' M' z -> rform y <= kap'.
Proof.
  intros Hz' (y' & Hy' & Hq). apply Rle_trans with (quad n M' y'); [|exact Hq]. right.
  unfold quad. rewrite (bil_ldl n M' S' y' y' HM'). apply sumn_ext. intros i Hi.
  assert (E : dot n (x' i) (fun k => c k - c' k) + bil n M (x' i) y = S' i i * tL n S' y' i).
  { transitivity (bil n M' (x' i) y').
    - unfold bil. rewrite <- dot_plus_r. apply dot_ext; [reflexivity|]. intros k Hk0.
      rewrite <- (Hz' k Hk0), <- (Hy' k Hk0). ring.
    - rewrite (bil_ldl n M' S' _ _ HM').
      rewrite (sumn_ext n _ (fun a => (if Nat.eqb a i then S' i i * tL n S' y' i else 0))).
      + apply sumn_delta, Hi.
      + intros a Ha. rewrite (Hx' i Hi a Ha). destruct (Nat.eqb_spec i a), (Nat.eqb_spec a i); subst; try lia; ring. }
  rewrite E. field. pose proof (HS' i Hi). lra.
Qed.

Lemma bil_x k y : (k < n)%nat -> bil n M (x k) y = S k k * tL n S y k.
Proof.
  intros Hk0. rewrite (bil_ldl n M S _ _ HM).
  rewrite (sumn_ext n _ (fun a => (if Nat.eqb a k then S k k * tL n S y k else 0))).
  - apply sumn_delta, Hk0.
  - intros a Ha. rewrite (Hx k Hk0 a Ha). destruct (Nat.eqb_spec k a), (Nat.eqb_spec a k); subst; try lia; ring.
Qed.

Definition rp (k : nat) : nat -> R := fun j => x k j - (S k k * tL n S g k / w) * g j.
Definition rg (i : nat) : R := bil n M (x' i) g.
Definition rd (i : nat) : R := dot n (x' i) (fun k => c k - c' k).

Lemma bil_rp k y : (k < n)%nat -> bil n M y (rp k) = S k k * (tL n S y k - tL n S g k * bil n M y g / w).
Proof.
  intros Hk0. unfold rp. rewrite bil_minus_r, bil_scal_r, (bil_symm n M y (x k) Hsym), (bil_x k y Hk0).
  field. pose proof rw_pos. lra.
Qed.

Lemma quad_rp k : (k < n)%nat -> quad n M (rp k) = S k k * (1 - S k k * (tL n S g k * tL n S g k) / w).
Proof.
  intros Hk0. unfold quad. rewrite (bil_rp k _ Hk0). rewrite (bil_symm n M (rp k) g Hsym), (bil_rp k g Hk0).
  assert (E : tL n S (rp k) k = 1 - S k k * tL n S g k / w * tL n S g k).
  { unfold tL at 1, rp.
    rewrite (sumn_ext n _ (fun i => lowf S i k * x k i - S k k * tL n S g k / w * (lowf S i k * g i))) by (intros; ring).
    rewrite sumn_minus, sumn_scal. f_equal. pose proof (Hx k Hk0 k Hk0) as E. rewrite Nat.eqb_refl in E. exact E. }
  rewrite E. change (bil n M g g) with w. field. pose proof rw_pos. lra.
Qed.

Lemma bil_g_rp k : (k < n)%nat -> bil n M g (rp k) = 0.
Proof. intros Hk0. rewrite (bil_rp k g Hk0). change (bil n M g g) with w. field. pose proof rw_pos. lra. Qed.

Definition yb (b : R) : nat -> R := fun j => - (b / w) * g j.

Lemma bil_yb u b : bil n M u (yb b) = - (b / w) * bil n M u g.
Proof. apply bil_scal_r. Qed.

Variable holds : R -> Prop.
Hypothesis Hin : forall z, in_ellipsoid n c kap M z -> holds (cutval n g c z) -> in_ellipsoid n c' kap' M' z.

Lemma point_le y : quad n M y <= kap -> holds (bil n M g y) -> rform y <= kap'.
Proof.
  intros Hq Hh. apply (rform_le y (fun i => c i + mv n M y i)); [intros; ring|]. apply Hin.
  - exists y. split; [intros; ring|exact Hq].
  - rewrite (cutval_bil n M g c _ y); [exact Hh|]. intros; ring.
Qed.

Lemma rform_pm b s k : 
  rform (fun j => yb b j + s * rp k j) + rform (fun j => yb b j - s * rp k j)
  = 2 * (rform (yb b) + s * s * sumn n (fun i => bil n M (x' i) (rp k) * bil n M (x' i) (rp k) / S' i i)).
Proof.
  unfold rform. rewrite <- sumn_scal, <- !sumn_plus, <- sumn_scal. apply sumn_ext. intros i Hi.
  rewrite bil_plus_r, bil_minus_r, !bil_scal_r. field. pose proof (HS' i Hi). lra.
Qed.

Lemma rim_one b k : (k < n)%nat -> b * b <= T -> holds (- b) ->
  quad n M (rp k) * rform (yb b) + (T - b * b) / w * sumn n (fun i => bil n M (x' i) (rp k) * bil n M (x' i) (rp k) / S' i i)
  <= quad n M (rp k) * kap'.
Proof.
  intros Hk0 Hb Hh. pose proof rw_pos as W. pose proof (posdef_semi n M Hpd) as Hps.
  set (G := sumn n _). set (nu := quad n M (rp k)).
  assert (Nu : 0 <= nu) by apply Hps. destruct (Req_dec nu 0) as [N0|N0].
  - assert (Z : G = 0).
    { apply sumn_0. intros i Hi.
      assert (B : bil n M (x' i) (rp k) = 0).
      { unfold bil. apply sumn_0. intros j Hj. 
        rewrite (psd_quad_0 n M (rp k) Hsym Hps); [ring| |exact Hj]. fold nu. lra. }
      rewrite B. unfold Rdiv. ring. }
    rewrite Z, N0. lra.
  - assert (Np : 0 < nu) by lra.
    set (s2 := (T - b * b) / w). assert (S2 : 0 <= s2) by (unfold s2, Rdiv; apply Rmult_le_pos; [lra|apply Rlt_le, Rinv_0_lt_compat, W]).
    set (s := sqrt (s2 / nu)).
    assert (Ess : s * s = s2 / nu) by (apply sqrt_sqrt; unfold Rdiv; apply Rmult_le_pos; [exact S2|apply Rlt_le, Rinv_0_lt_compat, Np]).
    assert (Bg : bil n M g (yb b) = - b) by (rewrite bil_yb; change (bil n M g g) with w; field; lra).
    assert (Qb : quad n M (yb b) = b * b / w).
    { unfold quad. rewrite bil_yb. rewrite (bil_symm n M (yb b) g Hsym), Bg. field. lra. }
    assert (Bp : bil n M (yb b) (rp k) = 0).
    { unfold yb. rewrite bil_scal_l, (bil_g_rp k Hk0). ring. }
    assert (Bp' : bil n M (rp k) (yb b) = 0) by (rewrite (bil_symm n M _ _ Hsym); exact Bp).
    assert (Hkap : b * b / w + s2 = kap) by (unfold s2, T; field; lra).
    assert (P1 : rform (fun j => yb b j + s * rp k j) <= kap').
    { apply point_le.
      - unfold quad. rewrite bil_plus_l, !bil_plus_r, !bil_scal_l, !bil_scal_r, Bp, Bp'. fold (quad n M (yb b)) (quad n M (rp k)) nu.
        rewrite Qb. replace (b * b / w + s * 0 + (s * 0 + s * (s * nu))) with (b * b / w + s * s * nu) by ring. rewrite Ess.
        right. rewrite <- Hkap. field. lra.
      - rewrite bil_plus_r, bil_scal_r, (bil_g_rp k Hk0), Bg. replace (- b + s * 0) with (- b) by ring. exact Hh. }
    assert (P2 : rform (fun j => yb b j - s * rp k j) <= kap').
    { apply point_le.
      - unfold quad. rewrite bil_minus_l, !bil_minus_r, !bil_scal_l, !bil_scal_r, Bp, Bp'. fold (quad n M (yb b)) (quad n M (rp k)) nu.
        rewrite Qb. replace (b * b / w - s * 0 - (s * 0 - s * (s * nu))) with (b * b / w + s * s * nu) by ring. rewrite Ess.
        right. rewrite <- Hkap. field. lra.
      - rewrite bil_minus_r, bil_scal_r, (bil_g_rp k Hk0), Bg. replace (- b - s * 0) with (- b) by ring. exact Hh. }
    pose proof (rform_pm b s k) as PM. fold G in PM. rewrite Ess in PM.
    assert (F : rform (yb b) + s2 / nu * G <= kap') by lra.
    replace (nu * rform (yb b) + s2 * G) with (nu * (rform (yb b) + s2 / nu * G)) by (field; lra).
    apply Rmult_le_compat_l; lra.
Qed.

Definition trM : R := sumn n (fun i => quad n M (x' i) / S' i i).
Definition gam : R := sumn n (fun i => rg i * rg i / S' i i).

Lemma w_sum : sumn n (fun k => S k k * (tL n S g k * tL n S g k)) = w.
Proof. unfold w, quad. rewrite (bil_ldl n M S g g HM). reflexivity. Qed.

Lemma rim b : b * b <= T -> holds (- b) ->
  (INR n - 1) * rform (yb b) + (T - b * b) / w * (trM - gam / w) <= (INR n - 1) * kap'.
Proof.
  intros Hb Hh. pose proof rw_pos as W.
  pose proof (fun k Hk0 => rim_one b k Hk0 Hb Hh) as R1.
  assert (L : sumn n (fun k => (quad n M (rp k) * rform (yb b) + (T - b * b) / w *
      sumn n (fun i => bil n M (x' i) (rp k) * bil n M (x' i) (rp k) / S' i i)) / S k k)
      <= sumn n (fun k => quad n M (rp k) * kap' / S k k)).
  { apply sumn_le. intros k Hk0. apply Rmult_le_compat_r; [apply Rlt_le, Rinv_0_lt_compat, HS, Hk0|apply R1, Hk0]. }
  assert (E0 : sumn n (fun k => quad n M (rp k) / S k k) = INR n - 1).
  { rewrite (sumn_ext n _ (fun k => 1 - / w * (S k k * (tL n S g k * tL n S g k)))).
    - rewrite sumn_minus, sumn_const, sumn_scal, w_sum. field. lra.
    - intros k Hk0. rewrite (quad_rp k Hk0). field. pose proof (HS k Hk0). lra. }
  assert (E1 : sumn n (fun k => sumn n (fun i => bil n M (x' i) (rp k) * bil n M (x' i) (rp k) / S' i i) / S k k) = trM - gam / w).
  { transitivity (sumn n (fun k => sumn n (fun i => / S' i i * (S k k * (tL n S (x' i) k * tL n S (x' i) k)
        - 2 * (rg i / w) * (S k k * (tL n S (x' i) k * tL n S g k)) + rg i / w * (rg i / w) * (S k k * (tL n S g k * tL n S g k)))))).
    { apply sumn_ext. intros k Hk0. unfold Rdiv at 1. rewrite <- sumn_scal_r. apply sumn_ext. intros i Hi.
      rewrite (bil_rp k _ Hk0). fold (rg i). field. pose proof (HS k Hk0). pose proof (HS' i Hi). lra. }
    rewrite sumn_swap. unfold trM, gam, Rdiv. rewrite <- (sumn_scal_r n (/ w)), <- sumn_minus. apply sumn_ext. intros i Hi.
    rewrite sumn_scal, sumn_plus, sumn_minus, !sumn_scal, w_sum.
    unfold quad. rewrite (bil_ldl n M S (x' i) (x' i) HM).
    assert (EG : sumn n (fun k => S k k * (tL n S (x' i) k * tL n S g k)) = rg i).
    { unfold rg. rewrite (bil_ldl n M S (x' i) g HM). reflexivity. }
    rewrite EG. field. pose proof (HS' i Hi). lra. }
  assert (EL : sumn n (fun k => (quad n M (rp k) * rform (yb b) + (T - b * b) / w *
      sumn n (fun i => bil n M (x' i) (rp k) * bil n M (x' i) (rp k) / S' i i)) / S k k)
      = (INR n - 1) * rform (yb b) + (T - b * b) / w * (trM - gam / w)).
  { rewrite <- E0, <- E1. rewrite <- sumn_scal_r, <- sumn_scal, <- sumn_plus. apply sumn_ext. intros k Hk0. field.
    pose proof (HS k Hk0). lra. }
  rewrite EL in L. eapply Rle_trans; [exact L|]. right. rewrite <- E0, <- sumn_scal_r. apply sumn_ext. intros k Hk0. field.
  pose proof (HS k Hk0). lra.
Qed.

Definition off (rho : R) : R := sumn n (fun i => (rd i - rho / w * rg i) * (rd i - rho / w * rg i) / S' i i).

Lemma trace_bound a b rho sigma delta : (2 <= n)%nat -> a < b -> a <= rho <= b ->
  a * a <= T -> b * b <= T -> holds (- a) -> holds (- b) -> window (INR n) T a b rho sigma delta ->
  delta * kap * (trM - sigma * gam / w) + INR n * off rho <= INR n * kap'.
Proof.
  intros Hn Hab Hrho Ha Hb Hha Hhb (W1 & W2). pose proof rw_pos as W.
  assert (HN : 2 <= INR n) by (change 2 with (INR 2); apply le_INR, Hn).
  pose proof (rim a Ha Hha) as Ra. pose proof (rim b Hb Hhb) as Rb.
  assert (F : (b - rho) * rform (yb a) + (rho - a) * rform (yb b)
    = (b - a) * (off rho + (rho - a) * (b - rho) / (w * w) * gam)).
  { unfold rform, off, gam. rewrite <- !sumn_scal, <- !sumn_plus, <- sumn_scal. apply sumn_ext. intros i Hi.
    rewrite !bil_yb. fold (rg i) (rd i). field. pose proof (HS' i Hi). lra. }
  set (X := trM - gam / w) in *.
  assert (C : (b - rho) * ((INR n - 1) * rform (yb a) + (T - a * a) / w * X) + (rho - a) * ((INR n - 1) * rform (yb b) + (T - b * b) / w * X)
     <= (b - a) * ((INR n - 1) * kap')).
  { replace ((b - a) * ((INR n - 1) * kap')) with ((b - rho) * ((INR n - 1) * kap') + (rho - a) * ((INR n - 1) * kap')) by ring.
    apply Rplus_le_compat; apply Rmult_le_compat_l; lra. }
  replace ((b - rho) * ((INR n - 1) * rform (yb a) + (T - a * a) / w * X) + (rho - a) * ((INR n - 1) * rform (yb b) + (T - b * b) / w * X))
    with ((INR n - 1) * ((b - rho) * rform (yb a) + (rho - a) * rform (yb b)) + (b - a) * ((T + a * b - rho * (a + b)) / w * X)) in C by (field; lra).
  rewrite F in C.
  assert (C2 : (INR n - 1) * (off rho + (rho - a) * (b - rho) / (w * w) * gam) + (T + a * b - rho * (a + b)) / w * X <= (INR n - 1) * kap').
  { apply Rmult_le_reg_l with (b - a); [lra|]. eapply Rle_trans; [|exact C]. right. ring. }
  assert (V1 : (rho - a) * (b - rho) = delta * (1 - sigma) * T / INR n) by (rewrite <- W1; field; lra).
  assert (V2 : T + a * b - rho * (a + b) = delta * (INR n - 1) * T / INR n) by (rewrite <- W2; field; lra).
  rewrite V1, V2 in C2. unfold T in C2.
  apply Rmult_le_reg_l with ((INR n - 1) / INR n); [apply Rdiv_lt_0_compat; lra|].
  replace ((INR n - 1) / INR n * (INR n * kap')) with ((INR n - 1) * kap') by (field; lra).
  eapply Rle_trans; [|exact C2]. right. unfold X. field. lra.
Qed.
End Rim.
