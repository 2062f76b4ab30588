(** Finite sums and quadratic forms. *)
From Coq Require Import Reals List Arith Lia Lra Psatz FunctionalExtensionality.
From Verif Require Import Spec.
Local Open Scope R_scope.

Lemma sumn_ext n f g : (forall i, (i < n)%nat -> f i = g i) -> sumn n f = sumn n g.
Proof.
  induction n; simpl; intros H; [reflexivity|].
  rewrite IHn, (H n); auto with arith.
Qed.

Lemma sumn_plus n f g : sumn n (fun i => f i + g i) = sumn n f + sumn n g.
Proof. induction n; simpl; [lra|]. rewrite IHn. lra. Qed.

Lemma sumn_minus n f g : sumn n (fun i => f i - g i) = sumn n f - sumn n g.
Proof. induction n; simpl; [lra|]. rewrite IHn. lra. Qed.

Lemma sumn_opp n f : sumn n (fun i => - f i) = - sumn n f.
Proof. induction n; simpl; [lra|]. rewrite IHn. lra. Qed.

Lemma sumn_scal n c f : sumn n (fun i => c * f i) = c * sumn n f.
Proof. induction n; simpl; [lra|]. rewrite IHn. lra. Qed.

Lemma sumn_scal_r n c f : sumn n (fun i => f i * c) = sumn n f * c.
Proof. induction n; simpl; [lra|]. rewrite IHn. lra. Qed.

Lemma sumn_0 n f : (forall i, (i < n)%nat -> f i = 0) -> sumn n f = 0.
Proof.
  induction n; simpl; intros H; [reflexivity|].
  rewrite IHn, (H n); auto with arith. lra.
Qed.

Lemma sumn_const n c : sumn n (fun _ => c) = INR n * c.
Proof.
  induction n; [simpl; lra|]. rewrite S_INR. simpl. rewrite IHn. lra.
Qed.

Lemma sumn_swap n m (f : nat -> nat -> R) :
  sumn n (fun i => sumn m (fun j => f i j)) = sumn m (fun j => sumn n (fun i => f i j)).
Proof.
  induction n; simpl.
  - symmetry. apply sumn_0. reflexivity.
  - rewrite IHn, sumn_plus. reflexivity.
Qed.

Lemma sumn_ge_0 n f : (forall i, (i < n)%nat -> 0 <= f i) -> 0 <= sumn n f.
Proof.
  induction n; simpl; intros H; [lra|].
  specialize (IHn (fun i Hi => H i (Nat.lt_lt_succ_r _ _ Hi))).
  specialize (H n (Nat.lt_succ_diag_r n)). lra.
Qed.

Lemma sumn_le n f g : (forall i, (i < n)%nat -> f i <= g i) -> sumn n f <= sumn n g.
Proof.
  intros H. assert (0 <= sumn n (fun i => g i - f i)).
  { apply sumn_ge_0. intros i Hi. specialize (H i Hi). lra. }
  rewrite sumn_minus in H0. lra.
Qed.

(** isolate one index *)
Lemma sumn_delta n k c :
  (k < n)%nat -> sumn n (fun i => if Nat.eqb i k then c else 0) = c.
Proof.
  induction n; intros H; [lia|]. simpl.
  destruct (Nat.eq_dec k n).
  - subst. rewrite Nat.eqb_refl. rewrite sumn_0; [lra|].
    intros i Hi. destruct (Nat.eqb_spec i n); [lia|reflexivity].
  - destruct (Nat.eqb_spec n k); [lia|]. rewrite IHn; [lra|lia].
Qed.

Lemma sumn_delta_l n k (f : nat -> R) :
  (k < n)%nat -> sumn n (fun i => (if Nat.eqb i k then 1 else 0) * f i) = f k.
Proof.
  intros H. rewrite <- (sumn_delta n k (f k) H) at 1.
  apply sumn_ext. intros i Hi. destruct (Nat.eqb_spec i k); subst; lra.
Qed.

Lemma sumn_delta_r n k (f : nat -> R) :
  (k < n)%nat -> sumn n (fun i => f i * (if Nat.eqb i k then 1 else 0)) = f k.
Proof.
  intros H. rewrite <- (sumn_delta_l n k f H).
  apply sumn_ext. intros. ring.
Qed.

Lemma sumn_ge_term n f k :
  (k < n)%nat -> (forall i, (i < n)%nat -> 0 <= f i) -> f k <= sumn n f.
Proof.
  intros Hk H. rewrite <- (sumn_delta n k (f k) Hk).
  apply sumn_le. intros i Hi. destruct (Nat.eqb_spec i k); subst; auto with real.
Qed.

Lemma sumn_eq_0 n f :
  (forall i, (i < n)%nat -> 0 <= f i) -> sumn n f = 0 -> forall i, (i < n)%nat -> f i = 0.
Proof.
  intros H H0 i Hi. pose proof (sumn_ge_term n f i Hi H). specialize (H i Hi). lra.
Qed.

Lemma sumn_split n m f :
  sumn (n + m) f = sumn n f + sumn m (fun i => f (n + i)%nat).
Proof.
  induction m; simpl.
  - rewrite Nat.add_0_r. lra.
  - rewrite Nat.add_succ_r. simpl. rewrite IHm. lra.
Qed.

Lemma sumn_S_l n f : sumn (S n) f = f O + sumn n (fun i => f (S i)).
Proof.
  induction n; [simpl; lra|].
  change (sumn (S (S n)) f) with (sumn (S n) f + f (S n)). rewrite IHn. simpl. lra.
Qed.

Lemma sumn_rev n f : sumn n (fun i => f (n - 1 - i)%nat) = sumn n f.
Proof.
  induction n; [reflexivity|].
  rewrite sumn_S_l. simpl. replace (n - 0 - 0)%nat with n by lia.
  rewrite <- IHn. rewrite Rplus_comm. f_equal.
  apply sumn_ext. intros i Hi. f_equal. lia.
Qed.

(** ** dot, mv, bil, quad *)
Lemma dot_ext n u v u' v' :
  (forall i, (i < n)%nat -> u i = u' i) -> (forall i, (i < n)%nat -> v i = v' i) ->
  dot n u v = dot n u' v'.
Proof. intros H1 H2. apply sumn_ext. intros i Hi. rewrite H1, H2; auto. Qed.

Lemma dot_comm n u v : dot n u v = dot n v u.
Proof. apply sumn_ext. intros. ring. Qed.

Lemma dot_plus_r n u v w : dot n u (fun i => v i + w i) = dot n u v + dot n u w.
Proof. unfold dot. rewrite <- sumn_plus. apply sumn_ext. intros. ring. Qed.

Lemma dot_plus_l n u v w : dot n (fun i => v i + w i) u = dot n v u + dot n w u.
Proof. unfold dot. rewrite <- sumn_plus. apply sumn_ext. intros. ring. Qed.

Lemma dot_minus_r n u v w : dot n u (fun i => v i - w i) = dot n u v - dot n u w.
Proof. unfold dot. rewrite <- sumn_minus. apply sumn_ext. intros. ring. Qed.

Lemma dot_minus_l n u v w : dot n (fun i => v i - w i) u = dot n v u - dot n w u.
Proof. unfold dot. rewrite <- sumn_minus. apply sumn_ext. intros. ring. Qed.

Lemma dot_scal_r n c u v : dot n u (fun i => c * v i) = c * dot n u v.
Proof. unfold dot. rewrite <- sumn_scal. apply sumn_ext. intros. ring. Qed.

Lemma dot_scal_l n c u v : dot n (fun i => c * u i) v = c * dot n u v.
Proof. unfold dot. rewrite <- sumn_scal. apply sumn_ext. intros. ring. Qed.

Lemma dot_self_ge_0 n u : 0 <= dot n u u.
Proof. apply sumn_ge_0. intros. apply Rle_0_sqr. Qed.

Lemma dot_self_pos n u : nonzero n u -> 0 < dot n u u.
Proof.
  intros [i [Hi Hu]].
  assert (0 < u i * u i) by (apply Rsqr_pos_lt in Hu; exact Hu).
  pose proof (sumn_ge_term n (fun i => u i * u i) i Hi (fun _ _ => Rle_0_sqr _)).
  unfold dot. simpl in H0. lra.
Qed.

Lemma mv_plus n M u v i : mv n M (fun k => u k + v k) i = mv n M u i + mv n M v i.
Proof. unfold mv. rewrite <- sumn_plus. apply sumn_ext. intros. ring. Qed.

Lemma mv_minus n M u v i : mv n M (fun k => u k - v k) i = mv n M u i - mv n M v i.
Proof. unfold mv. rewrite <- sumn_minus. apply sumn_ext. intros. ring. Qed.

Lemma mv_scal n M c v i : mv n M (fun k => c * v k) i = c * mv n M v i.
Proof. unfold mv. rewrite <- sumn_scal. apply sumn_ext. intros. ring. Qed.

Lemma mv_ext n M M' v v' i :
  (forall j, (j < n)%nat -> M i j = M' i j) -> (forall j, (j < n)%nat -> v j = v' j) ->
  mv n M v i = mv n M' v' i.
Proof. intros H1 H2. apply sumn_ext. intros j Hj. rewrite H1, H2; auto. Qed.

Lemma bil_ext n M M' u v u' v' :
  (forall i j, (i < n)%nat -> (j < n)%nat -> M i j = M' i j) ->
  (forall i, (i < n)%nat -> u i = u' i) -> (forall i, (i < n)%nat -> v i = v' i) ->
  bil n M u v = bil n M' u' v'.
Proof.
  intros H1 H2 H3. unfold bil. apply dot_ext; [auto|].
  intros i Hi. apply mv_ext; auto.
Qed.

Lemma bil_sum n M u v :
  bil n M u v = sumn n (fun i => sumn n (fun j => u i * M i j * v j)).
Proof.
  unfold bil, dot, mv. apply sumn_ext. intros i _.
  rewrite <- sumn_scal. apply sumn_ext. intros. ring.
Qed.

Lemma bil_symm n M u v : symmetric n M -> bil n M u v = bil n M v u.
Proof.
  intros H. rewrite !bil_sum, sumn_swap. apply sumn_ext. intros j Hj.
  apply sumn_ext. intros i Hi. rewrite (H i j) by auto. ring.
Qed.

Lemma bil_plus_r n M u v w : bil n M u (fun i => v i + w i) = bil n M u v + bil n M u w.
Proof.
  unfold bil. rewrite <- dot_plus_r. apply dot_ext; [auto|]. intros. apply mv_plus.
Qed.

Lemma bil_minus_r n M u v w : bil n M u (fun i => v i - w i) = bil n M u v - bil n M u w.
Proof.
  unfold bil. rewrite <- dot_minus_r. apply dot_ext; [auto|]. intros. apply mv_minus.
Qed.

Lemma bil_scal_r n M c u v : bil n M u (fun i => c * v i) = c * bil n M u v.
Proof.
  unfold bil. rewrite <- dot_scal_r. apply dot_ext; [auto|]. intros. apply mv_scal.
Qed.

Lemma bil_plus_l n M u v w : bil n M (fun i => v i + w i) u = bil n M v u + bil n M w u.
Proof. unfold bil. apply dot_plus_l. Qed.

Lemma bil_minus_l n M u v w : bil n M (fun i => v i - w i) u = bil n M v u - bil n M w u.
Proof. unfold bil. apply dot_minus_l. Qed.

Lemma bil_scal_l n M c u v : bil n M (fun i => c * u i) v = c * bil n M u v.
Proof. unfold bil. apply dot_scal_l. Qed.

Lemma quad_plus_scal n M u v t :
  symmetric n M ->
  quad n M (fun i => u i + t * v i) = quad n M u + 2 * t * bil n M u v + t * t * quad n M v.
Proof.
  intros H. unfold quad.
  rewrite bil_plus_r, !bil_plus_l, bil_scal_r, !bil_scal_l, bil_scal_r.
  rewrite (bil_symm n M v u H). ring.
Qed.

Lemma quad_minus_scal n M u v t :
  symmetric n M ->
  quad n M (fun i => u i - t * v i) = quad n M u - 2 * t * bil n M u v + t * t * quad n M v.
Proof.
  intros H. unfold quad at 1.
  rewrite (bil_ext n M M _ _ (fun i => u i + (- t) * v i) (fun i => u i + (- t) * v i));
    try (intros; ring); auto.
  fold (quad n M (fun i => u i + - t * v i)). rewrite quad_plus_scal by auto. ring.
Qed.

(** Cauchy-Schwarz for positive semidefinite forms. *)
Lemma cauchy_schwarz_form n M u v :
  symmetric n M -> possemidef n M ->
  bil n M u v * bil n M u v <= quad n M u * quad n M v.
Proof.
  intros Hs Hp.
  set (a := quad n M u). set (b := bil n M u v). set (c := quad n M v).
  assert (Hq : forall t, 0 <= a + 2 * t * b + t * t * c).
  { intros t. unfold a, b, c. rewrite <- quad_plus_scal by auto. apply Hp. }
  assert (Ha : 0 <= a) by apply Hp. assert (Hc : 0 <= c) by apply Hp.
  destruct (Req_dec c 0) as [E|E].
  - rewrite E in *. destruct (Req_dec b 0) as [Eb|Eb]; [rewrite Eb; nra|].
    exfalso. specialize (Hq (- (a + 1) / (2 * b))).
    replace (a + 2 * (- (a + 1) / (2 * b)) * b +
      - (a + 1) / (2 * b) * (- (a + 1) / (2 * b)) * 0) with (-1) in Hq by (field; auto). lra.
  - assert (0 < c) by lra. specialize (Hq (- b / c)).
    replace (a + 2 * (- b / c) * b + - b / c * (- b / c) * c) with (a - b * b / c) in Hq
      by (field; auto).
    assert (b * b / c * c = b * b) by (field; auto).
    assert (0 <= (a - b * b / c) * c) by (apply Rmult_le_pos; lra). nra.
Qed.

Lemma cauchy_schwarz n u v : dot n u v * dot n u v <= dot n u u * dot n v v.
Proof.
  set (I := fun i j : nat => if Nat.eqb j i then 1 else 0).
  assert (E : forall a b, bil n I a b = dot n a b).
  { intros a b. unfold bil. apply dot_ext; [auto|]. intros i Hi. unfold mv, I.
    apply sumn_delta_l. exact Hi. }
  assert (HS : symmetric n I).
  { intros i j _ _. unfold I. rewrite Nat.eqb_sym. reflexivity. }
  assert (HP : possemidef n I).
  { intros w. unfold quad. rewrite E. apply dot_self_ge_0. }
  pose proof (cauchy_schwarz_form n I u v HS HP) as H. unfold quad in H.
  rewrite !E in H. exact H.
Qed.

Lemma posdef_semi n M : posdef n M -> possemidef n M.
Proof.
  intros H v.
  destruct (Classical_Prop.classic (nonzero n v)) as [Hn|Hn].
  - left. apply H, Hn.
  - right. symmetry. unfold quad, bil, dot. apply sumn_0. intros i Hi.
    destruct (Req_dec (v i) 0) as [E|E]; [rewrite E; ring|].
    exfalso. apply Hn. exists i. auto.
Qed.

(** ** Products *)
Lemma prodn_ext n f g : (forall i, (i < n)%nat -> f i = g i) -> prodn n f = prodn n g.
Proof.
  induction n; simpl; intros H; [reflexivity|]. rewrite IHn, (H n); auto with arith.
Qed.

Lemma prodn_mult n f g : prodn n (fun i => f i * g i) = prodn n f * prodn n g.
Proof. induction n; simpl; [lra|]. rewrite IHn. ring. Qed.

Lemma prodn_const n c : prodn n (fun _ => c) = c ^ n.
Proof. induction n; simpl; [reflexivity|]. rewrite IHn. ring. Qed.

Lemma prodn_pos n f : (forall i, (i < n)%nat -> 0 < f i) -> 0 < prodn n f.
Proof.
  induction n; simpl; intros H; [lra|]. apply Rmult_lt_0_compat; auto with arith.
Qed.

Lemma prodn_le n f g :
  (forall i, (i < n)%nat -> 0 <= f i <= g i) -> prodn n f <= prodn n g.
Proof.
  assert (P0 : forall n f, (forall i, (i < n)%nat -> 0 <= f i) -> 0 <= prodn n f).
  { clear. induction n; simpl; intros f H; [lra|]. apply Rmult_le_pos; auto with arith. }
  induction n; simpl; intros H; [lra|].
  apply Rmult_le_compat; try (apply P0); auto with arith; intros; apply H; lia.
Qed.
Lemma sumn_term_le n f : (forall k, (k < n)%nat -> 0 <= f k) -> 0 <= sumn n f /\ forall j, (j < n)%nat -> f j <= sumn n f.
Proof.
  induction n as [|n IH]; intros H; cbn [sumn]; [split; [lra|intros; lia]|]. destruct IH as (A & B); [intros; apply H; lia|]. pose proof (H n ltac:(lia)).
  split; [lra|]. intros j Hj. destruct (Nat.eq_dec j n) as [->|]; [lra|]. specialize (B j ltac:(lia)). lra.
Qed.
