(** Spectral factorisation: distance to the minimum-phase factor. *)
From Coq Require Import Reals List Arith Lia Lra Psatz Bool.
From Verif Require Import Arith Vec ModelFactor ModelSpectral Spec SpecSpectral PSum PCalc PVec PFourier PFactor PSpectral PFactor2 PFactor3 PLogSeries.
Import ListNotations.
Local Open Scope R_scope.

(** ** Sums over a list *)
Fixpoint lsum {T} (f : T -> R) (l : list T) : R := match l with [] => 0 | x :: l => f x + lsum f l end.
Lemma lsum_app {T} (f : T -> R) l k : lsum f (l ++ k) = lsum f l + lsum f k.
Proof. induction l as [|x l IH]; cbn; [ring|rewrite IH; ring]. Qed.
Lemma lsum_ext {T} (f g : T -> R) l : (forall x, In x l -> f x = g x) -> lsum f l = lsum g l.
Proof. induction l as [|x l IH]; cbn; intros H; [reflexivity|]. rewrite H, IH by auto. reflexivity. Qed.
Lemma lsum_plus {T} (f g : T -> R) l : lsum (fun x => f x + g x) l = lsum f l + lsum g l.
Proof. induction l as [|x l IH]; cbn; [ring|rewrite IH; ring]. Qed.
Lemma lsum_minus {T} (f g : T -> R) l : lsum (fun x => f x - g x) l = lsum f l - lsum g l.
Proof. induction l as [|x l IH]; cbn; [ring|rewrite IH; ring]. Qed.
Lemma lsum_scal {T} c (f : T -> R) l : lsum (fun x => c * f x) l = c * lsum f l.
Proof. induction l as [|x l IH]; cbn; [ring|rewrite IH; ring]. Qed.
Lemma lsum_abs {T} (f : T -> R) l B : (forall x, In x l -> Rabs (f x) <= B) -> Rabs (lsum f l) <= INR (length l) * B.
Proof.
  induction l as [|x l IH]; intros H.
  - cbn. rewrite Rabs_R0. lra.
  - cbn [lsum length]. rewrite S_INR. eapply Rle_trans; [apply Rabs_triang|]. pose proof (H x (or_introl eq_refl)). assert (Rabs (lsum f l) <= INR (length l) * B) by (apply IH; intros; apply H; right; assumption). lra.
Qed.
Lemma lsum_sumn {T} (f : T -> nat -> R) l n : lsum (fun x => sumn n (f x)) l = sumn n (fun k => lsum (fun x => f x k) l).
Proof. induction l as [|x l IH]; cbn [lsum]; [symmetry; apply sumn_0; reflexivity|]. rewrite IH, <- sumn_plus. reflexivity. Qed.
Lemma sumn_abs_le n f B : (forall i, (i < n)%nat -> Rabs (f i) <= B) -> Rabs (sumn n f) <= INR n * B.
Proof.
  induction n as [|n IH]; intros H; [cbn; rewrite Rabs_R0; lra|]. cbn [sumn]. rewrite S_INR. eapply Rle_trans; [apply Rabs_triang|].
  assert (Rabs (sumn n f) <= INR n * B) by (apply IH; intros; apply H; lia). pose proof (H n ltac:(lia)). lra.
Qed.

(** ** The logarithm of a product over zeros *)
Definition loga (w : R) (z : R * R) : R := 1 / 2 * ln (den (fst z) (w - snd z)).
Definition phas (w : R) (z : R * R) : R := - atan (fst z * sin (w - snd z) / (1 - fst z * cos (w - snd z))).

Lemma factored_polar q zs w : 0 <= q < 1 -> (forall z, In z zs -> Rabs (fst z) <= q) ->
  fst (factored zs w) = exp_re (lsum (loga w) zs) (lsum (phas w) zs) /\
  snd (factored zs w) = exp_im (lsum (loga w) zs) (lsum (phas w) zs).
Proof.
  intros Hq. induction zs as [|z zs IH]; intros H.
  - cbn. unfold exp_re, exp_im. rewrite exp_0, cos_0, sin_0. lra.
  - destruct IH as (I1 & I2); [intros; apply H; right; assumption|]. cbn [factored fst snd lsum]. rewrite I1, I2. clear I1 I2.
    pose proof (H z (or_introl eq_refl)) as Hz. set (th := w - snd z).
    destruct (polar (1 - fst z * cos th) (- (fst z * sin th)) (re_pos _ th q Hq Hz)) as (P1 & P2).
    replace ((1 - fst z * cos th) * (1 - fst z * cos th) + - (fst z * sin th) * - (fst z * sin th)) with (den (fst z) th) in P1, P2 by (rewrite <- den_parts; ring).
    replace (- (fst z * sin th) / (1 - fst z * cos th)) with (- (fst z * sin th / (1 - fst z * cos th))) in P1, P2 by (unfold Rdiv; ring).
    rewrite atan_opp in P1, P2. fold th in P1, P2. change (1 / 2 * ln (den (fst z) th)) with (loga w z) in P1, P2.
    change (- atan (fst z * sin th / (1 - fst z * cos th))) with (phas w z) in P1, P2.
    set (u := 1 - fst z * cos th) in *. set (v := - (fst z * sin th)) in *. rewrite P1, P2. unfold exp_re, exp_im.
    rewrite exp_plus, cos_plus, sin_plus. split; ring.
Qed.

(** ** The truncated cepstrum of a product over zeros *)
Definition cst (b : R) (zs : list (R * R)) (k : nat) : R :=
  match k with O => ln b | S j => - lsum (fun z => fst z ^ S j * cos (INR (S j) * snd z) / INR (S j)) zs end.

Definition conjugate (zs : list (R * R)) : Prop := forall k, lsum (fun z => fst z ^ k * sin (INR k * snd z)) zs = 0.

Lemma zeros_conjugate reals pairs : conjugate (zeros reals pairs).
Proof.
  intros k. unfold zeros. rewrite lsum_app. assert (E : lsum (fun z => fst z ^ k * sin (INR k * snd z)) (map (fun a => (a, 0)) reals) = 0).
  { induction reals as [|a l IH]; cbn; [reflexivity|]. rewrite IH, Rmult_0_r, sin_0. ring. }
  rewrite E. clear E. induction pairs as [|z l IH]; cbn; [ring|].
  replace (INR k * - snd z) with (- (INR k * snd z)) by ring. rewrite sin_neg. lra.
Qed.
Lemma zeros_le q reals pairs : (forall a, In a reals -> Rabs a <= q) -> (forall z, In z pairs -> Rabs (fst z) <= q) ->
  forall z, In z (zeros reals pairs) -> Rabs (fst z) <= q.
Proof.
  intros H1 H2 z Hz. unfold zeros in Hz. apply in_app_or in Hz. destruct Hz as [Hz|Hz].
  - apply in_map_iff in Hz. destruct Hz as (a & <- & Ha). apply H1, Ha.
  - apply in_flat_map in Hz. destruct Hz as (y & Hy & [<-|[<-|[]]]); exact (H2 y Hy).
Qed.

Lemma cst_re b zs N w : conjugate zs -> resp_re (N + 1) (cst b zs) w = ln b - lsum (fun z => cser N (w - snd z) (fst z)) zs.
Proof.
  intros Hc. unfold resp_re. replace (N + 1)%nat with (S N) by lia. rewrite sumn_S_l. change (INR 0) with 0. cbn [cst]. rewrite Rmult_0_l, cos_0, Rmult_1_r.
  unfold cser. rewrite lsum_sumn. unfold Rminus. f_equal. rewrite <- sumn_opp. apply sumn_ext. intros k _.
  rewrite (lsum_ext (fun x => fst x ^ S k * cos (INR (S k) * (w + - snd x)) / INR (S k)) (fun z => cos (INR (S k) * w) * (fst z ^ S k * cos (INR (S k) * snd z) / INR (S k)) + (sin (INR (S k) * w) / INR (S k)) * (fst z ^ S k * sin (INR (S k) * snd z)))).
  - rewrite lsum_plus, !lsum_scal, (Hc (S k)). ring.
  - intros z _. replace (INR (S k) * (w + - snd z)) with (INR (S k) * w - INR (S k) * snd z) by ring. rewrite cos_minus. field. apply not_0_INR. lia.
Qed.
Lemma cst_im b zs N w : conjugate zs -> resp_im (N + 1) (cst b zs) w = - lsum (fun z => sser N (w - snd z) (fst z)) zs.
Proof.
  intros Hc. unfold resp_im. replace (N + 1)%nat with (S N) by lia. rewrite sumn_S_l. change (INR 0) with 0. cbn [cst]. rewrite Rmult_0_l, sin_0, Rmult_0_r, Rplus_0_l.
  unfold sser. rewrite lsum_sumn. rewrite <- sumn_opp. apply sumn_ext. intros k _.
  rewrite (lsum_ext (fun x => fst x ^ S k * sin (INR (S k) * (w - snd x)) / INR (S k)) (fun z => sin (INR (S k) * w) * (fst z ^ S k * cos (INR (S k) * snd z) / INR (S k)) - (cos (INR (S k) * w) / INR (S k)) * (fst z ^ S k * sin (INR (S k) * snd z)))).
  - rewrite lsum_minus, !lsum_scal, (Hc (S k)). ring.
  - intros z _. replace (INR (S k) * (w - snd z)) with (INR (S k) * w - INR (S k) * snd z) by ring. rewrite sin_minus. field. apply not_0_INR. lia.
Qed.

Lemma cst_tail q b zs N w : 0 <= q < 1 -> (forall z, In z zs -> Rabs (fst z) <= q) -> conjugate zs ->
  Rabs (ln b + lsum (loga w) zs - resp_re (N + 1) (cst b zs) w) <= INR (length zs) * (q ^ S N / (1 - q)) /\
  Rabs (lsum (phas w) zs - resp_im (N + 1) (cst b zs) w) <= INR (length zs) * (q ^ S N / (1 - q)).
Proof.
  intros Hq Hz Hc. rewrite cst_re, cst_im by exact Hc. split.
  - replace (ln b + lsum (loga w) zs - (ln b - lsum (fun z => cser N (w - snd z) (fst z)) zs)) with (lsum (fun z => loga w z + cser N (w - snd z) (fst z)) zs) by (rewrite lsum_plus; ring).
    apply lsum_abs. intros z Hi. apply log_tail; auto.
  - replace (lsum (phas w) zs - - lsum (fun z => sser N (w - snd z) (fst z)) zs) with (lsum (fun z => phas w z + sser N (w - snd z) (fst z)) zs) by (rewrite lsum_plus; ring).
    apply lsum_abs. intros z Hi. unfold phas. rewrite <- Rabs_Ropp. replace (- (- atan (fst z * sin (w - snd z) / (1 - fst z * cos (w - snd z))) + sser N (w - snd z) (fst z))) with (atan (fst z * sin (w - snd z) / (1 - fst z * cos (w - snd z))) - sser N (w - snd z) (fst z)) by ring.
    apply phase_tail; auto.
Qed.

(** ** The conjugate of a small cosine polynomial is small *)
Lemma conj_small hf e B : (1 <= hf)%nat -> (forall i, (i < 2 * hf)%nat -> Rabs (resp_re (hf + 1) e (grid (2 * hf) i)) <= B) ->
  forall w, Rabs (resp_im (hf + 1) e w) <= INR hf * (2 * B).
Proof.
  intros H1 H w. set (m := (2 * hf)%nat) in *. assert (Hm : (0 < m)%nat) by (unfold m; lia). assert (Hmr : 0 < INR m) by (apply lt_0_INR; exact Hm).
  set (al := fun i => resp_re (hf + 1) e (grid m i)).
  assert (Hev : forall k, (0 < k < 2 * hf)%nat -> al (2 * hf - k)%nat = al k).
  { intros k Hk. unfold al. fold m. apply resp_re_refl; unfold m in *; lia. }
  assert (B0 : 0 <= B) by (eapply Rle_trans; [apply Rabs_pos|apply (H O)]; unfold m; lia).
  assert (Ee : forall k, (k <= hf)%nat -> e k = ceps hf al k).
  { intros k Hk. assert (E : e k - ceps hf al k = 0); [|lra]. apply (cos_poly_zero hf (fun k => e k - ceps hf al k)); [exact H1| |exact Hk].
    intros i Hi. unfold resp_re. rewrite (sumn_ext _ _ (fun j => e j * cos (INR j * grid (2 * hf) i) - ceps hf al j * cos (INR j * grid (2 * hf) i))) by (intros; ring).
    rewrite sumn_minus. pose proof (ceps_cos hf al H1 Hev i Hi) as C. unfold al at 1, resp_re in C. fold m in C |- *. replace (hf + 1)%nat with (S hf) in C |- * by lia.
    rewrite C. apply Rminus_diag_eq. apply sumn_ext. intros j _. rewrite ang_grid, ang_comm by exact Hm. reflexivity. }
  assert (Be : forall k, (k <= hf)%nat -> Rabs (e k) <= 2 * B).
  { intros k Hk. rewrite Ee by exact Hk. unfold ceps. fold m. rewrite Rabs_mult.
    assert (W : Rabs (wgt hf k) <= 2) by (unfold wgt; destruct (_ || _)%bool; rewrite Rabs_pos_eq; lra).
    assert (S : Rabs (spec_re hf al k / INR m) <= B).
    { unfold Rdiv. rewrite Rabs_mult, (Rabs_pos_eq (/ INR m)) by (left; apply Rinv_0_lt_compat; exact Hmr).
      apply (Rmult_le_reg_r (INR m)); [exact Hmr|]. rewrite Rmult_assoc, Rinv_l, Rmult_1_r, (Rmult_comm B) by lra.
      unfold spec_re. fold m. apply sumn_abs_le. intros i Hi. rewrite Rabs_mult.
      assert (C : Rabs (cos (ang m k i)) <= 1) by (apply Rabs_le; apply COS_bound). pose proof (H i Hi) as A. fold (al i) in A. pose proof (Rabs_pos (al i)). pose proof (Rabs_pos (cos (ang m k i))). nra. }
    apply Rmult_le_compat; [apply Rabs_pos|apply Rabs_pos|exact W|exact S]. }
  unfold resp_im. replace (hf + 1)%nat with (S hf) by lia. rewrite sumn_S_l. change (INR 0) with 0. rewrite Rmult_0_l, sin_0, Rmult_0_r, Rplus_0_l.
  apply sumn_abs_le. intros i Hi. rewrite Rabs_mult. pose proof (Be (S i) ltac:(lia)). assert (C : Rabs (sin (INR (S i) * w)) <= 1) by (apply Rabs_le; apply SIN_bound).
  pose proof (Rabs_pos (e (S i))). pose proof (Rabs_pos (sin (INR (S i) * w))). nra.
Qed.

(** ** Parseval *)
Lemma power_total n r : (0 < n)%nat -> sumn n (fun k => power_spectrum n r (grid n k)) = INR n * r O.
Proof.
  intros Hn. unfold power_spectrum. rewrite sumn_plus, sumn_const, sumn_scal, sumn_swap.
  rewrite (sumn_0 (n - 1)); [ring|]. intros j Hj. rewrite sumn_scal. rewrite (sumn_ext n _ (fun k => cos (ang n k (S j)))) by (intros k _; rewrite ang_grid by exact Hn; reflexivity).
  rewrite sum_cos by lia. ring.
Qed.
Lemma parseval n h : (0 < n)%nat ->
  sumn n (fun k => resp_re n h (grid n k) * resp_re n h (grid n k) + resp_im n h (grid n k) * resp_im n h (grid n k)) = INR n * sumn n (fun t => h t * h t).
Proof.
  intros Hn. rewrite (sumn_ext n _ (fun k => power_spectrum n (autocorr n h) (grid n k))) by (intros k _; symmetry; apply power_identity; [lia|reflexivity]).
  rewrite power_total by exact Hn. f_equal. unfold autocorr. rewrite Nat.sub_0_r. apply sumn_ext. intros i _. rewrite Nat.add_0_r. reflexivity.
Qed.
Lemma resp_re_minus n g h w : resp_re n (fun t => g t - h t) w = resp_re n g w - resp_re n h w.
Proof. unfold resp_re. rewrite <- sumn_minus. apply sumn_ext. intros; ring. Qed.
Lemma resp_im_minus n g h w : resp_im n (fun t => g t - h t) w = resp_im n g w - resp_im n h w.
Proof. unfold resp_im. rewrite <- sumn_minus. apply sumn_ext. intros; ring. Qed.

Lemma one_minus_cos x : 2 - 2 * cos x <= x * x.
Proof.
  assert (E : 2 - 2 * cos x = 4 * (sin (x / 2) * sin (x / 2))).
  { replace (cos x) with (cos (2 * (x / 2))) by (f_equal; field). rewrite cos_2a_sin. ring. }
  rewrite E. assert (H : forall y, 0 <= y -> sin y * sin y <= y * y).
  { intros y Hy. destruct (Req_dec y 0) as [->|N]; [rewrite sin_0; lra|]. pose proof (sin_lt_x y ltac:(lra)).
    destruct (Rle_dec (- y) (sin y)) as [L|L]; [nra|]. pose proof (SIN_bound y). assert (y < 1) by lra. pose proof PI_RGT_0. pose proof PI2_1. assert (0 < sin y) by (apply sin_gt_0; lra). lra. }
  destruct (Rle_dec 0 x) as [P|P].
  - pose proof (H (x / 2) ltac:(lra)). nra.
  - pose proof (H (- (x / 2)) ltac:(lra)) as H0. rewrite sin_neg in H0. nra.
Qed.

(** ** The distance *)
Lemma recovers q (h r : vec RA) : 0 <= q < 1 -> minimum_phase q (length h) (fv h) -> inverse_spectral_fact h = Ok r ->
  exists g, spectral_fact RW r = Ok g /\ length g = length h /\
  sumn (length h) (fun t => (fv g t - fv h t) * (fv g t - fv h t)) <=
  (fact_error q (length h) * fact_error q (length h)) * sumn (length h) (fun t => fv h t * fv h t).
Proof.
  intros Hq (b & reals & pairs & Hb & Hre & Hpa & Hlen & Hf) Er.
  set (n := length h) in *. assert (Hn : (0 < n)%nat) by lia. set (zs := zeros reals pairs) in *.
  pose proof (zeros_conjugate reals pairs) as Hc. fold zs in Hc. pose proof (zeros_le q reals pairs Hre Hpa) as Hz. fold zs in Hz.
  assert (Hh : h <> []) by (intros E; unfold n in Hn; rewrite E in Hn; cbn in Hn; lia).
  destruct (inverse_ok h Hh) as (r' & E' & Lr & Hr). rewrite Er in E'. injection E' as <-. fold n in Lr, Hr.
  assert (Hrn : r <> []) by (intros E; rewrite E in Lr; cbn in Lr; lia).
  set (ls := fun w => ln b + lsum (loga w) zs). set (ph := fun w => lsum (phas w) zs).
  assert (HR : forall w, resp_re n (fv h) w = exp_re (ls w) (ph w) /\ resp_im n (fv h) w = exp_im (ls w) (ph w)).
  { intros w. destruct (Hf w) as (-> & ->). destruct (factored_polar q zs w Hq Hz) as (-> & ->). unfold exp_re, exp_im, ls, ph. rewrite exp_plus, exp_ln by exact Hb. split; ring. }
  assert (HP : forall w, power_spectrum n (fv r) w = exp (2 * ls w)).
  { intros w. rewrite (power_identity n (fv h) (fv r) w) by (lia || exact Hr). destruct (HR w) as (-> & ->). unfold exp_re, exp_im.
    replace (2 * ls w) with (ls w + ls w) by ring. rewrite exp_plus. pose proof (sin2_cos2 (ph w)) as S. unfold Rsqr in S.
    transitivity (exp (ls w) * exp (ls w) * (sin (ph w) * sin (ph w) + cos (ph w) * cos (ph w))); [ring|rewrite S; ring]. }
  destruct (spectral_outcome r Hrn) as [(g & Eg & Lg & level & Hl & c & Hc1 & Hc2)|(_ & i & Hi & N)].
  2:{ exfalso. rewrite Lr in N. rewrite HP in N. pose proof (exp_pos (2 * ls (grid (100 * n) i))). lra. }
  rewrite Lr in Lg, Hl, Hc1, Hc2. exists g. split; [exact Eg|]. split; [exact Lg|].
  set (dl := INR (n - 1) * (q ^ (50 * n + 1) / (1 - q))).
  assert (Q0 : 0 <= q ^ (50 * n + 1) / (1 - q)) by (apply Rmult_le_pos; [apply pow_le; lra|left; apply Rinv_0_lt_compat; lra]).
  assert (Hd : INR (length zs) * (q ^ (50 * n + 1) / (1 - q)) <= dl) by (apply Rmult_le_compat_r; [exact Q0|apply le_INR; lia]).
  assert (D0 : 0 <= dl) by (apply Rmult_le_pos; [apply pos_INR|exact Q0]).
  assert (Ei : forall i, (i < 100 * n)%nat -> resp_re (50 * n + 1) c (grid (100 * n) i) = ls (grid (100 * n) i)).
  { intros i Hi. specialize (Hc1 i Hi). assert (L : level i = exp (2 * ls (grid (100 * n) i))).
    { destruct Hl as [Hl|(_ & (j & Hj & N) & _)].
      - destruct (Hl i Hi) as (_ & ->). apply HP.
      - exfalso. cbv beta in N. rewrite HP in N. pose proof (exp_pos (2 * ls (grid (100 * n) j))). lra. }
    rewrite L in Hc1. apply exp_inv in Hc1. lra. }
  set (e := fun k => c k - cst b zs k).
  assert (Sm : forall w, Rabs (resp_im (50 * n + 1) e w) <= INR (50 * n) * (2 * dl)).
  { apply conj_small; [lia|]. replace (2 * (50 * n))%nat with (100 * n)%nat by lia. intros i Hi. unfold e. rewrite resp_re_minus, Ei by exact Hi.
    destruct (cst_tail q b zs (50 * n) (grid (100 * n) i) Hq Hz Hc) as (T & _). replace (S (50 * n)) with (50 * n + 1)%nat in T by lia. unfold ls. eapply Rle_trans; [exact T|exact Hd]. }
  assert (Pe : forall w, Rabs (resp_im (50 * n + 1) c w - ph w) <= fact_error q n).
  { intros w. specialize (Sm w). unfold e in Sm. rewrite resp_im_minus in Sm.
    destruct (cst_tail q b zs (50 * n) w Hq Hz Hc) as (_ & T). replace (S (50 * n)) with (50 * n + 1)%nat in T by lia. fold (ph w) in T.
    replace (resp_im (50 * n + 1) c w - ph w) with ((resp_im (50 * n + 1) c w - resp_im (50 * n + 1) (cst b zs) w) + - (ph w - resp_im (50 * n + 1) (cst b zs) w)) by ring.
    eapply Rle_trans; [apply Rabs_triang|]. rewrite Rabs_Ropp. unfold fact_error. fold dl.
    replace (INR (100 * n + 1) * dl) with (INR (50 * n) * (2 * dl) + dl); [lra|]. rewrite plus_INR, !mult_INR. cbn [INR]. ring. }
  assert (E0 : 0 <= fact_error q n) by (unfold fact_error; fold dl; apply Rmult_le_pos; [apply pos_INR|exact D0]).
  apply (Rmult_le_reg_l (INR n)); [apply lt_0_INR; exact Hn|]. rewrite <- (parseval n (fun t => fv g t - fv h t)) by exact Hn.
  rewrite <- Rmult_assoc, (Rmult_comm (INR n)), Rmult_assoc, <- (parseval n (fv h)) by exact Hn. rewrite <- sumn_scal. apply sumn_le. intros k Hk.
  rewrite resp_re_minus, resp_im_minus. destruct (Hc2 k Hk) as (-> & ->). destruct (HR (grid n k)) as (-> & ->).
  assert (A : resp_re (50 * n + 1) c (grid n k) = ls (grid n k)) by (rewrite <- (grid_fine n k Hn); apply Ei; lia). rewrite A.
  specialize (Pe (grid n k)). set (B := resp_im (50 * n + 1) c (grid n k)) in *. set (P := ph (grid n k)) in *. unfold exp_re, exp_im. set (x := exp (ls (grid n k))).
  pose proof (sin2_cos2 P) as S1. pose proof (sin2_cos2 B) as S2. unfold Rsqr in S1, S2.
  replace ((x * cos B - x * cos P) * (x * cos B - x * cos P) + (x * sin B - x * sin P) * (x * sin B - x * sin P)) with
    (x * x * ((sin B * sin B + cos B * cos B) + (sin P * sin P + cos P * cos P) - 2 * (cos B * cos P + sin B * sin P))) by ring.
  replace (x * cos P * (x * cos P) + x * sin P * (x * sin P)) with (x * x * (sin P * sin P + cos P * cos P)) by ring.
  rewrite S1, S2, <- cos_minus, Rmult_1_r, (Rmult_comm (fact_error q n * fact_error q n)). apply Rmult_le_compat_l; [apply Rle_0_sqr|].
  pose proof (one_minus_cos (B - P)). apply Rabs_le_inv in Pe. nra.
Qed.

(** ** Round trip *)
Lemma corr_diff n (g h : nat -> R) k E : sumn n (fun t => g t * g t) = E -> sumn n (fun t => h t * h t) = E ->
  forall x, 0 <= x -> sumn n (fun t => (g t - h t) * (g t - h t)) <= x * x * E -> Rabs (autocorr n g k - autocorr n h k) <= 2 * x * E.
Proof.
  intros Hg Hh x Hx Hd.
  assert (CS : forall a b A B, sumn n (fun t => a t * a t) <= A * A -> sumn n (fun t => b t * b t) <= B * B -> 0 <= A -> 0 <= B ->
    Rabs (sumn (n - k) (fun i => a i * b (i + k)%nat)) <= A * B).
  { intros a b A B Ha Hb A0 B0. pose proof (cauchy_schwarz (n - k) a (fun i => b (i + k)%nat)) as C. unfold dot in C.
    assert (Sa : sumn (n - k) (fun i => a i * a i) <= A * A).
    { eapply Rle_trans; [|exact Ha]. destruct (Nat.le_gt_cases k n) as [L|L].
      - replace n with ((n - k) + k)%nat at 2 by lia. rewrite sumn_split. assert (0 <= sumn k (fun i => a (n - k + i)%nat * a (n - k + i)%nat)) by (apply sumn_ge_0; intros; apply Rle_0_sqr). lra.
      - replace (n - k)%nat with O by lia. cbn [sumn]. apply sumn_ge_0. intros; apply Rle_0_sqr. }
    assert (Sb : sumn (n - k) (fun i => b (i + k)%nat * b (i + k)%nat) <= B * B).
    { eapply Rle_trans; [|exact Hb]. destruct (Nat.le_gt_cases k n) as [L|L].
      - replace n with (k + (n - k))%nat at 2 by lia. rewrite sumn_split. assert (0 <= sumn k (fun i => b i * b i)) by (apply sumn_ge_0; intros; apply Rle_0_sqr).
        rewrite (sumn_ext (n - k) (fun i => b (k + i)%nat * b (k + i)%nat) (fun i => b (i + k)%nat * b (i + k)%nat)) by (intros i _; rewrite (Nat.add_comm k i); reflexivity). lra.
      - replace (n - k)%nat with O by lia. cbn [sumn]. apply sumn_ge_0. intros; apply Rle_0_sqr. }
    set (s := sumn (n - k) (fun i => a i * b (i + k)%nat)) in *.
    assert (0 <= sumn (n - k) (fun i => a i * a i)) by (apply sumn_ge_0; intros; apply Rle_0_sqr).
    assert (0 <= sumn (n - k) (fun i => b (i + k)%nat * b (i + k)%nat)) by (apply sumn_ge_0; intros; apply Rle_0_sqr).
    assert (S2 : s * s <= (A * B) * (A * B)).
    { eapply Rle_trans; [exact C|]. replace (A * B * (A * B)) with ((A * A) * (B * B)) by ring. apply Rmult_le_compat; assumption. }
    apply Rsqr_incr_0_var; [rewrite <- Rsqr_abs; exact S2|apply Rmult_le_pos; assumption]. }
  assert (E0 : 0 <= E) by (rewrite <- Hg; apply sumn_ge_0; intros; apply Rle_0_sqr).
  pose proof (sqrt_pos E) as S0. pose proof (sqrt_sqrt E E0) as SS. set (s := sqrt E) in *.
  assert (Hd' : sumn n (fun t => (g t - h t) * (g t - h t)) <= (x * s) * (x * s)) by (replace (x * s * (x * s)) with (x * x * (s * s)) by ring; rewrite SS; exact Hd).
  pose proof (CS (fun t => g t - h t) g (x * s) s Hd' ltac:(cbv beta; rewrite Hg, SS; apply Rle_refl) ltac:(apply Rmult_le_pos; assumption) S0) as C1.
  pose proof (CS h (fun t => g t - h t) s (x * s) ltac:(cbv beta; rewrite Hh, SS; apply Rle_refl) Hd' S0 ltac:(apply Rmult_le_pos; assumption)) as C2. cbv beta in C1, C2.
  replace (autocorr n g k - autocorr n h k) with (sumn (n - k) (fun i => (g i - h i) * g (i + k)%nat) + sumn (n - k) (fun i => h i * (g (i + k)%nat - h (i + k)%nat))).
  - eapply Rle_trans; [apply Rabs_triang|]. replace (2 * x * E) with (x * s * s + s * (x * s)) by (rewrite <- SS; ring). lra.
  - unfold autocorr. rewrite <- sumn_plus, <- sumn_minus. apply sumn_ext. intros; ring.
Qed.

Lemma fact_error_pos q n : 0 <= q < 1 -> 0 <= fact_error q n.
Proof.
  intros Hq. unfold fact_error. apply Rmult_le_pos; [apply pos_INR|]. apply Rmult_le_pos; [apply pos_INR|].
  apply Rmult_le_pos; [apply pow_le; lra|left; apply Rinv_0_lt_compat; lra].
Qed.

Lemma minphase_positive q (h r : vec RA) : 0 <= q < 1 -> minimum_phase q (length h) (fv h) -> inverse_spectral_fact h = Ok r -> positive_samples r.
Proof.
  intros Hq (b & reals & pairs & Hb & Hre & Hpa & Hlen & Hf) Er i _.
  assert (Hh : h <> []) by (intros ->; cbn in Hlen; lia). destruct (inverse_ok h Hh) as (r' & E' & Lr & Hr). rewrite Er in E'. injection E' as <-.
  change (@length R r) with (@length (num RA) r). rewrite Lr, (power_identity (length h) (fv h)) by (lia || exact Hr). set (w := grid _ i). destruct (Hf w) as (-> & ->).
  destruct (factored_polar q _ w Hq (zeros_le q reals pairs Hre Hpa)) as (-> & ->). unfold exp_re, exp_im.
  set (a := lsum (loga w) _). set (p := lsum (phas w) _). pose proof (sin2_cos2 p) as S. unfold Rsqr in S. pose proof (exp_pos a).
  replace (b * (exp a * cos p) * (b * (exp a * cos p)) + b * (exp a * sin p) * (b * (exp a * sin p))) with (b * b * (exp a * exp a) * (sin p * sin p + cos p * cos p)) by ring.
  rewrite S, Rmult_1_r. apply Rmult_lt_0_compat; apply Rmult_lt_0_compat; assumption.
Qed.

Lemma round_trip q (h r : vec RA) : 0 <= q < 1 -> minimum_phase q (length h) (fv h) -> inverse_spectral_fact h = Ok r ->
  exists g s, spectral_fact RW r = Ok g /\ inverse_spectral_fact g = Ok s /\ length s = length r /\
  forall k, (k < length r)%nat -> Rabs (fv s k - fv r k) <= 2 * fact_error q (length r) * fv r 0.
Proof.
  intros Hq Hm Er. destruct (recovers q h r Hq Hm Er) as (g & Eg & Lg & D).
  assert (Hh : h <> []) by (intros ->; destruct Hm as (b & x & y & _ & _ & _ & L & _); cbn in L; lia).
  destruct (inverse_ok h Hh) as (r' & E' & Lr & Hr). rewrite Er in E'. injection E' as <-.
  assert (Hn : (0 < length h)%nat) by (destruct h; [congruence|cbn; lia]).
  assert (Hg : g <> []) by (intros ->; cbn in Lg; change (num RA) with R in *; lia).
  destruct (inverse_ok g Hg) as (s & Es & Ls & Hs). exists g, s. split; [exact Eg|]. split; [exact Es|]. split; [rewrite Ls, Lg, Lr; reflexivity|].
  intros k Hk. rewrite Lr in *. rewrite Hs, Lg, Hr by (rewrite ?Lg; assumption).
  destruct (spectral_circular r g Eg (minphase_positive q h r Hq Hm Er)) as (C0 & _). rewrite Lr in C0.
  assert (A0 : forall f, autocorr (length h) f 0 = sumn (length h) (fun t => f t * f t)).
  { intros f. unfold autocorr. rewrite Nat.sub_0_r. apply sumn_ext. intros; rewrite Nat.add_0_r; reflexivity. }
  apply corr_diff; [rewrite <- A0; exact C0|rewrite <- A0; symmetry; apply Hr; exact Hn|apply fact_error_pos, Hq|].
  eapply Rle_trans; [exact D|]. rewrite <- A0, <- Hr by exact Hn. apply Rle_refl.
Qed.
