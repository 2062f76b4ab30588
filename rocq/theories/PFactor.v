(** Spectral factorisation. *)
From Coq Require Import Reals List Arith Lia Lra Psatz Bool.
From Verif Require Import Arith Vec ModelFactor Spec SpecSpectral PSum PCalc PVec PFourier.
Import ListNotations.
Local Open Scope R_scope.

(** ** Even sums *)
Definition wgt (hf k : nat) : R := if (Nat.eqb k 0 || Nat.eqb k hf)%bool then 1 else 2.

Lemma sum_even hf f : (1 <= hf)%nat -> (forall k, (0 < k < 2 * hf)%nat -> f (2 * hf - k)%nat = f k) ->
  sumn (2 * hf) f = sumn (S hf) (fun k => wgt hf k * f k).
Proof.
  intros H1 H. replace (2 * hf)%nat with (S hf + (hf - 1))%nat by lia. rewrite sumn_split.
  rewrite <- (sumn_rev (hf - 1) (fun i => f (S hf + i)%nat)).
  rewrite (sumn_ext (hf - 1) _ (fun i => f (S i))).
  2:{ intros i Hi. rewrite <- (H (S i)) by lia. f_equal. lia. }
  destruct hf as [|q]; [lia|]. replace (S q - 1)%nat with q by lia.
  assert (E : forall g, sumn (S (S q)) g = g O + sumn q (fun i => g (S i)) + g (S q)).
  { intros g. rewrite <- sumn_S_l. reflexivity. }
  rewrite !E. unfold wgt. rewrite Nat.eqb_refl.
  rewrite (sumn_ext q (fun i => (if ((S i =? 0)%nat || (S i =? S q)%nat)%bool then 1 else 2) * f (S i)) (fun i => f (S i) + f (S i))).
  2:{ intros i Hi. destruct (Nat.eqb_spec (S i) 0); [lia|]. destruct (Nat.eqb_spec (S i) (S q)); [lia|]. cbn [orb]. ring. }
  rewrite sumn_plus. rewrite Nat.eqb_refl, orb_true_r. cbn [orb]. ring.
Qed.

Section Ceps.
Variables (hf : nat) (al : nat -> R).
Hypothesis H1 : (1 <= hf)%nat.
Let m := (2 * hf)%nat.
Hypothesis Hev : forall k, (0 < k < m)%nat -> al (m - k)%nat = al k.

Definition spec_re (k : nat) : R := sumn m (fun s => al s * cos (ang m k s)).
Definition ceps (k : nat) : R := wgt hf k * (spec_re k / INR m).

Let Hm : (0 < m)%nat. Proof. unfold m. lia. Qed.
Let Hmr : INR m <> 0. Proof. apply not_0_INR. lia. Qed.

Lemma spec_im_0 k : sumn m (fun s => al s * sin (ang m k s)) = 0.
Proof.
  apply (sum_odd m Hm); [rewrite ang_comm, ang_0, sin_0; ring|].
  intros s Hs. rewrite Hev by exact Hs. rewrite ang_comm, sin_ang_refl by lia. rewrite ang_comm. ring.
Qed.
Lemma spec_re_even k : (0 < k < m)%nat -> spec_re (m - k) = spec_re k.
Proof. intros Hk. apply sumn_ext. intros s _. rewrite cos_ang_refl by lia. reflexivity. Qed.

Lemma ceps_cos t : (t < m)%nat -> al t = sumn (S hf) (fun k => ceps k * cos (ang m k t)).
Proof.
  intros Ht. apply (Rmult_eq_reg_l (INR m)); [|exact Hmr]. rewrite <- (invert m Hm al t Ht).
  rewrite (sumn_ext m _ (fun k => spec_re k * cos (ang m k t))).
  2:{ intros k _. rewrite spec_im_0. unfold spec_re. ring. }
  unfold m at 1. rewrite sum_even; [|exact H1|].
  - rewrite <- sumn_scal. apply sumn_ext. intros k _. unfold ceps. field. exact Hmr.
  - intros k Hk. fold m. rewrite spec_re_even by exact Hk. rewrite cos_ang_refl by lia. reflexivity.
Qed.

Definition flipped (k : nat) : R :=
  if (Nat.eqb k 0 || Nat.eqb k hf)%bool then 0 else if Nat.ltb k hf then spec_re k else - spec_re k.

Lemma ceps_sin t : / INR m * sumn m (fun k => flipped k * sin (ang m k t)) = sumn (S hf) (fun k => ceps k * sin (ang m k t)).
Proof.
  unfold m at 2. rewrite sum_even; [|exact H1|].
  - rewrite <- sumn_scal. apply sumn_ext. intros k Hk. unfold ceps, flipped, wgt.
    destruct (Nat.eqb_spec k 0) as [->|N0]; [rewrite ang_0, sin_0; cbn [orb]; ring|].
    destruct (Nat.eqb_spec k hf) as [->|N1]; cbn [orb].
    + replace (ang m hf t) with (INR t * PI); [|unfold ang, m; rewrite !mult_INR; cbn [INR]; field; apply not_0_INR; lia].
      assert (E : sin (INR t * PI) = 0) by (apply sin_eq_0_1; exists (Z.of_nat t); rewrite <- INR_IZR_INZ; reflexivity).
      rewrite E. ring.
    + destruct (Nat.ltb_spec k hf); [|lia]. field. exact Hmr.
  - intros k Hk. fold m. fold m in Hk. rewrite sin_ang_refl by lia. unfold flipped.
    destruct (Nat.eqb_spec k 0); [lia|]. destruct (Nat.eqb_spec (m - k) 0); [lia|].
    destruct (Nat.eqb_spec k hf) as [->|N1].
    + replace (m - hf)%nat with hf by (unfold m; lia). rewrite Nat.eqb_refl. cbn [orb]. ring.
    + destruct (Nat.eqb_spec (m - k) hf); [unfold m in *; lia|]. cbn [orb]. rewrite spec_re_even by exact Hk.
      destruct (Nat.ltb_spec k hf), (Nat.ltb_spec (m - k) hf); try (unfold m in *; lia); ring.
Qed.
End Ceps.

(** ** The model's transforms *)
Lemma csum_seq (f : nat -> cplx (A:=RA)) n : csum (map f (seq 0 n)) = (sumn n (fun t => fst (f t)), sumn n (fun t => snd (f t))).
Proof.
  induction n as [|n IH]; [reflexivity|]. rewrite seq_S, map_app. unfold csum in *. rewrite fold_left_app, IH. reflexivity.
Qed.
Lemma angle_R m k t : angle (A:=RA) RW m k t = ang m k t.
Proof. reflexivity. Qed.
Lemma fft_length (x : list (cplx (A:=RA))) : length (fft RW x) = length x.
Proof. unfold fft. rewrite map_length, seq_length. reflexivity. Qed.
Lemma ifft_length (x : list (cplx (A:=RA))) : length (ifft RW x) = length x.
Proof. unfold ifft. rewrite map_length, seq_length. reflexivity. Qed.
Lemma fft_entry (x : list (cplx (A:=RA))) k d : (k < length x)%nat -> nth k (fft RW x) d =
  (sumn (length x) (fun t => fst (nth t x czero) * cos (- ang (length x) k t) - snd (nth t x czero) * sin (- ang (length x) k t)),
   sumn (length x) (fun t => fst (nth t x czero) * sin (- ang (length x) k t) + snd (nth t x czero) * cos (- ang (length x) k t))).
Proof.
  intros Hk. unfold fft. rewrite (nth_map_gen _ _ _ O) by (rewrite seq_length; exact Hk). rewrite seq_nth by exact Hk. rewrite csum_seq. reflexivity.
Qed.
Lemma ifft_entry (x : list (cplx (A:=RA))) t d : (t < length x)%nat -> nth t (ifft RW x) d =
  (1 / INR (length x) * sumn (length x) (fun k => fst (nth k x czero) * cos (ang (length x) k t) - snd (nth k x czero) * sin (ang (length x) k t)),
   1 / INR (length x) * sumn (length x) (fun k => fst (nth k x czero) * sin (ang (length x) k t) + snd (nth k x czero) * cos (ang (length x) k t))).
Proof.
  intros Hk. unfold ifft. rewrite (nth_map_gen _ _ _ O) by (rewrite seq_length; exact Hk). rewrite seq_nth by exact Hk. rewrite csum_seq. reflexivity.
Qed.

Lemma upd_len {T} (l : list T) i x : length (upd l i x) = length l.
Proof. revert i; induction l as [|a l IH]; intros [|i]; cbn; auto. Qed.
Lemma upd_nth {T} (l : list T) i x k d : (i < length l)%nat -> nth k (upd l i x) d = if Nat.eqb k i then x else nth k l d.
Proof.
  revert i k; induction l as [|a l IH]; intros [|i] [|k] H; cbn in *; try lia; try reflexivity. apply IH. lia.
Qed.
Lemma flip_length {T} (neg : T -> T) zero ind l : length (flip neg zero ind l) = length l.
Proof. unfold flip. rewrite !upd_len, app_length, map_length, <- app_length, firstn_skipn. reflexivity. Qed.
Lemma flip_nth {T} (neg : T -> T) zero ind l k d : (0 < ind < length l)%nat -> (k < length l)%nat ->
  nth k (flip neg zero ind l) d = if (Nat.eqb k 0 || Nat.eqb k ind)%bool then zero else if Nat.ltb k ind then nth k l d else neg (nth k l d).
Proof.
  intros Hi Hk. unfold flip. set (l' := firstn ind l ++ map neg (skipn ind l)).
  assert (L : length l' = length l) by (unfold l'; rewrite app_length, map_length, <- app_length, firstn_skipn; reflexivity).
  rewrite upd_nth by (rewrite upd_len; lia). rewrite upd_nth by lia.
  destruct (Nat.eqb k ind) eqn:E2; [rewrite orb_true_r; reflexivity|]. destruct (Nat.eqb k 0); [reflexivity|]. cbn [orb].
  unfold l'. assert (F : length (firstn ind l) = ind) by (rewrite firstn_length; lia).
  destruct (Nat.ltb_spec k ind).
  - rewrite app_nth1 by lia. rewrite <- (firstn_skipn ind l) at 2. rewrite app_nth1 by lia. reflexivity.
  - rewrite app_nth2 by lia. rewrite F. rewrite (nth_map_gen neg _ _ d) by (rewrite skipn_length; lia). f_equal.
    rewrite <- (firstn_skipn ind l) at 2. rewrite app_nth2 by lia. rewrite F. reflexivity.
Qed.

Lemma creal_nth (v : vec RA) k : fst (nth k (map creal v) czero) = fv v k /\ snd (nth k (map creal v) czero) = 0.
Proof.
  change (@czero RA) with (@creal RA 0). rewrite map_nth. split; reflexivity.
Qed.

(** the discrete Hilbert transform of an even sequence *)
Lemma hilbert_ok hf (al : vec RA) t : (1 <= hf)%nat -> length al = (2 * hf)%nat ->
  (forall k, (0 < k < 2 * hf)%nat -> fv al (2 * hf - k) = fv al k) -> (t < 2 * hf)%nat ->
  fv (hilbert RW al) t = - sumn (S hf) (fun k => ceps hf (fv al) k * sin (ang (2 * hf) k t)).
Proof.
  intros H1 L Hev Ht. unfold hilbert. rewrite L. replace (2 * hf / 2)%nat with hf by (rewrite Nat.mul_comm, Nat.div_mul; lia).
  set (X := fft RW (map creal al)). assert (LX : length X = (2 * hf)%nat) by (unfold X; rewrite fft_length, map_length; exact L).
  assert (EX : forall k, (k < 2 * hf)%nat -> nth k X czero = (spec_re hf (fv al) k, 0)).
  { intros k Hk. unfold X. rewrite fft_entry by (rewrite map_length, L; exact Hk). rewrite map_length, L. f_equal.
    - apply sumn_ext. intros s _. destruct (creal_nth al s) as (-> & ->). rewrite cos_neg. ring.
    - rewrite (sumn_ext _ _ (fun s => - (fv al s * sin (ang (2 * hf) k s)))).
      + rewrite sumn_opp. etransitivity; [apply f_equal, (spec_im_0 hf (fv al) H1 Hev k)|ring].
      + intros s _. destruct (creal_nth al s) as (-> & ->). rewrite sin_neg. ring. }
  set (Y := map (cmul cj) (flip cneg czero hf X)).
  assert (LY : length Y = (2 * hf)%nat) by (unfold Y; rewrite map_length, flip_length; exact LX).
  assert (EY : forall k, (k < 2 * hf)%nat -> nth k Y czero = (0, flipped hf (fv al) k)).
  { intros k Hk. unfold Y. rewrite (nth_map_gen (cmul cj) _ _ czero) by (rewrite flip_length; lia). rewrite flip_nth by lia. rewrite EX by exact Hk. unfold flipped.
    destruct (_ || _)%bool; [unfold cmul, cj, czero; cbn; f_equal; ring|].
    destruct (Nat.ltb k hf); unfold cmul, cj, cneg; cbn; f_equal; ring. }
  unfold fv at 1. rewrite (nth_map_gen fst _ _ (@czero RA)) by (rewrite ifft_length; lia). rewrite ifft_entry by lia. cbn [fst]. rewrite LY.
  rewrite <- ceps_sin by assumption. rewrite (sumn_ext _ _ (fun k => - (flipped hf (fv al) k * sin (ang (2 * hf) k t)))).
  - rewrite sumn_opp. unfold Rdiv. ring.
  - intros k Hk. rewrite EY by exact Hk. cbn [fst snd]. ring.
Qed.

(** the impulse response with a conjugate symmetric spectrum *)
Lemma impulse_length (a p : vec RA) : length a = length p -> length (impulse RW a p) = length a.
Proof. intros H. unfold impulse. rewrite map_length, ifft_length. apply map2_length, H. Qed.
Lemma ang_grid n k t : (0 < n)%nat -> INR t * grid n k = ang n k t.
Proof. intros Hn. unfold grid, ang. rewrite mult_INR. field. apply not_0_INR. lia. Qed.

Lemma impulse_ok n (a p : vec RA) : (0 < n)%nat -> length a = n -> length p = n ->
  (forall k, (0 < k < n)%nat -> fv a (n - k) = fv a k) -> (forall k, (0 < k < n)%nat -> fv p (n - k) = - fv p k) -> fv p 0 = 0 ->
  forall k, (k < n)%nat ->
  resp_re n (fv (impulse RW a p)) (grid n k) = exp_re (fv a k) (- fv p k) /\
  resp_im n (fv (impulse RW a p)) (grid n k) = exp_im (fv a k) (- fv p k).
Proof.
  intros Hn La Lp He Ho Ho0 k Hk.
  set (gr := fun k => exp (fv a k) * cos (fv p k)). set (gi := fun k => exp (fv a k) * sin (fv p k)).
  assert (EG : forall j, (j < n)%nat -> nth j (map2 (cexp (A:=RA) RW) a p) czero = (gr j, gi j)).
  { intros j Hj. rewrite (nth_map2 (cexp (A:=RA) RW) a p j (0 : num RA) (0 : num RA)); [reflexivity|rewrite Lp; exact La|rewrite La; exact Hj]. }
  assert (LG : length (map2 (cexp (A:=RA) RW) a p) = n) by (rewrite map2_length; [exact La|rewrite Lp; exact La]).
  set (u := fun t => sumn n (fun j => gr j * cos (ang n j t) - gi j * sin (ang n j t))).
  set (v := fun t => sumn n (fun j => gr j * sin (ang n j t) + gi j * cos (ang n j t))).
  assert (Eh : forall t, (t < n)%nat -> fv (impulse RW a p) t = / INR n * u t).
  { intros t Ht. unfold impulse, fv at 1. rewrite (nth_map_gen fst _ _ (@czero RA)) by (rewrite ifft_length; lia). rewrite ifft_entry by lia. cbn [fst]. rewrite LG.
    replace (1 / INR n) with (/ INR n) by (unfold Rdiv; ring). f_equal. apply sumn_ext. intros j Hj. rewrite EG by exact Hj. reflexivity. }
  assert (Ev : forall t, v t = 0).
  { intros t. apply (sum_odd n Hn).
    - rewrite ang_0, sin_0, cos_0. unfold gr, gi. rewrite Ho0, sin_0. ring.
    - intros j Hj. rewrite sin_ang_refl, cos_ang_refl by lia. unfold gr, gi. rewrite He, Ho by exact Hj. rewrite cos_neg, sin_neg. ring. }
  assert (Nn : INR n <> 0) by (apply not_0_INR; lia).
  assert (P : sumn n (fun t => u t * cos (ang n k t) + v t * sin (ang n k t)) = INR n * gr k).
  { rewrite (sumn_ext n _ (fun t => sumn n (fun j => gr j * cos (ang n t j - ang n t k) - gi j * sin (ang n t j - ang n t k)))).
    - rewrite sumn_swap. rewrite (sumn_ext n _ (fun j => INR n * gr j * delta j k)).
      + apply sumn_delta_r. exact Hk.
      + intros j Hj. rewrite sumn_minus, !sumn_scal. rewrite orth_cos, orth_sin by lia. unfold delta. rewrite Nat.eqb_sym. ring.
    - intros t _. unfold u, v. rewrite <- !sumn_scal_r, <- sumn_plus. apply sumn_ext. intros j _. rewrite cos_minus, sin_minus, (ang_comm n t j), (ang_comm n t k). ring. }
  assert (Q : sumn n (fun t => u t * sin (ang n k t) - v t * cos (ang n k t)) = - (INR n * gi k)).
  { rewrite (sumn_ext n _ (fun t => sumn n (fun j => - (gr j * sin (ang n t j - ang n t k) + gi j * cos (ang n t j - ang n t k))))).
    - rewrite sumn_swap. rewrite (sumn_ext n _ (fun j => - (INR n * gi j) * delta j k)).
      + apply (sumn_delta_r n k (fun j => - (INR n * gi j))). exact Hk.
      + intros j Hj. rewrite sumn_opp, sumn_plus, !sumn_scal. rewrite orth_cos, orth_sin by lia. unfold delta. rewrite Nat.eqb_sym. ring.
    - intros t _. unfold u, v. rewrite <- !sumn_scal_r, <- sumn_minus. apply sumn_ext. intros j _. rewrite cos_minus, sin_minus, (ang_comm n t j), (ang_comm n t k). ring. }
  unfold exp_re, exp_im. rewrite cos_neg, sin_neg. split.
  - change (exp (fv a k) * cos (fv p k)) with (gr k). apply (Rmult_eq_reg_l (INR n)); [|exact Nn]. rewrite <- P. unfold resp_re. rewrite <- sumn_scal. apply sumn_ext.
    intros t Ht. rewrite Eh, Ev by exact Ht. rewrite ang_grid by exact Hn. field. exact Nn.
  - replace (exp (fv a k) * - sin (fv p k)) with (- gi k) by (unfold gi; ring). apply (Rmult_eq_reg_l (INR n)); [|exact Nn].
    replace (INR n * - gi k) with (- (INR n * gi k)) by ring. rewrite <- Q. unfold resp_im. rewrite <- sumn_scal. apply sumn_ext.
    intros t Ht. rewrite Eh, Ev by exact Ht. rewrite ang_grid by exact Hn. field. exact Nn.
Qed.
