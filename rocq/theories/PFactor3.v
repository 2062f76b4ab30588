(** Spectral factorisation: consequences, and the column form. *)
From Coq Require Import Reals List Arith Lia Lra Psatz Bool ZArith.
From Verif Require Import Arith Vec ModelFactor ModelSpectral Spec SpecSpectral PSum PCalc PVec PFourier PFactor PSpectral PFactor2.
Import ListNotations.
Local Open Scope R_scope.

Lemma spectral_empty : spectral_fact (A:=RA) RW [] = Err ValueError.
Proof. reflexivity. Qed.

Lemma column_empty : spectral_fact_column (A:=RA) RW [] = Err ValueError.
Proof. reflexivity. Qed.

Lemma spectral_error (r : vec RA) : r <> [] ->
  (spectral_fact RW r = Err RuntimeError <->
   exists i, (i < 100 * length r)%nat /\ power_spectrum (length r) (fv r) (grid (100 * length r) i) <= - (1 / 10000)).
Proof.
  intros Hr. destruct (spectral_outcome r Hr) as [(h & E & _ & lev & Hl & _)|(E & H)]; rewrite E.
  - split; [discriminate|]. intros (i & Hi & H). pose proof (levelled_low _ _ _ i Hl Hi). lra.
  - split; auto.
Qed.
Lemma spectral_total (r : vec RA) : r <> [] -> (exists h, spectral_fact RW r = Ok h) \/ spectral_fact RW r = Err RuntimeError.
Proof. intros Hr. destruct (spectral_outcome r Hr) as [(h & E & _)|(E & _)]; eauto. Qed.

Lemma spectral_cepstrum (r h : vec RA) : spectral_fact RW r = Ok h ->
  length h = length r /\
  exists level, levelled (100 * length r) (fun i => power_spectrum (length r) (fv r) (grid (100 * length r) i)) level /\
  exists c, (forall i, (i < 100 * length r)%nat -> exp (2 * resp_re (50 * length r + 1) c (grid (100 * length r) i)) = level i) /\
  forall k, (k < length r)%nat ->
    resp_re (length r) (fv h) (grid (length r) k) =
      exp_re (resp_re (50 * length r + 1) c (grid (length r) k)) (resp_im (50 * length r + 1) c (grid (length r) k)) /\
    resp_im (length r) (fv h) (grid (length r) k) =
      exp_im (resp_re (50 * length r + 1) c (grid (length r) k)) (resp_im (50 * length r + 1) c (grid (length r) k)).
Proof.
  intros E. destruct r as [|r0 r]; [discriminate|]. destruct (spectral_outcome (r0 :: r)) as [(h' & E' & L & H)|(E' & _)]; [discriminate| |]; rewrite E in E'; [|discriminate].
  injection E' as <-. auto.
Qed.

Lemma spectral_level (r h : vec RA) : spectral_fact RW r = Ok h ->
  exists level, levelled (100 * length r) (fun i => power_spectrum (length r) (fv r) (grid (100 * length r) i)) level /\
  forall k, (k < length r)%nat ->
    resp_re (length r) (fv h) (grid (length r) k) * resp_re (length r) (fv h) (grid (length r) k) +
    resp_im (length r) (fv h) (grid (length r) k) * resp_im (length r) (fv h) (grid (length r) k) = level (100 * k)%nat.
Proof.
  intros E. destruct (spectral_cepstrum r h E) as (_ & lev & Hl & c & H1 & H2). exists lev. split; [exact Hl|].
  intros k Hk. destruct (H2 k Hk) as (-> & ->). rewrite <- H1 by lia. rewrite (Nat.mul_comm 100 k), grid_fine by lia. unfold exp_re, exp_im.
  set (a := resp_re _ c _). set (b := resp_im _ c _). replace (2 * a) with (a + a) by ring. rewrite exp_plus. pose proof (sin2_cos2 b) as S. unfold Rsqr in S.
  transitivity (exp a * exp a * (sin b * sin b + cos b * cos b)); [ring|rewrite S; ring].
Qed.

Lemma spectral_power (r h : vec RA) : spectral_fact RW r = Ok h -> positive_samples r ->
  forall k, (k < length r)%nat ->
  resp_re (length r) (fv h) (grid (length r) k) * resp_re (length r) (fv h) (grid (length r) k) +
  resp_im (length r) (fv h) (grid (length r) k) * resp_im (length r) (fv h) (grid (length r) k) =
  power_spectrum (length r) (fv r) (grid (length r) k).
Proof.
  intros E Hp k Hk. destruct (spectral_level r h E) as (lev & Hl & H). rewrite H by exact Hk.
  destruct Hl as [Hl|(_ & (i & Hi & N) & _)].
  - destruct (Hl (100 * k)%nat ltac:(lia)) as (_ & ->). rewrite (Nat.mul_comm 100 k), grid_fine by lia. reflexivity.
  - specialize (Hp i Hi). cbv beta in N. change (num RA) with R in *. lra.
Qed.

(** ** Spectra that agree at [n] frequencies *)
Lemma zero_spectrum n (d : nat -> R) : (0 < n)%nat -> (forall k, (k < n)%nat -> power_spectrum n d (grid n k) = 0) ->
  d O = 0 /\ forall l, (0 < l < n)%nat -> d l + d (n - l)%nat = 0.
Proof.
  intros Hn H. assert (Nn : INR n <> 0) by (apply not_0_INR; lia).
  assert (E0 : d O = 0).
  { assert (S0 : sumn n (fun k => power_spectrum n d (grid n k)) = 0) by (apply sumn_0; exact H).
    unfold power_spectrum in S0. rewrite sumn_plus, sumn_const, sumn_scal, sumn_swap in S0.
    rewrite (sumn_0 (n - 1)) in S0; [apply (Rmult_eq_reg_l (INR n)); [lra|exact Nn]|].
    intros j Hj. rewrite sumn_scal. rewrite (sumn_ext n _ (fun k => cos (ang n k (S j)))) by (intros k _; rewrite ang_grid by exact Hn; reflexivity).
    rewrite sum_cos by lia. ring. }
  split; [exact E0|]. intros l Hl.
  assert (S0 : sumn n (fun k => power_spectrum n d (grid n k) * cos (ang n k l)) = 0) by (apply sumn_0; intros k Hk; rewrite H by exact Hk; ring).
  rewrite (sumn_ext n _ (fun k => sumn (n - 1) (fun j => d (S j) * cos (ang n k (S j) - ang n k l) + d (S j) * cos (ang n k (S j) - ang n k (n - l))))) in S0.
  - rewrite sumn_swap in S0. rewrite (sumn_ext (n - 1) _ (fun j => INR n * ((if Nat.eqb j (l - 1) then 1 else 0) * d (S j)) + INR n * ((if Nat.eqb j (n - l - 1) then 1 else 0) * d (S j)))) in S0.
    + rewrite sumn_plus, !sumn_scal in S0. rewrite !(sumn_delta_l (n - 1) _ (fun j => d (S j))) in S0 by lia.
      replace (S (l - 1)) with l in S0 by lia. replace (S (n - l - 1)) with (n - l)%nat in S0 by lia.
      apply (Rmult_eq_reg_l (INR n)); [lra|exact Nn].
    + intros j Hj. rewrite sumn_plus, !sumn_scal. rewrite !orth_cos by lia. unfold delta.
      replace (Nat.eqb l (S j)) with (Nat.eqb j (l - 1)) by (destruct (Nat.eqb_spec j (l - 1)), (Nat.eqb_spec l (S j)); lia || reflexivity).
      replace (Nat.eqb (n - l) (S j)) with (Nat.eqb j (n - l - 1)) by (destruct (Nat.eqb_spec j (n - l - 1)), (Nat.eqb_spec (n - l) (S j)); lia || reflexivity).
      ring.
  - intros k Hk. unfold power_spectrum. rewrite E0, Rplus_0_l, Rmult_assoc, <- sumn_scal_r, <- sumn_scal. apply sumn_ext. intros j _.
    rewrite ang_grid by exact Hn. rewrite (ang_comm n k (n - l)), ang_refl by lia. rewrite (ang_comm n l k).
    replace (ang n k (S j) - (2 * INR k * PI - ang n k l)) with (ang n k (S j) + ang n k l - 2 * INR k * PI) by ring.
    rewrite (cos_minus (ang n k (S j) + ang n k l)), cos_2kPI, sin_2kPI, cos_minus, cos_plus. ring.
Qed.

Lemma power_minus n (q r : nat -> R) w : power_spectrum n (fun i => q i - r i) w = power_spectrum n q w - power_spectrum n r w.
Proof. unfold power_spectrum. rewrite (sumn_ext _ _ (fun k => q (S k) * cos (INR (S k) * w) - r (S k) * cos (INR (S k) * w))) by (intros; ring). rewrite sumn_minus. ring. Qed.

Lemma spectral_circular (r h : vec RA) : spectral_fact RW r = Ok h -> positive_samples r ->
  autocorr (length r) (fv h) 0 = fv r 0 /\
  forall l, (0 < l < length r)%nat ->
  autocorr (length r) (fv h) l + autocorr (length r) (fv h) (length r - l) = fv r l + fv r (length r - l).
Proof.
  intros E Hp. assert (Hn : (0 < length r)%nat) by (destruct r; [discriminate|cbn; lia]).
  destruct (zero_spectrum (length r) (fun i => autocorr (length r) (fv h) i - fv r i) Hn) as (Z0 & Z1).
  - intros k Hk. rewrite power_minus, (power_identity (length r) (fv h)) by (reflexivity || lia). rewrite (spectral_power r h E Hp k Hk). ring.
  - cbv beta in Z0, Z1. split; [lra|]. intros l Hl. specialize (Z1 l Hl). lra.
Qed.

Lemma list_ext_R (l k : vec RA) : length l = length k -> (forall i, (i < length k)%nat -> fv l i = fv k i) -> l = k.
Proof. intros L H. apply (nth_ext l k (0 : num RA) (0 : num RA) L). intros i Hi. apply H. rewrite <- L. exact Hi. Qed.

Lemma spectral_short (r h : vec RA) : spectral_fact RW r = Ok h -> positive_samples r -> (length r <= 2)%nat ->
  inverse_spectral_fact h = Ok r.
Proof.
  intros E Hp L2. assert (Hn : (0 < length r)%nat) by (destruct r; [discriminate|cbn; lia]).
  destruct (spectral_cepstrum r h E) as (Lh & _). destruct (spectral_circular r h E Hp) as (C0 & C1).
  assert (Hh : h <> []) by (intros ->; rewrite <- Lh in Hn; cbn in Hn; lia).
  destruct (inverse_ok h Hh) as (q & Eq & Lq & Hq). rewrite Eq. f_equal. apply list_ext_R; [rewrite Lq; exact Lh|].
  intros i Hi. rewrite Hq by (rewrite Lh; exact Hi). rewrite Lh. destruct i as [|i]; [exact C0|]. assert (i = 0%nat) by lia. subst i.
  specialize (C1 1%nat ltac:(lia)). replace (length r - 1)%nat with 1%nat in C1 by lia. lra.
Qed.

(** ** The column form *)
Lemma singleton_fft (x : R) : fft RW (map (creal (A:=RA)) [x]) = [(x, 0)].
Proof.
  apply (nth_ext _ _ (0,0) (0,0)); [rewrite fft_length; reflexivity|]. intros i Hi. rewrite fft_length in Hi. cbn in Hi. assert (i = 0%nat) by lia. subst i.
  rewrite fft_entry by (cbn; lia). cbn [map length sumn nth fst snd creal]. rewrite ang_0, Ropp_0, sin_0, cos_0. change (azero (a:=RA)) with 0. f_equal; ring.
Qed.
Lemma singleton_ifft (y : R) : map fst (ifft RW (map (cmul (A:=RA) cj) [(y, 0)])) = [0].
Proof.
  apply (nth_ext _ _ 0 0); [rewrite map_length, ifft_length; reflexivity|]. intros i Hi. rewrite map_length, ifft_length in Hi. cbn in Hi. assert (i = 0%nat) by lia. subst i.
  rewrite (nth_map_gen fst _ _ (0, 0)) by (rewrite ifft_length; cbn; lia). rewrite ifft_entry by (cbn; lia). cbn [map length sumn nth fst snd]. rewrite ang_0, sin_0, cos_0.
  unfold cmul, cj. cbn. lra.
Qed.
Lemma padded_ifft n (x y : R) t : (t < n)%nat -> length (ifft RW ([(x, y)] ++ repeat (czero (A:=RA)) (n - 1))) = n /\
  fst (nth t (ifft RW ([(x, y)] ++ repeat (czero (A:=RA)) (n - 1))) czero) = x / INR n.
Proof.
  intros Ht. set (l := [(x, y)] ++ repeat (czero (A:=RA)) (n - 1)).
  assert (L : @length (cplx (A:=RA)) l = n) by (unfold l; rewrite app_length, repeat_length; cbn; lia).
  split; [rewrite ifft_length; exact L|]. rewrite ifft_entry by (rewrite L; exact Ht). cbn [fst]. rewrite L.
  replace n with (S (n - 1)) at 2 by lia. rewrite sumn_S_l. rewrite sumn_0.
  - unfold l. cbn [app nth fst snd]. rewrite ang_0, sin_0, cos_0. change (1 / INR n * (x * 1 - y * 0 + 0) = x / INR n). field. apply not_0_INR. lia.
  - intros i Hi. unfold l. cbn [app nth]. rewrite nth_repeat. cbn. ring.
Qed.

Lemma pick_map2 {T U V} (F : T -> U -> V) n (va : list T) (vp : list U) k dt du dv : (k < n)%nat ->
  nth k (map2 F (map (fun i => nth (i * 100) va dt) (seq 0 n)) (map (fun i => nth (i * 100) vp du) (seq 0 n))) dv = F (nth (k * 100) va dt) (nth (k * 100) vp du).
Proof.
  intros Hk. rewrite (nth_map2 F _ _ k dt du) by (rewrite ?map_length, ?seq_length; auto).
  rewrite !(nth_map_gen _ _ _ O) by (rewrite seq_length; exact Hk). rewrite seq_nth by exact Hk. reflexivity.
Qed.

Lemma column_outcome (r : vec RA) : r <> [] ->
  (exists H, spectral_fact_column RW r = Ok H /\ mat_wf (length r) H /\
    exists level, levelled (100 * length r) (fun i => power_spectrum (length r) (fv r) (grid (100 * length r) i)) level /\
    forall k t, (k < length r)%nat -> (t < length r)%nat -> fm H k t = sqrt (level (100 * k)%nat) / INR (length r)) \/
  (spectral_fact_column RW r = Err RuntimeError /\ spectral_fact RW r = Err RuntimeError).
Proof.
  intros Hr. assert (Hn : (0 < length r)%nat) by (destruct r; [congruence|cbn; lia]).
  set (body := fun R : vec RA => let n := length r in let m := (100 * n)%nat in
      let alpha := map (fun x => [x]) (half_log RW R) in
      let tmp := flip (map cneg) [czero] (m / 2) (map (fun row => fft RW (map creal row)) alpha) in
      let phi := map (fun row => map fst (ifft RW (map (cmul cj) row))) tmp in
      let pick := fun (v : mat RA) => map (fun i => nth (i * mult_factor) v []) (seq 0 n) in
      let padded := fun row => row ++ repeat czero (n - length row) in
      map2 (fun a p => map fst (ifft RW (padded (map2 (cexp RW) a p)))) (pick alpha) (pick phi)).
  assert (Eq : spectral_fact_column RW r = let* R := clamped (responses RW (100 * length r) r) in Ok (body R)) by (destruct r; [congruence|reflexivity]).
  destruct (spectral_outcome r Hr) as [(h & Eh & _)|(Eh & _)].
  2:{ right. split; [|exact Eh]. rewrite Eq. assert (Eq' : spectral_fact RW r = let* R := clamped (responses RW (100 * length r) r) in
    Ok (impulse RW (resample (length r) (half_log RW R)) (resample (length r) (hilbert RW (half_log RW R))))) by (destruct r; [congruence|reflexivity]).
    rewrite Eq' in Eh. destruct (clamped _) as [L|e]; [discriminate|]. cbn [bind] in *. injection Eh as ->. reflexivity. }
  left. assert (Eq' : spectral_fact RW r = let* R := clamped (responses RW (100 * length r) r) in
    Ok (impulse RW (resample (length r) (half_log RW R)) (resample (length r) (hilbert RW (half_log RW R))))) by (destruct r; [congruence|reflexivity]).
  rewrite Eq' in Eh. clear Eq'. set (n := length r) in *. set (m := (100 * n)%nat) in *. assert (Hm : (0 < m)%nat) by (unfold m; lia).
  assert (Lm : length (responses RW m r) = m) by apply responses_length.
  assert (Ne : responses RW m r <> []) by (intros E; rewrite E in Lm; cbn in Lm; lia).
  destruct (clamped_ok _ Ne) as [(L & E & LL & Hlev)|(E & _)]; [|rewrite E in Eh; discriminate].
  rewrite Eq, E. cbn [bind]. exists (body L). split; [reflexivity|]. rewrite Lm in LL, Hlev. change (@length (num RA) L = m) in LL.
  set (al := half_log RW L). assert (La : length al = m) by (unfold al, half_log; rewrite map_length; exact LL).
  assert (Ea : forall i, (i < m)%nat -> fv al i = 1 / 2 * ln (fv L i)).
  { intros i Hi. apply half_log_entry; [rewrite LL; exact Hi|apply (levelled_pos m _ _ i Hlev Hi)]. }
  set (alpha := map (fun x : num RA => [x]) al). assert (Lal : length alpha = m) by (unfold alpha; rewrite map_length; exact La).
  assert (Eal : forall i, (i < m)%nat -> nth i alpha [] = [fv al i]).
  { intros i Hi. unfold alpha. rewrite (nth_map_gen _ _ _ (0 : num RA)) by (rewrite La; exact Hi). reflexivity. }
  set (X := map (fun row => fft RW (map creal row)) alpha). assert (LX : length X = m) by (unfold X; rewrite map_length; exact Lal).
  assert (EX : forall i, (i < m)%nat -> nth i X [] = [(fv al i, 0)]).
  { intros i Hi. unfold X. rewrite (nth_map_gen _ _ _ []) by lia. rewrite Eal by exact Hi. apply singleton_fft. }
  set (tmp := flip (map cneg) [czero] (m / 2) X). assert (Ltmp : length tmp = m) by (unfold tmp; rewrite flip_length; exact LX).
  assert (Hhalf : (0 < m / 2 < m)%nat) by (unfold m; replace (100 * n)%nat with (50 * n * 2)%nat by lia; rewrite Nat.div_mul by lia; lia).
  assert (Etmp : forall i, (i < m)%nat -> exists y, nth i tmp [] = [(y, 0)]).
  { intros i Hi. unfold tmp. rewrite flip_nth by lia. rewrite EX by exact Hi. destruct (_ || _)%bool; [exists 0; reflexivity|].
    destruct (Nat.ltb i (m / 2)); [eexists; reflexivity|]. exists (- fv al i). cbn. unfold cneg. cbn. rewrite Ropp_0. reflexivity. }
  set (phi := map (fun row => map fst (ifft RW (map (cmul cj) row))) tmp).
  assert (Lphi : length phi = m) by (unfold phi; rewrite map_length; exact Ltmp).
  assert (Ephi : forall i, (i < m)%nat -> nth i phi [] = [0]).
  { intros i Hi. unfold phi. rewrite (nth_map_gen _ _ _ []) by lia. destruct (Etmp i Hi) as (y & ->). apply singleton_ifft. }
  set (pick := fun v : mat RA => map (fun i => nth (i * mult_factor) v []) (seq 0 n)).
  assert (Lpick : forall v, length (pick v) = n) by (intros v; unfold pick; rewrite map_length, seq_length; reflexivity).
  assert (Epick : forall v k, (k < n)%nat -> nth k (pick v) [] = nth (k * 100) v []).
  { intros v k Hk. unfold pick. rewrite (nth_map_gen _ _ _ O) by (rewrite seq_length; exact Hk). rewrite seq_nth by exact Hk. reflexivity. }
  assert (Erow : forall k, (k < n)%nat -> nth k (body L) [] = map fst (ifft RW ([cexp (A:=RA) RW (fv al (k * 100)) 0] ++ repeat czero (n - 1)))).
  { intros k Hk.
    set (F := fun a p : list (num RA) => map fst (ifft RW ((fun row => row ++ repeat czero (n - length row)) (map2 (cexp RW) a p)))).
    exact (eq_trans (pick_map2 F n alpha phi k [] [] [] Hk) (f_equal2 F (Eal (k * 100)%nat ltac:(unfold m; lia)) (Ephi (k * 100)%nat ltac:(unfold m; lia)))). }
  assert (Lbody : length (body L) = n).
  { unfold body. fold n. fold m. fold al. fold alpha. fold X. fold tmp. fold phi. fold pick. etransitivity; [apply map2_length; etransitivity; [apply Lpick|symmetry; apply Lpick]|apply Lpick]. }
  split.
  - split; [exact Lbody|]. intros k Hk. change (num RA) with R in *. etransitivity; [apply f_equal, (Erow k Hk)|].
    rewrite map_length. apply (padded_ifft n _ _ 0). lia.
  - exists (fv L). split.
    + destruct Hlev as [Hl|(Hl1 & (i & Hi & Hl2) & Hl3)]; [left|right].
      * intros i Hi. destruct (Hl i Hi) as (A & B). rewrite responses_entry in A, B by assumption. split; assumption.
      * split; [intros j Hj; specialize (Hl1 j Hj); rewrite responses_entry in Hl1 by assumption; exact Hl1|].
        split; [exists i; rewrite responses_entry in Hl2 by assumption; split; assumption|].
        intros j Hj. specialize (Hl3 j Hj). rewrite responses_entry in Hl3 by assumption. exact Hl3.
    + intros k t Hk Ht. assert (Pk : 0 < fv L (k * 100)) by (apply (levelled_pos m _ _ _ Hlev); unfold m; lia).
      unfold fm. etransitivity; [apply (f_equal (fun l => nth t l 0)), (Erow k Hk)|].
      destruct (padded_ifft n (exp (fv al (k * 100)) * cos 0) (exp (fv al (k * 100)) * sin 0) t Ht) as (L1 & E1).
      etransitivity; [apply (nth_map_gen fst _ _ (czero (A:=RA)) (0 : num RA))|etransitivity; [exact E1|]].
      * refine (eq_ind_r (fun q => (t < q)%nat) Ht _). exact L1.
      * rewrite cos_0, Rmult_1_r. rewrite Ea by (unfold m; lia). rewrite (Nat.mul_comm 100 k). f_equal.
        rewrite <- (Rpower_sqrt _ Pk). unfold Rpower. f_equal. lra.
Qed.

(** ** A cosine polynomial of degree [hf] is determined by its values at [2 hf] frequencies *)
Lemma cos_sum_add m k l : (0 < m)%nat -> (k < m)%nat -> (0 < l < m)%nat ->
  sumn m (fun i => cos (ang m i k + ang m i l)) = INR m * delta (m - l) k.
Proof.
  intros Hm Hk Hl. rewrite <- orth_cos by lia. apply sumn_ext. intros i _. rewrite (ang_comm m i (m - l)), ang_refl by lia. rewrite (ang_comm m l i).
  replace (ang m i k - (2 * INR i * PI - ang m i l)) with (ang m i k + ang m i l - 2 * INR i * PI) by ring.
  rewrite (cos_minus (ang m i k + ang m i l)), cos_2kPI, sin_2kPI. ring.
Qed.
Lemma cos_poly_zero hf (d : nat -> R) : (1 <= hf)%nat ->
  (forall i, (i < 2 * hf)%nat -> resp_re (hf + 1) d (grid (2 * hf) i) = 0) -> forall l, (l <= hf)%nat -> d l = 0.
Proof.
  intros H1 H l Hl. set (m := (2 * hf)%nat) in *. assert (Hm : (0 < m)%nat) by (unfold m; lia). assert (Nm : 0 < INR m) by (apply lt_0_INR, Hm).
  assert (S0 : sumn m (fun i => 2 * resp_re (hf + 1) d (grid m i) * cos (ang m i l)) = 0) by (apply sumn_0; intros i Hi; rewrite H by exact Hi; ring).
  rewrite (sumn_ext m _ (fun i => sumn (hf + 1) (fun k => d k * cos (ang m i k - ang m i l) + d k * cos (ang m i k + ang m i l)))) in S0.
  2:{ intros i _. unfold resp_re. rewrite <- sumn_scal, <- sumn_scal_r. apply sumn_ext. intros k _. rewrite ang_grid by exact Hm. rewrite cos_minus, cos_plus. ring. }
  rewrite sumn_swap in S0. destruct (Nat.eq_dec l 0) as [->|N].
  - rewrite (sumn_ext (hf + 1) _ (fun k => 2 * INR m * d k * (if Nat.eqb k 0 then 1 else 0))) in S0.
    + rewrite sumn_delta_r in S0 by lia. nra.
    + intros k Hk. rewrite sumn_plus, !sumn_scal. rewrite orth_cos by (unfold m; lia).
      rewrite (sumn_ext m (fun i => cos (ang m i k + ang m i 0)) (fun i => cos (ang m i k - ang m i 0))) by (intros i _; rewrite (ang_comm m i 0), ang_0; f_equal; ring).
      rewrite orth_cos by (unfold m; lia). unfold delta. rewrite Nat.eqb_sym. ring.
  - rewrite (sumn_ext (hf + 1) _ (fun k => (INR m * (1 + (if Nat.eqb l hf then 1 else 0)) * d k) * (if Nat.eqb k l then 1 else 0))) in S0.
    + rewrite sumn_delta_r in S0 by lia. destruct (Nat.eqb l hf); nra.
    + intros k Hk. rewrite sumn_plus, !sumn_scal. rewrite orth_cos by (unfold m; lia). rewrite cos_sum_add by (unfold m; lia). unfold delta. rewrite (Nat.eqb_sym l k).
      destruct (Nat.eqb_spec k l) as [->|N2].
      * destruct (Nat.eqb_spec l hf) as [E|N3]; destruct (Nat.eqb_spec (m - l) l); try (unfold m in *; lia); ring.
      * destruct (Nat.eqb_spec (m - l) k); [unfold m in *; lia|]. ring.
Qed.
Lemma cepstrum_unique n (c c' : nat -> R) : (0 < n)%nat ->
  (forall i, (i < 100 * n)%nat ->
     exp (2 * resp_re (50 * n + 1) c (grid (100 * n) i)) = exp (2 * resp_re (50 * n + 1) c' (grid (100 * n) i))) ->
  forall k, (k < 50 * n + 1)%nat -> c k = c' k.
Proof.
  intros Hn H k Hk. assert (E : c k - c' k = 0); [|lra]. apply (cos_poly_zero (50 * n) (fun k => c k - c' k)); [lia| |lia].
  intros i Hi. replace (2 * (50 * n))%nat with (100 * n)%nat in * by lia. specialize (H i Hi). apply exp_inv in H.
  unfold resp_re in *. rewrite (sumn_ext _ _ (fun j => c j * cos (INR j * grid (100 * n) i) - c' j * cos (INR j * grid (100 * n) i))) by (intros; ring).
  rewrite sumn_minus. lra.
Qed.
