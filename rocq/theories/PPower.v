(** The power iterations compute the normalised powers of the matrix. *)
From Coq Require Import Reals List Arith ZArith Lia Lra Bool.
From Verif Require Import Arith Vec ModelPower Spec SpecCG SpecPower PCalc PSum PVec PCG PCG2.
Import ListNotations.
Local Open Scope R_scope.

Lemma norm1_ext n u v : (forall i, (i < n)%nat -> u i = v i) -> norm1 n u = norm1 n v.
Proof. intros E. apply sumn_ext. intros i Hi. rewrite E by exact Hi. reflexivity. Qed.
Lemma norm1_ge_0 n v : 0 <= norm1 n v.
Proof. apply sumn_ge_0. intros; apply Rabs_pos. Qed.
Lemma norm1_scal n c v : norm1 n (fun i => c * v i) = Rabs c * norm1 n v.
Proof. unfold norm1. rewrite <- sumn_scal. apply sumn_ext. intros. apply Rabs_mult. Qed.
Lemma norm_scal n c v : norm n (fun i => c * v i) = Rabs c * norm n v.
Proof.
  unfold norm. rewrite dot_scal_l, dot_scal_r, <- Rmult_assoc, sqrt_mult_alt by nra.
  f_equal. apply sqrt_Rsqr_abs.
Qed.
Lemma norm1_pos n v : nonzero n v -> 0 < norm1 n v.
Proof.
  intros (i & Hi & Nz). assert (Rabs (v i) <= norm1 n v).
  { apply (proj2 (sumn_term_le n (fun i => Rabs (v i)) (fun k _ => Rabs_pos _)) i Hi). }
  pose proof (Rabs_pos_lt _ Nz). lra.
Qed.
Lemma norm_pos n v : nonzero n v -> 0 < norm n v.
Proof. intros N. apply sqrt_lt_R0, dot_self_pos, N. Qed.
Lemma norm1_zero n v : (forall i, (i < n)%nat -> v i = 0) -> norm1 n v = 0.
Proof. intros Z. apply sumn_0. intros i Hi. rewrite Z by exact Hi. apply Rabs_R0. Qed.
Lemma norm_zero n v : (forall i, (i < n)%nat -> v i = 0) -> norm n v = 0.
Proof. intros Z. unfold norm, dot. rewrite sumn_0; [apply sqrt_0|]. intros i Hi. rewrite Z by exact Hi. ring. Qed.
Lemma nonzero_not_zero n v : nonzero n v -> ~ forall i, (i < n)%nat -> v i = 0.
Proof. intros (i & Hi & N) Z. apply N, Z, Hi. Qed.
Lemma not_nonzero n v : ~ nonzero n v -> forall i, (i < n)%nat -> v i = 0.
Proof. intros N. destruct (zero_or_nonzero n v) as [Z|Nz]; [exact Z|contradiction]. Qed.

Lemma dot_norm n v : dot n v v = norm n v * norm n v.
Proof. unfold norm. symmetry. apply sqrt_sqrt, dot_self_ge_0. Qed.

Lemma aabs_R (x : R) : aabs (A:=RA) x = Rabs x.
Proof.
  unfold aabs. destruct (altb_R x 0) as [L|L]; change (aneg (a:=RA) x) with (- x).
  - change (azero (a:=RA)) with 0. destruct (altb_R x 0); [|contradiction]. symmetry. apply Rabs_left; exact L.
  - change (azero (a:=RA)) with 0. destruct (altb_R x 0); [contradiction|]. symmetry. apply Rabs_right. lra.
Qed.

Lemma norm_l1_R n (x : vec RA) : length x = n -> norm_l1 x = norm1 n (fv x).
Proof.
  intros L. unfold norm_l1. etransitivity; [apply vsum_R|]. unfold norm1.
  assert (L' : length (map (aabs (A:=RA)) x) = n) by (etransitivity; [apply map_length|exact L]).
  change (sumn (length (map (aabs (A:=RA)) x)) (fv (map (aabs (A:=RA)) x)) = sumn n (fun i => Rabs (fv x i))).
  rewrite L'. apply sumn_ext. intros i Hi.
  unfold fv. rewrite (nth_map_gen _ _ _ 0 0) by (change (i < length x)%nat; rewrite L; exact Hi). apply aabs_R.
Qed.
Lemma norm_l2_R n (x : vec RA) : length x = n -> norm_l2 x = norm n (fv x).
Proof.
  intros L. unfold norm_l2. change (asqrt (a:=RA)) with sqrt. unfold norm. f_equal.
  etransitivity; [apply vsum_R|]. set (f := fun a : num RA => amul (a:=RA) a a).
  assert (L' : length (map f x) = n) by (etransitivity; [apply map_length|exact L]).
  change (sumn (length (map f x)) (fv (map f x)) = sumn n (fun i => fv x i * fv x i)). rewrite L'. apply sumn_ext.
  intros i Hi. unfold fv. rewrite (nth_map_gen _ _ _ 0 0) by (change (i < length x)%nat; rewrite L; exact Hi). reflexivity.
Qed.
Lemma vdivs_R n (x : vec RA) (s : R) : length x = n -> s <> 0 ->
  exists y, vdivs (A:=RA) x s = Ok y /\ agree n y (fun i => fv x i / s).
Proof.
  intros L N. unfold vdivs. change (azero (a:=RA)) with 0. destruct (aeqb_R s 0) as [E|_]; [contradiction|].
  eexists. split; [reflexivity|]. split; [rewrite map_length; exact L|].
  intros i Hi. unfold fv. rewrite (nth_map_gen _ _ _ 0 0) by (change (i < length x)%nat; rewrite L; exact Hi). reflexivity.
Qed.
Lemma vdivs_zero (x : vec RA) : vdivs (A:=RA) x 0 = Err ZeroDivision.
Proof. unfold vdivs. change (azero (a:=RA)) with 0. destruct (aeqb_R 0 0); [reflexivity|contradiction]. Qed.
Lemma sdivs_R (a s : R) : s <> 0 -> sdivs (A:=RA) a s = Ok (a / s).
Proof. intros N. unfold sdivs. change (azero (a:=RA)) with 0. destruct (aeqb_R s 0); [contradiction|reflexivity]. Qed.
Lemma sdivs_zero (a : R) : sdivs (A:=RA) a 0 = Err ZeroDivision.
Proof. unfold sdivs. change (azero (a:=RA)) with 0. destruct (aeqb_R 0 0); [reflexivity|contradiction]. Qed.

(** [l] points in the direction of [f] *)
Definition along (n : nat) (l : vec RA) (f : nat -> R) : Prop := exists c, 0 < c /\ agree n l (fun i => c * f i).

Lemma along_agree n l f : agree n l f -> along n l f.
Proof. intros (L & E). exists 1. split; [lra|]. split; [exact L|]. intros i Hi. rewrite E by exact Hi. ring. Qed.

Lemma norm_agree n l f : agree n l f -> norm n (fv l) = norm n f.
Proof. intros (_ & E). apply norm_ext, E. Qed.
Lemma norm1_agree n l f : agree n l f -> norm1 n (fv l) = norm1 n f.
Proof. intros (_ & E). apply norm1_ext, E. Qed.

Lemma norm2_step n l f : along n l f -> nonzero n f ->
  exists y, vdivs l (norm_l2 l) = Ok y /\ agree n y (unit2 n f).
Proof.
  intros (c & C & Ag) N. destruct Ag as (L & E). rewrite (norm_l2_R n) by exact L.
  rewrite (norm_ext n _ _ E), norm_scal, Rabs_right by lra. pose proof (norm_pos _ _ N) as P.
  destruct (vdivs_R n l (c * norm n f) L) as (y & Ey & (Ly & Fy)); [nra|].
  exists y. split; [exact Ey|]. split; [exact Ly|]. intros i Hi. rewrite Fy, E by exact Hi. unfold unit2. field. lra.
Qed.
Lemma norm1_step n l f : along n l f -> nonzero n f ->
  exists y, vdivs l (norm_l1 l) = Ok y /\ agree n y (unit1 n f).
Proof.
  intros (c & C & Ag) N. destruct Ag as (L & E). rewrite (norm_l1_R n) by exact L.
  rewrite (norm1_ext n _ _ E), norm1_scal, Rabs_right by lra. pose proof (norm1_pos _ _ N) as P.
  destruct (vdivs_R n l (c * norm1 n f) L) as (y & Ey & (Ly & Fy)); [nra|].
  exists y. split; [exact Ey|]. split; [exact Ly|]. intros i Hi. rewrite Fy, E by exact Hi. unfold unit1. field. lra.
Qed.
Lemma along_zero n l f : along n l f -> ~ nonzero n f -> forall i, (i < n)%nat -> fv l i = 0.
Proof. intros (c & C & L & E) N i Hi. rewrite E by exact Hi. rewrite (not_nonzero n f N i Hi). ring. Qed.
Lemma norm2_stuck n l f : along n l f -> ~ nonzero n f -> vdivs l (norm_l2 l) = Err ZeroDivision.
Proof.
  intros Al N. pose proof (along_zero _ _ _ Al N) as Z. destruct Al as (c & C & L & E).
  rewrite (norm_l2_R n) by exact L. rewrite norm_zero by exact Z. apply vdivs_zero.
Qed.
Lemma norm1_stuck n l f : along n l f -> ~ nonzero n f -> vdivs l (norm_l1 l) = Err ZeroDivision.
Proof.
  intros Al N. pose proof (along_zero _ _ _ Al N) as Z. destruct Al as (c & C & L & E).
  rewrite (norm_l1_R n) by exact L. rewrite norm1_zero by exact Z. apply vdivs_zero.
Qed.

Lemma along_mv n (M : mat RA) l f : mat_wf n M -> along n l f -> along n (mvmul M l) (mv n (fm M) f).
Proof.
  intros W (c & C & Ag). exists c. split; [exact C|]. destruct (agree_mv n M W l _ Ag) as (L & E).
  split; [exact L|]. intros i Hi. rewrite E by exact Hi. apply mv_scal.
Qed.
Lemma along_unit2 n l f : nonzero n f -> agree n l (unit2 n f) -> along n l f.
Proof.
  intros N (L & E). exists (/ norm n f). split; [apply Rinv_0_lt_compat, norm_pos, N|].
  split; [exact L|]. intros i Hi. rewrite E by exact Hi. unfold unit2. field. pose proof (norm_pos _ _ N). lra.
Qed.
Lemma along_unit1 n l f : nonzero n f -> agree n l (unit1 n f) -> along n l f.
Proof.
  intros N (L & E). exists (/ norm1 n f). split; [apply Rinv_0_lt_compat, norm1_pos, N|].
  split; [exact L|]. intros i Hi. rewrite E by exact Hi. unfold unit1. field. pose proof (norm1_pos _ _ N). lra.
Qed.

Lemma quad_scal n M c v : quad n M (fun i => c * v i) = c * c * quad n M v.
Proof. unfold quad. rewrite bil_scal_l, bil_scal_r. ring. Qed.
Lemma rayleigh_scal n M c v : c <> 0 -> nonzero n v -> rayleigh n M (fun i => c * v i) = rayleigh n M v.
Proof.
  intros C N. unfold rayleigh. rewrite quad_scal, dot_scal_l, dot_scal_r. pose proof (dot_self_pos _ _ N). field. lra.
Qed.
Lemma unit2_quad n M v : nonzero n v -> quad n M (unit2 n v) = rayleigh n M v.
Proof.
  intros N. pose proof (norm_pos _ _ N) as P. unfold rayleigh. rewrite dot_norm.
  assert (E : quad n M (unit2 n v) = quad n M (fun i => / norm n v * v i)).
  { apply bil_ext; intros; try reflexivity; unfold unit2; field; lra. }
  rewrite E, quad_scal. field. lra.
Qed.
Lemma unit2_dot n v : nonzero n v -> dot n (unit2 n v) (unit2 n v) = 1.
Proof.
  intros N. pose proof (norm_pos _ _ N) as P.
  assert (E : dot n (unit2 n v) (unit2 n v) = dot n (fun i => / norm n v * v i) (fun i => / norm n v * v i)).
  { apply dot_ext; intros; unfold unit2; field; lra. }
  rewrite E, dot_scal_l, dot_scal_r, dot_norm. field. lra.
Qed.

Lemma vdot_quad n (M : mat RA) l f : mat_wf n M -> agree n l f -> vdot l (mvmul M l) = quad n (fm M) f.
Proof.
  intros W Ag. pose proof (agree_mv n M W l f Ag) as (L' & E'). destruct Ag as (L & E).
  rewrite (vdot_R n) by assumption. apply dot_ext; assumption.
Qed.

Lemma close_dec n tol u v l k : agree n l u -> agree n k v ->
  (aleb (norm_l1 (vsub l k)) tol || aleb (norm_l1 (vadd l k)) tol = true <-> close_up_to_sign n tol u v).
Proof.
  intros (L & E) (L' & E'). assert (LL : length l = length k) by congruence.
  rewrite (norm_l1_R n (vsub l k)) by (etransitivity; [apply vsub_length; exact LL|exact L]).
  rewrite (norm_l1_R n (vadd l k)) by (etransitivity; [apply vadd_length; exact LL|exact L]).
  rewrite (norm1_ext n (fv (vsub l k)) (fun i => u i - v i)).
  2:{ intros i Hi. assert (Hl : (i < length l)%nat) by (rewrite L; exact Hi). rewrite vsub_R by assumption. rewrite E, E' by exact Hi. reflexivity. }
  rewrite (norm1_ext n (fv (vadd l k)) (fun i => u i + v i)).
  2:{ intros i Hi. assert (Hl : (i < length l)%nat) by (rewrite L; exact Hi). rewrite vadd_R by assumption. rewrite E, E' by exact Hi. reflexivity. }
  unfold close_up_to_sign. rewrite orb_true_iff.
  destruct (aleb_R (norm1 n (fun i => u i - v i)) tol); destruct (aleb_R (norm1 n (fun i => u i + v i)) tol); intuition congruence.
Qed.

Section Runs.
Variables (n : nat) (M : mat RA) (x0 : vec RA) (tol : R) (maxit : Z).
Hypothesis MW : mat_wf n M.
Let P k := pw n (fm M) (fv x0) k.

Definition good (stop : nat -> Prop) (r : res (pow_result (A:=RA))) : Prop :=
  match r with
  | Ok r => exists m, pow_run stop maxit m (p_niter r) /\ (forall j, (j <= m)%nat -> nonzero n (P j)) /\
      agree n (p_vec r) (unit2 n (P m)) /\ p_ld r = rayleigh n (fm M) (P m)
  | Err e => e = ZeroDivision /\ exists j, (j <= Z.to_nat maxit)%nat /\ ~ nonzero n (P j) /\
      (forall i, (i < j)%nat -> nonzero n (P i)) /\ forall i, (S i < j)%nat -> ~ stop i
  end.

Lemma not_true b : b <> true -> b = false. Proof. destruct b; congruence. Qed.

Lemma pow1_run : forall fuel k arg x, (k + fuel = Z.to_nat maxit)%nat ->
  agree n x (unit2 n (P k)) -> (forall j, (j <= k)%nat -> nonzero n (P j)) ->
  (forall j, (j < k)%nat -> ~ stop_l2 n (fm M) (fv x0) tol j) ->
  good (stop_l2 n (fm M) (fv x0) tol) (pow1_loop fuel M tol (Z.of_nat k) maxit arg x) /\
  forall r, pow1_loop fuel M tol (Z.of_nat k) maxit arg x = Ok r -> p_arg r = arg.
Proof.
  induction fuel as [|fuel IH]; intros k arg x F Ag Nz Ns; cbn [pow1_loop].
  - split; [|intros r Er; injection Er as <-; reflexivity].
    exists k. simpl. split; [right; split; [lia|split; [reflexivity|exact Ns]]|]. split; [exact Nz|]. split; [exact Ag|].
    rewrite (vdot_quad n M _ _ MW Ag). apply unit2_quad, Nz; lia.
  - pose proof (along_mv n M _ _ MW (along_unit2 _ _ _ (Nz k (le_n k)) Ag)) as Al. change (mv n (fm M) (P k)) with (P (S k)) in Al.
    destruct (zero_or_nonzero n (P (S k))) as [Z|N].
    + assert (N : ~ nonzero n (P (S k))) by (intros N; apply (nonzero_not_zero _ _ N Z)).
      rewrite (norm2_stuck _ _ _ Al N). simpl. split; [|discriminate]. split; [reflexivity|]. exists (S k). split; [lia|]. split; [exact N|]. split; [intros; apply Nz; lia|intros; apply Ns; lia].
    + destruct (norm2_step _ _ _ Al N) as (y & -> & Ay). cbn [bind].
      pose proof (close_dec n tol _ _ _ _ Ay Ag) as CD.
      assert (Nz' : forall j, (j <= S k)%nat -> nonzero n (P j)).
      { intros j Hj. destruct (Nat.eq_dec j (S k)) as [->|]; [exact N|apply Nz; lia]. }
      destruct (aleb (norm_l1 (vsub y x)) tol || aleb (norm_l1 (vadd y x)) tol) eqn:T; cbv iota.
      * split; [|intros r Er; injection Er as <-; reflexivity].
        exists (S k). simpl. split.
        { left. exists k. split; [reflexivity|]. split; [reflexivity|]. split; [lia|]. split; [apply CD; reflexivity|exact Ns]. }
        split; [exact Nz'|]. split; [exact Ay|]. rewrite (vdot_quad n M _ _ MW Ay). apply unit2_quad, N.
      * replace (Z.of_nat k + 1)%Z with (Z.of_nat (S k)) by lia. apply IH; try assumption; [lia|].
        intros j Hj. destruct (Nat.eq_dec j k) as [->|]; [|apply Ns; lia].
        intros St. apply CD in St. congruence.
Qed.

Lemma pow4_run : forall fuel k arg x, (k + fuel = Z.to_nat maxit)%nat ->
  agree n x (unit1 n (P k)) -> (forall j, (j <= k)%nat -> nonzero n (P j)) ->
  (forall j, (j < k)%nat -> ~ stop_l1 n (fm M) (fv x0) tol j) ->
  good (stop_l1 n (fm M) (fv x0) tol) (pow4_loop fuel M tol (Z.of_nat k) maxit arg x) /\
  forall r, pow4_loop fuel M tol (Z.of_nat k) maxit arg x = Ok r ->
    p_arg r = match arg with Some a => a | None => match fuel with O => p_vec r | _ => x end end.
Proof.
  induction fuel as [|fuel IH]; intros k arg x F Ag Nz Ns; cbn [pow4_loop].
  - destruct (norm2_step _ _ _ (along_unit1 _ _ _ (Nz k (le_n k)) Ag) (Nz k (le_n k))) as (y & -> & Ay). simpl.
    split; [|intros r Er; injection Er as <-; destruct arg; reflexivity].
    exists k. simpl. split; [right; split; [lia|split; [reflexivity|exact Ns]]|]. split; [exact Nz|]. split; [exact Ay|].
    rewrite (vdot_quad n M _ _ MW Ay). apply unit2_quad, Nz; lia.
  - pose proof (along_mv n M _ _ MW (along_unit1 _ _ _ (Nz k (le_n k)) Ag)) as Al. change (mv n (fm M) (P k)) with (P (S k)) in Al.
    destruct (zero_or_nonzero n (P (S k))) as [Z|N].
    + assert (N : ~ nonzero n (P (S k))) by (intros N; apply (nonzero_not_zero _ _ N Z)).
      rewrite (norm1_stuck _ _ _ Al N). simpl. split; [|discriminate]. split; [reflexivity|]. exists (S k). split; [lia|]. split; [exact N|]. split; [intros; apply Nz; lia|intros; apply Ns; lia].
    + destruct (norm1_step _ _ _ Al N) as (y & -> & Ay). cbn [bind].
      pose proof (close_dec n tol _ _ _ _ Ay Ag) as CD.
      assert (Nz' : forall j, (j <= S k)%nat -> nonzero n (P j)).
      { intros j Hj. destruct (Nat.eq_dec j (S k)) as [->|]; [exact N|apply Nz; lia]. }
      destruct (aleb (norm_l1 (vsub y x)) tol || aleb (norm_l1 (vadd y x)) tol) eqn:T; cbv iota.
      * destruct (norm2_step _ _ _ (along_unit1 _ _ _ N Ay) N) as (z & -> & Az). simpl.
        split; [|intros r Er; injection Er as <-; destruct arg; reflexivity].
        exists (S k). simpl. split.
        { left. exists k. split; [reflexivity|]. split; [reflexivity|]. split; [lia|]. split; [apply CD; reflexivity|exact Ns]. }
        split; [exact Nz'|]. split; [exact Az|]. rewrite (vdot_quad n M _ _ MW Az). apply unit2_quad, N.
      * replace (Z.of_nat k + 1)%Z with (Z.of_nat (S k)) by lia.
        destruct (IH (S k) (Some (match arg with None => x | Some a => a end)) y) as (G & Ar); try assumption; [lia| |].
        { intros j Hj. destruct (Nat.eq_dec j k) as [->|]; [|apply Ns; lia]. intros St. apply CD in St. congruence. }
        split; [exact G|]. intros r Er. rewrite (Ar r Er). destruct arg; reflexivity.
Qed.

Lemma ray_dec k (a b : R) : a = rayleigh n (fm M) (P k) -> b = rayleigh n (fm M) (P (S k)) ->
  aleb (a:=RA) (aabs (A:=RA) (asub (a:=RA) a b)) tol = true <-> stop_ray n (fm M) (fv x0) tol k.
Proof.
  intros -> ->. rewrite aabs_R. unfold stop_ray. fold (P k). fold (P (S k)).
  change (asub (a:=RA)) with Rminus. destruct (aleb_R (Rabs (rayleigh n (fm M) (P k) - rayleigh n (fm M) (P (S k)))) tol); intuition congruence.
Qed.

Lemma pow2_run : forall fuel k x ld, (k + fuel = Z.to_nat maxit)%nat ->
  agree n x (unit2 n (P k)) -> ld = rayleigh n (fm M) (P k) -> (forall j, (j <= k)%nat -> nonzero n (P j)) ->
  (forall j, (j < k)%nat -> ~ stop_ray n (fm M) (fv x0) tol j) ->
  good (stop_ray n (fm M) (fv x0) tol) (pow2_loop fuel M tol (Z.of_nat k) maxit x (mvmul M x) ld) /\
  forall r, pow2_loop fuel M tol (Z.of_nat k) maxit x (mvmul M x) ld = Ok r -> p_arg r = p_vec r.
Proof.
  induction fuel as [|fuel IH]; intros k x ld F Ag Ld Nz Ns; cbn [pow2_loop].
  - split; [|intros r Er; injection Er as <-; reflexivity].
    exists k. simpl. split; [right; split; [lia|split; [reflexivity|exact Ns]]|]. split; [exact Nz|]. split; [exact Ag|exact Ld].
  - pose proof (along_mv n M _ _ MW (along_unit2 _ _ _ (Nz k (le_n k)) Ag)) as Al. change (mv n (fm M) (P k)) with (P (S k)) in Al.
    destruct (zero_or_nonzero n (P (S k))) as [Z|N].
    + assert (N : ~ nonzero n (P (S k))) by (intros N; apply (nonzero_not_zero _ _ N Z)).
      rewrite (norm2_stuck _ _ _ Al N). simpl. split; [|discriminate]. split; [reflexivity|]. exists (S k). split; [lia|]. split; [exact N|]. split; [intros; apply Nz; lia|intros; apply Ns; lia].
    + destruct (norm2_step _ _ _ Al N) as (y & -> & Ay). cbn [bind].
      assert (Ld' : vdot y (mvmul M y) = rayleigh n (fm M) (P (S k))).
      { rewrite (vdot_quad n M _ _ MW Ay). apply unit2_quad, N. }
      pose proof (ray_dec k _ _ Ld Ld') as CD.
      assert (Nz' : forall j, (j <= S k)%nat -> nonzero n (P j)).
      { intros j Hj. destruct (Nat.eq_dec j (S k)) as [->|]; [exact N|apply Nz; lia]. }
      destruct (aleb (a:=RA) (aabs (A:=RA) (asub (a:=RA) ld (vdot y (mvmul M y)))) tol) eqn:T; cbv iota.
      * split; [|intros r Er; injection Er as <-; reflexivity].
        exists (S k). simpl. split.
        { left. exists k. split; [reflexivity|]. split; [reflexivity|]. split; [lia|]. split; [apply CD; reflexivity|exact Ns]. }
        split; [exact Nz'|]. split; [exact Ay|exact Ld'].
      * replace (Z.of_nat k + 1)%Z with (Z.of_nat (S k)) by lia. apply IH; try assumption; [lia|].
        intros j Hj. destruct (Nat.eq_dec j k) as [->|]; [|apply Ns; lia].
        intros St. apply CD in St. congruence.
Qed.

Lemma vdot_self n' l f c : agree n' l (fun i => c * f i) -> vdot l l = c * c * dot n' f f.
Proof.
  intros (L & E). rewrite (vdot_R n') by assumption.
  rewrite (dot_ext n' _ _ (fun i => c * f i) (fun i => c * f i)) by assumption. rewrite dot_scal_l, dot_scal_r.
  symmetry. apply Rmult_assoc.
Qed.

Lemma pow3_run big : forall fuel k x ld, (k + fuel = Z.to_nat maxit)%nat ->
  along n x (P k) -> ld = rayleigh n (fm M) (P k) -> (forall j, (j <= k)%nat -> nonzero n (P j)) ->
  (forall j, (j < k)%nat -> ~ stop_ray n (fm M) (fv x0) tol j) ->
  good (stop_ray n (fm M) (fv x0) tol) (pow3_loop fuel big M tol (Z.of_nat k) maxit x (mvmul M x) ld) /\
  forall r, pow3_loop fuel big M tol (Z.of_nat k) maxit x (mvmul M x) ld = Ok r -> p_arg r = p_vec r.
Proof.
  induction fuel as [|fuel IH]; intros k x ld F Ag Ld Nz Ns; cbn [pow3_loop].
  - destruct (norm2_step _ _ _ Ag (Nz k (le_n k))) as (y & -> & Ay). simpl.
    split; [|intros r Er; injection Er as <-; reflexivity].
    exists k. simpl. split; [right; split; [lia|split; [reflexivity|exact Ns]]|]. split; [exact Nz|]. split; [exact Ay|exact Ld].
  - pose proof (along_mv n M _ _ MW Ag) as Al. change (mv n (fm M) (P k)) with (P (S k)) in Al.
    set (x' := mvmul M x) in *. destruct (zero_or_nonzero n (P (S k))) as [Z|N].
    + assert (N : ~ nonzero n (P (S k))) by (intros N; apply (nonzero_not_zero _ _ N Z)).
      assert (D0 : vdot x' x' = 0).
      { destruct Al as (c & C & Al). rewrite (vdot_self _ _ _ _ Al). unfold dot. rewrite sumn_0; [apply Rmult_0_r|].
        intros i Hi. rewrite Z by exact Hi. ring. }
      rewrite (norm2_stuck _ _ _ Al N). rewrite D0, sdivs_zero. cbn [bind].
      destruct (aleb (a:=RA) big 0); cbv iota; (split; [|discriminate]; split; [reflexivity|]; exists (S k); split; [lia|]; split; [exact N|]; split; [intros; apply Nz; lia|intros; apply Ns; lia]).
    + destruct (norm2_step _ _ _ Al N) as (y & -> & Ay). cbn [bind].
      assert (Ld' : vdot y (mvmul M y) = rayleigh n (fm M) (P (S k))).
      { rewrite (vdot_quad n M _ _ MW Ay). apply unit2_quad, N. }
      assert (Nz' : forall j, (j <= S k)%nat -> nonzero n (P j)).
      { intros j Hj. destruct (Nat.eq_dec j (S k)) as [->|]; [exact N|apply Nz; lia]. }
      destruct (aleb (a:=RA) big (vdot x' x')).
      * pose proof (ray_dec k _ _ Ld Ld') as CD.
        destruct (aleb (a:=RA) (aabs (A:=RA) (asub (a:=RA) ld (vdot y (mvmul M y)))) tol) eqn:T; cbv iota.
        -- split; [|intros r Er; injection Er as <-; reflexivity].
           exists (S k). simpl. split.
           { left. exists k. split; [reflexivity|]. split; [reflexivity|]. split; [lia|]. split; [apply CD; reflexivity|exact Ns]. }
           split; [exact Nz'|]. split; [exact Ay|exact Ld'].
        -- replace (Z.of_nat k + 1)%Z with (Z.of_nat (S k)) by lia.
           apply IH; try assumption; [lia|apply along_unit2; assumption|].
           intros j Hj. destruct (Nat.eq_dec j k) as [->|]; [|apply Ns; lia].
           intros St. apply CD in St. congruence.
      * assert (Q : sdivs (A:=RA) (vdot x' (mvmul M x')) (vdot x' x') = Ok (rayleigh n (fm M) (P (S k)))).
        { destruct Al as (c & C & Al). rewrite (vdot_self _ _ _ _ Al), (vdot_quad n M _ _ MW Al).
          pose proof (dot_self_pos _ _ N). 
          assert (0 < c * c * dot n (P (S k)) (P (S k))) by (apply Rmult_lt_0_compat; nra).
          rewrite sdivs_R by (apply Rgt_not_eq; assumption). rewrite quad_scal. unfold rayleigh.
          assert (Q : c * c * quad n (fm M) (P (S k)) / (c * c * dot n (P (S k)) (P (S k))) =
            quad n (fm M) (P (S k)) / dot n (P (S k)) (P (S k))) by (field; lra).
          rewrite Q. reflexivity. }
        rewrite Q. cbn [bind]. pose proof (ray_dec k _ _ Ld eq_refl) as CD.
        destruct (aleb (a:=RA) (aabs (A:=RA) (asub (a:=RA) ld (rayleigh n (fm M) (P (S k))))) tol) eqn:T; cbv iota.
        -- split; [|intros r Er; injection Er as <-; reflexivity].
           exists (S k). simpl. split.
           { left. exists k. split; [reflexivity|]. split; [reflexivity|]. split; [lia|]. split; [apply CD; reflexivity|exact Ns]. }
           split; [exact Nz'|]. split; [exact Ay|reflexivity].
        -- replace (Z.of_nat k + 1)%Z with (Z.of_nat (S k)) by lia.
           apply IH; try assumption; [lia|reflexivity|].
           intros j Hj. destruct (Nat.eq_dec j k) as [->|]; [|apply Ns; lia].
           intros St. apply CD in St. congruence.
Qed.

Hypothesis XW : vec_wf n x0.

Lemma guard_ok : pow_guard M x0 = true.
Proof.
  unfold pow_guard. apply andb_true_intro. destruct MW as (L & R). assert (X : length x0 = n) by exact XW. split.
  - apply Nat.eqb_eq. etransitivity; [exact L|symmetry; exact X].
  - apply forallb_forall. intros row Hr. apply Nat.eqb_eq. destruct (In_nth _ _ [] Hr) as (i & Hi & <-).
    etransitivity; [apply R|symmetry; exact X]. rewrite <- L. exact Hi.
Qed.

Lemma start_agree : agree n x0 (P 0).
Proof. split; [exact XW|reflexivity]. Qed.

Lemma nz0 : nonzero n (P 0) -> forall j, (j <= 0)%nat -> nonzero n (P j).
Proof. intros N j Hj. assert (j = 0)%nat as -> by lia. exact N. Qed.

Lemma power1_good : good (stop_l2 n (fm M) (fv x0) tol) (power_iteration M x0 maxit tol) /\
  forall r, power_iteration M x0 maxit tol = Ok r -> agree n (p_arg r) (unit2 n (fv x0)).
Proof.
  unfold power_iteration. rewrite guard_ok. pose proof (along_agree _ _ _ start_agree) as Al.
  destruct (zero_or_nonzero n (P 0)) as [Z|N].
  - assert (N : ~ nonzero n (P 0)) by (intros N; apply (nonzero_not_zero _ _ N Z)).
    rewrite (norm2_stuck _ _ _ Al N). simpl. split; [|discriminate]. split; [reflexivity|]. exists 0%nat. split; [lia|]. split; [exact N|]. split; intros; lia.
  - destruct (norm2_step _ _ _ Al N) as (y & -> & Ay). cbn [bind].
    destruct (pow1_run (Z.to_nat maxit) 0 y y eq_refl Ay (nz0 N)) as (G & Ar); [intros; lia|].
    split; [exact G|]. intros r Er. rewrite (Ar r Er). exact Ay.
Qed.

Lemma power4_good : good (stop_l1 n (fm M) (fv x0) tol) (power_iteration4 M x0 maxit tol) /\
  forall r, power_iteration4 M x0 maxit tol = Ok r ->
    ((0 < maxit)%Z -> agree n (p_arg r) (unit1 n (fv x0))) /\ ((maxit <= 0)%Z -> p_arg r = p_vec r).
Proof.
  unfold power_iteration4. rewrite guard_ok. pose proof (along_agree _ _ _ start_agree) as Al.
  destruct (zero_or_nonzero n (P 0)) as [Z|N].
  - assert (N : ~ nonzero n (P 0)) by (intros N; apply (nonzero_not_zero _ _ N Z)).
    rewrite (norm1_stuck _ _ _ Al N). simpl. split; [|discriminate]. split; [reflexivity|]. exists 0%nat. split; [lia|]. split; [exact N|]. split; intros; lia.
  - destruct (norm1_step _ _ _ Al N) as (y & -> & Ay). cbn [bind].
    destruct (pow4_run (Z.to_nat maxit) 0 None y eq_refl Ay (nz0 N)) as (G & Ar); [intros; lia|].
    split; [exact G|]. intros r Er. pose proof (Ar r Er) as Q. split; intros H.
    + destruct (Z.to_nat maxit) eqn:T; [lia|]. rewrite Q. exact Ay.
    + replace (Z.to_nat maxit) with 0%nat in Q by lia. exact Q.
Qed.

Lemma power2_good : good (stop_ray n (fm M) (fv x0) tol) (power_iteration2 M x0 maxit tol) /\
  forall r, power_iteration2 M x0 maxit tol = Ok r -> p_arg r = p_vec r.
Proof.
  unfold power_iteration2. rewrite guard_ok. pose proof (along_agree _ _ _ start_agree) as Al.
  destruct (zero_or_nonzero n (P 0)) as [Z|N].
  - assert (N : ~ nonzero n (P 0)) by (intros N; apply (nonzero_not_zero _ _ N Z)).
    rewrite (norm2_stuck _ _ _ Al N). simpl. split; [|discriminate]. split; [reflexivity|]. exists 0%nat. split; [lia|]. split; [exact N|]. split; intros; lia.
  - destruct (norm2_step _ _ _ Al N) as (y & -> & Ay). cbn [bind].
    apply (pow2_run (Z.to_nat maxit) 0 y _ eq_refl Ay); [|exact (nz0 N)|intros; lia].
    rewrite (vdot_quad n M _ _ MW Ay). apply unit2_quad, N.
Qed.

Lemma power3_good big : good (stop_ray n (fm M) (fv x0) tol) (power_iteration3 big M x0 maxit tol) /\
  forall r, power_iteration3 big M x0 maxit tol = Ok r -> p_arg r = p_vec r.
Proof.
  unfold power_iteration3. rewrite guard_ok. pose proof (along_agree _ _ _ start_agree) as Al.
  destruct (zero_or_nonzero n (P 0)) as [Z|N].
  - assert (N : ~ nonzero n (P 0)) by (intros N; apply (nonzero_not_zero _ _ N Z)).
    rewrite (agree_dot n _ _ start_agree). unfold dot. rewrite sumn_0 by (intros i Hi; rewrite Z by exact Hi; ring).
    rewrite sdivs_zero. simpl. split; [|discriminate]. split; [reflexivity|]. exists 0%nat. split; [lia|]. split; [exact N|]. split; intros; lia.
  - rewrite (agree_dot n _ _ start_agree), (vdot_quad n M _ _ MW start_agree).
    pose proof (dot_self_pos _ _ N). rewrite sdivs_R by lra. cbn [bind].
    apply (pow3_run big (Z.to_nat maxit) 0 x0 _ eq_refl Al eq_refl (nz0 N)). intros; lia.
Qed.
End Runs.
