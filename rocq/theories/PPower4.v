(** The statements about the power iterations, and concrete cases. *)
From Coq Require Import Reals List Arith ZArith Lia Lra Psatz Bool.
From Verif Require Import Arith Vec ModelPower Spec SpecCG SpecPower PCalc PSum PVec PCG PCG2 PPower PPower2 PPower3.
Import ListNotations.
Local Open Scope R_scope.

Definition reported (n : nat) (M : mat RA) (x0 : vec RA) (stop : nat -> Prop) (maxit : Z) (r : res (pow_result (A:=RA))) : Prop :=
  match r with
  | Ok o => pow_reports n (fm M) (fv x0) stop maxit (p_vec o) (p_ld o) (p_niter o)
  | Err e => e = ZeroDivision /\ pow_vanishes n (fm M) (fv x0) stop maxit
  end.

Lemma good_reported n M x0 stop maxit r : good n M x0 maxit stop r -> reported n M x0 stop maxit r.
Proof.
  destruct r as [o|e]; simpl.
  - intros (m & R & N & (L & E) & Ld). exists m. repeat split; assumption.
  - intros (E & j & J & N & Q). split; [exact E|]. exists j. split; [exact J|]. split; [apply not_nonzero, N|exact Q].
Qed.

Section S.
Variables (n : nat) (M : mat RA) (x : vec RA) (maxit : Z) (tol : R).
Hypothesis MW : mat_wf n M.
Hypothesis XW : vec_wf n x.

Lemma pow1_reported : reported n M x (stop_l2 n (fm M) (fv x) tol) maxit (power_iteration M x maxit tol).
Proof. apply good_reported, power1_good; assumption. Qed.
Lemma pow4_reported : reported n M x (stop_l1 n (fm M) (fv x) tol) maxit (power_iteration4 M x maxit tol).
Proof. apply good_reported, power4_good; assumption. Qed.
Lemma pow2_reported : reported n M x (stop_ray n (fm M) (fv x) tol) maxit (power_iteration2 M x maxit tol).
Proof. apply good_reported, power2_good; assumption. Qed.
Lemma pow3_reported big : reported n M x (stop_ray n (fm M) (fv x) tol) maxit (power_iteration3 big M x maxit tol).
Proof. apply good_reported, power3_good; assumption. Qed.

Lemma pow1_arg r : power_iteration M x maxit tol = Ok r -> vec_wf n (p_arg r) /\ forall i, (i < n)%nat -> fv (p_arg r) i = unit2 n (fv x) i.
Proof. apply (proj2 (power1_good n M x tol maxit MW XW)). Qed.
Lemma pow4_arg r : power_iteration4 M x maxit tol = Ok r ->
  ((0 < maxit)%Z -> vec_wf n (p_arg r) /\ forall i, (i < n)%nat -> fv (p_arg r) i = unit1 n (fv x) i) /\
  ((maxit <= 0)%Z -> p_arg r = p_vec r).
Proof. apply (proj2 (power4_good n M x tol maxit MW XW)). Qed.
Lemma pow2_arg r : power_iteration2 M x maxit tol = Ok r -> p_arg r = p_vec r.
Proof. apply (proj2 (power2_good n M x tol maxit MW XW)). Qed.
Lemma pow3_arg big r : power_iteration3 big M x maxit tol = Ok r -> p_arg r = p_vec r.
Proof. apply (proj2 (power3_good n M x tol maxit MW XW big)). Qed.

Lemma run_unique stop m niter m' niter' : pow_run stop maxit m niter -> pow_run stop maxit m' niter' -> m = m' /\ niter = niter'.
Proof.
  intros [(k & -> & -> & L & St & Ns)|(-> & -> & Ns)] [(k' & -> & -> & L' & St' & Ns')|(-> & -> & Ns')].
  - assert (k = k') as ->; [|split; reflexivity]. destruct (Nat.lt_trichotomy k k') as [Q|[Q|Q]]; [exfalso; exact (Ns' k Q St)|exact Q|exfalso; exact (Ns k' Q St')].
  - exfalso. apply (Ns' k); [lia|exact St].
  - exfalso. apply (Ns k'); [lia|exact St'].
  - split; reflexivity.
Qed.

Lemma list_fv_ext (l k : list R) : length l = n -> length k = n -> (forall i, (i < n)%nat -> fv l i = fv k i) -> l = k.
Proof.
  intros L L' E. apply (nth_ext _ _ 0 0); [congruence|]. intros i Hi. apply E. rewrite <- L. exact Hi.
Qed.

Lemma reports_determined stop r r' : reported n M x stop maxit r -> reported n M x stop maxit r' ->
  match r, r' with
  | Ok o, Ok o' => p_vec o = p_vec o' /\ p_ld o = p_ld o' /\ p_niter o = p_niter o'
  | Err e, Err e' => e = e'
  | _, _ => False
  end.
Proof.
  assert (X : forall o : pow_result (A:=RA), pow_reports n (fm M) (fv x) stop maxit (p_vec o) (p_ld o) (p_niter o) -> ~ pow_vanishes n (fm M) (fv x) stop maxit).
  { intros o (m & R & N & _) (j & J & Z & _ & Ns). assert (Lt : (m < j)%nat).
    { destruct (le_lt_dec j m) as [H|H]; [|exact H]. exfalso. exact (nonzero_not_zero _ _ (N j H) Z). }
    destruct R as [(k & -> & _ & _ & St & _)|(-> & _)]; [exact (Ns k Lt St)|lia]. }
  destruct r as [o|e], r' as [o'|e']; simpl.
  - intros (m & R & N & L & E & Ld) (m' & R' & N' & L' & E' & Ld'). destruct (run_unique _ _ _ _ _ R R') as (<- & En).
    split; [|split; [congruence|exact En]]. apply list_fv_ext; try assumption. intros i Hi. rewrite E, E' by exact Hi. reflexivity.
  - intros R (_ & V). exact (X o R V).
  - intros (_ & V) R. exact (X o' R V).
  - intros (-> & _) (-> & _). reflexivity.
Qed.

Lemma pow23_same big : power_iteration3 big M x maxit tol = power_iteration2 M x maxit tol.
Proof.
  pose proof (reports_determined _ _ _ (pow3_reported big) pow2_reported) as D.
  pose proof pow2_arg as A2. pose proof (pow3_arg big) as A3.
  destruct (power_iteration3 big M x maxit tol) as [o|e], (power_iteration2 M x maxit tol) as [o'|e']; try contradiction.
  - destruct D as (E1 & E2 & E3). specialize (A2 _ eq_refl). specialize (A3 _ eq_refl).
    destruct o, o'. simpl in *. subst. reflexivity.
  - rewrite D. reflexivity.
Qed.


(** ** The stopping test on the vectors bounds the residual *)
Lemma entry_bound_pos a : (0 < n)%nat -> (forall i j, (i < n)%nat -> (j < n)%nat -> Rabs (fm M i j) <= a) -> 0 <= a.
Proof. intros N B. eapply Rle_trans; [apply Rabs_pos|apply (B 0%nat 0%nat); exact N]. Qed.

Lemma residual_of m (y : list R) ld : nonzero n (pw n (fm M) (fv x) m) ->
  (forall i, (i < n)%nat -> fv y i = unit2 n (pw n (fm M) (fv x) m) i) -> ld = rayleigh n (fm M) (pw n (fm M) (fv x) m) ->
  residual n (fm M) (fv y) ld = resid n (fm M) (unit2 n (pw n (fm M) (fv x) m)).
Proof.
  intros N E ->. unfold residual, resid. rewrite unit2_quad by exact N. apply norm_ext. intros i Hi.
  rewrite (mv_ext n (fm M) (fm M) (fv y) (unit2 n (pw n (fm M) (fv x) m))) by auto. rewrite E by exact Hi. reflexivity.
Qed.

Lemma pow1_residual a r : (forall i j, (i < n)%nat -> (j < n)%nat -> Rabs (fm M i j) <= a) ->
  power_iteration M x maxit tol = Ok r -> (p_niter r < maxit)%Z ->
  residual n (fm M) (fv (p_vec r)) (p_ld r) <= sqrt (INR n) * (a * tol).
Proof.
  intros B E L. pose proof pow1_reported as R. rewrite E in R. destruct R as (m & Rn & N & _ & Ev & Ld).
  destruct Rn as [(k & -> & _ & _ & St & _)|(_ & Q & _)]; [|lia]. rewrite (residual_of _ _ _ (N _ (le_n _)) Ev Ld).
  assert (0 < n)%nat. { destruct (N 0%nat ltac:(lia)) as (i & Hi & _). lia. }
  apply stop_l2_resid; try assumption; [eapply entry_bound_pos; eassumption|apply N; lia|apply N; lia].
Qed.
Lemma pow4_residual a r : (forall i j, (i < n)%nat -> (j < n)%nat -> Rabs (fm M i j) <= a) ->
  power_iteration4 M x maxit tol = Ok r -> (p_niter r < maxit)%Z ->
  residual n (fm M) (fv (p_vec r)) (p_ld r) <= INR n * (a * tol).
Proof.
  intros B E L. pose proof pow4_reported as R. rewrite E in R. destruct R as (m & Rn & N & _ & Ev & Ld).
  destruct Rn as [(k & -> & _ & _ & St & _)|(_ & Q & _)]; [|lia]. rewrite (residual_of _ _ _ (N _ (le_n _)) Ev Ld).
  assert (0 < n)%nat. { destruct (N 0%nat ltac:(lia)) as (i & Hi & _). lia. }
  apply stop_l1_resid; try assumption; [eapply entry_bound_pos; eassumption|apply N; lia|apply N; lia].
Qed.

(** ** Rate of convergence *)
Section Rates.
Variables (v : nat -> R) (lam mu : R).
Hypothesis SY : symmetric n (fm M).
Hypothesis DO : dominant n (fm M) v lam mu.
Hypothesis NO : dot n (fv x) v <> 0.

Lemma pow1_rate : exists r, power_iteration M x maxit tol = Ok r /\
  pow_accuracy n (fv x) v lam mu (pow_steps maxit (p_niter r)) (fv (p_vec r)) (p_ld r) /\
  forall k, 2 * sqrt (INR n) * sqrt (tan2 n (fv x) v) * (mu / Rabs lam) ^ k <= tol -> (p_niter r <= Z.of_nat k)%Z.
Proof.
  destruct (good_rate n M x v lam mu maxit _ _ SY DO NO (proj1 (power1_good n M x tol maxit MW XW))) as (o & E & _ & A1 & A2 & St).
  exists o. split; [exact E|]. split; [split; assumption|]. intros k H. apply St. eapply stop_l2_rate; eassumption.
Qed.
Lemma pow4_rate : exists r, power_iteration4 M x maxit tol = Ok r /\
  pow_accuracy n (fv x) v lam mu (pow_steps maxit (p_niter r)) (fv (p_vec r)) (p_ld r) /\
  forall k, 4 * sqrt (INR n) * sqrt (tan2 n (fv x) v) * (mu / Rabs lam) ^ k <= tol -> (p_niter r <= Z.of_nat k)%Z.
Proof.
  destruct (good_rate n M x v lam mu maxit _ _ SY DO NO (proj1 (power4_good n M x tol maxit MW XW))) as (o & E & _ & A1 & A2 & St).
  exists o. split; [exact E|]. split; [split; assumption|]. intros k H. apply St. eapply stop_l1_rate; eassumption.
Qed.
Lemma pow2_rate : exists r, power_iteration2 M x maxit tol = Ok r /\
  pow_accuracy n (fv x) v lam mu (pow_steps maxit (p_niter r)) (fv (p_vec r)) (p_ld r) /\
  forall k, 2 * (mu + Rabs lam) * tan2 n (fv x) v * (mu / Rabs lam) ^ (2 * k) <= tol -> (p_niter r <= Z.of_nat k)%Z.
Proof.
  destruct (good_rate n M x v lam mu maxit _ _ SY DO NO (proj1 (power2_good n M x tol maxit MW XW))) as (o & E & _ & A1 & A2 & St).
  exists o. split; [exact E|]. split; [split; assumption|]. intros k H. apply St. eapply stop_ray_rate; try eassumption.
  eapply Rle_trans; [|exact H]. right. ring.
Qed.
Lemma pow3_rate big : exists r, power_iteration3 big M x maxit tol = Ok r /\
  pow_accuracy n (fv x) v lam mu (pow_steps maxit (p_niter r)) (fv (p_vec r)) (p_ld r) /\
  forall k, 2 * (mu + Rabs lam) * tan2 n (fv x) v * (mu / Rabs lam) ^ (2 * k) <= tol -> (p_niter r <= Z.of_nat k)%Z.
Proof. rewrite pow23_same. exact pow2_rate. Qed.
End Rates.

(** ** Bounds on the reported value *)
Lemma reports_between stop y ld niter L : symmetric n (fm M) -> possemidef n (fm M) ->
  (forall u, quad n (fm M) u <= L * dot n u u) ->
  pow_reports n (fm M) (fv x) stop maxit y ld niter -> rayleigh n (fm M) (fv x) <= ld <= L.
Proof.
  intros S Ps B (m & _ & N & _ & _ & ->). split.
  - change (fv x) with (pw n (fm M) (fv x) 0) at 1. apply rayleigh_mono; try assumption. lia.
  - pose proof (dot_self_pos _ _ (N m (le_n m))) as D. unfold rayleigh. apply Rmult_le_reg_r with (dot n (pw n (fm M) (fv x) m) (pw n (fm M) (fv x) m)); [exact D|].
    unfold Rdiv. rewrite Rmult_assoc, Rinv_l, Rmult_1_r by lra. apply B.
Qed.
End S.

Lemma pow_between n (M : mat RA) (x : vec RA) maxit (tol : R) L (r : pow_result (A:=RA)) : mat_wf n M -> vec_wf n x -> symmetric n (fm M) -> possemidef n (fm M) ->
  (forall u, quad n (fm M) u <= L * dot n u u) ->
  power_iteration M x maxit tol = Ok r \/ power_iteration4 M x maxit tol = Ok r \/ power_iteration2 M x maxit tol = Ok r \/
    (exists big, power_iteration3 big M x maxit tol = Ok r) ->
  rayleigh n (fm M) (fv x) <= p_ld r <= L.
Proof.
  intros W X S Ps B [E|[E|[E|(big & E)]]].
  - pose proof (pow1_reported n M x maxit tol W X) as R. rewrite E in R. eapply reports_between; eassumption.
  - pose proof (pow4_reported n M x maxit tol W X) as R. rewrite E in R. eapply reports_between; eassumption.
  - pose proof (pow2_reported n M x maxit tol W X) as R. rewrite E in R. eapply reports_between; eassumption.
  - pose proof (pow3_reported n M x maxit tol W X big) as R. rewrite E in R. eapply reports_between; eassumption.
Qed.

(** a tighter tolerance or more rounds never give a smaller value *)
Lemma run_later (stop stop' : nat -> Prop) maxit maxit' m m' k k' : (forall j, stop' j -> stop j) -> (maxit <= maxit')%Z ->
  pow_run stop maxit m k -> pow_run stop' maxit' m' k' -> (m <= m')%nat.
Proof.
  intros I Le [(j & -> & -> & L & St & Ns)|(-> & -> & Ns)] [(j' & -> & -> & L' & St' & Ns')|(-> & -> & Ns')].
  - destruct (le_lt_dec j j') as [H|H]; [lia|]. exfalso. exact (Ns j' H (I _ St')).
  - lia.
  - destruct (le_lt_dec (Z.to_nat maxit) j') as [H|H]; [lia|]. exfalso. exact (Ns j' H (I _ St')).
  - lia.
Qed.
Lemma close_mono n tol tol' u w : tol' <= tol -> close_up_to_sign n tol' u w -> close_up_to_sign n tol u w.
Proof. intros L [H|H]; [left|right]; lra. Qed.

Lemma reports_mono n M x (stop stop' : nat -> Prop) maxit maxit' y ld k y' ld' k' : symmetric n M -> possemidef n M ->
  (forall j, stop' j -> stop j) -> (maxit <= maxit')%Z ->
  pow_reports n M x stop maxit y ld k -> pow_reports n M x stop' maxit' y' ld' k' -> ld <= ld'.
Proof.
  intros S Ps I Le (m & R & _ & _ & _ & ->) (m' & R' & N' & _ & _ & ->). apply rayleigh_mono; try assumption.
  eapply run_later; eassumption.
Qed.
Lemma pow_mono n (M : mat RA) (x : vec RA) maxit maxit' (tol tol' : R) : mat_wf n M -> vec_wf n x -> symmetric n (fm M) -> possemidef n (fm M) ->
  tol' <= tol -> (maxit <= maxit')%Z ->
  (forall r r', power_iteration M x maxit tol = Ok r -> power_iteration M x maxit' tol' = Ok r' -> p_ld r <= p_ld r') /\
  (forall r r', power_iteration4 M x maxit tol = Ok r -> power_iteration4 M x maxit' tol' = Ok r' -> p_ld r <= p_ld r') /\
  (forall r r', power_iteration2 M x maxit tol = Ok r -> power_iteration2 M x maxit' tol' = Ok r' -> p_ld r <= p_ld r') /\
  (forall big r r', power_iteration3 big M x maxit tol = Ok r -> power_iteration3 big M x maxit' tol' = Ok r' -> p_ld r <= p_ld r').
Proof.
  intros W X S Ps T Le.
  assert (T2 : forall r r', power_iteration2 M x maxit tol = Ok r -> power_iteration2 M x maxit' tol' = Ok r' -> p_ld r <= p_ld r').
  { intros r r' E E'. pose proof (pow2_reported n M x maxit tol W X) as R. rewrite E in R.
    pose proof (pow2_reported n M x maxit' tol' W X) as R'. rewrite E' in R'.
    eapply reports_mono; [exact S|exact Ps| |exact Le|exact R|exact R']. unfold stop_ray. intros; lra. }
  repeat split.
  - intros r r' E E'. pose proof (pow1_reported n M x maxit tol W X) as R. rewrite E in R.
    pose proof (pow1_reported n M x maxit' tol' W X) as R'. rewrite E' in R'.
    eapply reports_mono; [exact S|exact Ps| |exact Le|exact R|exact R']. intros j. apply close_mono, T.
  - intros r r' E E'. pose proof (pow4_reported n M x maxit tol W X) as R. rewrite E in R.
    pose proof (pow4_reported n M x maxit' tol' W X) as R'. rewrite E' in R'.
    eapply reports_mono; [exact S|exact Ps| |exact Le|exact R|exact R']. intros j. apply close_mono, T.
  - exact T2.
  - intros big r r'. rewrite !(pow23_same n) by assumption. apply T2.
Qed.

Lemma guard_only n (M : mat RA) (x : vec RA) : vec_wf n x -> pow_guard M x = true -> mat_wf n M.
Proof.
  unfold pow_guard, vec_wf, mat_wf. intros X G. apply andb_prop in G. destruct G as (L & F). apply Nat.eqb_eq in L.
  assert (LM : length M = n) by (etransitivity; [exact L|exact X]).
  split; [exact LM|]. intros i Hi. rewrite forallb_forall in F.
  etransitivity; [apply Nat.eqb_eq, F, nth_In; eapply Nat.lt_le_trans; [exact Hi|apply Nat.eq_le_incl; symmetry; exact LM]|exact X].
Qed.

Lemma pow_misfit n (M : mat RA) (x : vec RA) : vec_wf n x -> ~ mat_wf n M ->
  forall maxit (tol big : R), power_iteration M x maxit tol = Err ValueError /\ power_iteration2 M x maxit tol = Err ValueError /\
    power_iteration3 (A:=RA) big M x maxit tol = Err ValueError /\ power_iteration4 M x maxit tol = Err ValueError.
Proof.
  intros X W maxit tol big. unfold power_iteration, power_iteration2, power_iteration3, power_iteration4.
  destruct (pow_guard M x) eqn:G; [exfalso; exact (W (guard_only n M x X G))|]. repeat split.
Qed.
