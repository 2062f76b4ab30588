(** Inputs of the wrong length. *)
From Coq Require Import List Arith Lia Bool Reals Lra.
From Verif Require Import Arith Vec Broadcast PBroadcast ModelCalc ModelEll ModelStable SpecDrivers Spec SpecMisfit.
From Verif Require Import PStableLen.
Import ListNotations.

Section Generic.
Context {A : Arith}.

Lemma any_ell_core k ct (e : ell A) : any_ell_update A k ct e = ell_update_core (any_strat A k) ct e.
Proof. destruct k; reflexivity. Qed.
Lemma any_stable_core k ct (e : stable A) : any_stable_update A k ct e = stable_update_core (any_strat A k) ct e.
Proof. destruct k; reflexivity. Qed.

Lemma square_test n (m : mat A) (g : vec A) : square n m ->
  forallb (fun row => Nat.eqb (length row) (length g)) m && Nat.eqb (length m) (length g) = Nat.eqb n (length g).
Proof.
  intros [H1 H2]. rewrite H1. destruct (Nat.eqb_spec n (length g)) as [E|E]; [ | apply andb_false_r ].
  rewrite andb_true_r. apply forallb_forall. intros r Hr. apply Nat.eqb_eq. rewrite (H2 r Hr). exact E.
Qed.

Lemma ell_bad_gradient n k (g : vec A) beta (e : ell A) :
  square n (mq e) -> length g <> n -> any_ell_update A k (g, beta) e = (e, Err ValueError).
Proof.
  intros Hs Hg. rewrite any_ell_core. unfold ell_update_core. rewrite (square_test n) by exact Hs.
  destruct (Nat.eqb_spec n (length g)); [ lia | ]. destruct (forallb _ g); reflexivity.
Qed.

Lemma ell_bad_centre n k (g : vec A) beta (e e1 : ell A) o :
  2 <= n -> square n (mq e) -> length g = n -> length (xc e) <> n ->
  existsb (fun x => negb (aeqb x azero)) g = true ->
  aeqb (vdot g (mvmul (mq e) g)) azero = false ->
  any_ell_update A k (g, beta) e = (e1, o) ->
  mq e1 = mq e /\ xc e1 = xc e /\ kappa e1 = kappa e /\ helper e1 = helper e /\
  no_defer_trick e1 = no_defer_trick e /\ tsq e1 = amul (kappa e) (vdot g (mvmul (mq e) g)) /\
  o = match any_strat A k (helper e) beta (tsq e1) with
      | Err x => Err x
      | Ok (st, None) => Ok st
      | Ok (_, Some _) => Err ValueError
      end.
Proof.
  intros Hn2 Hs Hg Hx Hz Ho Hu. rewrite any_ell_core in Hu. unfold ell_update_core in Hu.
  assert (Hf : forallb (fun x => aeqb x azero) g = false).
  { apply not_true_is_false. intros Hf. rewrite forallb_forall in Hf. apply existsb_exists in Hz.
    destruct Hz as (x & Hin & Hn). rewrite (Hf x Hin) in Hn. discriminate. }
  rewrite Hf, (square_test n), Hg, Nat.eqb_refl, Ho in Hu by exact Hs. cbn [negb] in Hu.
  assert (Hl : forall c, isub (xc e) (vscale c (mvmul (mq e) g)) = Err ValueError).
  { intros c. apply isub_err; unfold vscale, mvmul; rewrite !map_length; destruct Hs as [Hs _]; unfold vec, mat in *; [ intros E; apply Hx; etransitivity; [ exact E | exact Hs ] | ].
    change (length (mq e)) with (@length (list (num A)) (mq e)). intros E. assert (n = 1) by (etransitivity; [ symmetry; exact Hs | exact E ]). lia. }
  change (tsq (set_tsq e ?t)) with t in Hu.
  destruct (any_strat A k (helper e) beta _) as [[st [[[rho sigma] delta]|]]|x] eqn:Es;
    rewrite ?Hl in Hu; injection Hu as <- <-; cbn [set_tsq mq xc kappa helper no_defer_trick tsq]; rewrite Es; repeat split.
Qed.

Lemma ell_stretch k (m g0 : num A) beta (e : ell A) st rho sigma delta :
  mq e = [[m]] -> aeqb g0 azero = false ->
  let u := vdot [m] [g0] in let w := vdot [g0] [u] in
  aeqb w azero = false -> any_strat A k (helper e) beta (amul (kappa e) w) = Ok (st, Some (rho, sigma, delta)) ->
  exists e1, any_ell_update A k ([g0], beta) e = (e1, Ok st) /\
  xc e1 = map (fun x => asub x (amul (adiv rho w) u)) (xc e).
Proof.
  intros Hm Hg u w Hw Hs. rewrite any_ell_core. unfold ell_update_core. cbn [forallb]. rewrite Hg. cbn [andb]. rewrite Hm.
  cbn [forallb length Nat.eqb andb negb mvmul map]. fold u w. rewrite Hw. cbn [tsq set_tsq]. rewrite Hs.
  cbn [vscale map]. 
  assert (E : isub (xc e) [amul (adiv rho w) u] = Ok (map (fun x => asub x (amul (adiv rho w) u)) (xc e))).
  { unfold isub. destruct (xc e) as [|x [|y l]]; reflexivity. }
  rewrite E. destruct (no_defer_trick e); eexists; split; reflexivity.
Qed.

Lemma stable_short k (g : vec A) beta (s : stable A) :
  length g < s_ndim s \/ length (s_mq s) < s_ndim s ->
  exists s1, any_stable_update A k (g, beta) s = (s1, Err IndexError) /\ same_rest s s1 /\ s_tsq s1 = s_tsq s /\
  (forall i j, (0 < i \/ j = 0 \/ length g < j) -> mget (s_mq s1) i j = mget (s_mq s) i j).
Proof.
  intros H. eexists. split; [ rewrite any_stable_core; apply short_update; exact H | ].
  split; [ repeat split | ]. split; [ reflexivity | ]. cbn [s_mq]. apply short_keep.
Qed.

(** the forward substitution leaves the lower triangle alone *)
Lemma upd_other {T} (l : list T) i x j d : i <> j -> nth j (upd l i x) d = nth j l d.
Proof. revert i j. induction l as [|a l IH]; intros [|i] [|j] H; cbn; try reflexivity; try lia. apply IH. lia. Qed.

Lemma mset_other (m : mat A) i j x r c : i <> r \/ j <> c -> mget (mset m i j x) r c = mget m r c.
Proof.
  intros H. unfold mget, mset, vget. destruct (Nat.eq_dec i r) as [<-|Hr].
  - destruct (Nat.lt_ge_cases i (length m)) as [L|L].
    + assert (E : nth i (upd m i (vset (nth i m []) j x)) [] = vset (nth i m []) j x).
      { generalize (vset (nth i m []) j x). intros r. clear H. revert i L. induction m as [|a m IH]; intros [|i] L; cbn in *; try lia; [ reflexivity | ].
        apply IH. lia. }
      rewrite E. unfold vset. apply upd_other. lia.
    + rewrite !(nth_overflow _ (n := i)) by (rewrite ?upd_len; exact L). reflexivity.
  - rewrite upd_other by exact Hr. reflexivity.
Qed.

Lemma fwd_low n (m : mat A) (g : vec A) r c : c <= r -> mget (fst (fwd_subst n m g)) r c = mget m r c.
Proof.
  intros H. unfold fwd_subst. generalize (seq 0 (n - 1)). intros l. revert m g.
  induction l as [|j l IH]; intros m g; cbn [fold_left]; [ reflexivity | ].
  assert (I : forall (m : mat A) (w : vec A), mget (fst (fwd_outer n (m, w) j)) r c = mget m r c).
  { clear m g. unfold fwd_outer.
    assert (G : forall i, In i (seq (S j) (n - S j)) -> j < i) by (intros i Hi; apply in_seq in Hi; lia).
    revert G. generalize (seq (S j) (n - S j)). intros q. induction q as [|i q IHq]; intros G m w; cbn [fold_left]; [ reflexivity | ].
    specialize (G i (or_introl eq_refl)) as Gi. unfold fwd_inner at 2. rewrite IHq by (intros; apply G; now right).
    apply mset_other. lia. }
  specialize (I m g). destruct (fwd_outer n (m, g) j) as [m' g']. rewrite IH. exact I.
Qed.

Lemma stable_long k (g : vec A) beta (s s1 : stable A) o :
  s_ndim s < length g -> s_ndim s <= length (s_mq s) -> length (s_xc s) <> length g ->
  any_stable_update A k (g, beta) s = (s1, o) ->
  same_rest s s1 /\ (forall i j, j <= i -> mget (s_mq s1) i j = mget (s_mq s) i j) /\
  match any_strat A k (s_helper s) beta (s_tsq s1) with
  | Err x => o = Err x
  | Ok (st, None) => o = Ok st
  | Ok (_, Some _) => o = Err ValueError \/ adivz A = false /\ o = Err ZeroDivision
  end.
Proof.
  intros Hg Hm Hx Hu. rewrite any_stable_core in Hu.
  pose proof (long_update (any_strat A k) (firstn (s_ndim s) g) (skipn (s_ndim s) g) beta s) as HL.
  rewrite firstn_skipn in HL. assert (Ha : length (firstn (s_ndim s) g) = s_ndim s) by (apply firstn_length_le; lia).
  pose proof (eq_trans (eq_sym (HL Ha Hm Hx)) Hu) as Hv. clear Hu HL. rename Hv into Hu.
  injection Hu as <- <-. split; [ repeat split | ].
  split; [ intros i j Hij; unfold long_pre; cbn [s_mq]; apply fwd_low; exact Hij | ].
  destruct (any_strat A k (s_helper s) beta _) as [[st [[[rho sigma] delta]|]]|x]; try reflexivity.
  unfold ndiv. destruct (adivz A) eqn:D; cbn [negb andb]; [ now left | ].
  destruct (aeqb _ azero); [ right | left ]; auto.
Qed.

(** the centre of the wrong length, the gradient of the right one *)
Lemma stable_bad_centre k (g : vec A) beta (s s1 : stable A) o :
  length g = s_ndim s -> s_ndim s <= length (s_mq s) -> length (s_xc s) <> s_ndim s ->
  any_stable_update A k (g, beta) s = (s1, o) ->
  same_rest s s1 /\ (forall i j, j <= i -> mget (s_mq s1) i j = mget (s_mq s) i j) /\
  match any_strat A k (s_helper s) beta (s_tsq s1) with
  | Err x => o = Err x
  | Ok (st, None) => o = Ok st
  | Ok (_, Some _) => o = Err ValueError \/ adivz A = false /\ o = Err ZeroDivision
  end.
Proof.
  intros Hg Hm Hx Hu. rewrite any_stable_core in Hu.
  pose proof (long_update (any_strat A k) g [] beta s) as HL.
  rewrite app_nil_r in HL. assert (Hx' : length (s_xc s) <> length g) by (rewrite Hg; exact Hx).
  pose proof (eq_trans (eq_sym (HL Hg Hm Hx')) Hu) as Hv. clear Hu HL. rename Hv into Hu.
  injection Hu as <- <-. split; [ repeat split | ].
  split; [ intros i j Hij; unfold long_pre; cbn [s_mq]; apply fwd_low; exact Hij | ].
  destruct (any_strat A k (s_helper s) beta _) as [[st [[[rho sigma] delta]|]]|x]; try reflexivity.
  unfold ndiv. destruct (adivz A) eqn:D; cbn [negb andb]; [ now left | ].
  destruct (aeqb _ azero); [ right | left ]; auto.
Qed.

Lemma core_tsq (strat : strategy A) (g : vec A) beta (s : stable A) :
  s_ndim s <= length g -> s_ndim s <= length (s_mq s) ->
  let m1 := fst (fwd_subst (s_ndim s) (s_mq s) g) in
  let w := snd (fwd_subst (s_ndim s) (s_mq s) g) in
  s_tsq (fst (stable_update_core strat (g, beta) s)) =
  amul (s_kappa s) (vsum (map2 amul w (diag_scale (s_ndim s) m1 w))).
Proof.
  intros Hg Hm. cbv zeta. unfold stable_update_core.
  replace (Nat.ltb (length g) (s_ndim s)) with false by (symmetry; now apply Nat.ltb_ge).
  replace (Nat.ltb (length (s_mq s)) (s_ndim s)) with false by (symmetry; now apply Nat.ltb_ge).
  cbn [orb]. destruct (fwd_subst (s_ndim s) (s_mq s) g) as [m1 w]. cbn [fst snd].
  destruct (strat _ _ _) as [[st [[[rho sigma] delta]|]]|x]; try reflexivity.
  destruct (ndiv _ _); [ | reflexivity ]. destruct (negb _); [ reflexivity | ].
  destruct (pdiv _ _) as [mu|]; [ | reflexivity ]. destruct (aeqb mu azero); [ reflexivity | ].
  destruct (rank1_loop _ _ _ _ _ _) as [m2 [u|x]]; [ | reflexivity ]. destruct (s_no_defer_trick s); reflexivity.
Qed.
End Generic.

Local Open Scope R_scope.
Lemma squares_sum (b : list R) : forall x, fold_left Rplus (map2 Rmult b b) x = x + sumn (length b) (fun i => nth i b 0 * nth i b 0).
Proof.
  induction b as [|y b IH]; intros x; cbn [map2 fold_left length]; [ cbn; lra | ].
  rewrite IH.
  assert (E : forall n f, sumn (S n) f = f 0%nat + sumn n (fun i => f (S i))).
  { induction n as [|n IHn]; intros f; [ cbn; lra | ]. change (sumn (S (S n)) f) with (sumn (S n) f + f (S n)).
    rewrite IHn. change (sumn (S n) (fun i => f (S i))) with (sumn n (fun i => f (S i)) + f (S n)). lra. }
  rewrite E. cbn [nth]. lra.
Qed.

Lemma stable_long_tsq k (g : vec RA) beta (s : stable RA) :
  (s_ndim s < length g)%nat -> (s_ndim s <= length (s_mq s))%nat -> length (s_xc s) <> length g ->
  s_tsq (fst (any_stable_update RA k (g, beta) s)) =
  s_tsq (fst (any_stable_update RA k (firstn (s_ndim s) g, beta) s)) +
  s_kappa s * sumn (length g - s_ndim s) (fun i => fv g (s_ndim s + i) * fv g (s_ndim s + i)).
Proof.
  intros Hg Hm Hx. rewrite !any_stable_core.
  rewrite (core_tsq _ (firstn (s_ndim s) g)).
  2:{ rewrite firstn_length_le; [ apply le_n | ]. apply Nat.lt_le_incl. exact Hg. }
  2:{ exact Hm. }
  pose proof (long_update (any_strat RA k) (firstn (s_ndim s) g) (skipn (s_ndim s) g) beta s) as HL.
  rewrite firstn_skipn in HL.
  assert (Ha : length (firstn (s_ndim s) g) = s_ndim s) by (apply firstn_length_le; apply Nat.lt_le_incl; exact Hg).
  etransitivity; [ exact (f_equal (fun r => s_tsq (fst r)) (HL Ha Hm Hx)) | ].
  cbn [fst]. unfold long_pre, long_omega. cbn [s_tsq].
  set (om := vsum _).
  transitivity (s_kappa s * (om + sumn (length g - s_ndim s) (fun i => fv g (s_ndim s + i) * fv g (s_ndim s + i)))).
  2:{ exact (Rmult_plus_distr_l (s_kappa s) om _). }
  change (amul (a:=RA)) with Rmult. f_equal.
  etransitivity; [ exact (squares_sum (skipn (s_ndim s) g) om) | ].
  f_equal. replace (@length R (skipn (s_ndim s) g)) with (length g - s_ndim s)%nat by (symmetry; exact (skipn_length (s_ndim s) g)).
  assert (Q : forall i, nth i (skipn (s_ndim s) g) 0 = fv g (s_ndim s + i)).
  { intros i. unfold fv. generalize (s_ndim s). intros n. clear. revert n.
    induction g as [|x g IH]; intros [|n]; cbn [skipn]; try reflexivity.
    - destruct i; reflexivity.
    - rewrite IH. reflexivity. }
  assert (X : forall n (f h : nat -> R), (forall i, f i = h i) -> sumn n f = sumn n h).
  { induction n; intros f h E; cbn; [ reflexivity | ]. rewrite (IHn f h E), E. reflexivity. }
  apply X. intros i. rewrite Q. reflexivity.
Qed.
