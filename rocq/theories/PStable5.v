(** The ellipsoid of an [EllStable] object. *)
From Coq Require Import Reals List Arith Lia Lra Psatz Bool.
From Verif Require Import Arith Vec ModelCalc ModelEll ModelStable SpecDrivers Spec SpecCut SpecEll SpecStable
  PSum PAlg PCalc PCalc2 PCalc3 PCalc5 PVec PGeo PEll PEll2 PEll3 PStable PStable2 PStable3 PStable4 PStableLen.
Import ListNotations.
Local Open Scope R_scope.

(** ** The same set of points *)
Lemma inverse_flip n M M0 : symmetric n M -> inverse n M (ldl n M0) -> inverse n (ldl n M0) M.
Proof.
  intros Hs H i k Hi Hk. rewrite Nat.eqb_sym, <- (H k i Hk Hi). apply sumn_ext. intros j Hj.
  rewrite (Hs j k Hj Hk), ldl_sym. ring.
Qed.

Lemma inverse_mv n M P v i : inverse n M P -> (i < n)%nat -> mv n M (mv n P v) i = v i.
Proof. intros H Hi. apply (inverse_apply n M P v (mv n P v) H); [reflexivity|exact Hi]. Qed.

Lemma same_set n (e : ell RA) (s : stable RA) : symmetric n (fm (mq e)) -> agree n e s ->
  forall x, ell_in n e x <-> stable_in n s x.
Proof.
  intros Hs (A1 & A2 & _ & _ & HI) x. unfold ell_in, in_ellipsoid, stable_in. rewrite A1, A2.
  set (d := fun i => x i - fv (s_xc s) i). set (M := fm (mq e)) in *. set (P := ldl n (fm (s_mq s))) in *.
  fold (form n (fm (s_mq s)) d d). rewrite form_ldl. fold P.
  change (sumn n (fun i => d i * sumn n (fun k => P i k * d k))) with (dot n d (mv n P d)).
  split.
  - intros (y & Hy & Hq). rewrite (dot_ext n d _ (mv n M y) y).
    + rewrite dot_comm. exact Hq.
    + exact Hy.
    + intros i Hi. rewrite (mv_ext n P P d (mv n M y) i) by auto.
      apply inverse_mv; [apply inverse_flip; assumption|exact Hi].
  - intros Hq. exists (mv n P d). split.
    + intros i Hi. symmetry. apply inverse_mv; assumption.
    + unfold quad, bil. rewrite (dot_ext n _ _ (mv n P d) d); [rewrite dot_comm; exact Hq|reflexivity|].
      intros i Hi. apply inverse_mv; assumption.
Qed.

(** ** Every [EllStable] object has an [Ell] twin *)
Definition tab (n : nat) (v : nat -> R) : list R := map v (seq 0 n).

Lemma tab_length n v : length (tab n v) = n.
Proof. unfold tab. rewrite map_length. apply seq_length. Qed.

Lemma tab_fv n v i : (i < n)%nat -> fv (tab n v) i = v i.
Proof.
  intros Hi. unfold fv, tab. rewrite (nth_map_gen v (seq 0 n) i 0%nat 0) by (rewrite seq_length; exact Hi).
  rewrite seq_nth by exact Hi. reflexivity.
Qed.

Definition unit_vec (n k : nat) : vec RA := tab n (fun i => if Nat.eqb i k then 1 else 0).

Definition twin (n : nat) (s : stable RA) : ell RA :=
  @mkEll RA false (map (fun i => tab n (fun k => fv (st_q n s (unit_vec n k)) i)) (seq 0 n))
    (s_xc s) (s_kappa s) (s_tsq s) (s_helper s).

Section Twin.
Variables (n : nat) (p : bool) (s : stable RA).
Hypothesis Hok : stable_ok n p s.
Let M0 := fm (s_mq s).
Let Q (k : nat) := fv (st_q n s (unit_vec n k)).

Lemma twin_fm i k : (i < n)%nat -> (k < n)%nat -> fm (mq (twin n s)) i k = Q k i.
Proof.
  intros Hi Hk. rewrite fm_row. cbn [mq twin].
  pose proof (nth_map_gen (fun i => tab n (fun k => fv (st_q n s (unit_vec n k)) i)) (seq 0 n) i 0%nat []) as E.
  rewrite seq_length in E. specialize (E Hi). rewrite seq_nth in E by exact Hi. cbn [Nat.add] in E.
  transitivity (fv (tab n (fun k => fv (st_q n s (unit_vec n k)) i)) k); [exact (f_equal (fun r => fv r k) E)|].
  rewrite tab_fv by exact Hk. reflexivity.
Qed.

Lemma Q_form k y : (k < n)%nat -> form n M0 (Q k) y = y k.
Proof.
  intros Hk. unfold Q, M0. rewrite (st_form n p s (unit_vec n k) Hok (tab_length _ _)).
  rewrite (dot_ext n _ y (fun i => if Nat.eqb i k then 1 else 0) y); [|intros; apply tab_fv; assumption|reflexivity].
  apply (sumn_delta_l n k y Hk).
Qed.

Lemma Q_sym i k : (i < n)%nat -> (k < n)%nat -> Q k i = Q i k.
Proof. intros Hi Hk. rewrite <- (Q_form i (Q k) Hi), form_sym. apply Q_form, Hk. Qed.

Lemma twin_inv : inverse n (fm (mq (twin n s))) (ldl n M0).
Proof.
  intros i k Hi Hk.
  transitivity (sumn n (fun j => ldl n M0 k j * Q i j)).
  - apply sumn_ext. intros j Hj. rewrite twin_fm, Q_sym by assumption. rewrite ldl_sym. ring.
  - rewrite (form_solve n M0 (Q i) (fun j => if Nat.eqb j i then 1 else 0)); [rewrite Nat.eqb_sym; reflexivity| |exact Hk].
    intros y. rewrite (Q_form i y Hi). symmetry. apply (sumn_delta_l n i y Hi).
Qed.

Lemma twin_mv v i : (i < n)%nat -> mv n (fm (mq (twin n s))) v i = fv (st_q n s (tab n v)) i.
Proof.
  intros Hi. apply (inverse_apply n _ _ (fv (st_q n s (tab n v))) v twin_inv); [|exact Hi].
  apply form_solve. intros y. unfold M0. rewrite (st_form n p s (tab n v) Hok (tab_length n v)).
  apply dot_ext; [intros; apply tab_fv; assumption|reflexivity].
Qed.

Lemma twin_ok : mat_wf n (mq (twin n s)) /\ vec_wf n (xc (twin n s)) /\ calc_for n p (helper (twin n s)) /\
  symmetric n (fm (mq (twin n s))) /\ posdef n (fm (mq (twin n s))) /\ agree n (twin n s) s.
Proof.
  split; [|split; [apply Hok|split; [apply Hok|split; [|split]]]].
  - split; [cbn [mq twin]; rewrite map_length; apply seq_length|].
    intros i Hi. cbn [mq twin].
    pose proof (nth_map_gen (fun i => tab n (fun k => fv (st_q n s (unit_vec n k)) i)) (seq 0 n) i 0%nat []) as E.
    rewrite seq_length in E. specialize (E Hi). exact (eq_trans (f_equal (@length R) E) (tab_length _ _)).
  - intros i j Hi Hj. rewrite !twin_fm by assumption. apply Q_sym; assumption.
  - intros v Hv. unfold quad, bil.
    rewrite (dot_ext n v _ (fv (tab n v)) (fv (st_q n s (tab n v)))); [|intros; rewrite tab_fv by assumption; reflexivity|apply twin_mv].
    rewrite <- (st_om_form n p s (tab n v) Hok (tab_length n v)).
    apply (st_om_pos n p s (tab n v) Hok (tab_length n v)).
    destruct Hv as (i & Hi & Hvi). exists i. split; [exact Hi|]. rewrite tab_fv by exact Hi. exact Hvi.
  - repeat split. exact twin_inv.
Qed.

Lemma twin_npd : 0 <= s_kappa s -> npd n p (twin n s).
Proof. intros Hk. destruct twin_ok as (H1 & H2 & H3 & H4 & H5 & _). exact (conj H1 (conj H2 (conj H3 (conj H4 (conj H5 Hk))))). Qed.

Lemma stable_in_k x : stable_in n s x -> 0 <= s_kappa s.
Proof. intros H. eapply Rle_trans; [|exact H]. apply form_ge_0. apply Hok. Qed.

Lemma twin_in x : ell_in n (twin n s) x <-> stable_in n s x.
Proof. apply same_set; apply twin_ok. Qed.

Lemma stable_cs (g : vec RA) x : length g = n -> stable_in n s x ->
  cutval n (fv g) (fv (s_xc s)) x * cutval n (fv g) (fv (s_xc s)) x <= s_kappa s * st_om n s g.
Proof.
  intros Hg Hx. pose proof (stable_in_k x Hx) as Hk. apply twin_in in Hx.
  destruct twin_ok as (H1 & H2 & H3 & H4 & H5 & H6).
  pose proof (cutval_sq_le n (fm (mq (twin n s))) (fv g) (fv (xc (twin n s))) H4 (posdef_semi _ _ H5) _ _ Hx) as H.
  rewrite (q_om n p (twin n s) s g Hok H6 Hg) in H. exact H.
Qed.
End Twin.

(** ** The update, unfolded *)
Lemma st_gen n p s (g : vec RA) k beta : stable_ok n p s -> length g = n ->
  stable_update k (g, beta) s =
    match strat_of k (s_helper s) beta (s_kappa s * st_om n s g) with
    | Err x => (st_pre n s g, Err x)
    | Ok (status, None) => (st_pre n s g, Ok status)
    | Ok (status, Some (rho, sigma, delta)) =>
      match pdiv (A:=RA) rho (st_om n s g) with
      | Err x => (st_pre n s g, Err x)
      | Ok ro =>
        let e2 := mkStable (s_no_defer_trick s) (st_m1 n s g) (st_move n s g rho) (s_kappa s) (s_kappa s * st_om n s g : num RA) n (s_helper s) in
        match pdiv (A:=RA) sigma (1 - sigma) with
        | Err x => (e2, Err x)
        | Ok mu => if Reqb mu 0 then (e2, Ok status)
            else let '(m2, r) := rank1_loop n (st_z n s g) (seq 0 n) (st_m1 n s g) g (st_om n s g / mu : num RA) in
            match r with
            | Err x => (mkStable (s_no_defer_trick s) m2 (st_move n s g rho) (s_kappa s) (s_kappa s * st_om n s g : num RA) n (s_helper s), Err x)
            | Ok _ => ((if s_no_defer_trick s then
               mkStable (s_no_defer_trick s) (mscale (A:=RA) (s_kappa s * delta) m2) (st_move n s g rho) (1 : num RA) (s_kappa s * st_om n s g : num RA) n (s_helper s)
               else mkStable (s_no_defer_trick s) m2 (st_move n s g rho) (s_kappa s * delta : num RA) (s_kappa s * st_om n s g : num RA) n (s_helper s)), Ok status)
            end
        end
      end
    end.
Proof.
  intros Hok Hg.
  assert (Hnd : s_ndim s = n) by apply Hok.
  assert (E : forall A (f : mat RA -> vec RA -> A), (let '(m1, w) := fwd_subst n (s_mq s) g in f m1 w) = f (st_m1 n s g) (st_w n s g)).
  { intros A f. unfold st_m1, st_w. destruct (fwd_subst n (s_mq s) g). reflexivity. }
  rewrite stable_update_core_eq. unfold stable_update_core. rewrite Hnd.
  rewrite (fits_ok n p s g Hok Hg).
  rewrite E. fold (st_z n s g). fold (st_q n s g).
  change (@amul RA (s_kappa s) (vsum (map2 amul (st_w n s g) (st_z n s g)))) with (s_kappa s * st_om n s g).
  destruct (strat_of k (s_helper s) beta (s_kappa s * st_om n s g)) as [[st [[[rho sigma] delta]|]]|x]; [|reflexivity|reflexivity].
  change (vsum (map2 amul (st_w n s g) (st_z n s g))) with (st_om n s g).
  destruct (Req_dec (st_om n s g) 0) as [H0|H0].
  { assert (Ep : pdiv (A:=RA) rho (st_om n s g) = Err ZeroDivision) by (rewrite H0; apply pdiv_zero).
    rewrite ndiv_R, !Ep. reflexivity. }
  rewrite ndiv_R, !(pdiv_ok _ (st_om n s g)) by exact H0. rewrite (st_q_len n p s g Hok Hg). cbn [negb].
  change (@asub RA aone sigma) with (1 - sigma). cbv zeta.
  destruct (pdiv (A:=RA) sigma (1 - sigma)) as [mu|]; [|reflexivity].
  change (@aeqb RA mu azero) with (Reqb mu 0). destruct (Reqb mu 0); [reflexivity|].
  change (@adiv RA (st_om n s g) mu) with (st_om n s g / mu).
  destruct (rank1_loop n (st_z n s g) (seq 0 n) (st_m1 n s g) g (st_om n s g / mu : num RA)) as [m2 [[]|]]; [|reflexivity].
  destruct (s_no_defer_trick s); reflexivity.
Qed.

Lemma pdiv_err (a b : num RA) x : pdiv a b = Err x -> x = ZeroDivision.
Proof. unfold pdiv. destruct (aeqb b azero); [intros H; injection H; auto|discriminate]. Qed.

Lemma rank1_err n z js : forall (m : mat RA) v t m' x, rank1_loop n z js m v t = (m', Err x) -> x = ZeroDivision.
Proof.
  induction js as [|j js IH]; intros m v t m' x; [discriminate|]. cbn [rank1_loop].
  rewrite ndiv_R. destruct (pdiv _ _) eqn:E.
  - destruct (fold_left _ _ _). apply IH.
  - intros H. injection H as _ <-. exact (pdiv_err _ _ _ E).
Qed.

(** a zero gradient has [omega = 0] *)
Lemma st_om_zero n p s g : stable_ok n p s -> length g = n -> ~ nonzero n (fv g) -> st_om n s g = 0.
Proof.
  intros Hok Hg Hz. rewrite (st_om_form n p s g Hok Hg). apply sumn_0. intros i Hi.
  destruct (Req_dec (fv g i) 0) as [->|E]; [ring|]. exfalso. apply Hz. exists i. auto.
Qed.

Lemma pre_same n p s g : stable_ok n p s -> length g = n ->
  stable_ok n p (st_pre n s g) /\ (forall x, stable_in n (st_pre n s g) x <-> stable_in n s x) /\
  (forall i j, (j <= i < n)%nat -> fm (s_mq (st_pre n s g)) i j = fm (s_mq s) i j).
Proof.
  intros Hok Hg. pose proof (st_m1_same n p s g Hok Hg) as Hs. split; [|split].
  - apply (pre_ok n p s g Hok Hg). apply Hok.
  - intros x. unfold stable_in. cbn [s_mq s_xc s_kappa st_pre].
    rewrite (sumn_ext n _ (fun j => tL n (fm (s_mq s)) (fun i => x i - fv (s_xc s) i) j
                 * tL n (fm (s_mq s)) (fun i => x i - fv (s_xc s) i) j / fm (s_mq s) j j)); [reflexivity|].
    intros j Hj. rewrite (Hs j j) by lia.
    replace (tL n (fm (st_m1 n s g)) (fun i => x i - fv (s_xc s) i) j) with (tL n (fm (s_mq s)) (fun i => x i - fv (s_xc s) i) j);
      [reflexivity|].
    apply sumn_ext. intros i Hi. rewrite (low_same_lowf n _ _ Hs) by assumption. reflexivity.
  - intros i j Hij. apply Hs. exact Hij.
Qed.

(** ** Gradients that do not fit *)
Lemma low_keep n p s (m : mat RA) (t : num RA) : stable_ok n p s -> mat_wf n m -> low_same n (fm (s_mq s)) (fm m) ->
  let s1 := mkStable (s_no_defer_trick s) m (s_xc s) (s_kappa s) t n (s_helper s) in
  stable_ok n p s1 /\ s_xc s1 = s_xc s /\ s_kappa s1 = s_kappa s /\ s_helper s1 = s_helper s /\
  s_no_defer_trick s1 = s_no_defer_trick s /\
  (forall i j, (j <= i < n)%nat -> fm (s_mq s1) i j = fm (s_mq s) i j) /\
  (forall x, stable_in n s1 x <-> stable_in n s x).
Proof.
  intros Hok Hw Hs. cbv zeta. cbn [s_mq s_xc s_kappa s_helper s_no_defer_trick].
  destruct Hok as (H1 & H2 & H3 & H4 & H5).
  split; [|split; [reflexivity|split; [reflexivity|split; [reflexivity|split; [reflexivity|split]]]]].
  - split; [exact Hw|]. split; [exact H2|]. split; [reflexivity|]. split; [exact H4|].
    intros j Hj. cbn [s_mq]. rewrite (Hs j j) by lia. apply H5, Hj.
  - intros i j Hij. apply Hs. exact Hij.
  - intros x. unfold stable_in. cbn [s_mq s_xc s_kappa].
    rewrite (sumn_ext n _ (fun j => tL n (fm (s_mq s)) (fun i => x i - fv (s_xc s) i) j
                 * tL n (fm (s_mq s)) (fun i => x i - fv (s_xc s) i) j / fm (s_mq s) j j)); [reflexivity|].
    intros j Hj. rewrite (Hs j j) by lia.
    replace (tL n (fm m) (fun i => x i - fv (s_xc s) i) j) with (tL n (fm (s_mq s)) (fun i => x i - fv (s_xc s) i) j);
      [reflexivity|].
    apply sumn_ext. intros i Hi. rewrite (low_same_lowf n _ _ Hs) by assumption. reflexivity.
Qed.

Lemma squares_up (b : list R) : forall x, x <= fold_left Rplus (map2 Rmult b b) x.
Proof.
  induction b as [|y b IH]; intros x; cbn [map2 fold_left]; [lra|].
  eapply Rle_trans; [|apply IH]. nra.
Qed.

Lemma bad_len_stable n p s k (g : vec RA) beta s1 o : stable_ok n p s -> length g <> n ->
  stable_update k (g, beta) s = (s1, o) ->
  (stable_ok n p s1 /\ s_xc s1 = s_xc s /\ s_kappa s1 = s_kappa s /\ s_helper s1 = s_helper s /\
  s_no_defer_trick s1 = s_no_defer_trick s /\
  (forall i j, (j <= i < n)%nat -> fm (s_mq s1) i j = fm (s_mq s) i j) /\
  (forall x, stable_in n s1 x <-> stable_in n s x)) /\
  o <> Ok Success /\
  forall st, o = Ok st -> (n < length g)%nat /\ strat_of k (s_helper s) beta (s_tsq s1) = Ok (st, None) /\
    (0 <= s_kappa s -> s_kappa s * st_om n s (firstn n g) <= s_tsq s1).
Proof.
  intros Hok Hg Hu. rewrite stable_update_core_eq in Hu.
  assert (Hnd : s_ndim s = n) by apply Hok.
  assert (Hl : length (s_mq s) = n) by (destruct Hok as ((H & _) & _); exact H).
  assert (Hlt : (length g < n)%nat \/ (n < length g)%nat) by (generalize Hg; clear; lia).
  destruct Hlt as [Hlt|Hlt].
  - rewrite (short_update (strat_of k) g beta s) in Hu by (left; rewrite Hnd; exact Hlt).
    injection Hu as <- <-. split; [|split; discriminate].
    destruct (short_keep (s_mq s) g) as (K1 & K2 & K3). rewrite Hnd. apply (low_keep n p s).
    + exact Hok.
    + split; [etransitivity; [exact K1|exact Hl]|]. intros i Hi. etransitivity; [apply (K2 i)|].
      destruct Hok as ((_ & H) & _). apply H, Hi.
    + intros i j Hij. apply (K3 i j). lia.
  - assert (Eg : g = firstn n g ++ skipn n g) by (symmetry; apply firstn_skipn).
    assert (La : length (firstn n g) = n) by (apply firstn_length_le; generalize Hlt; clear; lia).
    rewrite Eg in Hu. rewrite (long_update (strat_of k)) in Hu.
    2:{ rewrite Hnd. exact La. }
    2:{ rewrite Hnd. apply Nat.eq_le_incl. symmetry. exact Hl. }
    2:{ rewrite <- Eg. intros E. apply Hg. rewrite <- E. apply Hok. }
    assert (Hs1 : s1 = long_pre s (firstn n g) (skipn n g)) by congruence.
    assert (Ho : snd (s1, o) = snd (long_pre s (firstn n g) (skipn n g), o)) by reflexivity.
    injection Hu as _ Hu. split; [|split].
    + rewrite Hs1. unfold long_pre. rewrite Hnd.
      destruct (st_fwd n p s (firstn n g) Hok La) as (F1 & _ & F3 & _).
      apply (low_keep n p s); [exact Hok|exact F1|exact F3].
    + intros ->. destruct (strat_of _ _ _ _) as [[st [[[rho sigma] delta]|]]|x] eqn:Es; [| |discriminate].
      * destruct (ndiv _ _) in Hu; discriminate.
      * injection Hu as ->. exact (success_triple _ _ _ _ Es).
    + intros st ->. split; [exact Hlt|]. rewrite Hs1.
      destruct (strat_of _ _ _ _) as [[st' [[[rho sigma] delta]|]]|x] eqn:Es; [| |discriminate].
      * destruct (ndiv _ _) in Hu; discriminate.
      * injection Hu as ->. split; [reflexivity|]. intros Hk. unfold long_pre. cbn [s_tsq].
        apply (Rmult_le_compat_l (s_kappa s)); [exact Hk|]. rewrite Hnd. apply (squares_up (skipn n g)).
Qed.

(** ** Outcomes other than Success *)
Lemma stable_unchanged n p s k ct s1 o : stable_ok n p s -> stable_update k ct s = (s1, o) ->
  o <> Ok Success -> o <> Err ZeroDivision ->
  stable_ok n p s1 /\ s_xc s1 = s_xc s /\ s_kappa s1 = s_kappa s /\ s_helper s1 = s_helper s /\
  s_no_defer_trick s1 = s_no_defer_trick s /\
  (forall i j, (j <= i < n)%nat -> fm (s_mq s1) i j = fm (s_mq s) i j) /\
  (forall x, stable_in n s1 x <-> stable_in n s x).
Proof.
  intros Hok Hu Ho Ho2. destruct ct as [g beta].
  assert (Hpre : length g = n -> s1 = st_pre n s g -> stable_ok n p s1 /\ s_xc s1 = s_xc s /\ s_kappa s1 = s_kappa s /\ s_helper s1 = s_helper s /\
    s_no_defer_trick s1 = s_no_defer_trick s /\
    (forall i j, (j <= i < n)%nat -> fm (s_mq s1) i j = fm (s_mq s) i j) /\
    (forall x, stable_in n s1 x <-> stable_in n s x)).
  { intros Hg ->. destruct (pre_same n p s g Hok Hg) as (P1 & P2 & P3). repeat split; try apply P1; try apply P2; auto. }
  destruct (Nat.eq_dec (length g) n) as [Hg|Hg].
  2:{ apply (bad_len_stable n p s k g beta s1 o Hok Hg Hu). }
  rewrite (st_gen n p s g k beta Hok Hg) in Hu.
  destruct (strat_of _ _ _ _) as [[st [[[rho sigma] delta]|]]|x] eqn:Es.
  - exfalso. pose proof (triple_success _ _ _ _ _ _ Es) as ->.
    destruct (pdiv rho _) eqn:E1; [|injection Hu as _ <-; apply pdiv_err in E1; congruence].
    cbv zeta in Hu. destruct (pdiv sigma _) eqn:E2; [|injection Hu as _ <-; apply pdiv_err in E2; congruence].
    destruct (Reqb _ _) in Hu; [congruence|].
    destruct (rank1_loop _ _ _ _ _ _) as [m2 [u|x]] eqn:E3; [congruence|].
    injection Hu as _ <-. apply rank1_err in E3. congruence.
  - injection Hu as <- <-. auto.
  - injection Hu as <- <-. auto.
Qed.

(** ** Accepted cuts *)
Lemma nz_dec n (v : nat -> R) : nonzero n v \/ ~ nonzero n v.
Proof.
  induction n as [|m IH].
  - right. intros (i & Hi & _). lia.
  - destruct (Req_dec (v m) 0) as [E|E]; [|left; exists m; auto].
    destruct IH as [(i & Hi & Hv)|Hn]; [left; exists i; auto|right].
    intros (i & Hi & Hv). apply Hn. exists i. split; [|exact Hv].
    destruct (Nat.eq_dec i m) as [->|]; [contradiction|lia].
Qed.

Lemma stable_tsq n p s k (g : vec RA) beta s1 o : stable_ok n p s -> length g = n -> stable_update k (g, beta) s = (s1, o) ->
  s_tsq s1 = s_kappa s * st_om n s g.
Proof.
  intros Hok Hg Hu. rewrite (st_gen n p s g k beta Hok Hg) in Hu.
  destruct (strat_of _ _ _ _) as [[st [[[rho sigma] delta]|]]|x]; [|injection Hu as <- _; reflexivity|injection Hu as <- _; reflexivity].
  destruct (pdiv rho _); [|injection Hu as <- _; reflexivity]. cbv zeta in Hu.
  destruct (pdiv sigma _); [|injection Hu as <- _; reflexivity].
  destruct (Reqb _ _) in Hu; [injection Hu as <- _; reflexivity|].
  destruct (rank1_loop _ _ _ _ _ _) as [m2 [u|x]]; [|injection Hu as <- _; reflexivity].
  destruct (s_no_defer_trick s) in Hu; injection Hu as <- _; reflexivity.
Qed.

Lemma stable_success n p s k (g : vec RA) beta s1 : stable_ok n p s -> stable_update k (g, beta) s = (s1, Ok Success) ->
  length g = n /\ nonzero n (fv g) /\
  exists rho sigma delta, strat_of k (s_helper s) beta (s_kappa s * st_om n s g) = Ok (Success, Some (rho, sigma, delta)) /\
    sigma <> 1.
Proof.
  intros Hok Hu.
  destruct (Nat.eq_dec (length g) n) as [Hg|Hg].
  2:{ destruct (bad_len_stable n p s k g beta s1 _ Hok Hg Hu) as (_ & H & _). congruence. }
  split; [exact Hg|]. rewrite (st_gen n p s g k beta Hok Hg) in Hu.
  destruct (strat_of _ _ _ _) as [[st [[[rho sigma] delta]|]]|x] eqn:Es; [| |discriminate].
  2:{ injection Hu as _ ->. exfalso. exact (success_triple _ _ _ _ Es). }
  pose proof (triple_success _ _ _ _ _ _ Es) as ->.
  destruct (nz_dec n (fv g)) as [Hz|Hz].
  - split; [exact Hz|]. exists rho, sigma, delta. split; [reflexivity|]. intros ->.
    destruct (pdiv rho _); [|discriminate]. cbv zeta in Hu.
    replace (1 - 1) with 0 in Hu by ring. rewrite pdiv_zero in Hu. discriminate.
  - rewrite (st_om_zero n p s g Hok Hg Hz) in Hu. rewrite pdiv_zero in Hu. discriminate.
Qed.

(** C20 for [EllStable] *)
Lemma stable_contain n p s k ct s1 x : stable_ok n p s -> s_no_defer_trick s = false ->
  stable_update k ct s = (s1, Ok Success) -> bias_cond n k p (snd ct) (s_tsq s1) ->
  stable_in n s x -> cut_holds k p (snd ct) (cutval n (fv (fst ct)) (fv (s_xc s)) x) ->
  stable_ok n p s1 /\ s_no_defer_trick s1 = false /\ stable_in n s1 x.
Proof.
  intros Hok Hf Hu Hb Hx Hs. destruct ct as [g beta]. cbn [fst snd] in *.
  destruct (stable_success n p s k g beta s1 Hok Hu) as (Hg & Hz & rho & sigma & delta & Es & Hne).
  rewrite (stable_tsq n p s k g beta s1 _ Hok Hg Hu) in Hb.
  pose proof (stable_in_k n p s Hok x Hx) as Hk.
  pose proof (twin_npd n p s Hok Hk) as Hpd. pose proof (proj2 (proj2 (proj2 (proj2 (proj2 (twin_ok n p s Hok)))))) as Hag.
  set (e := twin n s) in *.
  assert (Hq : quad n (fm (mq e)) (fv g) = st_om n s g) by apply (q_om n p e s g Hok Hag Hg).
  pose proof (st_om_pos n p s g Hok Hg Hz) as Hom.
  destruct (ell_update k (g, beta) e) as [e1 o] eqn:Eu.
  assert (Eo : o = Ok Success /\ e1 = new_ell e g (st_om n s g) rho sigma delta).
  { rewrite (update_eq n e g beta) in Eu; [|apply Hpd|apply Hpd|exact Hg|exact Hz|rewrite Hq; lra].
    rewrite Hq in Eu. change (kappa e) with (s_kappa s) in Eu. change (helper e) with (s_helper s) in Eu.
    rewrite Es in Eu. injection Eu as <- <-. auto. }
  destruct Eo as [-> He1].
  assert (Hin : psd_ell n p e1 /\ ell_in n e1 x).
  { apply (step_contain n p e k (g, beta) e1 x); [apply npd_psd, Hpd|exact Eu| |apply (twin_in n p s Hok), Hx|exact Hs].
    unfold cut_tsq. cbn [fst snd]. rewrite Hq. exact Hb. }
  destruct Hin as [Hpsd1 Hin1].
  assert (Hlt : sigma < 1).
  { assert (Hle : sigma <= 1).
    { destruct Hpsd1 as (_ & _ & _ & _ & Hp1). specialize (Hp1 (fv g)).
      unfold quad in Hp1. rewrite (bil_ext n _ (cutM n (fm (mq e)) (fv g) (st_om n s g) sigma) (fv g) (fv g) (fv g) (fv g)) in Hp1.
      - rewrite <- Hq in Hp1. rewrite bil_cutM in Hp1 by apply Hpd.
        change (bil n (fm (mq e)) (fv g) (fv g)) with (quad n (fm (mq e)) (fv g)) in Hp1. rewrite Hq in Hp1.
        set (w := st_om n s g) in *.
        replace (w - sigma / w * (w * w)) with (w * (1 - sigma)) in Hp1 by (field; lra).
        clear - Hp1 Hom. clearbody w. change (num RA) with R in *. nra.
      - intros i j Hi Hj. rewrite He1, <- Hq. rewrite (new_mq n e g (proj1 Hpd) Hg rho sigma delta i j Hi Hj).
        change (no_defer_trick e) with false. cbv iota. ring.
      - reflexivity.
      - reflexivity. }
    clear - Hle Hne. change (num RA) with R in *. lra. }
  destruct (step_agree n p e s g Hpd Hok Hag Hg Hz k beta e1 (Ok Success) eq_refl Hf Eu) as (s1' & Es1 & Hok1 & Hag1 & Hf1 & _).
  { intros r' s' d' E'. rewrite Hq in E'. change (kappa e) with (s_kappa s) in E'. change (helper e) with (s_helper s) in E'.
    pose proof (eq_trans (eq_sym Es) E') as E. injection E as _ <- _. exact Hlt. }
  rewrite Hu in Es1. injection Es1 as <-. split; [exact Hok1|]. split; [exact Hf1|].
  apply (same_set n e1 s1); [apply Hpsd1|exact Hag1|exact Hin1].
Qed.

(** C22 for [EllStable] *)
Lemma stable_nosoln n p s k ct s1 : stable_ok n p s -> stable_update k ct s = (s1, Ok NoSoln) ->
  forall x, stable_in n s x -> ~ cut_holds k p (snd ct) (cutval n (fv (fst ct)) (fv (s_xc s)) x).
Proof.
  intros Hok Hu x Hx Hs. destruct ct as [g beta]. cbn [fst snd] in *.
  destruct (Nat.eq_dec (length g) n) as [Hg|Hg].
  2:{ destruct (bad_len_stable n p s k g beta s1 _ Hok Hg Hu) as (_ & _ & H).
      destruct (H NoSoln eq_refl) as (Hlt & Es & Hle).
      pose proof (stable_in_k n p s Hok x Hx) as Hk. specialize (Hle Hk).
      assert (La : length (firstn n g) = n) by (apply firstn_length_le; generalize Hlt; clear; lia).
      assert (Ec : cutval n (fv g) (fv (s_xc s)) x = cutval n (fv (firstn n g)) (fv (s_xc s)) x).
      { apply sumn_ext. intros i Hi. f_equal. unfold fv. rewrite <- (firstn_skipn n g) at 1.
        apply app_nth1. apply Nat.lt_le_trans with n; [exact Hi|]. apply Nat.eq_le_incl. symmetry. exact La. }
      pose proof (stable_cs n p s Hok (firstn n g) x La Hx) as Ht. rewrite <- Ec in Ht.
      pose proof (st_om_ge_0 n p s (firstn n g) Hok La) as Hom.
      refine (nosoln_empty k (s_helper s) p beta _ None _ _ _ Es (Rle_trans _ _ _ Ht Hle) Hs).
      - destruct (calc_for_R n p (s_helper s)) as [_ ->]; [apply Hok|]. reflexivity.
      - eapply Rle_trans; [|exact Hle]. apply Rmult_le_pos; assumption. }
  pose proof (stable_cs n p s Hok g x Hg Hx) as Ht.
  pose proof (stable_in_k n p s Hok x Hx) as Hk. pose proof (st_om_ge_0 n p s g Hok Hg) as Hom.
  rewrite (st_gen n p s g k beta Hok Hg) in Hu.
  destruct (strat_of _ _ _ _) as [[st [[[rho sigma] delta]|]]|y] eqn:Es; [| |discriminate].
  - pose proof (triple_success _ _ _ _ _ _ Es) as ->.
    destruct (pdiv rho _); [|discriminate]. cbv zeta in Hu. destruct (pdiv sigma _); [|discriminate].
    destruct (Reqb _ _) in Hu; [discriminate|]. destruct (rank1_loop _ _ _ _ _ _) as [m2 [u|z]]; [|discriminate].
    destruct (s_no_defer_trick s) in Hu; discriminate.
  - injection Hu as _ ->. refine (nosoln_empty k (s_helper s) p beta _ None _ _ _ Es Ht Hs).
    + destruct (calc_for_R n p (s_helper s)) as [_ ->]; [apply Hok|]. reflexivity.
    + apply Rmult_le_pos; assumption.
Qed.

Lemma stable_near n p s k ct s1 o x : stable_ok n p s -> stable_update k ct s = (s1, o) -> vec_wf n (fst ct) ->
  stable_in n s x ->
  cutval n (fv (fst ct)) (fv (s_xc s)) x * cutval n (fv (fst ct)) (fv (s_xc s)) x <= s_tsq s1.
Proof.
  intros Hok Hu Hg Hx. destruct ct as [g beta]. cbn [fst] in *.
  rewrite (stable_tsq n p s k g beta s1 o Hok Hg Hu). apply (stable_cs n p s Hok); assumption.
Qed.

(** ** Construction *)
Lemma diag_lowf n (m : mat RA) d : (forall i j, (i < n)%nat -> (j < n)%nat -> fm m i j = if Nat.eqb i j then d i else 0) ->
  forall i j, (i < n)%nat -> (j < n)%nat -> lowf (fm m) i j = if Nat.eqb i j then 1 else 0.
Proof.
  intros H i j Hi Hj. unfold lowf. destruct (Nat.ltb_spec j i) as [Hlt|Hge]; [|reflexivity].
  rewrite H by assumption. replace (Nat.eqb i j) with false; [reflexivity|]. symmetry. apply Nat.eqb_neq. lia.
Qed.

Lemma init_agree n v x0 (e : ell RA) : ell_init v x0 = Ok e -> vec_wf n x0 -> val_pos n v ->
  exists s, stable_init v x0 = Ok s /\ stable_ok n true s /\ agree n e s /\ s_no_defer_trick s = false /\ no_defer_trick e = false.
Proof.
  intros H Hx Hv. pose proof (init_pd n v x0 e H Hx Hv) as Hpd.
  destruct (init_inv v x0 e H) as (Hn & Hh & Hxc & Ht & Hf & Hm & Hk).
  destruct (init_entries v x0 e H) as [Hw Hent].
  { destruct v; [exact I|]. unfold vec_wf in Hx. exact (eq_trans (proj1 Hv) (eq_sym Hx)). }
  assert (Es : stable_init v x0 = Ok (mkStable false (mq e) (xc e) (kappa e) (tsq e) (length x0) (helper e))).
  { unfold stable_init. rewrite calc_init_R by exact Hn. cbn [bind]. rewrite Hm, Hk, Ht, Hh, Hxc. destruct v; reflexivity. }
  eexists. split; [exact Es|]. unfold vec_wf in Hx. subst n.
  set (d := fun i => match v with VScalar _ => 1 | VDiag d => fv d i end).
  change (forall i j, (i < length x0)%nat -> (j < length x0)%nat -> fm (mq e) i j = if Nat.eqb i j then d i else 0) in Hent.
  assert (Hd : forall i, (i < length x0)%nat -> 0 < d i).
  { intros i Hi. unfold d. destruct v; [lra|apply Hv, Hi]. }
  split; [|split; [|auto]].
  - split; [exact Hw|]. split; [unfold vec_wf; cbn [s_xc]; rewrite Hxc; reflexivity|]. split; [reflexivity|].
    split; [apply Hpd|]. intros j Hj. cbn [s_mq]. rewrite Hent by assumption. rewrite Nat.eqb_refl. apply Hd, Hj.
  - repeat split. cbn [s_mq]. intros i k Hi Hk'. set (n := length x0) in *.
    rewrite (sumn_ext n _ (fun j => (if Nat.eqb j i then 1 else 0) * (d i * ldl n (fm (mq e)) i k))).
    2:{ intros j Hj. rewrite Hent by assumption. rewrite (Nat.eqb_sym i j). destruct (Nat.eqb_spec j i) as [->|]; [exact (eq_sym (Rmult_1_l _))|ring]. }
    rewrite (sumn_delta_l n i (fun _ => d i * ldl n (fm (mq e)) i k) Hi). unfold ldl.
    rewrite (sumn_ext n _ (fun j => (if Nat.eqb j i then 1 else 0) * ((if Nat.eqb i k then 1 else 0) / d i))).
    + rewrite (sumn_delta_l n i (fun _ => (if Nat.eqb i k then 1 else 0) / d i) Hi). field. specialize (Hd i Hi). lra.
    + intros j Hj. rewrite !(diag_lowf n (mq e) d Hent) by assumption. rewrite (Nat.eqb_sym i j).
      destruct (Nat.eqb_spec j i) as [->|]; [|unfold Rdiv; ring].
      rewrite Hent by assumption. rewrite Nat.eqb_refl. rewrite (Nat.eqb_sym k i). unfold Rdiv. ring.
Qed.

Lemma init_fail v (x0 : vec RA) x : ell_init v x0 = Err x <-> stable_init v x0 = Err x.
Proof. unfold ell_init, stable_init. destruct (calc_init (length x0)); cbn [bind]; [destruct v; split; discriminate|split; intros H; injection H as ->; reflexivity]. Qed.

Lemma stable_set_parallel_ok n p q s : stable_ok n p s -> stable_ok n q (stable_set_parallel s q).
Proof.
  intros (H1 & H2 & H3 & (c0 & Hc & E) & H5). repeat split; try apply H1; try assumption.
  exists c0. split; [exact Hc|]. cbn. rewrite E. reflexivity.
Qed.
