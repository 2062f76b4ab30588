(** One update of [EllStable] against one update of [Ell]. *)
From Coq Require Import Reals List Arith Lia Lra Psatz Bool.
From Verif Require Import Arith Vec ModelCalc ModelEll ModelStable SpecDrivers Spec SpecCut SpecEll SpecStable
  PSum PAlg PCalc PCalc2 PCalc3 PCalc5 PVec PGeo PEll PEll2 PEll3 PStable PStable2 PStableLen.
Import ListNotations.
Local Open Scope R_scope.

Lemma stable_update_core_eq k ct s : stable_update k ct s = stable_update_core (strat_of k) ct s.
Proof. destruct k; reflexivity. Qed.

Lemma sigma0_delta1 n p k beta T rho delta : (2 <= n)%nat -> 0 < T ->
  strat_of k (calc_R p n) beta T = Ok (Success, Some (rho, 0, delta)) -> delta = 1.
Proof.
  intros Hn HT Hs. pose proof (INR_ge_2 n Hn) as HN.
  destruct (strat_win n p k beta T _ Hn HT Hs) as (e & r' & s' & d' & He & Hr & Hw).
  injection Hr as <- <- <-.
  assert (Ht : 0 < sqrt T) by (apply sqrt_lt_R0, HT).
  destruct Hw as [b0 Hcase Hb0 Hb0q Heta -> Hsg ->|a b -> Hab HbT Hre Hq -> Hsg ->].
  - assert (Hbl : - sqrt T < b0) by nra.
    pose proof (sg_sigma_pos n T Hn b0 Hbl Heta). lra.
  - pose proof (delta_identity (INR n) T a b HN HT Hab Hre) as H. rewrite <- Hsg in H. nra.
Qed.

(** ** The quadratic form of the factors *)
Section Form.
Variables (n : nat) (M : nat -> nat -> R).

Definition form (x y : nat -> R) : R := sumn n (fun j => tL n M x j * tL n M y j / M j j).

Lemma form_ldl x y : form x y = sumn n (fun i => x i * sumn n (fun k => ldl n M i k * y k)).
Proof.
  unfold form, ldl, tL.
  transitivity (sumn n (fun j => sumn n (fun i => sumn n (fun k => x i * (lowf M i j * lowf M k j / M j j * y k))))).
  - apply sumn_ext. intros j Hj. unfold Rdiv. rewrite Rmult_assoc, <- sumn_scal_r. apply sumn_ext. intros i Hi.
    rewrite (Rmult_comm (sumn n _) (/ _)), <- Rmult_assoc.
    rewrite <- sumn_scal. apply sumn_ext. intros k Hk. ring.
  - rewrite sumn_swap. apply sumn_ext. intros i Hi.
    rewrite sumn_swap.
    transitivity (sumn n (fun k => x i * (sumn n (fun j => lowf M i j * lowf M k j / M j j) * y k))).
    + apply sumn_ext. intros k Hk. rewrite <- sumn_scal_r, <- sumn_scal. reflexivity.
    + rewrite sumn_scal. reflexivity.
Qed.

Lemma form_ge_0 x : (forall j, (j < n)%nat -> 0 < M j j) -> 0 <= form x x.
Proof.
  intros H. apply sumn_ge_0. intros j Hj. apply Rle_mult_inv_pos; [apply Rle_0_sqr|apply H, Hj].
Qed.

Lemma ldl_sym i k : ldl n M i k = ldl n M k i.
Proof. apply sumn_ext. intros j Hj. unfold Rdiv. ring. Qed.

Lemma form_sym x y : form x y = form y x.
Proof. apply sumn_ext. intros j Hj. unfold Rdiv. ring. Qed.

(** [P q = g] as soon as [form q y = g . y] for all [y] *)
Lemma form_solve q g : (forall y, form q y = dot n g y) ->
  forall k, (k < n)%nat -> sumn n (fun i => ldl n M k i * q i) = g k.
Proof.
  intros H k Hk. pose proof (H (fun i => if Nat.eqb i k then 1 else 0)) as E.
  rewrite form_sym, form_ldl in E. unfold dot in E.
  rewrite (sumn_delta_r n k g Hk) in E.
  rewrite (sumn_delta_l n k (fun i => sumn n (fun j => ldl n M i j * q j)) Hk) in E. exact E.
Qed.
End Form.

Lemma inverse_apply n M P q g : inverse n M P ->
  (forall k, (k < n)%nat -> sumn n (fun i => P k i * q i) = g k) ->
  forall i, (i < n)%nat -> mv n M g i = q i.
Proof.
  intros HI Hq i Hi. unfold mv.
  rewrite (sumn_ext n _ (fun j => sumn n (fun k => M i j * (P j k * q k)))).
  2:{ intros j Hj. rewrite sumn_scal, Hq by exact Hj. reflexivity. }
  rewrite sumn_swap.
  rewrite (sumn_ext n _ (fun k => (if Nat.eqb k i then 1 else 0) * q k)).
  - apply sumn_delta_l, Hi.
  - intros k Hk. rewrite Nat.eqb_sym, <- (HI i k Hi Hk), <- sumn_scal_r. apply sumn_ext. intros; ring.
Qed.

(** ** One update *)
Lemma fits_ok n p s (g : vec RA) : stable_ok n p s -> length g = n ->
  (Nat.ltb (length g) n || Nat.ltb (length (s_mq s)) n) = false.
Proof.
  intros ((Hl & _) & _) Hg. apply orb_false_iff. split; apply Nat.ltb_ge; apply Nat.eq_le_incl; symmetry; [exact Hg|exact Hl].
Qed.

Section Upd.
Variables (n : nat) (p : bool) (s : stable RA) (g : vec RA).
Hypothesis Hok : stable_ok n p s.
Hypothesis Hg : length g = n.
Let M0 := fm (s_mq s).

Let Hn : (2 <= n)%nat.
Proof. destruct Hok as (_ & _ & _ & Hc & _). exact (proj1 (calc_for_R _ _ _ Hc)). Qed.

Definition st_m1 : mat RA := fst (fwd_subst n (s_mq s) g).
Definition st_w : vec RA := snd (fwd_subst n (s_mq s) g).
Definition st_z : vec RA := diag_scale n st_m1 st_w.
Definition st_q : vec RA := bwd_subst n st_m1 st_z.
Definition st_om : R := vsum (A:=RA) (map2 (@amul RA) st_w st_z).

Lemma st_fwd : mat_wf n st_m1 /\ length st_w = n /\ low_same n M0 (fm st_m1) /\
  (forall i, (i < n)%nat -> sumn n (fun j => lowf M0 i j * fv st_w j) = fv g i) /\
  (forall k i, (k < i < n)%nat -> fm st_m1 k i = M0 i k * fv st_w k).
Proof.
  destruct Hok as (Hm & _). pose proof (fwd_ok n (s_mq s) g Hm Hg ltac:(lia)) as H.
  unfold st_m1, st_w. destruct (fwd_subst n (s_mq s) g) as [m1 w]. exact H.
Qed.

Lemma st_diag i : (i < n)%nat -> fm st_m1 i i = M0 i i.
Proof. intros Hi. apply st_fwd. lia. Qed.

Lemma st_zR : length st_z = n /\ forall i, (i < n)%nat -> fv st_z i = M0 i i * fv st_w i.
Proof.
  destruct (diag_ok n st_m1 st_w) as [H1 H2]; [apply st_fwd|]. split; [exact H1|].
  intros i Hi. unfold st_z. rewrite H2, st_diag by exact Hi. ring.
Qed.

Lemma st_low i j : (i < n)%nat -> (j < n)%nat -> lowf (fm st_m1) i j = lowf M0 i j.
Proof. apply low_same_lowf, st_fwd. Qed.

Lemma st_omR : st_om = dot n (fv st_w) (fv st_z).
Proof. unfold st_om. change (vdot st_w st_z = dot n (fv st_w) (fv st_z)). apply vdot_R; [apply st_fwd|apply st_zR]. Qed.

Lemma st_qR : length st_q = n /\ forall j, (j < n)%nat -> tL n M0 (fv st_q) j = fv st_z j.
Proof.
  destruct (bwd_ok n st_m1 st_z ltac:(lia) (proj1 st_zR)) as [H1 H2]. split; [exact H1|].
  intros j Hj. rewrite <- H2 by exact Hj. apply sumn_ext. intros i Hi. rewrite st_low by assumption. reflexivity.
Qed.

Lemma st_dot x : dot n (fv g) x = dot n (fv st_w) (tL n M0 x).
Proof.
  unfold dot, tL. destruct st_fwd as (_ & _ & _ & Hf & _).
  rewrite (sumn_ext n (fun i => fv g i * x i) (fun i => sumn n (fun j => fv st_w j * (lowf M0 i j * x i)))).
  - rewrite sumn_swap. apply sumn_ext. intros j Hj. rewrite sumn_scal. reflexivity.
  - intros i Hi. rewrite <- Hf by exact Hi. rewrite <- sumn_scal_r. apply sumn_ext. intros; ring.
Qed.

Lemma st_form y : form n M0 (fv st_q) y = dot n (fv g) y.
Proof.
  rewrite st_dot. apply sumn_ext. intros j Hj. rewrite (proj2 st_qR) by exact Hj.
  rewrite (proj2 st_zR) by exact Hj. destruct Hok as (_ & _ & _ & _ & Hd). specialize (Hd j Hj). fold M0 in Hd.
  field. lra.
Qed.

Lemma st_om_form : st_om = dot n (fv g) (fv st_q).
Proof.
  rewrite st_omR, st_dot. apply dot_ext; [reflexivity|]. intros j Hj. rewrite (proj2 st_qR) by exact Hj. reflexivity.
Qed.

Lemma st_om_ge_0 : 0 <= st_om.
Proof. rewrite st_om_form, <- st_form. apply form_ge_0. apply Hok. Qed.

Lemma st_om_pos : nonzero n (fv g) -> 0 < st_om.
Proof.
  intros (i & Hi & Hgi). destruct (Rle_lt_or_eq_dec 0 st_om st_om_ge_0) as [H|H]; [exact H|exfalso].
  destruct Hok as (_ & _ & _ & _ & Hd). fold M0 in Hd.
  assert (Hw : forall j, (j < n)%nat -> fv st_w j = 0).
  { intros j Hj. rewrite st_omR in H. symmetry in H.
    assert (Hz0 : fv st_w j * fv st_z j = 0).
    { apply (sumn_eq_0 n (fun j => fv st_w j * fv st_z j)); [|exact H|exact Hj].
      intros k Hk. rewrite (proj2 st_zR) by exact Hk. specialize (Hd k Hk). pose proof (Rle_0_sqr (fv st_w k)) as Hsq. unfold Rsqr in Hsq. nra. }
    rewrite (proj2 st_zR) in Hz0 by exact Hj. specialize (Hd j Hj).
    destruct (Req_dec (fv st_w j) 0) as [|E]; [assumption|].
    assert (0 < fv st_w j * fv st_w j) by (apply Rsqr_pos_lt in E; exact E). nra. }
  apply Hgi. rewrite <- (proj1 (proj2 (proj2 (proj2 st_fwd))) i Hi). apply sumn_0. intros j Hj. rewrite Hw by exact Hj. ring.
Qed.

(** the factor update, for [mu] above -1 *)
Lemma st_rank1 mu : 0 < st_om -> mu <> 0 -> -1 < mu ->
  exists m2, rank1_loop n st_z (seq 0 n) st_m1 g (st_om / mu : num RA) = (m2, Ok tt) /\
    mat_wf n m2 /\ (forall j, (j < n)%nat -> 0 < fm m2 j j) /\
    (forall x y, form n (fm m2) x y = form n M0 x y + mu / st_om * (dot n (fv g) x * dot n (fv g) y)) /\
    prodn n (fun j => fm m2 j j) * (1 + mu) = prodn n (fun j => M0 j j).
Proof.
  intros Hom Hmu0 Hmu. destruct st_fwd as (F1 & F2 & F3 & F4 & F5). destruct st_zR as [Z1 Z2].
  pose proof Hok as (_ & _ & _ & _ & Hd).
  destruct (rank1_ok n st_z (fv st_w) Z1 n 0 st_m1 g (st_om / mu)) as (m2 & E & R1 & _ & R3 & R4 & R5).
  - reflexivity.
  - exact F1.
  - exact Hg.
  - intros a Ha. rewrite st_diag by lia. split; [apply Hd; lia|apply Z2; lia].
  - intros a k _ Hk. rewrite F5 by lia. rewrite (F3 k a) by lia. reflexivity.
  - intros i Hi. rewrite tsum0. rewrite <- F4 by lia. apply sumn_ext. intros j Hj. rewrite st_low by lia. reflexivity.
  - rewrite tsum0. fold (dot n (fv st_w) (fv st_z)). rewrite <- st_omR. unfold pos_or_neg.
    destruct (Rlt_le_dec 0 mu) as [H|H].
    + left. apply Rdiv_lt_0_compat; assumption.
    + right. assert (mu < 0) by lra. replace (st_om / mu + st_om) with (- (st_om * (1 + mu) / - mu)) by (field; lra).
      assert (0 < st_om * (1 + mu) / - mu) by (apply Rdiv_lt_0_compat; [apply Rmult_lt_0_compat; lra|lra]). lra.
  - exists m2. split; [exact E|]. split; [exact R1|]. split; [intros j Hj; apply R3; lia|]. split.
    + intros x y. specialize (R4 x y). rewrite !tsum0 in R4. unfold form. rewrite R4.
      rewrite (sumn_ext n (fun a => tL n (fm st_m1) x a * tL n (fm st_m1) y a / fm st_m1 a a)
                 (fun a => tL n M0 x a * tL n M0 y a / M0 a a)).
      2:{ intros a Ha. rewrite st_diag by exact Ha. f_equal. f_equal; apply sumn_ext; intros i Hi; rewrite st_low by assumption; reflexivity. }
      f_equal. assert (ED : forall u, tdot n 0 (fv g) u = dot n (fv g) u).
      { intros u. apply sumn_ext. intros i Hi. reflexivity. }
      rewrite !ED. field. split; lra.
    + rewrite tsum0, !tprod0 in R5. fold (dot n (fv st_w) (fv st_z)) in R5. rewrite <- st_omR in R5.
      rewrite (prodn_ext n (fun a => fm st_m1 a a) (fun j => M0 j j)) in R5 by (intros; apply st_diag; assumption).
      assert (Ht : st_om / mu <> 0).
      { intros H. apply Rmult_integral in H. destruct H as [H|H]; [lra|]. apply Rinv_neq_0_compat in Hmu0. contradiction. }
      apply (Rmult_eq_reg_r (st_om / mu)); [|exact Ht].
      rewrite <- R5. rewrite Rmult_assoc. f_equal. field. exact Hmu0.
Qed.

(** the state after the first phase *)
Definition st_pre : stable RA :=
  mkStable (s_no_defer_trick s) st_m1 (s_xc s) (s_kappa s) (s_kappa s * st_om : num RA) n (s_helper s).

Definition st_move (rho : R) : vec RA := vsub (s_xc s) (vscale (A:=RA) (rho / st_om) st_q).

Lemma st_q_len : Nat.eqb (length (s_xc s)) (length st_q) = true.
Proof.
  apply Nat.eqb_eq. unfold st_q. rewrite bwd_len. unfold st_z.
  destruct (diag_app n st_m1 st_w []) as [_ D]; [apply Nat.eq_le_incl; symmetry; apply st_fwd|].
  rewrite D. destruct st_fwd as (_ & Hw & _). transitivity n; [apply Hok|symmetry; exact Hw].
Qed.

Lemma st_update k beta : nonzero n (fv g) ->
  let T := s_kappa s * st_om in
  (forall x, strat_of k (s_helper s) beta T = Err x -> stable_update k (g, beta) s = (st_pre, Err x)) /\
  (forall st, strat_of k (s_helper s) beta T = Ok (st, None) -> stable_update k (g, beta) s = (st_pre, Ok st)) /\
  (forall st rho sigma delta, strat_of k (s_helper s) beta T = Ok (st, Some (rho, sigma, delta)) ->
    (sigma = 1 -> stable_update k (g, beta) s =
       (mkStable (s_no_defer_trick s) st_m1 (st_move rho) (s_kappa s) (T : num RA) n (s_helper s), Err ZeroDivision)) /\
    (sigma = 0 -> stable_update k (g, beta) s =
       (mkStable (s_no_defer_trick s) st_m1 (st_move rho) (s_kappa s) (T : num RA) n (s_helper s), Ok st)) /\
    (sigma < 1 -> sigma <> 0 ->
      exists m2, rank1_loop n st_z (seq 0 n) st_m1 g (st_om / (sigma / (1 - sigma)) : num RA) = (m2, Ok tt) /\
       stable_update k (g, beta) s =
       ((if s_no_defer_trick s then
          mkStable (s_no_defer_trick s) (mscale (A:=RA) (s_kappa s * delta) m2) (st_move rho) (1 : num RA) (T : num RA) n (s_helper s)
        else
          mkStable (s_no_defer_trick s) m2 (st_move rho) (s_kappa s * delta : num RA) (T : num RA) n (s_helper s)), Ok st))).
Proof.
  intros Hz T. pose proof (st_om_pos Hz) as Hom.
  assert (Hnd : s_ndim s = n) by apply Hok.
  assert (E : forall A (f : mat RA -> vec RA -> A), (let '(m1, w) := fwd_subst n (s_mq s) g in f m1 w) = f st_m1 st_w).
  { intros A f. unfold st_m1, st_w. destruct (fwd_subst n (s_mq s) g). reflexivity. }
  assert (EU : stable_update k (g, beta) s =
    match strat_of k (s_helper s) beta (T : num RA) with
    | Err x => (st_pre, Err x)
    | Ok (status, None) => (st_pre, Ok status)
    | Ok (status, Some (rho, sigma, delta)) =>
        match pdiv (A:=RA) sigma (1 - sigma) with
        | Err x => (mkStable (s_no_defer_trick s) st_m1 (st_move rho) (s_kappa s) (T : num RA) n (s_helper s), Err x)
        | Ok mu => if Reqb mu 0 then
            (mkStable (s_no_defer_trick s) st_m1 (st_move rho) (s_kappa s) (T : num RA) n (s_helper s), Ok status)
            else let '(m2, r) := rank1_loop n st_z (seq 0 n) st_m1 g (st_om / mu : num RA) in
            match r with
            | Err x => (mkStable (s_no_defer_trick s) m2 (st_move rho) (s_kappa s) (T : num RA) n (s_helper s), Err x)
            | Ok _ => ((if s_no_defer_trick s then
               mkStable (s_no_defer_trick s) (mscale (A:=RA) (s_kappa s * delta) m2) (st_move rho) (1 : num RA) (T : num RA) n (s_helper s)
               else mkStable (s_no_defer_trick s) m2 (st_move rho) (s_kappa s * delta : num RA) (T : num RA) n (s_helper s)), Ok status)
            end
        end
    end).
  { rewrite stable_update_core_eq. unfold stable_update_core. rewrite Hnd.
    rewrite (fits_ok n p s g Hok Hg).
    rewrite E. fold st_z. fold st_q.
    change (@amul RA (s_kappa s) (vsum (map2 amul st_w st_z))) with (T : num RA).
    destruct (strat_of k (s_helper s) beta T) as [[st [[[rho sigma] delta]|]]|x]; [|reflexivity|reflexivity].
    assert (Ep : pdiv (A:=RA) rho (vsum (map2 amul st_w st_z)) = Ok (rho / st_om)).
    { apply pdiv_ok. change (st_om <> 0). lra. }
    rewrite ndiv_R, Ep, st_q_len. cbn [negb]. change (@asub RA aone sigma) with (1 - sigma).
    destruct (pdiv (A:=RA) sigma (1 - sigma)) as [mu|]; [|reflexivity].
    change (@aeqb RA mu azero) with (Reqb mu 0). destruct (Reqb mu 0); [reflexivity|].
    change (@adiv RA (vsum (map2 amul st_w st_z)) mu) with (st_om / mu).
    destruct (rank1_loop n st_z (seq 0 n) st_m1 g (st_om / mu : num RA)) as [m2 [[]|]]; [|reflexivity].
    destruct (s_no_defer_trick s); reflexivity. }
  split; [|split].
  - intros x Hs. rewrite EU. change (num RA) with R in *. rewrite Hs. reflexivity.
  - intros st Hs. rewrite EU. change (num RA) with R in *. rewrite Hs. reflexivity.
  - intros st rho sigma delta Hs. change (num RA) with R in *. rewrite Hs in EU. split; [|split].
    + intros ->. rewrite EU. replace (1 - 1) with 0 by ring. rewrite pdiv_zero. reflexivity.
    + intros ->. rewrite EU. rewrite pdiv_ok by lra. replace (0 / (1 - 0)) with 0 by (unfold Rdiv; ring).
      rewrite Reqb_true by reflexivity. reflexivity.
    + intros Hlt Hne. rewrite pdiv_ok in EU by lra.
      assert (Hmu : sigma / (1 - sigma) <> 0).
      { intros H. apply Rmult_integral in H. destruct H as [H|H]; [lra|]. assert (1 - sigma <> 0) by lra. apply Rinv_neq_0_compat in H0. contradiction. }
      assert (Hmu1 : -1 < sigma / (1 - sigma)).
      { apply Rmult_lt_reg_r with (1 - sigma); [lra|]. unfold Rdiv. rewrite Rmult_assoc, Rinv_l by lra. lra. }
      rewrite Reqb_false in EU by exact Hmu.
      destruct (st_rank1 _ Hom Hmu Hmu1) as (m2 & E2 & _). exists m2. split; [exact E2|].
      rewrite EU. change (num RA) with R in *. rewrite E2. reflexivity.
Qed.
End Upd.
