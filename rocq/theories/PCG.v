(** Proofs about [conjugate_gradient]. *)
From Coq Require Import Reals List Arith ZArith Lia Lra Bool.
From Verif Require Import Arith Vec Broadcast PBroadcast ModelCG Spec SpecCG PAlg PSum PVec PLdlt.
Import ListNotations.
Local Open Scope R_scope.

Lemma zero_or_nonzero n v : (forall i, (i < n)%nat -> v i = 0) \/ nonzero n v.
Proof.
  induction n as [|n [Z|(i & Hi & H)]].
  - left. intros; lia.
  - destruct (Req_dec (v n) 0) as [E|E]; [left|right; exists n; auto].
    intros i Hi. destruct (Nat.eq_dec i n) as [->|D]; [exact E|apply Z; lia].
  - right. exists i. auto.
Qed.
Lemma nonzero_stable n v : ~ ~ nonzero n v -> nonzero n v.
Proof.
  intros H. destruct (zero_or_nonzero n v) as [Z|Z]; [|exact Z]. exfalso. apply H. intros (i & Hi & E). apply E, Z, Hi.
Qed.

(** * The recurrences on functions *)
Section Rec.
Variables (n : nat) (M : nat -> nat -> R) (b x0 : nat -> R).
Let X k := cg_x (cg n M b x0 k).
Let r k := cg_r (cg n M b x0 k).
Let p k := cg_p (cg n M b x0 k).
Let al k := dot n (r k) (r k) / quad n M (p k).
Let be k := dot n (r (S k)) (r (S k)) / dot n (r k) (r k).

Lemma r_S k i : r (S k) i = r k i - al k * mv n M (p k) i.
Proof. reflexivity. Qed.
Lemma p_S k i : p (S k) i = r (S k) i + be k * p k i.
Proof. reflexivity. Qed.
Lemma X_S k i : X (S k) i = X k i + al k * p k i.
Proof. reflexivity. Qed.

(** the recursively updated residual is the true residual *)
Lemma r_true k i : r k i = b i - mv n M (X k) i.
Proof.
  revert i. induction k as [|k IH]; intros i; [reflexivity|].
  rewrite r_S, IH. unfold mv at 3.
  rewrite (sumn_ext n _ (fun j => M i j * X k j + al k * (M i j * p k j))) by (intros j _; rewrite X_S; ring).
  rewrite sumn_plus, sumn_scal. unfold mv. ring.
Qed.

Lemma p_zero k : dot n (r k) (r k) = 0 -> forall i, (i < n)%nat -> p k i = 0.
Proof.
  intros H i Hi. assert (Z : forall i, (i < n)%nat -> r k i = 0).
  { intros j Hj. assert (E := sumn_eq_0 n (fun i => r k i * r k i)).
    destruct (Rmult_integral (r k j) (r k j)); auto. apply E; auto. intros m _. apply Rle_0_sqr. }
  destruct k as [|k]; [apply Z, Hi|].
  rewrite p_S, Z by exact Hi. unfold be. rewrite H. unfold Rdiv. ring.
Qed.

Lemma quad_zero v : (forall i, (i < n)%nat -> v i = 0) -> quad n M v = 0.
Proof. intros H. unfold quad, bil, dot. apply sumn_0. intros i Hi. rewrite H by exact Hi. ring. Qed.

Lemma rr_pos k : quad n M (p k) <> 0 -> 0 < dot n (r k) (r k).
Proof.
  intros H. destruct (Req_dec (dot n (r k) (r k)) 0) as [E|E].
  - exfalso. apply H, quad_zero, p_zero, E.
  - pose proof (dot_self_ge_0 n (r k)). lra.
Qed.

(** * Orthogonality and conjugacy *)
Hypothesis Msym : symmetric n M.
Hypothesis Mpd : posdef n M.

Lemma dot_rS_l k u : dot n (r (S k)) u = dot n (r k) u - al k * bil n M u (p k).
Proof.
  unfold bil. rewrite (dot_comm n u), <- dot_scal_l, <- dot_minus_l. apply dot_ext; intros; auto using r_S.
Qed.
Lemma bil_pS u k : bil n M u (p (S k)) = bil n M u (r (S k)) + be k * bil n M u (p k).
Proof.
  rewrite <- bil_scal_r, <- bil_plus_r. apply bil_ext; intros; auto using p_S.
Qed.
Lemma dot_pS u k : dot n u (p (S k)) = dot n u (r (S k)) + be k * dot n u (p k).
Proof. rewrite <- dot_scal_r, <- dot_plus_r. apply dot_ext; intros; auto using p_S. Qed.

Definition orth (k : nat) : Prop :=
  (forall i j, (i < j <= k)%nat -> dot n (r i) (r j) = 0) /\
  (forall i j, (i < j <= k)%nat -> bil n M (p i) (p j) = 0) /\
  dot n (r k) (p k) = dot n (r k) (r k).

Lemma quad_pos k : dot n (r k) (p k) = dot n (r k) (r k) -> 0 < dot n (r k) (r k) -> 0 < quad n M (p k).
Proof.
  intros E H. apply Mpd. destruct (Req_dec (sumn n (fun i => p k i * p k i)) 0) as [Z|Z].
  - exfalso. assert (P : forall i, (i < n)%nat -> p k i = 0).
    { intros i Hi. assert (Q := sumn_eq_0 n (fun i => p k i * p k i) (fun m _ => Rle_0_sqr (p k m)) Z i Hi).
      destruct (Rmult_integral _ _ Q); assumption. }
    assert (dot n (r k) (p k) = 0) by (apply sumn_0; intros i Hi; rewrite P by exact Hi; ring). lra.
  - apply nonzero_stable. intros NZ. apply Z, sumn_0. intros i Hi.
    destruct (Req_dec (p k i) 0) as [E0|E0]; [rewrite E0; ring|]. exfalso. apply NZ. exists i. auto.
Qed.

Lemma orth_all k : (forall j, (j < k)%nat -> 0 < dot n (r j) (r j)) -> orth k.
Proof.
  induction k as [|k IH]; intros Hp.
  - split; [|split]; intros; try lia. reflexivity.
  - destruct IH as (O1 & O2 & O3); [intros j Hj; apply Hp; lia|].
    assert (Rk : 0 < dot n (r k) (r k)) by (apply Hp; lia).
    assert (Qk : 0 < quad n M (p k)) by (apply quad_pos; assumption).
    assert (alE : al k * quad n M (p k) = dot n (r k) (r k)) by (unfold al; field; lra).
    assert (beE : be k * dot n (r k) (r k) = dot n (r (S k)) (r (S k))) by (unfold be; field; lra).
    assert (alk : al k <> 0) by (intros Z; rewrite Z in alE; lra).
    (* A p_i against r_i, for i <= k *)
    assert (Br : forall i, (i <= k)%nat -> bil n M (r i) (p k) = if Nat.eqb i k then quad n M (p k) else 0).
    { intros i Hi. destruct i as [|i].
      - change (r 0%nat) with (p 0%nat). destruct (Nat.eqb_spec 0 k) as [<-|N]; [reflexivity|]. apply O2; lia.
      - assert (E : bil n M (r (S i)) (p k) = bil n M (p (S i)) (p k) - be i * bil n M (p i) (p k)).
        { rewrite <- bil_scal_l, <- bil_minus_l. apply bil_ext; intros; auto. rewrite p_S. ring. }
        rewrite E, (O2 i k) by lia. destruct (Nat.eqb_spec (S i) k) as [<-|N]; [unfold quad; ring|].
        rewrite O2 by lia. ring. }
    assert (N1 : forall i, (i <= k)%nat -> dot n (r (S k)) (r i) = 0).
    { intros i Hi. rewrite dot_rS_l, Br by exact Hi. destruct (Nat.eqb_spec i k) as [->|N]; [lra|].
      rewrite (dot_comm n), O1 by lia. ring. }
    assert (N3 : dot n (r (S k)) (p k) = 0).
    { rewrite dot_rS_l, O3. change (bil n M (p k) (p k)) with (quad n M (p k)). lra. }
    assert (Bp : forall i, (i <= k)%nat -> al i * bil n M (r (S k)) (p i) = dot n (r i) (r (S k)) - dot n (r (S i)) (r (S k))).
    { intros i Hi. rewrite (dot_rS_l i). ring. }
    assert (N2 : forall i, (i <= k)%nat -> bil n M (p i) (p (S k)) = 0).
    { intros i Hi. rewrite bil_pS. rewrite (bil_symm n M (p i) (r (S k))) by exact Msym.
      destruct (Nat.eq_dec i k) as [->|N].
      - change (bil n M (p k) (p k)) with (quad n M (p k)).
        assert (E := Bp k (le_n k)). rewrite (dot_comm n), N1 in E by lia.
        assert (F : al k * (bil n M (r (S k)) (p k) + be k * quad n M (p k)) = 0).
        { rewrite Rmult_plus_distr_l, E. replace (al k * (be k * quad n M (p k))) with (be k * (al k * quad n M (p k))) by ring.
          rewrite alE, beE. ring. }
        destruct (Rmult_integral _ _ F); [contradiction|assumption].
      - rewrite (O2 i k) by lia.
        assert (Ri : 0 < dot n (r i) (r i)) by (apply Hp; lia).
        assert (E := Bp i Hi). rewrite (dot_comm n), N1 in E by lia. rewrite (dot_comm n), N1 in E by lia.
        assert (ali : al i <> 0).
        { assert (Qi : quad n M (p i) <> 0).
          { intros Z. assert (NZ : nonzero n (p i)).
            { apply nonzero_stable. intros NZ.
              assert (P : forall m, (m < n)%nat -> p i m = 0).
              { intros m Hm. destruct (Req_dec (p i m) 0); [assumption|]. exfalso. apply NZ. exists m; auto. }
              assert (E' : dot n (r i) (p i) = dot n (r i) (r i)).
              { destruct i as [|i]; [reflexivity|]. rewrite dot_pS.
                assert (Ti : dot n (r (S i)) (p i) = 0).
                { (* p_i lies in the span of r_0 .. r_i *)
                  assert (Sp : forall m j, (m < j <= k)%nat -> dot n (r j) (p m) = 0).
                  { induction m as [|m IHm]; intros j Hj.
                    - change (p 0%nat) with (r 0%nat). rewrite dot_comm. apply O1. lia.
                    - rewrite dot_pS, (IHm j) by lia. rewrite dot_comm, O1 by lia. ring. }
                  apply Sp. lia. }
                rewrite Ti. ring. }
              assert (dot n (r i) (p i) = 0) by (apply sumn_0; intros m Hm; rewrite P by exact Hm; ring). lra. }
            specialize (Mpd _ NZ). lra. }
          unfold al. intros Z. apply (Rmult_integral_contrapositive_currified (dot n (r i) (r i)) (/ quad n M (p i))) in Z; [exact Z|lra|].
          apply Rinv_neq_0_compat, Qi. }
        assert (F : bil n M (r (S k)) (p i) = 0) by (apply (Rmult_eq_reg_l (al i)); [lra|exact ali]).
        rewrite F. ring. }
    split; [|split].
    + intros i j Hij. destruct (Nat.eq_dec j (S k)) as [->|N]; [rewrite dot_comm; apply N1; lia|apply O1; lia].
    + intros i j Hij. destruct (Nat.eq_dec j (S k)) as [->|N]; [apply N2; lia|apply O2; lia].
    + rewrite dot_pS, N3. ring.
Qed.
End Rec.

(** * No [n + 1] non-zero orthogonal vectors in dimension [n] *)
Lemma bessel n m (u : nat -> nat -> R) (e : nat -> R) :
  (forall k, (k < m)%nat -> 0 < dot n (u k) (u k)) ->
  (forall i j, (i < j < m)%nat -> dot n (u i) (u j) = 0) ->
  sumn m (fun k => dot n (u k) e * dot n (u k) e / dot n (u k) (u k)) <= dot n e e.
Proof.
  intros Hp Ho.
  set (w := fun m i => e i - sumn m (fun k => dot n (u k) e / dot n (u k) (u k) * u k i)).
  assert (W : forall k m', (m' <= k < m)%nat -> dot n (u k) (w m') = dot n (u k) e).
  { intros k m' Hk. unfold w. rewrite dot_minus_r.
    assert (Z : dot n (u k) (fun i => sumn m' (fun k0 => dot n (u k0) e / dot n (u k0) (u k0) * u k0 i)) = 0).
    { unfold dot at 1. rewrite (sumn_ext n _ (fun i => sumn m' (fun k0 => u k i * (dot n (u k0) e / dot n (u k0) (u k0) * u k0 i)))) by (intros; rewrite sumn_scal; reflexivity).
      rewrite sumn_swap. apply sumn_0. intros k0 Hk0.
      rewrite (sumn_ext n _ (fun i => dot n (u k0) e / dot n (u k0) (u k0) * (u k0 i * u k i))) by (intros; ring).
      rewrite sumn_scal. fold (dot n (u k0) (u k)). rewrite (Ho k0 k) by lia. ring. }
    rewrite Z. ring. }
  assert (Q : forall m', (m' <= m)%nat -> dot n (w m') (w m') = dot n e e - sumn m' (fun k => dot n (u k) e * dot n (u k) e / dot n (u k) (u k))).
  { induction m' as [|m' IH]; intros Hm.
    - unfold w. cbn [sumn]. rewrite Rminus_0_r. apply dot_ext; intros; ring.
    - cbn [sumn]. rewrite <- (Rplus_0_r (dot n e e)).
      assert (E : dot n (w (S m')) (w (S m')) = dot n (fun i => w m' i - dot n (u m') e / dot n (u m') (u m') * u m' i) (fun i => w m' i - dot n (u m') e / dot n (u m') (u m') * u m' i)).
      { apply dot_ext; intros; unfold w; cbn [sumn]; ring. }
      rewrite E, dot_minus_l, !dot_minus_r, !dot_scal_l, !dot_scal_r, IH by lia.
      rewrite (dot_comm n (w m')), W by lia. specialize (Hp m' ltac:(lia)). field. lra. }
  pose proof (Q m (le_n m)) as E. pose proof (dot_self_ge_0 n (w m)). lra.
Qed.

Lemma too_many n (u : nat -> nat -> R) :
  (forall k, (k <= n)%nat -> 0 < dot n (u k) (u k)) ->
  (forall i j, (i < j <= n)%nat -> dot n (u i) (u j) = 0) -> False.
Proof.
  intros Hp Ho.
  assert (B : forall i, (i < n)%nat -> sumn (S n) (fun k => u k i * u k i / dot n (u k) (u k)) <= 1).
  { intros i Hi. pose proof (bessel n (S n) u (fun j => if Nat.eqb j i then 1 else 0)) as P.
    assert (D : forall v, dot n v (fun j => if Nat.eqb j i then 1 else 0) = v i).
    { intros v. unfold dot. rewrite (sumn_ext n _ (fun j => if Nat.eqb j i then v i else 0)).
      - apply sumn_delta, Hi.
      - intros j _. destruct (Nat.eqb_spec j i) as [->|]; ring. }
    rewrite D in P. rewrite Nat.eqb_refl in P. 
    rewrite (sumn_ext (S n) (fun k => u k i * u k i / dot n (u k) (u k)) (fun k => dot n (u k) (fun j => if Nat.eqb j i then 1 else 0) * dot n (u k) (fun j => if Nat.eqb j i then 1 else 0) / dot n (u k) (u k))) by (intros; rewrite D; reflexivity).
    apply P; intros; [apply Hp|apply Ho]; lia. }
  pose proof (sumn_le n _ _ B) as S. rewrite sumn_const, sumn_swap in S.
  rewrite (sumn_ext (Datatypes.S n) _ (fun _ => 1)) in S.
  - rewrite sumn_const, S_INR in S. lra.
  - intros k Hk. specialize (Hp k ltac:(lia)).
    rewrite (sumn_ext n _ (fun i => / dot n (u k) (u k) * (u k i * u k i))) by (intros; field; lra).
    rewrite sumn_scal. fold (dot n (u k) (u k)). field. lra.
Qed.

Lemma residual_vanishes n M b x0 : symmetric n M -> posdef n M ->
  exists k, (k <= n)%nat /\ dot n (cg_r (cg n M b x0 k)) (cg_r (cg n M b x0 k)) = 0 /\
    forall j, (j < k)%nat -> 0 < dot n (cg_r (cg n M b x0 j)) (cg_r (cg n M b x0 j)).
Proof.
  intros Ms Mp. set (rr := fun k => dot n (cg_r (cg n M b x0 k)) (cg_r (cg n M b x0 k))).
  assert (H : forall m, (exists k, (k <= m)%nat /\ rr k = 0 /\ forall j, (j < k)%nat -> 0 < rr j) \/ forall k, (k <= m)%nat -> 0 < rr k).
  { induction m as [|m IH].
    - destruct (Req_dec (rr 0%nat) 0) as [E|E]; [left; exists 0%nat; repeat split; auto; intros; lia|].
      right. intros k Hk. replace k with 0%nat by lia. pose proof (dot_self_ge_0 n (cg_r (cg n M b x0 0))). fold (rr 0%nat) in *. lra.
    - destruct IH as [(k & Hk & Z & P)|P]; [left; exists k; repeat split; auto; lia|].
      destruct (Req_dec (rr (S m)) 0) as [E|E].
      + left. exists (S m). repeat split; auto. intros j Hj. apply P. lia.
      + right. intros k Hk. destruct (Nat.eq_dec k (S m)) as [->|N]; [|apply P; lia].
        pose proof (dot_self_ge_0 n (cg_r (cg n M b x0 (S m)))). unfold rr in *. lra. }
  destruct (H n) as [D|P]; [exact D|]. exfalso.
  destruct (orth_all n M b x0 Ms Mp n) as (O1 & _ & _); [intros j Hj; apply P; lia|].
  apply (too_many n (fun k => cg_r (cg n M b x0 k))); [exact P|exact O1].
Qed.
