(** [LDLTMgr.factor] in doubles: acceptance and rejection. *)
From Coq Require Import Reals ZArith List Arith Lia Lra Psatz Bool Floats.
From Flocq Require Import Core.Core.
From Verif Require Import Arith Vec ModelLdlt Spec SpecStable SpecLdlt PSum PStable PLdlt2 PLdlt3.
From Verif Require Import SpecFloating SpecFloatLdlt PFloat PFloatErr PFloatAcc PFloatBs PFloatLdlt PFloatLdlt2 PFloatLdlt3 PFloatLdlt4.
Import ListNotations.
Local Open Scope R_scope.

Lemma uu_9 : uu <= / 9000000000000000.
Proof.
  unfold uu. change (-53)%Z with (- (53))%Z. rewrite bpow_opp. apply Rinv_le; [lra|].
  cbn [bpow]. cbn. lra.
Qed.

Section Num2.
Variables (N n : nat) (A : nat -> nat -> R).
Hypothesis HNn : (N <= n)%nat.
Hypothesis Hn : INR n <= 1000000.

Lemma HN_ : INR N <= 1000000. Proof. apply le_INR in HNn. lra. Qed.

Lemma rel_small : 0 <= ldlt_rel n <= / 1000.
Proof.
  unfold ldlt_rel. rewrite uu_u53. pose proof uu_9. pose proof uu_pos. pose proof (pos_INR n).
  split; [repeat apply Rmult_le_pos; lra|].
  apply Rle_trans with (2 * 1000000 * (1000000 + 1) * / 9000000000000000); [|lra].
  repeat apply Rmult_le_compat; try lra; repeat apply Rmult_le_pos; lra.
Qed.

Lemma rel_ok : INR N * kap N * (1 + lamb) <= ldlt_rel n * (1 - kap N * (1 + lamb)).
Proof.
  destruct (kap_up N HN_) as [K1 K2]. pose proof (kap_lo N) as K0. pose proof uu_pos as U. pose proof lamb_small as L.
  pose proof (le_INR _ _ HNn) as Hle. pose proof (pos_INR N) as P.
  assert (R1 : INR N * kap N * (1 + lamb) <= INR N * ((INR N + 1) * uu * (1 + / 1000)) * (1 + / 1000)).
  { apply Rmult_le_compat; try lra; [apply Rmult_le_pos; lra|]. apply Rmult_le_compat_l; lra. }
  assert (R2 : ldlt_rel n * (1 - / 1000) <= ldlt_rel n * (1 - kap N * (1 + lamb))).
  { apply Rmult_le_compat_l; [apply rel_small|].
    assert (kap N * (1 + lamb) <= / 100000 * 2) by (apply Rmult_le_compat; lra). lra. }
  assert (R3 : INR N * (INR N + 1) * uu <= INR n * (INR n + 1) * uu).
  { apply Rmult_le_compat_r; [lra|]. apply Rmult_le_compat; lra. }
  assert (R4 : INR N * ((INR N + 1) * uu * (1 + / 1000)) * (1 + / 1000) <= ldlt_rel n * (1 - / 1000)).
  { unfold ldlt_rel. rewrite uu_u53.
    replace (INR N * ((INR N + 1) * uu * (1 + / 1000)) * (1 + / 1000)) with ((1 + / 1000) * (1 + / 1000) * (INR N * (INR N + 1) * uu)) by ring.
    replace (2 * INR n * (INR n + 1) * uu * (1 - / 1000)) with (2 * (1 - / 1000) * (INR n * (INR n + 1) * uu)) by ring.
    assert (0 <= INR N * (INR N + 1) * uu) by (repeat apply Rmult_le_pos; lra). lra. }
  lra.
Qed.

Lemma lam_ok : INR N * lamb <= / 8.
Proof.
  pose proof HN_. pose proof lamb_small as L. pose proof (pos_INR N).
  apply Rle_trans with (1000000 * / 1000000000000); [|lra]. apply Rmult_le_compat; lra.
Qed.

Lemma abs_ok : near_abs N A (kap N) lamb (INR N * (1 + kap N) * eta0) (ldlt_rel n) <= ldlt_abs n A.
Proof.
  destruct (kap_up N HN_) as [K1 K2]. pose proof (kap_lo N) as K0. pose proof uu_pos as U. pose proof lamb_small as L.
  pose proof (le_INR _ _ HNn) as Hle. pose proof (pos_INR N) as P. pose proof eta0_pos as E. pose proof rel_small as Rs. pose proof HN_ as HN.
  unfold near_abs, ldlt_abs. rewrite tiny_eta.
  set (x := INR N) in *. set (y := INR n) in *. set (k := kap N) in *. set (r := ldlt_rel n) in *.
  set (tN := sumn N (fun i => Rabs (A i i))). set (tn := sumn n (fun i => Rabs (A i i))).
  assert (Ht : 0 <= tN <= tn).
  { unfold tN, tn. split; [apply sumn_ge_0; intros; apply Rabs_pos|].
    replace n with (N + (n - N))%nat by lia. rewrite sumn_split.
    assert (0 <= sumn (n - N) (fun i => Rabs (A (N + i)%nat (N + i)%nat))) by (apply sumn_ge_0; intros; apply Rabs_pos). lra. }
  destruct (Nat.eq_dec N 0) as [HN0|HN0].
  { assert (x = 0) by (unfold x; rewrite HN0; reflexivity).
    assert (k * lamb <= 2 * (1 + / 1000) * eta0).
    { apply Rle_trans with ((x + 1) * uu * (1 + / 1000) * lamb); [apply Rmult_le_compat_r; lra|].
      replace ((x + 1) * uu * (1 + / 1000) * lamb) with ((x + 1) * (1 + / 1000) * (uu * lamb)) by ring. rewrite lamb_uu, H. lra. }
    rewrite H. assert (T0 : tN = 0) by (unfold tN; rewrite HN0; reflexivity). rewrite T0.
    replace (0 * (0 * (1 + k) * eta0) + r * (0 * (1 + k) * eta0) + (2 * r + 2 * 0) * (k * lamb) * (2 * (0 + 0 * (0 * (1 + k) * eta0)))) with 0 by ring.
    pose proof (pos_INR n). fold y in H1. repeat apply Rmult_le_pos; lra. }
  assert (x1 : 1 <= x) by (unfold x; apply (le_INR 1); lia).
  assert (Hkl : 0 <= k * lamb <= 2 * (1 + / 1000) * (x + 1) * eta0).
  { split; [apply Rmult_le_pos; lra|].
    apply Rle_trans with ((x + 1) * uu * (1 + / 1000) * lamb); [apply Rmult_le_compat_r; lra|].
    replace ((x + 1) * uu * (1 + / 1000) * lamb) with ((x + 1) * (1 + / 1000) * (uu * lamb)) by ring. rewrite lamb_uu. lra. }
  assert (He0 : 0 <= x * (1 + k) * eta0 <= 1001 / 1000 * x * eta0).
  { split; [repeat apply Rmult_le_pos; lra|]. apply Rmult_le_compat_r; [lra|].
    rewrite (Rmult_comm x). apply Rmult_le_compat_r; lra. }
  set (e := x * (1 + k) * eta0) in *.
  assert (Heta : eta0 <= / 9000000000000000).
  { apply Rle_trans with uu; [apply bpow_le; lia|apply uu_9]. }
  assert (Hxe : 0 <= x * e <= / 1000).
  { split; [apply Rmult_le_pos; lra|]. apply Rle_trans with (1000000 * (1001 / 1000 * 1000000 * / 9000000000000000)); [|lra].
    apply Rmult_le_compat; try lra. eapply Rle_trans; [apply He0|]. repeat apply Rmult_le_compat; try lra. }
  assert (T1 : x * e <= 1001 / 1000 * (x * (x + 1)) * eta0).
  { apply Rle_trans with (x * (1001 / 1000 * x * eta0)); [apply Rmult_le_compat_l; lra|].
    assert (0 <= x * eta0) by (apply Rmult_le_pos; lra). nra. }
  assert (T2 : r * e <= / 1000 * (1001 / 1000 * (x * (x + 1)) * eta0)).
  { apply Rmult_le_compat; try lra. apply Rle_trans with (x * e); [|lra]. nra. }
  assert (T3 : (2 * r + 2 * x) * (k * lamb) * (2 * (tN + x * e)) <=
     (2 * (1001 / 1000) * x) * (2 * (1 + / 1000) * (x + 1) * eta0) * (2 * (tn + / 1000))).
  { assert (2 * r + 2 * x <= 2 * (1001 / 1000) * x) by lra.
    apply Rmult_le_compat; [apply Rmult_le_pos; lra|lra| |lra].
    apply Rmult_le_compat; lra. }
  assert (Q1 : x * (x + 1) * eta0 <= y * (y + 1) * eta0) by (apply Rmult_le_compat_r; [lra|]; apply Rmult_le_compat; lra).
  assert (Q0 : 0 <= x * (x + 1) * eta0) by (repeat apply Rmult_le_pos; lra).
  set (q := x * (x + 1) * eta0) in *.
  assert (T3' : (2 * (1001 / 1000) * x) * (2 * (1 + / 1000) * (x + 1) * eta0) * (2 * (tn + / 1000)) = 8 * (1001 / 1000) * (1 + / 1000) * q * (tn + / 1000))
    by (unfold q; field).
  assert (Goal1 : 1001 / 1000 * q + / 1000 * (1001 / 1000 * q) + 8 * (1001 / 1000) * (1 + / 1000) * q * (tn + / 1000) <= 16 * q * (1 + tn)).
  { assert (0 <= q * tn) by (apply Rmult_le_pos; lra). nra. }
  assert (Goal2 : 16 * q * (1 + tn) <= 16 * (y * (y + 1) * eta0) * (1 + tn)) by (apply Rmult_le_compat_r; lra).
  replace (8 * y * (y + 1) * (2 * eta0) * (1 + tn)) with (16 * (y * (y + 1) * eta0) * (1 + tn)) by ring.
  fold tN. unfold q in Goal1, Goal2. unfold q in T3'. lra.
Qed.
End Num2.

Lemma fa_pos x : ffinite x -> @aleb FA x azero = false -> 0 < fval x.
Proof.
  intros Hf H. change (PrimFloat.leb x PrimFloat.zero = false) in H. rewrite ev_leb, ev_zero in H.
  rewrite (proj1 (ev_fin_iff x) Hf) in H. cbn [eleb] in H. destruct (Rle_dec _ _); [discriminate|lra].
Qed.
Lemma fa_npos x : ffinite x -> @aleb FA x azero = true -> fval x <= 0.
Proof.
  intros Hf H. change (PrimFloat.leb x PrimFloat.zero = true) in H. rewrite ev_leb, ev_zero in H.
  rewrite (proj1 (ev_fin_iff x) Hf) in H. cbn [eleb] in H. destruct (Rle_dec _ _); [assumption|discriminate].
Qed.

Lemma tol_le n A v z : INR n <= 1000000 -> (forall i, (i < n)%nat -> z i = 0) ->
  ldlt_rel n * sumn n (fun i => (A i i - z i) * (v i * v i)) +
  near_abs n A (kap n) lamb (INR n * (1 + kap n) * eta0) (ldlt_rel n) * dot n v v <= ldlt_tol n A v.
Proof.
  intros Hn Hz. unfold ldlt_tol. apply Rplus_le_compat.
  - right. f_equal. apply sumn_ext. intros i Hi. rewrite Hz by exact Hi. ring.
  - apply Rmult_le_compat_r; [apply dot_self_ge_0|]. apply abs_ok; [lia|exact Hn].
Qed.

Lemma accept_near n g (s s1 : ldlt FA) A : shape n s -> INR n <= 1000000 -> matrix_of n g A ->
  factor g s = (s1, true) -> pivots_finite n s1 ->
  forall v, 0 <= quad n A v + ldlt_tol n A v.
Proof.
  intros Hs Hn [Hsym HA] HF Hp v.
  destruct (factor_rows g n s s1 true Hs HF) as [HR [(_ & En & Hd)|(Hb & _)]]; [|discriminate].
  unfold pivots_finite in Hp. rewrite En in HR, Hp.
  set (m := storage s1) in *. set (M := fun i j => fval (mget m i j)).
  set (D := fun k => M k k).
  assert (HD : forall k, (k < n)%nat -> 0 < fval (mget m k k) /\ D k = fval (mget m k k) /\ D k = fval (mget m k k)).
  { intros k Hk. split; [apply fa_pos; [apply Hp, Hk|apply Hd, Hk]|]. split; reflexivity. }
  assert (Hw : forall k, (k < n)%nat -> 0 <= D k) by (intros k Hk; destruct (HD k Hk) as (H & E & _); rewrite E; lra).
  destruct (kap_up n Hn) as [_ K2]. pose proof (kap_lo n) as K0. pose proof uu_pos as U. pose proof lamb_small as L.
  pose proof (near_form n A M D D (fun _ => 0) (kap n) lamb (INR n * (1 + kap n) * eta0) (ldlt_rel n)) as NF.
  assert (NF' : Rabs (quad n A v - sumn n (fun k => D k * (tL n M v k * tL n M v k))) <= ldlt_tol n A v).
  { eapply Rle_trans; [apply NF|apply (tol_le n A v (fun _ => 0) Hn); reflexivity].
    - exact Hsym.
    - exact Hw.
    - lra.
    - lra.
    - pose proof eta0_pos. pose proof (pos_INR n). repeat apply Rmult_le_pos; lra.
    - intros i c Hc. destruct (Nat.eq_dec c i) as [->|Hne].
      + apply (he_diag g m n Hn HR Hp n D D A (le_n n) HD Hw HA i); lia.
      + apply (he_off g m n Hn HR Hp n D D A (le_n n) HD Hw HA i c); lia.
    - intros i Hi. split; [lra|]. split; [right; reflexivity|]. rewrite Rplus_0_r. apply sumn_ext. intros. ring.
    - apply rel_ok; [lia|exact Hn].
    - apply (lam_ok n n); [lia|exact Hn]. }
  assert (0 <= sumn n (fun k => D k * (tL n M v k * tL n M v k))).
  { apply sumn_ge_0. intros k Hk. apply Rmult_le_pos; [apply Hw, Hk|apply Rle_0_sqr]. }
  pose proof (Rle_abs (- (quad n A v - sumn n (fun k => D k * (tL n M v k * tL n M v k))))) as Ha. rewrite Rabs_Ropp in Ha. lra.
Qed.

(** back substitution: a vector with [L^T v] the last unit vector *)
Lemma tL_solve (l : nat -> nat -> R) p : exists v, v p = 1 /\ forall k, (k < p)%nat -> tL (S p) l v k = 0.
Proof.
  assert (G : forall j, (j <= p)%nat -> exists v, v p = 1 /\ forall k, (p - j <= k < p)%nat -> tL (S p) l v k = 0).
  { induction j as [|j IH]; intros Hj.
    - exists (fun _ => 1). split; [reflexivity|intros; lia].
    - destruct (IH ltac:(lia)) as (v & Hv & Hk). set (q := (p - S j)%nat).
      set (r := sumn (S p - S q) (fun i => l (S q + i)%nat q * v (S q + i)%nat)).
      exists (fun i => if Nat.eqb i q then - r else v i). split.
      + destruct (Nat.eqb_spec p q); [unfold q in *; lia|exact Hv].
      + intros k Hkk. rewrite tL_split by lia. destruct (Nat.eqb_spec k q) as [->|Hne].
        * transitivity (- r + r); [|ring]. f_equal. unfold r. apply sumn_ext. intros i Hi.
          destruct (Nat.eqb_spec (S q + i) q); [lia|reflexivity].
        * rewrite <- (Hk k) by (unfold q in *; lia). rewrite tL_split by lia. f_equal. apply sumn_ext. intros i Hi.
          destruct (Nat.eqb_spec (S k + i) q); [unfold q in *; lia|reflexivity]. }
  destruct (G p (le_n p)) as (v & H1 & H2). exists v. split; [exact H1|]. intros k Hk. apply H2. lia.
Qed.

Lemma reject_rows n (g : nat -> nat -> num FA) (s s1 : ldlt FA) A : shape n s -> INR n <= 1000000 ->
  symmetric n A -> (forall i j, (j <= i < rows n s1)%nat -> A i j = fval (g i j)) ->
  factor g s = (s1, false) -> pivots_finite n s1 ->
  exists v, nonzero n v /\ quad n A v <= ldlt_tol n A v.
Proof.
  intros Hs Hn Hsym HA HF Hp.
  destruct (factor_rows g n s s1 false Hs HF) as [HR [(Hb & _)|(_ & p & _ & En & Hpn & Hd & Hpp)]]; [discriminate|].
  unfold pivots_finite in Hp. rewrite En in HR, Hp.
  set (m := storage s1) in *. set (M := fun i j => fval (mget m i j)). set (N := S p) in *.
  assert (HN : INR N <= 1000000) by (apply (HN_ N n); [unfold N; lia|exact Hn]).
  assert (HA' : forall i j, (j <= i < N)%nat -> A i j = fval (g i j)) by (rewrite <- En; exact HA).
  assert (Hfin := all_fin g m N HR Hp).
  destruct (stored_exact g m N HR Hfin p p) as (X & _ & X2 & X3);
    [unfold N; lia|intros k Hk; apply fa_pos; [apply Hp; unfold N; lia|apply Hd, Hk]|].
  specialize (X2 (fa_npos _ (Hp p ltac:(unfold N; lia)) Hpp)).
  set (D := fun k => if Nat.ltb k p then M k k else X). set (w := fun k => if Nat.ltb k p then M k k else 0).
  set (z := fun k => if Nat.ltb k p then 0 else X).
  assert (HD : forall k, (k < p)%nat -> 0 < fval (mget m k k) /\ D k = fval (mget m k k) /\ w k = fval (mget m k k)).
  { intros k Hk. split; [apply fa_pos; [apply Hp; unfold N; lia|apply Hd, Hk]|]. unfold D, w.
    destruct (Nat.ltb_spec k p); [|lia]. split; reflexivity. }
  assert (HDp : D p = X /\ w p = 0 /\ z p = X).
  { unfold D, w, z. destruct (Nat.ltb_spec p p); [lia|]. auto. }
  assert (Hw : forall k, (k < N)%nat -> 0 <= w k).
  { intros k Hk. destruct (Nat.eq_dec k p) as [->|Hne]; [destruct HDp as (_ & E & _); rewrite E; lra|].
    destruct (HD k ltac:(unfold N in *; lia)) as (H & _ & E); rewrite E; lra. }
  destruct (kap_up N HN) as [_ K2]. pose proof (kap_lo N) as K0. pose proof uu_pos as U. pose proof lamb_small as L.
  pose proof (rel_small n Hn) as Rs.
  set (e0 := INR N * (1 + kap N) * eta0).
  destruct (tL_solve M p) as (v & Hv & Hz).
  pose proof (near_form N A M D w z (kap N) lamb e0 (ldlt_rel n)) as NF.
  assert (NF' : Rabs (quad N A v - sumn N (fun k => D k * (tL N M v k * tL N M v k))) <=
    ldlt_rel n * sumn N (fun i => (A i i - z i) * (v i * v i)) + near_abs N A (kap N) lamb e0 (ldlt_rel n) * dot N v v).
  { apply NF; clear NF.
    - intros i j Hi Hj. apply Hsym; unfold N in *; lia.
    - exact Hw.
    - lra.
    - lra.
    - pose proof eta0_pos. pose proof (pos_INR N). unfold e0. repeat apply Rmult_le_pos; lra.
    - intros i c Hc. destruct (Nat.eq_dec c i) as [->|Hne].
      + destruct (Nat.eq_dec i p) as [->|Hnp].
        * rewrite HA' by lia. rewrite (exact_sum m N p D w) by (try exact HD; unfold N; lia).
          destruct HDp as (-> & E & _). rewrite lowf_eq, Rmult_1_r.
          assert (S0T0 := sums_ge0 m N p D w ltac:(unfold N; lia) HD p p (le_n p)). destruct S0T0 as [S0 T0].
          assert (Q := dom_lt m N p D w ltac:(unfold N; lia) HD p p ltac:(unfold N; lia) ltac:(lia)).
          assert (Q2 := sum_more m N p w ltac:(unfold N; lia) Hw p p p ltac:(unfold N; lia)).
          cbv zeta beta in S0, T0, Q, Q2.
          match goal with |- Rabs (?a - (?b + X)) <= _ => replace (a - (b + X)) with (a - b - X) by ring end.
          eapply Rle_trans; [exact X3|].
          match type of S0 with 0 <= ?s0 => match type of T0 with 0 <= ?t0 =>
            pose proof (to_form N HN (th ^ S (S p)) p s0 t0 (sumn N (fun k => (Rabs (lowf M p k) + lamb) * w k * (Rabs (lowf M p k) + lamb))) 0 ltac:(unfold N; lia)) as F end end.
          assert (Ht : th ^ S (S p) <= 1 + kap N) by (apply (thp_kap N N (le_n N) p); unfold N; lia). pose proof (thp_1 (S (S p))) as Ht1.
          eapply Rle_trans; [|apply F; [split; [exact (Rle_trans _ _ _ Rle_0_1 Ht1)|exact Ht]|rewrite Rplus_comm; exact Ht|exact S0|exact T0|lra|]].
          -- right. ring.
          -- rewrite Rplus_0_r. eapply Rle_trans; [exact Q|exact Q2].
        * apply (he_diag g m N HN HR Hp p D w A ltac:(unfold N; lia) HD Hw HA' i); unfold N in *; lia.
      + apply (he_off g m N HN HR Hp p D w A ltac:(unfold N; lia) HD Hw HA' i c); unfold N in *; lia.
    - intros i Hi. destruct (Nat.eq_dec i p) as [->|Hnp].
      + destruct HDp as (E1 & E2 & E3). rewrite E3. split; [exact X2|]. split; [left; exact E2|].
        unfold N. cbn [sumn]. rewrite E1, E2, lowf_eq.
        rewrite (sumn_ext p (fun k => D k * lowf M p k * lowf M p k) (fun k => w k * (lowf M p k * lowf M p k))); [ring|].
        intros k Hk. destruct (HD k Hk) as (_ & -> & ->). ring.
      + unfold z at 1 2. destruct (Nat.ltb_spec i p); [|unfold N in *; lia]. split; [lra|]. split; [right; reflexivity|].
        rewrite <- (Rplus_0_r (sumn N _)). f_equal; [|unfold z; destruct (Nat.ltb_spec i p); [reflexivity|lia]].
        apply sumn_ext. intros k Hk. destruct (Nat.eq_dec k p) as [->|Hkp].
        * rewrite lowf_gt by lia. ring.
        * destruct (HD k ltac:(unfold N in *; lia)) as (_ & -> & ->). ring.
    - apply rel_ok; [unfold N; lia|exact Hn].
    - apply (lam_ok N n); [unfold N; lia|exact Hn]. }
  assert (EX : sumn N (fun k => D k * (tL N M v k * tL N M v k)) = X).
  { unfold N. cbn [sumn]. rewrite sumn_0 by (intros k Hk; rewrite (Hz k Hk); ring).
    rewrite tL_split by lia. replace (S p - S p)%nat with O by lia. cbn [sumn].
    destruct HDp as (-> & _ & _). rewrite Hv. ring. }
  rewrite EX in NF'.
  assert (EZ : sumn N (fun i => (A i i - z i) * (v i * v i)) = sumn N (fun i => A i i * (v i * v i)) - X).
  { unfold N. cbn [sumn]. destruct HDp as (_ & _ & ->). rewrite Hv.
    rewrite (sumn_ext p (fun i => (A i i - z i) * (v i * v i)) (fun i => A i i * (v i * v i))); [ring|].
    intros i Hi. unfold z. destruct (Nat.ltb_spec i p); [ring|lia]. }
  rewrite EZ in NF'.
  exists (pad 0 N v). split.
  - exists p. split; [exact Hpn|]. rewrite pad_in by (unfold N; lia). rewrite Hv. lra.
  - rewrite quad_pad by (unfold N; lia). rewrite Nat.sub_0_r.
    assert (Eq : quad N (sh 0 A) (fun i => v (0 + i)%nat) = quad N A v) by reflexivity. rewrite Eq.
    unfold ldlt_tol.
    assert (Es : sumn n (fun i => A i i * (pad 0 N v i * pad 0 N v i)) = sumn N (fun i => A i i * (v i * v i))).
    { rewrite (sumn_pad n 0 N) by (try (unfold N; lia); intros i _ Hi; rewrite pad_out by exact Hi; ring).
      rewrite Nat.sub_0_r. apply sumn_ext. intros i Hi. cbn [Nat.add]. rewrite pad_in by lia. reflexivity. }
    assert (Ed : dot n (pad 0 N v) (pad 0 N v) = dot N v v).
    { unfold dot. rewrite (sumn_pad n 0 N) by (try (unfold N; lia); intros i _ Hi; rewrite pad_out by exact Hi; ring).
      rewrite Nat.sub_0_r. apply sumn_ext. intros i Hi. cbn [Nat.add]. rewrite pad_in by lia. reflexivity. }
    rewrite Es, Ed.
    pose proof (abs_ok N n A ltac:(unfold N; lia) Hn) as Ha. fold e0 in Ha.
    assert (Hb := Rmult_le_compat_r _ _ _ (dot_self_ge_0 N v) Ha).
    pose proof (Rle_abs (quad N A v - X)) as Hc.
    assert (0 <= (1 - ldlt_rel n) * (- X)) by (apply Rmult_le_pos; lra). lra.
Qed.

Lemma reject_near n g (s s1 : ldlt FA) A : shape n s -> INR n <= 1000000 -> matrix_of n g A ->
  factor g s = (s1, false) -> pivots_finite n s1 ->
  exists v, nonzero n v /\ quad n A v <= ldlt_tol n A v.
Proof.
  intros Hs Hn [Hsym HA] HF Hp. apply (reject_rows n g s s1 A Hs Hn Hsym); [|exact HF|exact Hp].
  intros i j Hj. apply HA.
  destruct (factor_rows g n s s1 false Hs HF) as [_ [(Hb & _)|(_ & p & _ & En & Hpn & _)]]; [discriminate|]. lia.
Qed.
