(** [LDLTMgr] over the reals. *)
From Coq Require Import Reals List Arith Lia Lra Psatz Bool.
From Verif Require Import Arith Vec ModelLdlt Spec SpecStable SpecLdlt PSum PCalc PVec PStable PLdlt PLdlt2 PLdlt3.
Import ListNotations.
Local Open Scope R_scope.

Lemma factor_cases n A (s : ldlt RA) s1 b : ldlt_wf n s -> factor (A:=RA) A s = (s1, b) ->
  ldlt_wf n s1 /\ wit s1 = wit s /\
  ((b = true /\ is_spd s1 = true /\ fac n A (fm (storage s1)) /\ forall k, (k < n)%nat -> 0 < fm (storage s1) k k) \/
   (b = false /\ is_spd s1 = false /\ failed n A (storage s1) (fst (pos s1)) (snd (pos s1)) /\
    fm (storage s1) (snd (pos s1) - 1)%nat (snd (pos s1) - 1)%nat <= 0 /\ fst (pos s1) = 0%nat)).
Proof.
  intros (Hn & Hw & Hm) H. unfold factor in H. rewrite Hn in H.
  destruct (loop_ok n A n 0 (storage s) eq_refl Hm (fac_0 _ _)) as (m1 & e & E & Hm1 & Hc); [intros; lia|].
  rewrite E in H. injection H as <- <-. split; [split; [reflexivity|split; assumption]|]. split; [reflexivity|].
  destruct Hc as [(-> & HF & Hd)|(Hf & Hle)].
  - left. repeat split; auto; apply HF.
  - right. assert (He : is_spd (A:=RA) (mkLdlt (0%nat, e) (wit s) n m1) = false).
    { destruct Hf as (p & -> & _). reflexivity. }
    rewrite He. cbn [pos storage fst snd]. auto.
Qed.

Lemma witness_cert n A (s : ldlt RA) : ldlt_wf n s -> symmetric n A ->
  failed n A (storage s) (fst (pos s)) (snd (pos s)) ->
  exists s2, witness s = (s2, Ok (- fm (storage s) (snd (pos s) - 1)%nat (snd (pos s) - 1)%nat)) /\
    ldlt_wf n s2 /\ pos s2 = pos s /\ (fst (pos s) < snd (pos s) <= n)%nat /\ wit_vec s2 (snd (pos s) - 1)%nat = 1 /\
    nonzero n (wit_vec s2) /\
    quad n A (wit_vec s2) = fm (storage s) (snd (pos s) - 1)%nat (snd (pos s) - 1)%nat /\
    forall B, mat_wf n B -> sym_quad s2 B = quad n (fm B) (wit_vec s2).
Proof.
  intros Hs Hsym Hf. destruct (witness_ok n A s Hs Hsym Hf) as (s2 & H1 & H2 & H3 & H4 & H5 & H6 & H7 & H8).
  exists s2. split; [exact H1|]. split; [exact H2|]. split; [exact H3|]. split; [exact H5|]. split; [exact H6|].
  split; [exists (snd (pos s) - 1)%nat; split; [lia|rewrite H6; apply R1_neq_R0]|]. split; [exact H7|].
  intros B HB. apply sym_quad_R; [exact H2|exact HB|rewrite H3; lia].
Qed.

Lemma factor_decides n A (s : ldlt RA) s1 b : ldlt_wf n s -> symmetric n A -> factor (A:=RA) A s = (s1, b) ->
  (b = true <-> posdef n A).
Proof.
  intros Hs Hsym H. destruct (factor_cases n A s s1 b Hs H) as (H1 & _ & [(-> & _ & HF & Hd)|(-> & _ & Hf & Hle & _)]).
  - split; [intros _|reflexivity]. exact (fac_posdef n A _ HF Hsym Hd).
  - split; [discriminate|]. intros Hp. exfalso.
    destruct (witness_cert n A s1 H1 Hsym Hf) as (s2 & _ & _ & _ & _ & _ & Hz & Hq & _).
    specialize (Hp _ Hz). lra.
Qed.

Lemma factorize_decides n (a : mat RA) (s : ldlt RA) s1 b : ldlt_wf n s -> symmetric n (fm a) -> factorize a s = (s1, b) ->
  (b = true <-> posdef n (fm a)).
Proof. intros Hs Hsym H. exact (factor_decides n (fm a) s s1 b Hs Hsym H). Qed.

Lemma factor_product n A (s : ldlt RA) s1 : ldlt_wf n s -> symmetric n A -> factor (A:=RA) A s = (s1, true) ->
  (forall k, (k < n)%nat -> 0 < fm (storage s1) k k) /\
  forall i j, (i < n)%nat -> (j < n)%nat ->
    A i j = sumn n (fun k => lowf (fm (storage s1)) i k * fm (storage s1) k k * lowf (fm (storage s1)) j k).
Proof.
  intros Hs Hsym H. destruct (factor_cases n A s s1 true Hs H) as (H1 & _ & [(_ & _ & HF & Hd)|(E & _)]); [|discriminate].
  split; [exact Hd|]. intros i j Hi Hj. rewrite (fac_all n A _ HF Hsym i j Hi Hj). apply sumn_ext. intros. ring.
Qed.

Lemma factor_sqrt n A (s : ldlt RA) s1 b : ldlt_wf n s -> symmetric n A -> factor (A:=RA) A s = (s1, b) ->
  (b = false -> ldlt_sqrt s1 = Err AssertionError) /\
  (b = true -> exists r, ldlt_sqrt s1 = Ok r /\ mat_wf n r /\ upper n (fm r) /\
    (forall i, (i < n)%nat -> 0 < fm r i i) /\
    forall i j, (i < n)%nat -> (j < n)%nat -> sumn n (fun k => fm r k i * fm r k j) = A i j).
Proof.
  intros Hs Hsym H. destruct (factor_cases n A s s1 b Hs H) as (H1 & _ & [(-> & Hb & HF & Hd)|(-> & Hb & _)]).
  - split; [discriminate|intros _]. unfold ldlt_sqrt. rewrite Hb. cbn [negb].
    assert (Hn : l_ndim s1 = n) by apply H1. rewrite Hn.
    set (m := storage s1) in *.
    destruct (sqrt_loop_ok n m) as [Hr He]. eexists. split; [reflexivity|]. split; [exact Hr|].
    set (r := fold_left _ _ _) in *.
    assert (E : forall a b, (a < n)%nat -> (b < n)%nat -> fm r a b = lowf (fm m) b a * sqrt (fm m a a)).
    { intros a b Ha Hb'. rewrite He by assumption. destruct (Nat.ltb_spec a n); [reflexivity|lia]. }
    split; [|split].
    + intros i j Hij. rewrite E by lia. rewrite lowf_gt by lia. ring.
    + intros i Hi. rewrite E by exact Hi. rewrite lowf_eq, Rmult_1_l. apply sqrt_lt_R0. apply Hd, Hi.
    + intros i j Hi Hj. rewrite (fac_all n A _ HF Hsym i j Hi Hj). apply sumn_ext. intros k Hk.
      rewrite !E by assumption. rewrite <- (sqrt_sqrt (fm m k k)) at 3 by (left; apply Hd, Hk). ring.
  - split; [intros _|discriminate]. unfold ldlt_sqrt. rewrite Hb. reflexivity.
Qed.

Lemma factor_witness n A (s : ldlt RA) s1 b : ldlt_wf n s -> symmetric n A -> factor (A:=RA) A s = (s1, b) ->
  (b = true -> witness s1 = (s1, Err AssertionError)) /\
  (b = false -> exists s2 ep, witness s1 = (s2, Ok ep) /\ 0 <= ep /\
    (fst (pos s2) < snd (pos s2) <= n)%nat /\ wit_vec s2 (snd (pos s2) - 1)%nat = 1 /\
    nonzero n (wit_vec s2) /\ quad n A (wit_vec s2) = - ep /\
    (forall B, mat_wf n B -> sym_quad s2 B = quad n (fm B) (wit_vec s2)) /\ ldlt_wf n s2).
Proof.
  intros Hs Hsym H. destruct (factor_cases n A s s1 b Hs H) as (H1 & _ & [(-> & Hb & HF & Hd)|(-> & Hb & Hf & Hle & _)]).
  - split; [intros _|discriminate]. unfold witness. rewrite Hb. reflexivity.
  - split; [discriminate|intros _].
    destruct (witness_cert n A s1 H1 Hsym Hf) as (s2 & W1 & W2 & W3 & W4 & W5 & W6 & W7 & W8).
    exists s2. eexists. split; [exact W1|]. rewrite W3. split; [lra|]. split; [exact W4|]. split; [exact W5|].
    split; [exact W6|]. split; [rewrite W7; ring|]. split; [exact W8|exact W2].
Qed.

(** ** The semidefinite variant *)
Lemma semi_cases n A (s : ldlt RA) s1 b : ldlt_wf n s -> factor_with_allow_semidefinite (A:=RA) A s = (s1, b) ->
  ldlt_wf n s1 /\
  (b = true /\ is_spd s1 = true \/
   (b = false /\ is_spd s1 = false /\ failed n A (storage s1) (fst (pos s1)) (snd (pos s1)) /\
    fm (storage s1) (snd (pos s1) - 1)%nat (snd (pos s1) - 1)%nat < 0)).
Proof.
  intros (Hn & Hw & Hm) H. unfold factor_with_allow_semidefinite in H. rewrite Hn in H.
  destruct (semi_ok n A n 0 0 (storage s) eq_refl (le_n _) Hm (fac_0 _ _)) as (m1 & st & e & E & Hm1 & Hc); [intros; lia|].
  rewrite E in H. injection H as <- <-. split; [split; [reflexivity|split; assumption]|].
  destruct Hc as [[-> ->]|(Hf & Hle)].
  - left. auto.
  - right. assert (He : is_spd (A:=RA) (mkLdlt (st, e) (wit s) n m1) = false).
    { destruct Hf as (p & -> & _). reflexivity. }
    rewrite He. cbn [pos storage fst snd]. auto.
Qed.

Lemma semi_false n A (s : ldlt RA) s1 : ldlt_wf n s -> symmetric n A ->
  factor_with_allow_semidefinite (A:=RA) A s = (s1, false) ->
  exists s2 ep, witness s1 = (s2, Ok ep) /\ 0 < ep /\
    (fst (pos s2) < snd (pos s2) <= n)%nat /\ wit_vec s2 (snd (pos s2) - 1)%nat = 1 /\
    quad n A (wit_vec s2) = - ep /\
    (forall B, mat_wf n B -> sym_quad s2 B = quad n (fm B) (wit_vec s2)).
Proof.
  intros Hs Hsym H. destruct (semi_cases n A s s1 false Hs H) as (H1 & [(E & _)|(_ & Hb & Hf & Hle)]); [discriminate|].
  destruct (witness_cert n A s1 H1 Hsym Hf) as (s2 & W1 & W2 & W3 & W4 & W5 & W6 & W7 & W8).
  exists s2. eexists. split; [exact W1|]. rewrite W3. split; [lra|]. split; [exact W4|]. split; [exact W5|].
  split; [rewrite W7; ring|exact W8].
Qed.

Lemma semi_true n A (s : ldlt RA) s1 b : ldlt_wf n s -> symmetric n A -> possemidef n A ->
  factor_with_allow_semidefinite (A:=RA) A s = (s1, b) -> b = true.
Proof.
  intros Hs Hsym Hp H. destruct b; [reflexivity|exfalso].
  destruct (semi_false n A s s1 Hs Hsym H) as (s2 & ep & _ & He & _ & _ & Hq & _). specialize (Hp (wit_vec s2)). lra.
Qed.

(** The converse fails. *)
Definition swap2f (i j : nat) : R := fm [[0; 1]; [1; 0]] i j.

Lemma init_wf n : ldlt_wf n (ldlt_init (A:=RA) n).
Proof. split; [reflexivity|split; [apply repeat_length|apply mzeros_wf]]. Qed.

Lemma semi_wrong : exists A (s s1 : ldlt RA) v, ldlt_wf 2 s /\ symmetric 2 A /\
  factor_with_allow_semidefinite (A:=RA) A s = (s1, true) /\ quad 2 A v < 0.
Proof.
  exists swap2f, (ldlt_init 2). eexists. exists (fun i => if Nat.eqb i 0 then 1 else -1).
  split; [apply init_wf|]. split.
  { intros [|[|i]] [|[|j]] Hi Hj; try lia; reflexivity. }
  split.
  - unfold factor_with_allow_semidefinite. cbn [ldlt_init l_ndim seq storage factor_semi_loop].
    unfold factor_row at 1. cbn [Nat.sub seq fold_left].
    change (@altb RA (swap2f 0 0) azero) with (Rltb 0 0). rewrite Rltb_false by lra.
    change (@aeqb RA (swap2f 0 0) azero) with (Reqb 0 0). rewrite Reqb_true by reflexivity.
    unfold factor_row at 1. cbn [Nat.sub seq fold_left].
    change (@altb RA (swap2f 1 1) azero) with (Rltb 0 0). rewrite Rltb_false by lra.
    change (@aeqb RA (swap2f 1 1) azero) with (Reqb 0 0). rewrite Reqb_true by reflexivity.
    reflexivity.
  - unfold quad, bil, dot, mv, sumn, swap2f, fm. cbn. lra.
Qed.
