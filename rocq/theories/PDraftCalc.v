(** The draft calculator against the current one. *)
From Coq Require Import Reals List Arith Lia Lra Bool Psatz.
From Verif Require Import Arith ModelCalc ModelDraftCalc SpecDrivers Spec SpecCut SpecDraftCalc PCalc PCalc2 PCalc3 PCalc4.
Import ListNotations.
Local Open Scope R_scope.

Definition tcalc_R (p : bool) (n : nat) : tcalc RA :=
  mkTcalc (A:=RA) p (INR n) (INR n / 2) (1 / (INR n + 1)) (INR n * INR n / (INR n * INR n - 1))
    (2 * (1 / (INR n + 1))) (INR n * (1 / (INR n + 1))).

Lemma tcalc_init_R n : (2 <= n)%nat -> tcalc_init (A:=RA) n = Ok (tcalc_R true n).
Proof.
  intros Hn. pose proof (INR_ge_2 n Hn) as HN. unfold tcalc_init, atwo. rn.
  rewrite pdiv_ok by lra. cbn [bind]. rewrite pdiv_ok by nra. cbn [bind]. rewrite INR_2. reflexivity.
Qed.
Lemma tcalc_init_one : tcalc_init (A:=RA) 1 = Err ZeroDivision.
Proof.
  unfold tcalc_init. rn. change (INR 1) with 1. rewrite pdiv_ok by lra. cbn [bind].
  replace (1 * 1 - 1) with 0 by ring. rewrite pdiv_zero. reflexivity.
Qed.

Lemma tcalc_for_R n p c : (2 <= n)%nat -> tcalc_for n p c -> c = tcalc_R p n.
Proof. intros Hn (c0 & E & ->). rewrite tcalc_init_R in E by exact Hn. injection E as <-. reflexivity. Qed.

Lemma strat_eq (a b d a' b' d' : R) : a = a' -> b = b' -> d = d' ->
  @Ok (stratres RA) (Success, Some (a, b, d)) = Ok (Success, Some (a', b', d')).
Proof. intros; subst; reflexivity. Qed.

Section T.
Variables (n : nat) (p : bool).
Hypothesis Hn : (2 <= n)%nat.
Let N := INR n.
Let HN : 2 <= N := INR_ge_2 n Hn.
Let t := tcalc_R p n.
Let c := calc_R p n.

Lemma t_bias_core_R beta tau : 0 < tau -> tau + beta <> 0 ->
  t_bias_cut_core (A:=RA) t beta tau (tau + N * beta) = some_triple (core_bias_cut (A:=RA) (core_R N) beta tau).
Proof.
  intros Ht Hb. unfold t_bias_cut_core, core_bias_cut, core_bias_cut_fast, some_triple, t, tcalc_R, core_R.
  cbn [t_cst0 t_cst1 t_cst2 n_f cst0 cst1 cst2]. rn. repeat (rewrite pdiv_ok by (exact Hb || lra); cbn [bind]).
  fold N. apply strat_eq; [reflexivity|reflexivity|ring].
Qed.

Lemma t_core_old a b T : t_parallel_core (A:=RA) t a b (b * b) (a * b) T = some_triple (core_parallel_bias_cut_old (A:=RA) (core_R N) a b T).
Proof.
  unfold t_parallel_core, core_parallel_bias_cut_old, some_triple, t, tcalc_R, core_R, atwo.
  cbn [t_half_n t_n_f t_cst1 t_cst2 t_cst3 half_n n_f cst1 cst2 cst3]. rn. rewrite !INR_2. fold N.
  replace (a * a + 2 * (a * b) + b * b) with ((a + b) * (a + b)) by ring.
  destruct (psqrt _) as [xi|]; [|reflexivity]. cbn [bind].
  match goal with |- context [pdiv ?x ((a + b) * (a + b))] => destruct (pdiv (A:=RA) x ((a + b) * (a + b))) as [q|] end; [|reflexivity]. cbn [bind].
  destruct (pdiv (A:=RA) xi N) as [q2|]; [|reflexivity]. cbn [bind].
  match goal with |- context [pdiv ?x T] => destruct (pdiv (A:=RA) x T) as [d|] end; reflexivity.
Qed.

Lemma t_core_same a b T : 0 < T -> a <= b -> (b <= 0 \/ b * b < T) -> a + b <> 0 ->
  t_parallel_core (A:=RA) t a b (b * b) (a * b) T = some_triple (core_parallel_bias_cut (A:=RA) (core_R N) a b T).
Proof.
  intros HT Hab Hr Hs. rewrite t_core_old.
  destruct (formulations_agree n p c a b T (calc_for_ok n p Hn) HT Hab Hr) as (r & E & _ & F & _).
  cbn [c_helper calc_R c] in E, F. destruct (F Hs) as (G & _).
  exact (f_equal (some_triple (A:=RA)) (eq_trans G (eq_sym E))).
Qed.

(** at [b = tau] the draft computes the single cut *)
Lemma t_core_tau a tau : 0 < tau -> - tau < a <= tau ->
  t_parallel_core (A:=RA) t a tau (tau * tau) (a * tau) (tau * tau) = some_triple (core_bias_cut (A:=RA) (core_R N) a tau).
Proof.
  intros Ht Ha. unfold t_parallel_core, core_bias_cut, core_bias_cut_fast, some_triple, t, tcalc_R, core_R, atwo.
  cbn [t_half_n t_n_f t_cst1 t_cst2 t_cst3 half_n n_f cst0 cst1 cst2 cst3]. rn. rewrite !INR_2. fold N.
  assert (P : 0 <= N / 2 * (tau * tau - a * a)).
  { apply Rmult_le_pos; [lra|]. assert (0 <= (tau - a) * (tau + a)) by (apply Rmult_le_pos; lra). lra. }
  replace ((tau * tau - a * a) * (tau * tau - tau * tau) + N / 2 * (tau * tau - a * a) * (N / 2 * (tau * tau - a * a)))
    with ((N / 2 * (tau * tau - a * a)) * (N / 2 * (tau * tau - a * a))) by ring.
  rewrite psqrt_ok by nra. rewrite sqrt_square by exact P. cbn [bind].
  assert (S : 0 < tau + a) by lra.
  rewrite pdiv_ok; [|replace (a * a + 2 * (a * tau) + tau * tau) with ((tau + a) * (tau + a)) by ring; nra]. cbn [bind].
  repeat (rewrite pdiv_ok by (lra || nra); cbn [bind]).
  assert (D : a * a + 2 * (a * tau) + tau * tau <> 0) by (replace (a * a + 2 * (a * tau) + tau * tau) with ((tau + a) * (tau + a)) by ring; nra).
  assert (D1 : N * N - 1 <> 0) by nra.
  apply strat_eq; field; repeat split; try lra; try exact D; try exact D1.
Qed.

Lemma t_core_zero b T : 0 < T -> 0 <= b -> b * b < T -> t_parallel_core (A:=RA) t (- b) b (b * b) (- b * b) T = Err ZeroDivision.
Proof.
  intros HT Hb HbT. rewrite t_core_old.
  destruct (formulations_agree n p c (- b) b T (calc_for_ok n p Hn) HT ltac:(lra) (or_intror HbT)) as (r & _ & _ & _ & F & _).
  destruct (F ltac:(lra)) as (G & _). exact (f_equal (some_triple (A:=RA)) G).
Qed.

Lemma t_bias_same beta T : 0 < T -> t_bias_cut (A:=RA) t beta T = calc_bias_cut (A:=RA) c beta T.
Proof.
  intros HT. unfold t_bias_cut, calc_bias_cut. rn. destruct (Rleb_spec 0 beta) as [Hb|]; [|reflexivity].
  destruct (Rltb T (beta * beta)); [reflexivity|]. rewrite psqrt_ok by lra. cbn [bind].
  pose proof (sqrt_lt_R0 T HT) as P. exact (t_bias_core_R beta (sqrt T) P ltac:(lra)).
Qed.

Lemma t_biasq_same beta T : 0 < T -> t_bias_cut_q (A:=RA) t beta T = calc_bias_cut_q (A:=RA) c beta T.
Proof.
  intros HT. unfold t_bias_cut_q, calc_bias_cut_q. rn. rewrite psqrt_ok by lra. cbn [bind].
  pose proof (sqrt_lt_R0 T HT) as P. destruct (Rltb (sqrt T) beta); [reflexivity|].
  change (t_n_f t) with N. change (c_n_f c) with N. destruct (Rleb_spec (sqrt T + N * beta) 0) as [|E]; [reflexivity|].
  exact (t_bias_core_R beta (sqrt T) P ltac:(nra)).
Qed.

Lemma t_central_same T : 0 < T -> t_central_cut (A:=RA) t T =
  (let* tau := psqrt (A:=RA) T in Ok (Success, Some (core_central_cut (A:=RA) (c_helper c) tau))).
Proof. intros HT. unfold t_central_cut. rewrite psqrt_ok by lra. reflexivity. Qed.

Lemma tau_of b T : 0 < b -> b * b = T -> sqrt T = b.
Proof. intros Hb <-. apply sqrt_square. lra. Qed.

Lemma t_parallel_same b0 b1 T : 0 < T -> regular_pair n OpBias T b0 b1 ->
  t_parallel (A:=RA) t b0 b1 T = calc_parallel (A:=RA) c b0 b1 T.
Proof.
  intros HT Rg. unfold t_parallel, calc_parallel. rn. destruct (Rltb_spec b1 b0) as [|L]; [reflexivity|].
  cbn [regular_pair] in Rg. destruct (Rltb_spec 0 b1) as [P1|P1]; cbn [andb].
  - destruct (Rltb_spec T (b1 * b1)) as [H|H].
    + rewrite Rleb_true by lra. apply t_bias_same, HT.
    + destruct Rg as [Rg|[Rg|(Rs & Rn)]]; [lra|lra|].
      destruct (Rleb_spec T (b1 * b1)) as [E|E].
      * assert (E1 : b1 * b1 = T) by lra. assert (P0 : 0 <= b0) by (destruct (Rle_lt_dec 0 b0); [assumption|exfalso; apply Rn; auto]).
        rewrite <- E1. rewrite t_core_tau by lra. unfold calc_bias_cut. rn. rewrite Rleb_true by exact P0.
        rewrite Rltb_false by nra. rewrite psqrt_ok by nra. cbn [bind]. rewrite sqrt_square by lra. reflexivity.
      * exact (t_core_same b0 b1 T HT ltac:(lra) (or_intror (Rnot_le_lt _ _ E)) Rs).
  - destruct Rg as [Rg|[Rg|(Rs & Rn)]]; [lra|lra|]. exact (t_core_same b0 b1 T HT ltac:(lra) (or_introl (Rnot_lt_le _ _ P1)) Rs).
Qed.

Lemma t_parallelq_same b0 b1 T : 0 < T -> regular_pair n OpQ T b0 b1 ->
  t_parallel_q (A:=RA) t b0 b1 T = calc_parallel_q (A:=RA) c b0 b1 T.
Proof.
  intros HT Rg. unfold t_parallel_q, calc_parallel_q. rn. destruct (Rltb_spec b1 b0) as [|L]; [reflexivity|].
  cbn [regular_pair] in Rg. fold N in Rg. change (t_n_f t) with N. change (c_n_f c) with N.
  assert (Eq : forall e, e = T + N * (b0 * b1) -> e <> 0 -> Rltb (N * (b0 * b1)) (- T) = Rleb e 0).
  { intros e -> Ne. destruct (Rltb_spec (N * (b0 * b1)) (- T)), (Rleb_spec (T + N * (b0 * b1)) 0); try reflexivity; lra. }
  assert (Core : b1 <= 0 \/ b1 * b1 < T -> b0 + b1 <> 0 -> T + N * (b0 * b1) <> 0 ->
    (if Rltb (N * (b0 * b1)) (- T) then Ok (NoEffect, None) else t_parallel_core (A:=RA) t b0 b1 (b1 * b1) (b0 * b1) T) =
    (if Rleb (T + N * (b0 * b1)) 0 then Ok (NoEffect, None) else some_triple (core_parallel_bias_cut_fast (A:=RA) (c_helper c) b0 b1 T (b0 * b1) (T + N * (b0 * b1))))).
  { intros Hr Hs Ne. rewrite (Eq _ eq_refl Ne). destruct (Rleb _ 0); [reflexivity|]. exact (t_core_same b0 b1 T HT ltac:(lra) Hr Hs). }
  destruct (Rltb_spec 0 b1) as [P1|P1]; cbn [andb].
  - destruct (Rltb_spec T (b1 * b1)) as [H|H].
    + rewrite Rleb_true by lra. apply t_biasq_same, HT.
    + destruct Rg as [Rg|[Rg|(Rs & Rn)]]; [lra|lra|].
      destruct (Rleb_spec T (b1 * b1)) as [E|E].
      * assert (E1 : b1 * b1 = T) by lra. rewrite (Eq _ eq_refl Rn). rewrite <- E1.
        unfold calc_bias_cut_q. rn. rewrite psqrt_ok by nra. cbn [bind]. rewrite sqrt_square by lra.
        rewrite Rltb_false by lra. change (c_n_f c) with N.
        destruct (Rleb_spec (b1 * b1 + N * (b0 * b1)) 0) as [Q|Q], (Rleb_spec (b1 + N * b0) 0) as [Q'|Q']; [reflexivity|exfalso|exfalso|].
        -- assert (0 < b1 * (b1 + N * b0)) by (apply Rmult_lt_0_compat; lra). lra.
        -- assert (b1 * (b1 + N * b0) <= 0) by nra. lra.
        -- exact (t_core_tau b0 b1 P1 ltac:(split; [nra|lra])).
      * exact (Core (or_intror (Rnot_le_lt _ _ E)) Rs Rn).
  - destruct Rg as [Rg|[Rg|(Rs & Rn)]]; [lra|lra|]. exact (Core (or_introl (Rnot_lt_le _ _ P1)) Rs Rn).
Qed.

Lemma t_parcentral_same b1 T : p = true -> 0 < T -> b1 <> 0 ->
  t_parallel_central_cut (A:=RA) t b1 T =
  (if Rltb b1 0 then Ok (NoSoln, None)
   else if Rleb T (b1 * b1) then (let* tau := psqrt (A:=RA) T in Ok (Success, Some (core_central_cut (A:=RA) (c_helper c) tau)))
   else some_triple (core_parallel_central_cut (A:=RA) (c_helper c) b1 T)).
Proof.
  intros Hp HT Nz. unfold t_parallel_central_cut. rn. destruct (Rltb_spec b1 0) as [|L]; [reflexivity|].
  assert (Hpar : t_par t = true) by exact Hp. rewrite Hpar. cbn [negb]. rewrite orb_false_r.
  destruct (Rltb_spec T (b1 * b1)) as [H|H]; [rewrite Rleb_true by lra; apply t_central_same, HT|].
  destruct (Rleb_spec T (b1 * b1)) as [E|E].
  - assert (E1 : b1 * b1 = T) by lra. rewrite <- E1. rewrite (psqrt_ok (b1 * b1)) by nra. cbn [bind]. rewrite sqrt_square by lra.
    unfold core_central_cut, c, calc_R, core_R, t, tcalc_R, atwo. cbn [c_helper cst0 cst1 cst2 t_half_n t_n_f t_cst1 t_cst2 t_cst3]. rn. rewrite INR_2. fold N.
    assert (B : b1 * b1 <> 0) by nra. rewrite pdiv_ok by exact B. cbn [bind]. replace (b1 * b1 / (b1 * b1)) with 1 by (field; lra).
    replace (1 - 1 + N / 2 * 1 * (N / 2 * 1)) with ((N / 2) * (N / 2)) by ring.
    rewrite psqrt_ok by nra. rewrite sqrt_square by lra. cbn [bind]. rewrite !pdiv_ok by lra. cbn [bind].
    assert (D1 : N * N - 1 <> 0) by nra. apply strat_eq; field; repeat split; try lra; exact D1.
  - destruct (central_formulations_agree n p c b1 T (calc_for_ok n p Hn) HT ltac:(lra) (Rnot_le_lt _ _ E)) as (r & G & F & _).
    specialize (F ltac:(lra)).
    transitivity (some_triple (core_parallel_central_cut_old (A:=RA) (c_helper c) b1 T)).
    2: exact (f_equal (some_triple (A:=RA)) (eq_trans F (eq_sym G))).
    unfold core_parallel_central_cut_old, some_triple, c, calc_R, core_R, t, tcalc_R, atwo.
    cbn [c_helper cst1 cst2 cst3 n_f half_n t_half_n t_n_f t_cst1 t_cst2 t_cst3]. rn. fold N.
    destruct (pdiv (A:=RA) (b1 * b1) T) as [a1|]; [|reflexivity]. cbn [bind].
    match goal with |- context [psqrt ?x] => destruct (psqrt (A:=RA) x) as [xi|] end; [|reflexivity]. cbn [bind].
    match goal with |- context [pdiv ?x a1] => destruct (pdiv (A:=RA) x a1) as [q|] end; [|reflexivity]. cbn [bind].
    destruct (pdiv (A:=RA) xi N) as [q2|]; reflexivity.
Qed.
End T.

Lemma draft_same n p k (t : tcalc RA) (c : calc RA) beta T : calc_for n p c -> tcalc_for n p t -> 0 < T ->
  draft_regular n p k T beta -> draft_strat k t beta T = strat_of k c beta T.
Proof.
  intros Hc Ht HT Rg. destruct (calc_for_R n p c Hc) as (Hn & ->). rewrite (tcalc_for_R n p t Hn Ht). clear Hc Ht.
  assert (S1 : forall b0 : R, draft_strat k (tcalc_R p n) (CSingle (A:=RA) b0) T = strat_of k (calc_R p n) (CSingle (A:=RA) b0) T).
  { intros b0. destruct k; [apply t_bias_same|apply t_central_same|apply t_biasq_same]; assumption. }
  destruct beta as [b|l]; [apply S1|].
  assert (SL : forall l : list (option (num RA)), Nat.ltb (length l) 2 || negb p = true ->
    draft_strat k (tcalc_R p n) (CList (A:=RA) l) T = strat_of k (calc_R p n) (CList (A:=RA) l) T).
  { intros l' Hl. destruct k; cbn [draft_strat strat_of].
    - unfold t_single_or_parallel, t_dispatch, calc_single_or_parallel. change (t_par (tcalc_R p n)) with p. change (use_parallel_cut (calc_R p n)) with p.
      rewrite Hl. destruct l' as [|[b0|] l']; [reflexivity| |reflexivity]. exact (S1 b0).
    - unfold t_single_or_parallel_central_cut, calc_single_or_parallel_central_cut. change (t_par (tcalc_R p n)) with p. change (use_parallel_cut (calc_R p n)) with p.
      rewrite Hl. exact (S1 0).
    - unfold t_single_or_parallel_q, t_dispatch, calc_single_or_parallel_q. change (t_par (tcalc_R p n)) with p. change (use_parallel_cut (calc_R p n)) with p.
      rewrite Hl. destruct l' as [|[b0|] l']; [reflexivity| |reflexivity]. exact (S1 b0). }
  destruct p eqn:Ep; [|apply SL, orb_true_r].
  destruct l as [|o0 [|o1 l]]; [apply SL; reflexivity|apply SL; reflexivity|].
  cbn [draft_regular] in Rg. destruct o0 as [b0|]; [|discriminate]. destruct o1 as [b1|]; [|discriminate].
  destruct Rg as [|Rg]; [discriminate|]. destruct k; cbn [draft_strat strat_of].
  - exact (t_parallel_same n true Hn b0 b1 T HT Rg).
  - exact (t_parcentral_same n true Hn b1 T eq_refl HT Rg).
  - exact (t_parallelq_same n true Hn b0 b1 T HT Rg).
Qed.

(** A cut symmetric about the centre: the draft divides by zero. *)
Lemma draft_symmetric n (t : tcalc RA) (c : calc RA) b T : calc_for n true c -> tcalc_for n true t -> 0 < T -> 0 <= b -> b * b < T ->
  draft_strat OpBias t (CList (A:=RA) [Some (- b); Some b]) T = Err ZeroDivision /\
  exists r, strat_of OpBias c (CList (A:=RA) [Some (- b); Some b]) T = Ok (Success, Some r).
Proof.
  intros Hc Ht HT Hb HbT. pose proof Hc as Hc'. destruct (calc_for_R n true c Hc) as (Hn & ->). rewrite (tcalc_for_R n true t Hn Ht).
  assert (L : Rltb b (- b) = false) by (apply Rltb_false; lra).
  assert (G1 : Rltb T (b * b) = false) by (apply Rltb_false; lra). assert (G2 : Rleb T (b * b) = false) by (apply Rleb_false; lra).
  cbn [draft_strat strat_of]. split.
  - transitivity (t_parallel (A:=RA) (tcalc_R true n) (- b) b T); [reflexivity|]. unfold t_parallel. rn. rewrite L, G1, andb_false_r.
    exact (t_core_zero n true Hn b T HT Hb HbT).
  - destruct (formulations_agree n true _ (- b) b T Hc' HT ltac:(lra) (or_intror HbT)) as (r & E & _).
    exists r. transitivity (calc_parallel (A:=RA) (calc_R true n) (- b) b T); [reflexivity|]. unfold calc_parallel. rn. rewrite L, G2, andb_false_r.
    exact (f_equal (some_triple (A:=RA)) E).
Qed.

(** The central cut with [b1 = 0]. *)
Lemma draft_central_zero n (t : tcalc RA) b0 T : (2 <= n)%nat -> tcalc_for n true t -> 0 < T ->
  draft_strat OpCentral t (CList (A:=RA) [b0; Some 0]) T = Err ZeroDivision.
Proof.
  intros Hn Ht HT. rewrite (tcalc_for_R n true t Hn Ht). cbn [draft_strat].
  transitivity (t_parallel_central_cut (A:=RA) (tcalc_R true n) 0 T); [reflexivity|].
  unfold t_parallel_central_cut, tcalc_R. cbn [t_par negb t_half_n t_cst2 t_cst3 t_n_f]. rn. rewrite Rltb_false by lra. rewrite Rltb_false by lra. cbn [orb].
  rewrite pdiv_ok by lra. cbn [bind]. replace (0 * 0 / T) with 0 by (field; lra).
  rewrite psqrt_ok by nra. cbn [bind]. rewrite pdiv_zero. reflexivity.
Qed.

(** The discrete test at equality: Success with a useless triple. *)
Lemma draft_q_edge : exists t c, tcalc_for 2 true t /\ calc_for 2 true c /\
  strat_of OpQ c (CList (A:=RA) [Some (-1); Some (1 / 2)]) 1 = Ok (NoEffect, None) /\
  exists d, draft_strat OpQ t (CList (A:=RA) [Some (-1); Some (1 / 2)]) 1 = Ok (Success, Some (0, 0, d)).
Proof.
  exists (tcalc_R true 2), (calc_R true 2). split; [exists (tcalc_R true 2); split; [apply tcalc_init_R; lia|reflexivity]|]. split; [apply calc_for_ok; lia|]. split.
  - transitivity (calc_parallel_q (A:=RA) (calc_R true 2) (-1) (1/2) 1); [reflexivity|]. unfold calc_parallel_q, calc_R. cbn [c_n_f]. rn. rewrite INR_2.
    rewrite Rltb_false by lra. rewrite (Rltb_true 0 (1/2)) by lra. rewrite Rleb_false by lra. cbn [andb]. rewrite Rleb_true by lra. reflexivity.
  - eexists. transitivity (t_parallel_q (A:=RA) (tcalc_R true 2) (-1) (1/2) 1); [reflexivity|]. unfold t_parallel_q. change (t_n_f (tcalc_R true 2)) with (INR 2). rn. rewrite INR_2.
    rewrite Rltb_false by lra. rewrite (Rltb_true 0 (1/2)) by lra. rewrite Rltb_false by lra. cbn [andb]. rewrite Rltb_false by lra.
    unfold t_parallel_core, tcalc_R, atwo. cbn [t_half_n t_n_f t_cst1 t_cst2 t_cst3]. rn. rewrite !INR_2.
    match goal with |- context [psqrt ?x] => replace x with ((3/4) * (3/4)) by field end.
    rewrite psqrt_ok by lra. rewrite sqrt_square by lra. cbn [bind]. rewrite !pdiv_ok by lra. cbn [bind]. rewrite !pdiv_ok by lra. cbn [bind]. rewrite ?pdiv_ok by lra. cbn [bind].
    apply strat_eq; [field|field|reflexivity].
Qed.

Lemma draft_init (n : nat) : (2 <= n)%nat -> exists t, tcalc_init (A:=RA) n = Ok t /\ t_par t = true.
Proof. intros Hn. exists (tcalc_R true n). split; [apply tcalc_init_R, Hn|reflexivity]. Qed.

(** A second bound that is [None]. *)
Lemma draft_missing (t : tcalc RA) (c : calc RA) n k b0 l T : calc_for n true c -> tcalc_for n true t -> 0 < T ->
  draft_strat k t (CList (A:=RA) (b0 :: None :: l)) T = Err TypeError /\
  strat_of k c (CList (A:=RA) (b0 :: None :: l)) T = Err AssertionError.
Proof.
  intros Hc Ht HT. destruct (calc_for_R n true c Hc) as (Hn & ->). rewrite (tcalc_for_R n true t Hn Ht).
  destruct k, b0; split; reflexivity.
Qed.

Lemma draft_case_regular : draft_regular 3 true OpBias 4 (CList (A:=RA) [Some (1 / 2); Some 1]).
Proof. cbn. right. right. right. split; lra. Qed.
Lemma draft_case_for : tcalc_for 3 true (tcalc_R true 3).
Proof. exists (tcalc_R true 3). split; [apply tcalc_init_R; lia|reflexivity]. Qed.
