(** The three strategies in one normal form, and the facts about their
    results used by the properties. *)
From Coq Require Import Reals Lra Psatz List Bool.
From Verif Require Import Arith ModelCalc ModelEll SpecDrivers Spec SpecCut PAlg PCalc.
Import ListNotations.
Local Open Scope R_scope.

(** ** Single cut formulas *)
Definition sg_rho (N tau beta : R) := (tau + N * beta) / (N + 1).
Definition sg_sigma (N tau beta : R) := 2 * (tau + N * beta) / ((N + 1) * (tau + beta)).
Definition sg_delta (N tau beta : R) := N * N / (N * N - 1) * (1 - beta / tau * (beta / tau)).

Inductive eff : Type := ESingle (b : R) | EPar (a b : R).

Definition single_res (q : bool) (N beta T : R) : res (stratres RA) :=
  let tau := sqrt T in
  let win : res (stratres RA) :=
    Ok (Success, Some (sg_rho N tau beta, sg_sigma N tau beta, sg_delta N tau beta)) in
  if q then
    if Rltb tau beta then Ok (NoSoln, None)
    else if Rleb (tau + N * beta) 0 then Ok (NoEffect, None) else win
  else
    if Rleb 0 beta then if Rltb tau beta then Ok (NoSoln, None) else win
    else Err AssertionError.

Definition par_res (q : bool) (N a b T : R) : res (stratres RA) :=
  if Rltb b a then Ok (NoSoln, None)
  else if Rltb 0 b && Rleb T (b * b) then single_res q N a T
  else if q && Rleb (q_eta N T a b) 0 then Ok (NoEffect, None)
  else Ok (Success, Some (q_rho N T a b, q_sigma N T a b, q_delta N T a b)).

Definition norm (k : op_kind) (par : bool) (beta : cutchoice RA) : exn + eff :=
  match k, beta with
  | OpCentral, CSingle _ => inr (ESingle 0)
  | OpCentral, CList l =>
      if Nat.ltb (length l) 2 || negb par then inr (ESingle 0)
      else match l with
           | _ :: None :: _ => inl AssertionError
           | _ :: Some b1 :: _ => inr (EPar 0 b1)
           | _ => inl IndexError
           end
  | _, CSingle b => inr (ESingle b)
  | _, CList l =>
      if Nat.ltb (length l) 2 || negb par then
        match l with
        | [] => inl IndexError
        | None :: _ => inl TypeError
        | Some b :: _ => inr (ESingle b)
        end
      else match l with
           | _ :: None :: _ => inl AssertionError
           | None :: Some _ :: _ => inl TypeError
           | Some a :: Some b :: _ => inr (EPar a b)
           | _ => inl IndexError
           end
  end.

Definition is_q (k : op_kind) : bool := match k with OpQ => true | _ => false end.

Definition eff_res (q : bool) (N T : R) (e : exn + eff) : res (stratres RA) :=
  match e with
  | inl x => Err x
  | inr (ESingle b) => single_res q N b T
  | inr (EPar a b) => par_res q N a b T
  end.

Section C.
Variables (p : bool) (n : nat) (T : R).
Hypothesis Hn : (2 <= n)%nat.
Hypothesis HT : 0 < T.
Let N := INR n.
Let HN : 2 <= N := INR_ge_2 n Hn.

Lemma tau_pos : 0 < sqrt T.
Proof. apply sqrt_lt_R0, HT. Qed.
Lemma tau_sq : sqrt T * sqrt T = T.
Proof. apply sqrt_sqrt. lra. Qed.

Lemma sq_lt_tau beta : 0 <= beta -> (T < beta * beta <-> sqrt T < beta).
Proof.
  intros Hb. pose proof tau_pos. pose proof tau_sq as E. split; intros; nra.
Qed.

Lemma bias_norm beta : calc_bias_cut (calc_R p n) beta T = single_res false N beta T.
Proof.
  unfold calc_bias_cut, single_res. rn.
  destruct (Rleb_spec 0 beta) as [Hb|Hb]; [|reflexivity].
  destruct (Rltb_spec T (beta * beta)) as [H|H].
  - rewrite Rltb_true by (apply sq_lt_tau; assumption). reflexivity.
  - rewrite Rltb_false by (destruct (Rle_dec beta (sqrt T)); [assumption|];
      exfalso; apply H, sq_lt_tau; lra).
    rewrite psqrt_ok by lra. cbn [bind]. cbn [c_helper calc_R].
    pose proof tau_pos. rewrite bias_R; [reflexivity|exact HN|lra|lra].
Qed.

Lemma q_norm beta : calc_bias_cut_q (calc_R p n) beta T = single_res true N beta T.
Proof.
  unfold calc_bias_cut_q, single_res. rewrite psqrt_ok by lra. cbn [bind]. rn.
  destruct (Rltb_spec (sqrt T) beta) as [H|H]; [reflexivity|].
  cbn [c_n_f calc_R c_helper]. fold N.
  destruct (Rleb_spec (sqrt T + N * beta) 0) as [H2|H2]; [reflexivity|].
  pose proof tau_pos. rewrite bias_fast_R; [reflexivity|exact HN|lra|nra].
Qed.

Lemma reach_of a b : a <= b -> (Rltb 0 b && Rleb T (b * b)) = false -> reach T b.
Proof.
  intros Hab. unfold reach. destruct (Rltb_spec 0 b); [|lra].
  destruct (Rleb_spec T (b * b)); [discriminate|]. intros _. right. lra.
Qed.

Lemma par_norm a b : calc_parallel (calc_R p n) a b T = par_res false N a b T.
Proof.
  unfold calc_parallel, par_res. rn.
  destruct (Rltb_spec b a) as [H|H]; [reflexivity|].
  destruct (Rltb 0 b && Rleb T (b * b)) eqn:E; [apply bias_norm|].
  cbn [c_helper calc_R andb]. fold N.
  rewrite par_R; [reflexivity|exact HN|exact HT|lra|].
  apply (reach_of a); [lra|exact E].
Qed.

Lemma parq_norm a b : calc_parallel_q (calc_R p n) a b T = par_res true N a b T.
Proof.
  unfold calc_parallel_q, par_res. rn.
  destruct (Rltb_spec b a) as [H|H]; [reflexivity|].
  destruct (Rltb 0 b && Rleb T (b * b)) eqn:E; [apply q_norm|].
  cbn [c_helper c_n_f calc_R andb]. fold N. unfold q_eta.
  destruct (Rleb (T + N * (a * b)) 0); [reflexivity|].
  rewrite par_fast_R; [reflexivity|exact HN|exact HT|lra|].
  apply (reach_of a); [lra|exact E].
Qed.

Lemma central_triple :
  (sg_rho N (sqrt T) 0, sg_sigma N (sqrt T) 0, sg_delta N (sqrt T) 0)
  = (sqrt T / (N + 1), 2 / (N + 1), N * N / (N * N - 1)).
Proof.
  pose proof tau_pos. assert (N * N - 1 <> 0) by nra.
  unfold sg_rho, sg_sigma, sg_delta. f_equal; [f_equal|]; field; repeat split; try assumption; lra.
Qed.

Lemma central_single :
  (let* tau := @psqrt RA T in
   Ok (Success, Some (core_central_cut (c_helper (calc_R p n)) tau)))
  = single_res false N 0 T.
Proof.
  unfold single_res. rewrite psqrt_ok by lra. cbn [bind c_helper calc_R].
  pose proof tau_pos.
  rewrite Rleb_true by lra. rewrite Rltb_false by lra. rewrite central_R by exact HN.
  fold N. rewrite <- central_triple. reflexivity.
Qed.

Lemma central_par b1 :
  (if Rltb b1 0 then Ok (NoSoln, None)
   else if Rleb T (b1 * b1) then
     let* tau := @psqrt RA T in
     Ok (Success, Some (core_central_cut (c_helper (calc_R p n)) tau))
   else some_triple (core_parallel_central_cut (c_helper (calc_R p n)) b1 T))
  = par_res false N 0 b1 T.
Proof.
  unfold par_res. destruct (Rltb_spec b1 0) as [H|H]; [reflexivity|].
  destruct (Rleb_spec T (b1 * b1)) as [H2|H2].
  - rewrite Rltb_true by nra. cbn [andb]. apply central_single.
  - rewrite andb_false_r. cbn [andb c_helper calc_R].
    rewrite par_central_R; [reflexivity|exact HN|exact HT|lra|lra].
Qed.

Lemma strat_norm k beta :
  strat_of k (calc_R p n) beta T = eff_res (is_q k) N T (norm k p beta).
Proof.
  destruct k, beta as [b|l]; cbn [strat_of is_q norm].
  - apply bias_norm.
  - unfold calc_single_or_parallel. cbn [use_parallel_cut calc_R].
    destruct (Nat.ltb (length l) 2 || negb p) eqn:E.
    + destruct l as [|[b|] l]; cbn; [reflexivity|apply bias_norm|reflexivity].
    + destruct l as [|[a|] [|[b|] l]]; cbn; try reflexivity. apply par_norm.
  - apply central_single.
  - unfold calc_single_or_parallel_central_cut. cbn [use_parallel_cut calc_R].
    destruct (Nat.ltb (length l) 2 || negb p) eqn:E; [apply central_single|].
    destruct l as [|a [|[b|] l]]; try reflexivity. apply central_par.
  - apply q_norm.
  - unfold calc_single_or_parallel_q. cbn [use_parallel_cut calc_R].
    destruct (Nat.ltb (length l) 2 || negb p) eqn:E.
    + destruct l as [|[b|] l]; cbn; [reflexivity|apply q_norm|reflexivity].
    + destruct l as [|[a|] [|[b|] l]]; cbn; try reflexivity. apply parq_norm.
Qed.

(** the cut in terms of the effective offsets *)
Definition eff_holds (e : eff) (t : R) : Prop :=
  match e with ESingle b => t <= - b | EPar a b => - b <= t <= - a end.

Lemma norm_holds k beta e t : norm k p beta = inr e ->
  (cut_holds k p beta t <-> eff_holds e t).
Proof.
  unfold norm, cut_holds, first_beta, second_beta, eff_holds.
  destruct k, beta as [b|[|[a|] [|[b|] l]]], p; cbn; intros H; inversion H; subst;
    intuition lra.
Qed.

(** ** Facts about results *)
Definition sound (a b rho sigma delta : R) : Prop :=
  (0 <= sigma < 1 /\ rho = sigma * (a + b) / 2 /\
   (1 - sigma) * (delta * T - T) = sigma * (sigma * ((a + b) * (a + b)) / 4 - a * b))
  \/ (sigma = 1 /\ a = b /\ rho = a /\ T - a * a <= delta * T).

Lemma sg_sigma_lt beta : - sqrt T < beta < sqrt T -> sg_sigma N (sqrt T) beta < 1.
Proof.
  intros Hb. unfold sg_sigma. apply (Rmult_lt_reg_r ((N + 1) * (sqrt T + beta))); [nra|].
  unfold Rdiv. rewrite Rmult_assoc, Rinv_l by nra. nra.
Qed.

Lemma sg_sigma_ge beta : - sqrt T < beta -> 0 <= sqrt T + N * beta -> 0 <= sg_sigma N (sqrt T) beta.
Proof.
  intros Hb He. unfold sg_sigma, Rdiv. apply Rmult_le_pos; [lra|].
  apply Rlt_le, Rinv_0_lt_compat. nra.
Qed.

Lemma sg_sigma_pos beta : - sqrt T < beta -> 0 < sqrt T + N * beta -> 0 < sg_sigma N (sqrt T) beta.
Proof. intros Hb He. unfold sg_sigma. apply Rdiv_lt_0_compat; nra. Qed.

Lemma sg_sigma_tau : sg_sigma N (sqrt T) (sqrt T) = 1.
Proof. pose proof tau_pos. unfold sg_sigma. field. split; lra. Qed.

Lemma sg_delta_tau : sg_delta N (sqrt T) (sqrt T) = 0.
Proof. pose proof tau_pos. unfold sg_delta. field. split; [lra|nra]. Qed.

Lemma sg_delta_pos beta : - sqrt T < beta < sqrt T -> 0 < sg_delta N (sqrt T) beta.
Proof.
  intros Hb. pose proof tau_pos as Ht. unfold sg_delta. apply Rmult_lt_0_compat.
  - apply Rdiv_lt_0_compat; nra.
  - assert (H1 : beta / sqrt T < 1).
    { apply (Rmult_lt_reg_r (sqrt T)); [exact Ht|]. unfold Rdiv. rewrite Rmult_assoc, Rinv_l by lra. lra. }
    assert (H2 : -1 < beta / sqrt T).
    { apply (Rmult_lt_reg_r (sqrt T)); [exact Ht|]. unfold Rdiv. rewrite Rmult_assoc, Rinv_l by lra. lra. }
    nra.
Qed.

Lemma sg_sound beta : - sqrt T < beta <= sqrt T -> 0 <= sqrt T + N * beta ->
  sound beta (sqrt T) (sg_rho N (sqrt T) beta) (sg_sigma N (sqrt T) beta) (sg_delta N (sqrt T) beta).
Proof.
  intros Hb He. pose proof tau_pos as Ht. pose proof tau_sq as Htt.
  destruct (Req_dec beta (sqrt T)) as [->|Hne].
  - right. rewrite sg_sigma_tau, sg_delta_tau. repeat split; [|lra].
    unfold sg_rho. field. lra.
  - left. split; [split; [apply sg_sigma_ge; lra|apply sg_sigma_lt; lra]|].
    split.
    + unfold sg_rho, sg_sigma. field. split; lra.
    + set (tau := sqrt T) in *. clearbody tau. rewrite <- Htt. unfold sg_sigma, sg_delta.
      field. repeat split; try lra. nra.
Qed.

Lemma par_sound a b : a <= b -> reach T b -> 0 <= q_eta N T a b ->
  sound a b (q_rho N T a b) (q_sigma N T a b) (q_delta N T a b).
Proof.
  intros Hab Hr He.
  destruct (Req_dec a b) as [Heq|Hne].
  - destruct (Rle_dec (b * b) T) as [HbT|HbT].
    + right. subst a. rewrite (sigma_flat N T b b), (delta_flat N T b b) by (assumption || reflexivity || lra).
      repeat split; [unfold q_rho; rewrite (sigma_flat N T b b) by (assumption || reflexivity || lra); field|].
      replace (N / (N - 1) * (1 - b * b / T) * T) with (N / (N - 1) * (T - b * b)) by (field; lra).
      assert (1 <= N / (N - 1)).
      { apply (Rmult_le_reg_r (N - 1)); [lra|]. unfold Rdiv. rewrite Rmult_assoc, Rinv_l by lra. lra. }
      nra.
    + left. split; [split|].
      * apply sigma_nonneg; assumption.
      * pose proof (den_pos N T a b HN HT Hab Hr) as Hd.
        pose proof (xi_sq N T a b HN) as Hx. pose proof (xi_ge_0 N T a b) as Hx0.
        assert (Hxi : q_xi N T a b = b * b - T).
        { apply Rsqr_inj; [exact Hx0|lra|]. unfold Rsqr. rewrite Hx. unfold q_rad. rewrite Heq. field. }
        unfold q_sigma. apply (Rmult_lt_reg_r (q_A N T a b + q_xi N T a b)); [exact Hd|].
        unfold Rdiv. rewrite Rmult_assoc, Rinv_l by lra. rewrite Hxi.
        unfold q_eta, q_A, q_s. rewrite Heq. lra.
      * split; [reflexivity|]. apply delta_identity; assumption.
  - left. split; [split|].
    + apply sigma_nonneg; assumption.
    + apply sigma_lt_1; try assumption. lra.
    + split; [reflexivity|]. apply delta_identity; assumption.
Qed.

End C.
