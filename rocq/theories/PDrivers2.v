(** Proofs about [cutting_plane_optim_q], [bsearch] and [BSearchAdaptor]. *)
From Coq Require Import List Arith ZArith Bool Lia Reals Lra.
From Verif Require Import Arith ModelCalc ModelCut SpecDrivers PDrivers.
Import ListNotations.

Section OptimQ.
Context {A : Arith} {St V C Orc G : Type}.
Variable f : Orc -> V -> G -> bool -> Orc * res (C * V * option G * bool).
Variable sp : space_ops A St V C.
Variable opt : options A.

Notation ev := (upd_event A C).
Notation qry := (V * G * bool * res (C * V * option G * bool))%type.

Definition q_post (g0 : G) (l : list qry) (u : list ev) (r : res (option V * G * Z)) : Prop :=
  match r with
  | Ok (x, g', k) =>
      (x, g') = last_value_q l g0 /\
      ((q_history (tolerance opt) g0 l u /\ length l = Z.to_nat (max_iters opt) /\ k = max_iters opt) \/
       (exists q e alt st lq le, l = q :: lq /\ u = e :: le /\ q_history (tolerance opt) g0 lq le /\
          q_match q e alt /\ q_retry q = retry_after lq le /\
          q_gamma q = snd (last_value_q lq g0) /\
          ev_res e = Ok st /\
          (st = NoSoln \/ (st = NoEffect /\ alt = false) \/
           (st <> NoSoln /\ altb (ev_tsq e) (tolerance opt) = true)) /\
          k = Z.of_nat (length lq)))
  | Err x =>
      (exists q lq, l = q :: lq /\ snd q = Err x /\ q_history (tolerance opt) g0 lq u /\
          q_retry q = retry_after lq u /\ q_gamma q = snd (last_value_q lq g0)) \/
      (exists q e alt lq le, l = q :: lq /\ u = e :: le /\ q_history (tolerance opt) g0 lq le /\
          q_match q e alt /\ q_retry q = retry_after lq le /\
          q_gamma q = snd (last_value_q lq g0) /\ ev_res e = Err x)
  end.

Lemma optim_q_loop_spec g0 fuel : forall niter o l s u xb g retry o' l' s' u' r,
  optim_q_loop (logged_q f) (logged_space sp) opt fuel niter (o, l) (s, u) xb g retry
    = ((o', l'), (s', u'), r) ->
  q_history (tolerance opt) g0 l u -> (xb, g) = last_value_q l g0 -> retry = retry_after l u ->
  niter = Z.of_nat (length l) -> (fuel + length l = Z.to_nat (max_iters opt))%nat ->
  q_post g0 l' u' r /\ (length l' <= Z.to_nat (max_iters opt))%nat.
Proof.
  induction fuel; intros niter o l s u xb g retry o' l' s' u' r H Hh Hv Hr Hn Hf;
    cbn [optim_q_loop] in H.
  - inversion H; subst. split; [|simpl in Hf; lia]. split; [exact Hv|]. left. auto.
  - unfold logged_q at 1 in H. cbn [fst snd logged_space sp_xc] in H.
    destruct (f o (sp_xc sp s) g retry) as [o1 r1] eqn:Ef. cbn [fst snd] in H.
    assert (Eg : g = snd (last_value_q l g0)) by (rewrite <- Hv; reflexivity).
    destruct r1 as [[[[ct xq] v] alt]|x].
    2:{ inversion H; subst. split; [|simpl; lia]. left.
        eexists (sp_xc sp s', _, _, Err x), l. repeat split; auto. }
    cbn [sp_q logged_space] in H. unfold log_upd at 1 in H. cbn [fst snd] in H.
    destruct (sp_q sp ct s) as [s1 rs] eqn:Eq.
    set (q := (sp_xc sp s, g, retry, Ok (ct, xq, v, alt)) : qry) in *.
    set (e := mkEv OpQ ct rs (sp_tsq sp s1) : ev) in *.
    assert (Hm : q_match q e alt) by (split; [reflexivity|exists xq, v; reflexivity]).
    assert (Hqr : q_retry q = retry_after l u) by exact Hr.
    assert (Hqg : q_gamma q = snd (last_value_q l g0)) by exact Eg.
    assert (Htsq : sp_tsq (logged_space sp) (s1, e :: u) = ev_tsq e) by reflexivity.
    assert (Hre : ev_res e = rs) by reflexivity.
    set (xb1 := match v with Some _ => Some xq | None => xb end).
    set (g1 := match v with Some w => w | None => g end).
    assert (Ep : (match v with Some g1 => (Some xq, g1) | None => (xb, g) end) = (xb1, g1)).
    { unfold xb1, g1. destruct v; reflexivity. }
    rewrite Ep in H. clear Ep.
    assert (Hv1 : (xb1, g1) = last_value_q (q :: l) g0).
    { unfold xb1, g1, q. cbn [last_value_q]. destruct v; [reflexivity|exact Hv]. }
    assert (Hlen : length (q :: l) = S (length l)) by reflexivity.
    clearbody xb1 g1.
    assert (Hraft : retry_after (q :: l) (e :: u) =
              match rs with Ok NoEffect => true | Ok Unknown => retry | _ => false end).
    { unfold retry_after. rewrite Hre. reflexivity. }
    change (sp_tsq (logged_space sp) (s1, e :: u)) with (ev_tsq e) in H.
    assert (Hcont : forall rt,
       (rs = Ok Success \/ rs = Ok Unknown \/ (rs = Ok NoEffect /\ alt = true)) ->
       rt = retry_after (q :: l) (e :: u) ->
       (if altb (ev_tsq e) (tolerance opt)
        then ((o1, q :: l), (s1, e :: u), Ok (xb1, g1, niter))
        else optim_q_loop (logged_q f) (logged_space sp) opt fuel (niter + 1)%Z
               (o1, q :: l) (s1, e :: u) xb1 g1 rt) = (o', l', (s', u'), r) ->
       q_post g0 l' u' r /\ (length l' <= Z.to_nat (max_iters opt))%nat).
    { intros rt Hst Hrt Hrun. destruct (altb (ev_tsq e) (tolerance opt)) eqn:Et.
      - injection Hrun as E1 E2 E3 E4 E5. rewrite <- E2, <- E4, <- E5. split; [|rewrite Hlen; lia].
        split; [exact Hv1|]. right.
        destruct rs as [st|]; [|destruct Hst as [?|[?|[? ?]]]; discriminate].
        exists q, e, alt, st, l, u.
        refine (conj eq_refl (conj eq_refl (conj Hh (conj Hm (conj Hqr (conj Hqg (conj Hre (conj _ _)))))))).
        + right. right. split; [|exact Et].
          destruct Hst as [E|[E|[E _]]]; injection E; intros; subst; discriminate.
        + lia.
      - eapply IHfuel in Hrun; eauto.
        + econstructor; eauto. split; [exact Et|]. rewrite Hre. exact Hst.
        + rewrite Hlen. lia.
        + rewrite Hlen. lia. }
    destruct rs as [st|x].
    + destruct st.
      * eapply Hcont; [left; reflexivity| |exact H]. rewrite Hraft. reflexivity.
      * injection H as E1 E2 E3 E4 E5. rewrite <- E2, <- E4, <- E5. split; [|rewrite Hlen; lia].
        split; [exact Hv1|]. right. exists q, e, alt, NoSoln, l, u.
        repeat (split; [first [exact eq_refl|eassumption|left; reflexivity]|]). lia.
      * destruct (negb alt) eqn:Ea.
        -- injection H as E1 E2 E3 E4 E5. rewrite <- E2, <- E4, <- E5. split; [|rewrite Hlen; lia].
           split; [exact Hv1|]. right. exists q, e, alt, NoEffect, l, u.
           apply negb_true_iff in Ea.
           repeat (split; [first [exact eq_refl|eassumption|right; left; split; [reflexivity|exact Ea]]|]).
           lia.
        -- apply negb_false_iff in Ea. eapply Hcont; [right; right; split; [reflexivity|exact Ea]| |exact H].
           rewrite Hraft. reflexivity.
      * eapply Hcont; [right; left; reflexivity| |exact H]. rewrite Hraft. reflexivity.
    + injection H as E1 E2 E3 E4 E5. rewrite <- E2, <- E4, <- E5. split; [|rewrite Hlen; lia].
      right. exists q, e, alt, l, u.
      repeat (split; [first [exact eq_refl|eassumption]|]). exact Hre.
Qed.

Lemma optim_q_loop_logged fuel : forall niter o l s u xb g rt o' s' r,
  optim_q_loop f sp opt fuel niter o s xb g rt = (o', s', r) ->
  exists l' u', optim_q_loop (logged_q f) (logged_space sp) opt fuel niter (o, l) (s, u) xb g rt
    = ((o', l'), (s', u'), r).
Proof.
  induction fuel; intros niter o l s u xb g rt o' s' r H; cbn [optim_q_loop] in *.
  - inversion H; subst. eauto.
  - unfold logged_q at 1. cbn [fst snd logged_space sp_xc].
    destruct (f o (sp_xc sp s) g rt) as [o1 r1].
    destruct r1 as [[[[ct xq] v] alt]|x]; cbn [fst snd]; [|inversion H; subst; eauto].
    cbn [sp_q logged_space]. unfold log_upd. cbn [fst snd].
    destruct (match v with Some g1 => (Some xq, g1) | None => (xb, g) end) as [xb1 g1].
    destruct (sp_q sp ct s) as [s1 rs].
    cbn [sp_tsq logged_space fst].
    destruct rs as [st|x]; [|inversion H; subst; eauto].
    destruct st; try (destruct (negb alt)); try (destruct (altb (sp_tsq sp s1) (tolerance opt)));
      try (inversion H; subst; eauto; fail);
      eapply IHfuel in H; destruct H as (l' & u' & H); eauto.
Qed.

Theorem optim_q_run_spec o s g o' s' r :
  cutting_plane_optim_q f sp opt o s g = (o', s', r) ->
  exists l u,
    cutting_plane_optim_q (logged_q f) (logged_space sp) opt (o, []) (s, []) g
      = ((o', l), (s', u), r) /\
    q_post g l u r /\ (length l <= Z.to_nat (max_iters opt))%nat.
Proof.
  intros H. destruct (optim_q_loop_logged _ _ _ [] _ [] _ _ _ _ _ _ H) as (l & u & Hl).
  exists l, u. split; [exact Hl|].
  eapply optim_q_loop_spec in Hl; eauto; try constructor.
Qed.

Lemma last_value_q_inv (l : list qry) g x g' :
  (x, g') = last_value_q l g ->
  (x = None /\ g' = g /\ Forall (fun q => value_of_q q = None) l) \/
  (exists y gin rt c xq alt post pre,
     x = Some xq /\ l = post ++ (y, gin, rt, Ok (c, xq, Some g', alt)) :: pre /\
     Forall (fun q => value_of_q q = None) post).
Proof.
  induction l as [|[[[y gin] rt] a] l IH]; cbn [last_value_q]; intros H.
  - inversion H; subst. left. auto.
  - destruct a as [[[[c xq] [v|]] alt]|e].
    + inversion H; subst. right. exists y, gin, rt, c, xq, alt, [], l. auto.
    + specialize (IH H).
      destruct IH as [(E1 & E2 & HF)|(y' & gin' & rt' & c' & xq' & alt' & post & pre & E1 & E2 & HF)].
      * left. auto.
      * right. exists y', gin', rt', c', xq', alt', ((y, gin, rt, Ok (c, xq, None, alt)) :: post), pre.
        subst. auto.
    + specialize (IH H).
      destruct IH as [(E1 & E2 & HF)|(y' & gin' & rt' & c' & xq' & alt' & post & pre & E1 & E2 & HF)].
      * left. auto.
      * right. exists y', gin', rt', c', xq', alt', ((y, gin, rt, Err e) :: post), pre.
        subst. auto.
Qed.

End OptimQ.

(** ** bsearch *)
Section BS.
Context {B N : Type}.
Variable f : B -> N -> B * res bool.
Variable narrow : N -> N -> bool.
Variable mid : N -> N -> N.
Variable maxit : Z.

Notation blog := (list (N * res bool)).

Definition bs_post (lo up : N) (l : blog) (r : res (N * Z)) : Prop :=
  (length l <= Z.to_nat maxit)%nat /\ bs_queries_ok narrow mid l lo up /\
  match r with
  | Ok (v, k) =>
      v = up_end l up /\ Forall answered l /\
      ((k = Z.of_nat (length l) /\ narrow (lo_end l lo) v = true /\
        (length l < Z.to_nat maxit)%nat) \/
       (k = maxit /\ length l = Z.to_nat maxit))
  | Err x => exists y l', l = (y, Err x) :: l' /\ Forall answered l'
  end.

Lemma bsearch_loop_spec lo up fuel : forall niter o l lower upper o' l' r,
  bsearch_loop (logged_bs f) narrow mid maxit fuel niter (o, l) lower upper = ((o', l'), r) ->
  lower = lo_end l lo -> upper = up_end l up -> bs_queries_ok narrow mid l lo up -> Forall answered l ->
  niter = Z.of_nat (length l) -> (fuel + length l = Z.to_nat maxit)%nat ->
  bs_post lo up l' r.
Proof.
  induction fuel; intros niter o l lower upper o' l' r H Hl Hu Hq Ha Hn Hf;
    cbn [bsearch_loop] in H.
  - inversion H; subst. split; [simpl in Hf; lia|]. split; [exact Hq|].
    split; [reflexivity|]. split; [exact Ha|]. right. auto.
  - destruct (narrow lower upper) eqn:En.
    + inversion H; subst. split; [lia|]. split; [exact Hq|].
      split; [reflexivity|]. split; [exact Ha|]. left. repeat split; auto. lia.
    + unfold logged_bs at 1 in H. cbn [fst snd] in H.
      destruct (f o (mid lower upper)) as [o1 r1] eqn:Ef. cbn [fst snd] in H.
      assert (Hq' : bs_queries_ok narrow mid ((mid lower upper, r1) :: l) lo up).
      { cbn. subst. auto. }
      destruct r1 as [[|]|x].
      * eapply IHfuel in H; eauto.
        -- constructor; auto. eexists; reflexivity.
        -- cbn [length]. lia.
        -- cbn [length]. lia.
      * eapply IHfuel in H; eauto.
        -- constructor; auto. eexists; reflexivity.
        -- cbn [length]. lia.
        -- cbn [length]. lia.
      * inversion H; subst. split; [cbn [length]; lia|]. split; [exact Hq'|].
        eauto.
Qed.

Lemma bsearch_loop_logged fuel : forall niter o l lower upper o' r,
  bsearch_loop f narrow mid maxit fuel niter o lower upper = (o', r) ->
  exists l', bsearch_loop (logged_bs f) narrow mid maxit fuel niter (o, l) lower upper
    = ((o', l'), r).
Proof.
  induction fuel; intros niter o l lower upper o' r H; cbn [bsearch_loop] in *.
  - inversion H; subst; eauto.
  - destruct (narrow lower upper); [inversion H; subst; eauto|].
    unfold logged_bs at 1. cbn [fst snd].
    destruct (f o (mid lower upper)) as [o1 r1]. cbn [fst snd].
    destruct r1 as [[|]|x].
    + eapply IHfuel in H. destruct H as (l' & H). eauto.
    + eapply IHfuel in H. destruct H as (l' & H). eauto.
    + inversion H; subst; eauto.
Qed.

Theorem bsearch_run_spec o lower upper o' r :
  bsearch f narrow mid maxit o lower upper = (o', r) ->
  exists l, bsearch (logged_bs f) narrow mid maxit (o, []) lower upper = ((o', l), r) /\
    bs_post lower upper l r.
Proof.
  intros H. destruct (bsearch_loop_logged _ _ _ [] _ _ _ _ H) as (l & Hl).
  exists l. split; [exact Hl|].
  eapply bsearch_loop_spec in Hl; eauto; cbn; auto with arith.
Qed.

Lemma up_end_cases (l : blog) up : up_end l up = up \/ In (up_end l up, Ok true) l.
Proof.
  induction l as [|[x [[|]|e]] l IH]; cbn; auto; destruct IH; auto.
Qed.

Lemma lo_end_cases (l : blog) lo : lo_end l lo = lo \/ In (lo_end l lo, Ok false) l.
Proof.
  induction l as [|[x [[|]|e]] l IH]; cbn; auto; destruct IH; auto.
Qed.

(** answers recorded in the log were given by the oracle *)
Lemma bsearch_loop_answers fuel : forall niter o l lower upper o' l' r,
  bsearch_loop (logged_bs f) narrow mid maxit fuel niter (o, l) lower upper = ((o', l'), r) ->
  Forall (fun q => exists o1 o2, f o1 (fst q) = (o2, snd q)) l ->
  Forall (fun q => exists o1 o2, f o1 (fst q) = (o2, snd q)) l'.
Proof.
  induction fuel; intros niter o l lower upper o' l' r H Hl; cbn [bsearch_loop] in H.
  - inversion H; subst; auto.
  - destruct (narrow lower upper); [inversion H; subst; auto|].
    unfold logged_bs at 1 in H. cbn [fst snd] in H.
    destruct (f o (mid lower upper)) as [o1 r1] eqn:Ef. cbn [fst snd] in H.
    assert (Hl' : Forall (fun q => exists o1 o2, f o1 (fst q) = (o2, snd q))
                    ((mid lower upper, r1) :: l)).
    { constructor; cbn; eauto. }
    destruct r1 as [[|]|x]; [eapply IHfuel; eauto|eapply IHfuel; eauto|inversion H; subst; auto].
Qed.

End BS.

(** ** bsearch over the reals *)
Section BSReal.
Open Scope R_scope.
Context {B : Type}.
Variable f : B -> R -> B * res bool.
Variable t : R.
(** accepts above the threshold, rejects below; at the threshold either *)
Hypothesis f_thr : forall o x, exists b, snd (f o x) = Ok b /\
  (b = true -> t <= x) /\ (b = false -> x <= t).

Variable tol : R.
Variable maxit : Z.

Lemma pow2_pos k : 0 < 2 ^ k.
Proof. apply pow_lt. lra. Qed.

Notation narrowR := (narrow_num (A := RA) tol).
Notation midR := (mid_num (A := RA)).

Lemma midR_eq lo up : midR lo up = lo + (up - lo) / 2.
Proof. reflexivity. Qed.

Lemma narrowR_true lo up : narrowR lo up = true <-> (up - lo) / 2 < tol.
Proof.
  unfold narrow_num, atwo. cbn. unfold Rltb.
  replace (1 + 1) with 2 by ring.
  destruct (Rlt_dec ((up - lo) / 2) tol); split; intros; auto; discriminate.
Qed.

Lemma narrowR_false lo up : narrowR lo up = false <-> tol <= (up - lo) / 2.
Proof.
  pose proof (narrowR_true lo up) as H.
  destruct (narrowR lo up).
  - split; [discriminate|]. intros. exfalso. apply (Rlt_irrefl tol).
    apply Rle_lt_trans with ((up - lo) / 2); [auto|apply H; reflexivity].
  - split; auto. intros _. apply Rnot_lt_le. intros Hc. apply H in Hc. discriminate.
Qed.

Lemma bs_width l lo up :
  bs_queries_ok narrowR midR l lo up -> Forall answered l ->
  up_end l up - lo_end l lo = (up - lo) / 2 ^ (length l).
Proof.
  induction l as [|[x r] l IH]; intros Hq Ha.
  - cbn. field.
  - inversion Ha as [|? ? [b Hb] Ha2]; subst. cbn in Hb. subst r.
    destruct Hq as [Hx [Hn Hq]]. specialize (IH Hq Ha2).
    rewrite midR_eq in Hx. cbn [length pow].
    assert (E : (up - lo) / (2 * 2 ^ length l) = (up_end l up - lo_end l lo) / 2).
    { rewrite IH. field. apply Rgt_not_eq, pow2_pos. }
    destruct b; cbn [up_end lo_end]; rewrite E, Hx; lra.
Qed.

Theorem bsearch_real o lower upper o' v k :
  lower <= t <= upper ->
  bsearch f narrowR midR maxit o lower upper = (o', Ok (v, k)) ->
  (0 <= maxit)%Z ->
  t <= v /\
  ((k < maxit)%Z -> v < t + 2 * tol) /\
  (forall j : nat, (Z.of_nat j < maxit)%Z -> (upper - lower) / 2 ^ (S j) < tol -> (k <= Z.of_nat j)%Z) /\
  (k = maxit -> v <= t + (upper - lower) / 2 ^ (Z.to_nat maxit)).
Proof.
  intros Ht H Hmax.
  destruct (bsearch_run_spec _ _ _ _ _ _ _ _ _ H) as (l & Hl & Hlen & Hq & Hv & Ha & Hk).
  pose proof (bsearch_loop_answers _ _ _ _ _ _ _ _ _ _ _ _ _ Hl (Forall_nil _)) as Hans.
  assert (Hup : t <= v).
  { subst v. destruct (up_end_cases l upper) as [E|Hin]; [rewrite E; lra|].
    rewrite Forall_forall in Hans. specialize (Hans _ Hin). cbn [fst snd] in Hans.
    destruct Hans as (o1 & o2 & Hf). destruct (f_thr o1 (up_end l upper)) as (b & Hb & H1 & H2).
    rewrite Hf in Hb. cbn in Hb. inversion Hb; subst. auto. }
  assert (Hlo : lo_end l lower <= t).
  { destruct (lo_end_cases l lower) as [E|Hin]; [rewrite E; lra|].
    rewrite Forall_forall in Hans. specialize (Hans _ Hin). cbn [fst snd] in Hans.
    destruct Hans as (o1 & o2 & Hf). destruct (f_thr o1 (lo_end l lower)) as (b & Hb & H1 & H2).
    rewrite Hf in Hb. cbn in Hb. inversion Hb; subst. auto. }
  assert (Hw : v - lo_end l lower = (upper - lower) / 2 ^ (length l))
    by (rewrite Hv; exact (bs_width l lower upper Hq Ha)).
  split; [exact Hup|]. split; [|split].
  - intros Hkm. destruct Hk as [(Hk1 & Hn & _)|(Hk1 & _)]; [|lia].
    apply narrowR_true in Hn. lra.
  - intros j Hj Hs. destruct (Z_le_gt_dec k (Z.of_nat j)) as [|Hgt]; [auto|exfalso].
    (* at the query number j the bracket was already narrow *)
    assert (Hlj : (j < length l)%nat).
    { destruct Hk as [(Hk1 & _ & _)|(Hk1 & Hk2)]; [lia|]. rewrite Hk2. lia. }
    clear - Hq Ha Hs Hlj.
    revert Hlj. induction l as [|[x r] l IH]; cbn [length]; intros Hlj; [lia|].
    inversion Ha; subst. destruct Hq as [Hx [Hn Hq]].
    destruct (Nat.eq_dec j (length l)) as [->|Hne]; [|apply IH; auto; lia].
    apply narrowR_false in Hn.
    assert (Hbw : (up_end (N := R) l upper - lo_end (N := R) l lower) = (upper - lower) / 2 ^ (length l))
      by exact (bs_width l lower upper Hq H2).
    change (tol <= (up_end (N := R) l upper - lo_end (N := R) l lower) / 2) in Hn.
    rewrite Hbw in Hn.
    cbn [pow] in Hs. pose proof (pow2_pos (length l)).
    replace ((upper - lower) / (2 * 2 ^ length l)) with ((upper - lower) / 2 ^ length l / 2) in Hs
      by (field; lra). lra.
  - intros ->. destruct Hk as [(Hk1 & Hn & Hlt)|(Hk1 & Hk2)]; [lia|].
    rewrite Hk2 in Hw. lra.
Qed.

End BSReal.

(** ** bsearch over the integers *)
Section BSInt.
Open Scope Z_scope.
Context {B : Type}.
Variable f : B -> Z -> B * res bool.
Variable t : Z.
Hypothesis f_thr : forall o x, snd (f o x) = Ok (t <=? x).
Variable tn : Z.
Variable td : positive.
(** the tolerance is at most 1/2 (the default is 1e-20) *)
Hypothesis tol_small : 2 * tn <= Zpos td.
Variable maxit : Z.

Lemma mid_int_bounds l u : l < u ->
  l <= mid_int l u <= u /\ 2 * (mid_int l u - l) <= u - l + 1 /\ 2 * (u - mid_int l u) <= u - l + 1.
Proof.
  intros H. unfold mid_int.
  pose proof (Z.quot_rem' (l + u) 2). pose proof (Z.rem_bound_abs (l + u) 2 ltac:(lia)).
  lia.
Qed.

Lemma narrow_int_false l u : l < u -> narrow_int tn td l u = false.
Proof. intros H. unfold narrow_int. apply Z.ltb_ge.
  pose proof (Pos2Z.is_pos td). pose proof tol_small.
  assert (1 * Z.pos td <= (u - l) * Z.pos td) by (apply Z.mul_le_mono_nonneg_r; lia). lia.
Qed.

Lemma bsearch_int_loop fuel : forall niter o lower upper,
  lower < t <= upper ->
  exists o' v,
    bsearch_loop f (narrow_int tn td) mid_int maxit fuel niter o lower upper = (o', Ok (v, maxit)) /\
    t <= v <= upper /\ 2 ^ Z.of_nat fuel * (v - t) <= upper - lower - 1.
Proof.
  induction fuel; intros niter o lower upper H; cbn [bsearch_loop].
  - exists o, upper. split; [reflexivity|]. split; [lia|]. change (2 ^ Z.of_nat 0) with 1. lia.
  - rewrite narrow_int_false by lia.
    pose proof (mid_int_bounds lower upper ltac:(lia)) as Hm.
    pose proof (f_thr o (mid_int lower upper)) as Ht.
    destruct (f o (mid_int lower upper)) as [o1 r]. cbn in Ht. subst r.
    assert (Hp : 2 ^ Z.of_nat (S fuel) = 2 * 2 ^ Z.of_nat fuel).
    { rewrite Nat2Z.inj_succ, Z.pow_succ_r by lia. reflexivity. }
    destruct (Z.leb_spec t (mid_int lower upper)).
    + destruct (IHfuel (niter + 1) o1 lower (mid_int lower upper)) as (o' & v & E & Hv & Hw); [lia|].
      exists o', v. split; [exact E|]. split; [lia|]. rewrite Hp. nia.
    + destruct (IHfuel (niter + 1) o1 (mid_int lower upper) upper) as (o' & v & E & Hv & Hw); [lia|].
      exists o', v. split; [exact E|]. split; [lia|]. rewrite Hp. nia.
Qed.

Theorem bsearch_int o lower upper :
  lower < t <= upper ->
  exists o' v,
    bsearch f (narrow_int tn td) mid_int maxit o lower upper = (o', Ok (v, maxit)) /\
    t <= v <= upper /\
    (upper - lower <= 2 ^ Z.of_nat (Z.to_nat maxit) -> v = t).
Proof.
  intros H. destruct (bsearch_int_loop (Z.to_nat maxit) 0 o lower upper H) as (o' & v & E & Hv & Hw).
  exists o', v. split; [exact E|]. split; [exact Hv|]. intros Hb.
  assert (0 < 2 ^ Z.of_nat (Z.to_nat maxit)) by (apply Z.pow_pos_nonneg; lia). nia.
Qed.

End BSInt.

(** ** BSearchAdaptor *)
Section Adaptor.
Context {A : Arith} {St V C Orc G : Type}.
Variable f : Orc -> V -> Orc * res (option C).
Variable update : G -> Orc -> Orc.
Variable sp : space_ops A St V C.
Variable opt : options A.

(** C12 *)
Theorem assess_bs_spec o s g ad' r :
  assess_bs f update sp opt (o, s) g = (ad', r) ->
  exists o' s' rf,
    cutting_plane_feas f sp opt (update g o) s = (o', s', rf) /\ fst ad' = o' /\
    (r = Ok true <-> exists x k, rf = Ok (Some x, k)) /\
    (r = Ok false <-> exists k, rf = Ok (None, k)) /\
    (forall e, r = Err e <-> rf = Err e) /\
    (forall x k, rf = Ok (Some x, k) -> x = sp_xc sp s' /\ snd ad' = sp_set_xc sp x s) /\
    (r <> Ok true -> snd ad' = s).
Proof.
  unfold assess_bs. intros H.
  destruct (cutting_plane_feas f sp opt (update g o) s) as [[o' s'] rf] eqn:E.
  exists o', s', rf. split; [reflexivity|].
  destruct (feas_run_spec _ _ _ _ _ _ _ _ E) as (l & u & _ & _ & Hp).
  assert (Hx : forall x k, rf = Ok (Some x, k) -> x = sp_xc sp s').
  { intros x k ->. destruct Hp as (dl1 & _ & _ & _ & _ & Hx). exact Hx. }
  clear Hp.
  destruct rf as [[[x|] k]|e]; inversion H; subst; cbn [fst snd];
    repeat split; intros; try discriminate; try congruence; eauto;
    repeat match goal with h : exists _, _ |- _ => destruct h end; try congruence; eauto.
Qed.

(** C13: [tuned o g] means that the oracle is set to [g]; [update] sets it and
    queries do not change it. *)
Variable tuned : Orc -> G -> Prop.
Hypothesis update_tuned : forall g o, tuned (update g o) g.
Hypothesis query_tuned : forall o x o' r g, f o x = (o', r) -> tuned o g -> tuned o' g.
Hypothesis set_xc_law : forall x s, sp_xc sp (sp_set_xc sp x s) = x.

Lemma feas_loop_accepts fuel : forall niter o s o' s' x k g,
  feas_loop f sp opt fuel niter o s = (o', s', Ok (Some x, k)) -> tuned o g ->
  exists o1, tuned o1 g /\ f o1 x = (o', Ok None).
Proof.
  induction fuel; intros niter o s o' s' x k g H Ht; cbn [feas_loop] in H; [discriminate|].
  destruct (f o (sp_xc sp s)) as [o1 r] eqn:Ef.
  assert (Ht1 : tuned o1 g) by (eapply query_tuned; eauto).
  destruct r as [[ct|]|e]; [|inversion H; subst; eauto|discriminate].
  destruct (sp_bias sp ct s) as [s1 [st|e]]; [|discriminate].
  destruct (stop_test sp opt st s1); [discriminate|].
  eapply IHfuel; eauto.
Qed.

Context (narrow : G -> G -> bool) (mid : G -> G -> G) (maxit : Z).

(** the adaptor's centre is a point accepted for [g] *)
Definition witnessed (ad : Orc * St) (g : G) : Prop :=
  exists o1 o2, tuned o1 g /\ f o1 (x_best sp ad) = (o2, Ok None).

Lemma bsearch_adaptor_loop fuel : forall niter ad l lower upper ad' l' r,
  bsearch_loop (logged_bs (assess_bs f update sp opt)) narrow mid maxit fuel niter (ad, l) lower upper
    = ((ad', l'), r) ->
  (forall v, In (v, Ok true) l -> witnessed ad upper) ->
  forall v k, r = Ok (v, k) -> (exists w, In (w, Ok true) l') -> witnessed ad' v.
Proof.
  induction fuel; intros niter ad l lower upper ad' l' r H Hinv v k Hr Hex; cbn [bsearch_loop] in H.
  - inversion H; subst. inversion H3; subst. destruct Hex as [w Hw]. eauto.
  - destruct (narrow lower upper).
    { inversion H; subst. inversion H3; subst. destruct Hex as [w Hw]. eauto. }
    unfold logged_bs at 1 in H. cbn [fst snd] in H.
    destruct (assess_bs f update sp opt ad (mid lower upper)) as [ad1 r1] eqn:Ea. cbn [fst snd] in H.
    destruct r1 as [[|]|e].
    + eapply IHfuel; [exact H| |exact Hr|exact Hex].
      intros w Hw. clear H IHfuel. unfold assess_bs in Ea. destruct ad as [o s].
      destruct (cutting_plane_feas f sp opt (update (mid lower upper) o) s) as [[o2 s2] rf] eqn:Ef.
      destruct rf as [[[x|] k']|e']; inversion Ea; subst.
      destruct (feas_loop_accepts _ _ _ _ _ _ _ _ (mid lower upper) Ef (update_tuned _ _))
        as (o1 & Ht & Hacc).
      exists o1, o2. split; [exact Ht|]. unfold x_best. cbn [snd]. rewrite set_xc_law. exact Hacc.
    + assert (Hs : x_best sp ad1 = x_best sp ad).
      { unfold assess_bs in Ea. destruct ad as [o s].
        destruct (cutting_plane_feas f sp opt (update (mid lower upper) o) s) as [[o2 s2] rf].
        destruct rf as [[[x|] k']|e']; inversion Ea; subst; reflexivity. }
      eapply IHfuel; [exact H| |exact Hr|exact Hex].
      intros w [Hw|Hw]; [discriminate|]. specialize (Hinv w Hw).
      unfold witnessed in *. rewrite Hs. exact Hinv.
    + inversion H; subst. discriminate.
Qed.

Theorem bsearch_adaptor ad lower upper ad' v k :
  bsearch (assess_bs f update sp opt) narrow mid maxit ad lower upper = (ad', Ok (v, k)) ->
  exists l,
    bsearch (logged_bs (assess_bs f update sp opt)) narrow mid maxit (ad, []) lower upper
      = ((ad', l), Ok (v, k)) /\
    ((exists w, In (w, Ok true) l) -> witnessed ad' v) /\
    ((forall w, ~ In (w, Ok true) l) -> v = upper /\ x_best sp ad' = x_best sp ad).
Proof.
  intros H. destruct (bsearch_run_spec _ _ _ _ _ _ _ _ _ H) as (l & Hl & _ & _ & Hv & _ & _).
  exists l. split; [exact Hl|]. split.
  - intros Hex. eapply bsearch_adaptor_loop; [exact Hl| |reflexivity|exact Hex]. intros ? [].
  - intros Hno. split.
    + subst v. destruct (up_end_cases l upper) as [E|Hin]; [exact E|]. exfalso. eapply Hno; eauto.
    + assert (Hgen : forall fuel niter ad l lower upper ad' l' r,
        bsearch_loop (logged_bs (assess_bs f update sp opt)) narrow mid maxit fuel niter (ad, l)
           lower upper = ((ad', l'), r) ->
        (exists d, l' = d ++ l) /\ ((forall w, ~ In (w, Ok true) l') -> x_best sp ad' = x_best sp ad)).
      { clear. induction fuel; intros niter ad l lower upper ad' l' r H; cbn [bsearch_loop] in H.
        - inversion H; subst. split; [exists []; reflexivity|auto].
        - destruct (narrow lower upper).
          { inversion H; subst. split; [exists []; reflexivity|auto]. }
          unfold logged_bs at 1 in H. cbn [fst snd] in H.
          destruct (assess_bs f update sp opt ad (mid lower upper)) as [ad1 r1] eqn:Ea.
          cbn [fst snd] in H.
          assert (Hs : r1 <> Ok true -> x_best sp ad1 = x_best sp ad).
          { unfold assess_bs in Ea. destruct ad as [o s].
            destruct (cutting_plane_feas f sp opt (update (mid lower upper) o) s) as [[o2 s2] rf].
            destruct rf as [[[x|] k']|e']; inversion Ea; subst; intros Hn;
              try reflexivity; exfalso; apply Hn; reflexivity. }
          destruct r1 as [[|]|e].
          + apply IHfuel in H. destruct H as [[d Hd] H]. split.
            * exists (d ++ [(mid lower upper, Ok true)]). rewrite <- app_assoc. exact Hd.
            * intros Hno. exfalso. apply (Hno (mid lower upper)). rewrite Hd.
              apply in_or_app. right. left. reflexivity.
          + apply IHfuel in H. destruct H as [[d Hd] H]. split.
            * exists (d ++ [(mid lower upper, Ok false)]). rewrite <- app_assoc. exact Hd.
            * intros Hno. rewrite H by exact Hno. apply Hs. discriminate.
          + inversion H; subst. split; [exists [(mid lower upper, Err e)]; reflexivity|].
            intros _. apply Hs. discriminate. }
      destruct (Hgen _ _ _ _ _ _ _ _ _ Hl) as [_ Hx]. auto.
Qed.

End Adaptor.
