(** Driver theorems in the form in which they are stated as properties, and
    the toy instances. *)
From Coq Require Import List Arith ZArith Bool Lia Reals Lra.
From Verif Require Import Arith Vec ModelCalc ModelCut ModelHeap SpecDrivers Toy
  PDrivers PDrivers2 PHeap.
Import ListNotations.

Lemma Forall2_length {T U} {P : T -> U -> Prop} {l k} : Forall2 P l k -> length l = length k.
Proof. induction 1; cbn; auto. Qed.

Section S.
Context (A : Arith) (St V C Orc G : Type).

Section F.
Variable f : Orc -> V -> Orc * res (option C).
Variable sp : space_ops A St V C.
Variable opt : options A.

Lemma feas_accepted o s o' s' x k :
  cutting_plane_feas f sp opt o s = (o', s', Ok (Some x, k)) ->
  x = sp_xc sp s' /\
  exists l u,
    cutting_plane_feas (logged_feas f) (logged_space sp) opt (o, []) (s, [])
      = ((o', (x, Ok None) :: l), (s', u), Ok (Some x, k)) /\
    Forall2 feas_match l u /\ Forall (went_on (tolerance opt)) u /\ k = Z.of_nat (length l).
Proof.
  intros H. destruct (feas_run_spec _ _ _ _ _ _ _ _ H) as (l & u & Hl & _ & dl & -> & HF & HG & Hk & Hx).
  split; [exact Hx|]. exists dl, u. auto.
Qed.

Lemma feas_none o s o' s' k :
  cutting_plane_feas f sp opt o s = (o', s', Ok (None, k)) ->
  exists l u,
    cutting_plane_feas (logged_feas f) (logged_space sp) opt (o, []) (s, [])
      = ((o', l), (s', u), Ok (None, k)) /\
    Forall2 feas_match l u /\
    ((exists e u1 st, u = e :: u1 /\ Forall (went_on (tolerance opt)) u1 /\ ev_res e = Ok st /\
        (st <> Success \/ altb (ev_tsq e) (tolerance opt) = true) /\
        k = Z.of_nat (length u1) /\ length l = S (length u1)) \/
     (Forall (went_on (tolerance opt)) u /\ length l = Z.to_nat (max_iters opt) /\
      k = max_iters opt)).
Proof.
  intros H. destruct (feas_run_spec _ _ _ _ _ _ _ _ H) as (l & u & Hl & _ & HF & Hc).
  exists l, u. split; [exact Hl|]. split; [exact HF|].
  pose proof (Forall2_length HF) as Hlen.
  destruct Hc as [(HG & HL & Hk)|(e & du1 & st & -> & HG & He & Hst & Hk)].
  - right. repeat split; auto. lia.
  - left. exists e, du1, st. repeat split; auto.
Qed.

Lemma feas_calls o s o' s' r :
  cutting_plane_feas f sp opt o s = (o', s', r) ->
  exists l u,
    cutting_plane_feas (logged_feas f) (logged_space sp) opt (o, []) (s, [])
      = ((o', l), (s', u), r) /\ (length l <= Z.to_nat (max_iters opt))%nat /\
    (length u <= length l)%nat.
Proof.
  intros H. destruct (feas_run_spec _ _ _ _ _ _ _ _ H) as (l & u & Hl & Hlen & Hp).
  exists l, u. split; [exact Hl|]. split; [exact Hlen|].
  destruct r as [[[x|] k]|e].
  - destruct Hp as (dl & -> & HF & _). apply Forall2_length in HF. cbn. lia.
  - destruct Hp as (HF & _). apply Forall2_length in HF. lia.
  - destruct Hp as [(y & dl & -> & HF & _)|(e' & du & _ & _ & HF & _)];
      apply Forall2_length in HF; cbn; lia.
Qed.
End F.

Section O.
Variable f : Orc -> V -> G -> Orc * res (C * option G).
Variable sp : space_ops A St V C.
Variable opt : options A.

Lemma optim_value o s g o' s' x g' k :
  cutting_plane_optim f sp opt o s g = (o', s', Ok (x, g', k)) ->
  exists l u,
    cutting_plane_optim (logged_optim f) (logged_space sp) opt (o, []) (s, []) g
      = ((o', l), (s', u), Ok (x, g', k)) /\
    ((x = None /\ g' = g /\ Forall (fun q => value_of q = None) l) \/
     (exists y gin c post pre,
        x = Some y /\ l = post ++ (y, gin, Ok (c, Some g')) :: pre /\
        Forall (fun q => value_of q = None) post)).
Proof.
  intros H. destruct (optim_run_spec _ _ _ _ _ _ _ _ _ H) as (l & u & Hl & _ & _ & Hv & _).
  exists l, u. split; [exact Hl|]. apply last_value_inv in Hv. exact Hv.
Qed.

Lemma optim_trace o s g o' s' x g' k :
  cutting_plane_optim f sp opt o s g = (o', s', Ok (x, g', k)) ->
  exists l u,
    cutting_plane_optim (logged_optim f) (logged_space sp) opt (o, []) (s, []) g
      = ((o', l), (s', u), Ok (x, g', k)) /\
    Forall2 optim_match l u /\ gammas_ok l g /\
    ((exists e u1 st, u = e :: u1 /\ Forall (went_on (tolerance opt)) u1 /\ ev_res e = Ok st /\
        (st <> Success \/ altb (ev_tsq e) (tolerance opt) = true) /\ k = Z.of_nat (length u1)) \/
     (Forall (went_on (tolerance opt)) u /\ length u = Z.to_nat (max_iters opt) /\
      k = max_iters opt)).
Proof.
  intros H. destruct (optim_run_spec _ _ _ _ _ _ _ _ _ H) as (l & u & Hl & _ & Hg & _ & HF & Hc).
  exists l, u. split; [exact Hl|]. split; [exact HF|]. split; [exact Hg|]. tauto.
Qed.
End O.

Section Q.
Variable f : Orc -> V -> G -> bool -> Orc * res (C * V * option G * bool).
Variable sp : space_ops A St V C.
Variable opt : options A.

Lemma optim_q_value o s g o' s' x g' k :
  cutting_plane_optim_q f sp opt o s g = (o', s', Ok (x, g', k)) ->
  exists l u,
    cutting_plane_optim_q (logged_q f) (logged_space sp) opt (o, []) (s, []) g
      = ((o', l), (s', u), Ok (x, g', k)) /\
    ((x = None /\ g' = g /\ Forall (fun q => value_of_q q = None) l) \/
     (exists y gin rt c xq alt post pre,
        x = Some xq /\ l = post ++ (y, gin, rt, Ok (c, xq, Some g', alt)) :: pre /\
        Forall (fun q => value_of_q q = None) post)).
Proof.
  intros H. destruct (optim_q_run_spec _ _ _ _ _ _ _ _ _ H) as (l & u & Hl & [Hv _] & _).
  exists l, u. split; [exact Hl|]. apply last_value_q_inv in Hv. exact Hv.
Qed.

Lemma optim_q_protocol o s g o' s' x g' k :
  cutting_plane_optim_q f sp opt o s g = (o', s', Ok (x, g', k)) ->
  exists l u,
    cutting_plane_optim_q (logged_q f) (logged_space sp) opt (o, []) (s, []) g
      = ((o', l), (s', u), Ok (x, g', k)) /\
    ((q_history (tolerance opt) g l u /\ length l = Z.to_nat (max_iters opt) /\ k = max_iters opt) \/
     (exists q e alt st lq le, l = q :: lq /\ u = e :: le /\
        q_history (tolerance opt) g lq le /\ q_match q e alt /\
        q_retry q = retry_after lq le /\ q_gamma q = snd (last_value_q lq g) /\
        ev_res e = Ok st /\
        (st = NoSoln \/ (st = NoEffect /\ alt = false) \/
         (st <> NoSoln /\ altb (ev_tsq e) (tolerance opt) = true)) /\
        k = Z.of_nat (length lq))).
Proof.
  intros H. destruct (optim_q_run_spec _ _ _ _ _ _ _ _ _ H) as (l & u & Hl & [_ Hp] & _).
  exists l, u. split; [exact Hl|]. exact Hp.
Qed.
End Q.
End S.

Lemma bsearch_bracket (B N : Type) (f : B -> N -> B * res bool) (narrow : N -> N -> bool)
    (mid : N -> N -> N) (maxit : Z) o lower upper o' v k :
  bsearch f narrow mid maxit o lower upper = (o', Ok (v, k)) ->
  exists l, bsearch (logged_bs f) narrow mid maxit (o, []) lower upper = ((o', l), Ok (v, k)) /\
    (length l <= Z.to_nat maxit)%nat /\
    v = up_end l upper /\ (v = upper \/ In (v, Ok true) l) /\
    bs_queries_ok narrow mid l lower upper /\ Forall answered l /\
    ((k = Z.of_nat (length l) /\ narrow (lo_end l lower) v = true) \/
     (k = maxit /\ length l = Z.to_nat maxit)).
Proof.
  intros H. destruct (bsearch_run_spec _ _ _ _ _ _ _ _ _ H) as (l & Hl & Hlen & Hq & Hv & Ha & Hk).
  exists l. repeat split; auto.
  - subst v. apply up_end_cases.
  - destruct Hk as [(H1 & H2 & _)|(H1 & H2)]; auto.
Qed.

(** ** toy instances *)
Lemma toy_optim_better o x g o' c v : toy_optim o x g = (o', Ok (c, Some v)) -> (v <= g)%Z.
Proof.
  unfold toy_optim. destruct (Z.ltb_spec x g); intros E; inversion E; subst. lia.
Qed.

Lemma toy_heap_ok : well_behaved 0%Z toy_heap_optim (fun _ _ => False).
Proof.
  intros o a g h o' h' r H. unfold toy_heap_optim in H. inversion H; subst.
  repeat split; auto.
Qed.

Lemma toy_heap_case :
  well_behaved 0%Z toy_heap_optim (fun _ _ => False) /\
  exists o l s h, h_cutting_plane_optim 0%Z toy_space (toy_opt 4) (hlogged 0%Z toy_heap_optim)
    (0%Z, []) ((10, 1000)%Z, 0) [10%Z] 8%Z = ((o, l), s, h, Ok (Some 3, 1%Z, 4%Z)) /\
    hget 0%Z h 3 = 1%Z /\ hget 0%Z h 0 = (-2)%Z.
Proof.
  split; [exact toy_heap_ok|]. vm_compute. do 4 eexists. split; [reflexivity|]. split; reflexivity.
Qed.

Lemma toy_q_alias_refutes :
  exists (St V C Orc : Type) (dflt : V) (sp : space_ops ZA St V C) (opt : options ZA)
         (f : Orc -> addr -> Z -> bool -> list V -> Orc * list V * res (C * addr * option Z * bool))
         o s h g o' l' s' h' a g' k,
    h_cutting_plane_optim_q dflt sp opt (hlogged_q dflt f) (o, []) s h g
      = ((o', l'), s', h', Ok (Some a, g', k)) /\
    (exists y, hlast_q l' g = (Some y, g') /\ hget dflt h' a <> y).
Proof.
  exists (Z * Z)%type, Z, Z, Z, 0%Z, toy_space, (toy_opt 2), toy_q_alias, 0%Z, ((10, 1000)%Z, 0),
    [10%Z], 20%Z.
  vm_compute. do 7 eexists. split; [reflexivity|].
  eexists. split; [reflexivity|]. vm_compute. discriminate.
Qed.

Lemma toy_q_fresh_ok : well_behaved_q 0%Z toy_q_fresh (fun _ _ => False).
Proof.
  intros o a g rt h o' h' r H Ha. unfold toy_q_fresh in H. inversion H; subst.
  rewrite app_length. cbn [length].
  split; [lia|]. split.
  - intros b Hb _. unfold hget. apply app_nth1. exact Hb.
  - split; [auto|]. intros c xq v alt E. inversion E; subst. split; [lia|]. split; [lia|auto].
Qed.

Lemma threshold_oracle_ok : forall (o : nat) (x : R), exists b,
  snd ((fun (o : nat) (x : R) => (S o, Ok (Rleb 1 x))) o x) = Ok b /\
  (b = true -> (1 <= x)%R) /\ (b = false -> (x <= 1)%R).
Proof.
  intros o x. cbn. unfold Rleb. destruct (Rle_dec 1 x).
  - exists true. repeat split; auto; discriminate.
  - exists false. repeat split; auto; try discriminate. intros _. lra.
Qed.
