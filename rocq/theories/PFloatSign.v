(** Signs of rounded results. *)
From Coq Require Import Reals ZArith Lia Lra Bool Floats List.
From Verif Require Import Arith Vec SpecFloating PFloat.
From Flocq Require Import Core.Core.
Import ListNotations.
Local Open Scope R_scope.

(** not a negative number *)
Definition enn (x : ext) : Prop :=
  match x with EFin a => 0 <= a | EPinf => True | ENinf => False | ENan => True end.
(** a positive number *)
Definition epos (x : ext) : Prop :=
  match x with EFin a => 0 < a | EPinf => True | _ => False end.
(** positive or not a number *)
Definition epn (x : ext) : Prop :=
  match x with EFin a => 0 < a | EPinf => True | ENinf => False | ENan => True end.

Lemma epos_enn x : epos x -> enn x.
Proof. destruct x; cbn; lra || tauto. Qed.
Lemma epos_epn x : epos x -> epn x.
Proof. destruct x; cbn; lra || tauto. Qed.
Lemma epn_enn x : epn x -> enn x.
Proof. destruct x; cbn; lra || tauto. Qed.
Lemma epn_nz x : epn x -> eeqb x (EFin 0) = false.
Proof. destruct x; cbn; try reflexivity. intros. destruct (Req_EM_T r 0); [ lra | reflexivity ]. Qed.
Lemma enn_nz x : enn x -> eeqb x (EFin 0) = false -> epn x.
Proof. destruct x; cbn; try tauto. intros. destruct (Req_EM_T r 0); [ discriminate | lra ]. Qed.

Lemma fnotneg_ev x : fnotneg x <-> enn (ev x).
Proof.
  unfold fnotneg. rewrite ev_ltb, ev_zero. destruct (ev x); cbn; try tauto.
  - destruct (Rlt_dec r 0); split; intros; try reflexivity; try discriminate; lra.
  - split; [ discriminate | tauto ].
Qed.

Lemma fpos_ev x : fpos x <-> epos (ev x).
Proof.
  unfold fpos. rewrite ev_ltb, ev_zero. destruct (ev x); cbn; try tauto.
  - destruct (Rlt_dec 0 r); split; intros; try reflexivity; try discriminate; lra.
  - split; [ discriminate | tauto ].
  - split; [ discriminate | tauto ].
Qed.

Lemma fnonneg_ev x : fnonneg x <-> (enn (ev x) /\ ev x <> ENan).
Proof.
  unfold fnonneg. rewrite ev_leb, ev_zero. destruct (ev x); cbn.
  - destruct (Rle_dec 0 r); split; intros; try reflexivity; try discriminate;
      [ split; [ lra | discriminate ] | lra ].
  - split; [ split; [ exact I | discriminate ] | reflexivity ].
  - split; [ discriminate | tauto ].
  - split; [ discriminate | tauto ].
Qed.

Lemma rnd_nonneg r : 0 <= r -> 0 <= rnd r.
Proof. intros H. rewrite <- rnd_0. now apply rnd_le. Qed.
Lemma rnd_nonpos r : r <= 0 -> rnd r <= 0.
Proof. intros H. rewrite <- rnd_0. now apply rnd_le. Qed.

Lemma rx_nn r : 0 <= r -> enn (rx r).
Proof.
  intros H. unfold rx. destruct (Rlt_dec (Rabs (rnd r)) big).
  - now apply rnd_nonneg.
  - destruct (Rlt_dec 0 r); cbn; [ exact I | ].
    assert (r = 0) by lra. subst. rewrite rnd_0, Rabs_R0 in n. generalize big_pos. lra.
Qed.

(** rounding a number that is at least a positive representable number *)
Lemma rx_ge r a : fmt a -> 0 < a -> a <= r -> epos (rx r).
Proof.
  intros F P H. unfold rx. destruct (Rlt_dec (Rabs (rnd r)) big).
  - cbn. apply Rlt_le_trans with a; [ exact P | ]. rewrite <- (rnd_fmt a F). now apply rnd_le.
  - destruct (Rlt_dec 0 r); [ exact I | lra ].
Qed.

Lemma rx_fin_le r s : 0 <= r -> r <= s -> fmt s -> s < big -> rx r = EFin (rnd r) /\ 0 <= rnd r <= s.
Proof.
  intros H K F B. assert (L : 0 <= rnd r <= s).
  { split; [ now apply rnd_nonneg | ]. rewrite <- (rnd_fmt s F). now apply rnd_le. }
  split; [ | exact L ]. unfold rx. destruct (Rlt_dec (Rabs (rnd r)) big) as [|N]; [ reflexivity | ].
  exfalso. apply N. rewrite Rabs_pos_eq; lra.
Qed.

Lemma enn_add x y : enn x -> enn y -> enn (eadd x y).
Proof. destruct x, y; cbn; try tauto. intros. apply rx_nn. lra. Qed.

Lemma enn_mul x y : enn x -> enn y -> enn (emul x y).
Proof.
  destruct x as [a| | |], y as [b| | |]; cbn; try tauto.
  - intros. apply rx_nn. now apply Rmult_le_pos.
  - unfold esgn. destruct (Rlt_dec 0 a); [ cbn; tauto | ]. destruct (Rlt_dec a 0); cbn; [ lra | tauto ].
  - unfold esgn. destruct (Rlt_dec 0 b); [ cbn; tauto | ]. destruct (Rlt_dec b 0); cbn; [ lra | tauto ].
Qed.

Lemma enn_div x y : enn x -> epn y -> enn (ediv x y).
Proof.
  destruct x as [a| | |], y as [b| | |]; cbn; try tauto; try lra.
  - intros. apply rx_nn. unfold Rdiv. apply Rmult_le_pos; [ lra | ]. left. now apply Rinv_0_lt_compat.
  - intros _ P. unfold esgn. destruct (Rlt_dec 0 b); [ exact I | lra ].
Qed.

(** [w * (w * d)] *)
Lemma enn_wwd w d : enn d -> enn (emul w (emul w d)).
Proof.
  destruct w as [a| | |], d as [b| | |]; cbn; try tauto; intros P.
  - unfold rx. destruct (Rlt_dec (Rabs (rnd (a * b))) big).
    + cbn. apply rx_nn. destruct (Rle_lt_dec 0 a) as [Ha|Ha].
      * apply Rmult_le_pos; [ exact Ha | ]. apply rnd_nonneg. now apply Rmult_le_pos.
      * assert (rnd (a * b) <= 0) by (apply rnd_nonpos; nra). nra.
    + destruct (Rlt_dec 0 (a * b)); cbn; unfold esgn.
      * destruct (Rlt_dec 0 a); [ exact I | nra ].
      * destruct (Rlt_dec 0 a) as [Ha|Ha]; [ | destruct (Rlt_dec a 0); exact I ].
        assert (a * b = 0) by nra. rewrite H, rnd_0, Rabs_R0 in n. generalize big_pos; lra.
  - unfold esgn. destruct (Rlt_dec 0 a) as [Ha|Ha]; cbn.
    + unfold esgn. destruct (Rlt_dec 0 a); [ exact I | lra ].
    + destruct (Rlt_dec a 0) as [Hb|Hb]; cbn; [ | exact I ].
      unfold esgn. destruct (Rlt_dec 0 a); [ lra | ]. destruct (Rlt_dec a 0); [ exact I | lra ].
  - unfold esgn. destruct (Rlt_dec 0 b) as [Ha|Ha]; cbn; [ exact I | ].
    destruct (Rlt_dec b 0) as [Hb|Hb]; cbn; [ lra | exact I ].
  - unfold esgn. destruct (Rlt_dec 0 b) as [Ha|Ha]; cbn; [ exact I | ].
    destruct (Rlt_dec b 0) as [Hb|Hb]; cbn; [ lra | exact I ].
Qed.

Lemma enn_sqr x : enn (emul x x).
Proof.
  destruct x; cbn; try exact I. apply rx_nn. nra.
Qed.

Lemma enn_sqrt x : enn (ev x) -> enn (ev (PrimFloat.sqrt x)).
Proof.
  intros H. destruct (ev x) as [a| | |] eqn:E; cbn in H; try tauto.
  - rewrite (ev_sqrt _ _ E H). cbn. apply rnd_nonneg, sqrt_pos.
  - now rewrite ev_sqrt_inf.
  - now rewrite ev_sqrt_nan.
Qed.

(** the first summand is a float, hence representable *)
Lemma epn_add x y : epn (ev x) -> enn (ev y) -> epn (ev (x + y)%float).
Proof.
  intros P Q. rewrite ev_add.
  destruct (ev x) as [a| | |] eqn:Ex, (ev y) as [b| | |] eqn:Ey; cbn in *; try tauto.
  apply epos_epn, (rx_ge _ a); [ exact (ev_fmt _ _ Ex) | exact P | lra ].
Qed.

(** model operations on doubles *)
Lemma fpsqrt x : enn (ev x) -> psqrt (A := FA) x = Ok (PrimFloat.sqrt x).
Proof.
  intros H. apply fnotneg_ev in H. unfold psqrt. cbn. unfold fnotneg in H. now rewrite H.
Qed.

Lemma fpdiv x y : eeqb (ev y) (EFin 0) = false ->
  pdiv (A := FA) x y = Ok (x / y)%float /\ ev (x / y)%float = ediv (ev x) (ev y).
Proof.
  intros H. split; [ | now apply ev_div ]. unfold pdiv. cbn.
  rewrite ev_eqb, ev_zero, H. reflexivity.
Qed.
