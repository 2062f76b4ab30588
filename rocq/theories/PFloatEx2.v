(** Concrete cases for the cut calculations in double arithmetic. *)
From Coq Require Import Reals List Arith ZArith Bool Lia Lra Psatz Floats.
From Flocq Require Import Core.Core.
From Verif Require Import Arith Vec ModelCalc ModelEll ModelStable SpecDrivers SpecFloating SpecCut.
From Verif Require Import ModelCut PDrivers2 PCalc PCalc3 PFloat PFloatCalc PFloatCut2 PFloatEx.
Import ListNotations.
Local Open Scope R_scope.

(** the calculator of dimension 2 *)
Definition c2f : calc FA :=
  match calc_init (A:=FA) 2 with Ok c => c
  | Err _ => mkCalc (A:=FA) false 0%float (mkCore (A:=FA) 0 0 0 0 0 0 0 0 0)%float end.
Lemma c2f_ok : fcalc_for 2 true c2f.
Proof.
  destruct (calc_init_ok 2 ltac:(lia) ltac:(lia)) as (c & E & _ & Hp & _).
  exists c. split; [ exact E | ]. unfold c2f. rewrite E. destruct c as [q w h]. cbn in *. now rewrite Hp.
Qed.

Lemma fval_1 : fval 1%float = 1.
Proof.
  unfold fval. replace (Prim2SF 1%float) with (S754_finite false 4503599627370496 (-52)) by (vm_compute; reflexivity).
  rewrite <- bp_powerRZ. cbn. lra.
Qed.
Lemma fval_2 : fval 2%float = 2.
Proof.
  unfold fval. replace (Prim2SF 2%float) with (S754_finite false 4503599627370496 (-51)) by (vm_compute; reflexivity).
  rewrite <- bp_powerRZ. cbn. lra.
Qed.
Lemma fval_half : fval 0.5%float = / 2.
Proof.
  unfold fval. replace (Prim2SF 0.5%float) with (S754_finite false 4503599627370496 (-53)) by (vm_compute; reflexivity).
  rewrite <- bp_powerRZ. cbn. lra.
Qed.
Lemma fin_1 : ffinite 1%float. Proof. vm_compute. exact I. Qed.
Lemma fin_2 : ffinite 2%float. Proof. vm_compute. exact I. Qed.
Lemma fin_half : ffinite 0.5%float. Proof. vm_compute. exact I. Qed.
Lemma p400 : powerRZ 2 (-400) <= 1.
Proof. rewrite <- bp_powerRZ. change 1 with (bpow radix2 0). apply bpow_le. lia. Qed.
Lemma p40 : powerRZ 2 (-40) <= / 4.
Proof. rewrite <- bp_powerRZ. change (/ 4) with (bpow radix2 (-2)). apply bpow_le. lia. Qed.
Lemma u53_small : u53 <= / 4.
Proof. unfold u53. rewrite <- bp_powerRZ. change (/ 4) with (bpow radix2 (-2)). apply bpow_le. lia. Qed.

Lemma ex_nomath : exists (c : calc FA) (T : num FA) r,
  fcalc_for 2 true c /\ ffinite T /\ fpos T /\ powerRZ 2 (-400) <= fval T /\
  fstrat_of OpBias c (CList (A:=FA) [Some (-0.25)%float; Some 0.5%float]) T = Ok (Success, Some r).
Proof.
  exists c2f, 1%float. eexists. split; [ exact c2f_ok | ]. split; [ exact fin_1 | ]. split; [ vm_compute; reflexivity | ].
  split; [ rewrite fval_1; exact p400 | ]. vm_compute; reflexivity.
Qed.

Lemma ex_tiny : exists n (c : calc FA) (b0 b1 T : num FA),
  fcalc_for n true c /\ (Z.of_nat n < 2 ^ 53)%Z /\ ffinite T /\ fpos T /\ ffinite b0 /\ ffinite b1 /\
  fstrat_of OpBias c (CList (A:=FA) [Some b0; Some b1]) T = Err ZeroDivision.
Proof.
  exists 2%nat, c2f, (-0x1.8p-500)%float, (0x1p-500)%float, (0x1.4p-1000)%float.
  split; [ exact c2f_ok | ]. split; [ lia | ].
  repeat (split; [ vm_compute; exact I || reflexivity | ]). vm_compute. reflexivity.
Qed.

Lemma ex_nosoln : exists (c : calc FA) (b T : num FA),
  fcalc_for 2 true c /\ ffinite T /\ fpos T /\ powerRZ 2 (-400) <= fval T /\
  cut_finite (CSingle (A:=FA) b) /\ 0 <= fval b /\ fval T * (1 + 4 * u53) < fval b * fval b /\
  fstrat_of OpBias c (CSingle (A:=FA) b) T = Ok (NoSoln, None).
Proof.
  exists c2f, 2%float, 1%float. split; [ exact c2f_ok | ]. split; [ exact fin_1 | ]. split; [ vm_compute; reflexivity | ].
  rewrite fval_1, fval_2. split; [ exact p400 | ]. split; [ exact fin_2 | ]. split; [ lra | ].
  split; [ generalize u53_small; lra | ]. vm_compute. reflexivity.
Qed.

(** a deep cut that almost touches the ellipsoid *)
Definition v3 : ellval FA := VScalar (A:=FA) 0x1.e09c84bc00adcp+0%float.
Definition x3 : vec FA := [0%float; 0%float; 0%float].
Definition s3 : stable FA :=
  match stable_init (A:=FA) v3 x3 with Ok e => e | Err _ => s0 end.
Definition l3 : list (op_kind * cut FA) :=
  [ (OpBias, ([1%float; 0%float; 0%float] : vec FA, CSingle (A:=FA) 0x1.5ec3ff83edf4ap+0%float));
    (OpCentral, ([1%float; 0%float; 0%float] : vec FA, CSingle (A:=FA) 0%float)) ].

Lemma s3_ok : stable_init (A:=FA) v3 x3 = Ok s3.
Proof.
  unfold s3. assert (H : is_ok (stable_init (A:=FA) v3 x3) = true) by (vm_compute; reflexivity).
  destruct (stable_init (A:=FA) v3 x3); [ reflexivity | discriminate ].
Qed.

Lemma ex_stable_fails : exists (v : ellval FA) x0 (s : stable FA) (g : vec FA) (b : num FA),
  stable_init v x0 = Ok s /\ fval_notneg 3 v /\ length x0 = 3%nat /\ length g = 3%nat /\ ffinite b /\ fpos b /\
  let r1 := fstable_seq [(OpBias, (g, CSingle (A:=FA) b))] s in
  let r2 := fstable_seq [(OpBias, (g, CSingle (A:=FA) b)); (OpCentral, (g, CSingle (A:=FA) PrimFloat.zero))] s in
  snd r1 = [Ok Success] /\ ~ fstable_notneg 3 (fst r1) /\
  snd r2 = [Ok Success; Err ValueError] /\ ~ fnotneg (s_tsq (fst r2)).
Proof.
  exists v3, x3, s3, [1%float; 0%float; 0%float], (0x1.5ec3ff83edf4ap+0)%float.
  split; [ exact s3_ok | ]. split; [ vm_compute; reflexivity | ]. split; [ reflexivity | ]. split; [ reflexivity | ].
  split; [ vm_compute; exact I | ]. split; [ vm_compute; reflexivity | ].
  cbv zeta. split; [ vm_compute; reflexivity | ]. split.
  { intros (_ & _ & _ & _ & H & _). specialize (H 0%nat ltac:(lia)). revert H. vm_compute. discriminate. }
  split; [ vm_compute; reflexivity | ]. vm_compute. discriminate.
Qed.

Lemma s0_notneg : fstable_notneg 2 s0.
Proof.
  split; [ reflexivity | ]. split; [ reflexivity | ]. split; [ reflexivity | ]. split; [ | split; [ | vm_compute; reflexivity ] ].
  + intros i Hi. destruct i as [|[|i]]; [ reflexivity | reflexivity | lia ].
  + intros i Hi. destruct i as [|[|i]]; [ vm_compute; reflexivity | vm_compute; reflexivity | lia ].
Qed.

Lemma ex_margin : exists (s : stable FA) s1 (b : num FA),
  stable_init (A:=FA) (VScalar (A:=FA) 1%float) [0%float; 0%float] = Ok s /\
  fstable_notneg 2 s /\ fcalc_for 2 true (s_helper s) /\
  fstable_update OpBias ([1%float; 0%float], CSingle (A:=FA) b) s = (s1, Ok Success) /\
  ffinite (s_tsq s1) /\ powerRZ 2 (-400) <= fval (s_tsq s1) /\
  ffinite b /\ 0 < fval b /\ fval b * fval b <= fval (s_tsq s1) * (1 - powerRZ 2 (-40)).
Proof.
  exists s0, (fst (fstable_update OpBias ([1%float; 0%float], CSingle (A:=FA) 0.5%float) s0)), 0.5%float.
  assert (E : s_tsq (fst (fstable_update OpBias ([1%float; 0%float], CSingle (A:=FA) 0.5%float) s0)) = 1%float)
    by (vm_compute; reflexivity).
  assert (O : snd (fstable_update OpBias ([1%float; 0%float], CSingle (A:=FA) 0.5%float) s0) = Ok Success)
    by (vm_compute; reflexivity).
  split; [ exact s0_ok | ]. split; [ exact s0_notneg | ]. split.
  { assert (H := c2f_ok). destruct H as (c0 & H0 & H1). exists c0. split; [ exact H0 | ].
    rewrite <- H1. unfold s0, stable_init. unfold c2f. cbn [length]. rewrite H0. reflexivity. }
  split; [ rewrite <- O; now destruct (fstable_update _ _ _) | ].
  rewrite E, fval_1, fval_half. split; [ exact fin_1 | ]. split; [ exact p400 | ]. split; [ exact fin_half | ].
  split; [ lra | ]. generalize p40. lra.
Qed.

Lemma ex_accuracy : exists (c : calc FA) (cR : calc RA) (b T : num FA),
  fcalc_for 2 true c /\ calc_for 2 true cR /\ ffinite T /\ powerRZ 2 (-400) <= fval T /\
  ffinite b /\ 0 < fval b /\ fval b * fval b <= fval T /\
  calc_bias_cut c b T = Ok (Success, Some (0x1.5555555555555p-1, 0x1.c71c71c71c71cp-1, 1)%float).
Proof.
  exists c2f, (calc_R true 2), 0.5%float, 1%float. split; [ exact c2f_ok | ]. split; [ apply calc_for_ok; lia | ].
  rewrite fval_1, fval_half. split; [ exact fin_1 | ]. split; [ exact p400 | ]. split; [ exact fin_half | ].
  split; [ lra | ]. split; [ lra | ]. vm_compute. reflexivity.
Qed.

Lemma ex_accuracy_others : exists (c : calc FA) (T : num FA),
  fcalc_for 2 true c /\ ffinite T /\ powerRZ 2 (-400) <= fval T /\
  fstrat_of OpCentral c (CSingle (A:=FA) 0%float) T = Ok (Success, Some (0x1.5555555555555p-2, 0x1.5555555555555p-1, 0x1.5555555555555p+0)%float) /\
  fstrat_of OpQ c (CSingle (A:=FA) 0.5%float) T = Ok (Success, Some (0x1.5555555555555p-1, 0x1.c71c71c71c71cp-1, 1)%float).
Proof.
  exists c2f, 1%float. split; [ exact c2f_ok | ]. rewrite fval_1. split; [ exact fin_1 | ]. split; [ exact p400 | ].
  split; vm_compute; reflexivity.
Qed.

(** the oracle of the docstring of [bsearch], [gamma > 0.5], counting its calls *)
Definition gt_half (o : nat) (x : num FA) : nat * res bool := (S o, Ok (PrimFloat.ltb 0.5%float x)).

Lemma gt_half_thr : forall o x, ffinite x -> exists b, snd (gt_half o x) = Ok b /\
  (b = true -> / 2 <= fval x) /\ (b = false -> fval x <= / 2).
Proof.
  intros o x Fx. eexists. split; [ reflexivity | ].
  rewrite ev_ltb, (proj1 (ev_fin_iff _) Fx), (proj1 (ev_fin_iff _) fin_half), fval_half. cbn.
  destruct (Rlt_dec (/ 2) (fval x)); split; intros; try discriminate; lra.
Qed.

Lemma fval_0 : fval 0%float = 0.
Proof. reflexivity. Qed.

Lemma ex_bs : 
  (forall o x, ffinite x -> exists b, snd (gt_half o x) = Ok b /\
     (b = true -> / 2 <= fval x) /\ (b = false -> fval x <= / 2)) /\
  ffinite (0x1p-20)%float /\ ffinite 0%float /\ ffinite 1%float /\ ffinite (1 - 0)%float /\
  fval 0%float <= / 2 <= fval 1%float /\
  bsearch gt_half (narrow_num (A:=FA) (0x1p-20)%float) (mid_num (A:=FA)) 2000 0%nat 0%float 1%float
    = (20%nat, Ok (0x1.00002p-1%float, 20%Z)).
Proof.
  split; [ exact gt_half_thr | ]. repeat (split; [ vm_compute; exact I | ]).
  rewrite fval_0, fval_1. split; [ lra | ]. vm_compute. reflexivity.
Qed.

Lemma ex_bs_default : exists (f : nat -> num FA -> nat * res bool) (t : R) (tol lower upper v : num FA),
  (forall o x, ffinite x -> exists b, snd (f o x) = Ok b /\
     (b = true -> t <= fval x) /\ (b = false -> fval x <= t)) /\
  ffinite tol /\ ffinite lower /\ ffinite upper /\ ffinite (upper - lower)%float /\
  fval lower <= t <= fval upper /\ (fval upper - fval lower) / 2 ^ 67 < fval tol /\
  bsearch f (narrow_num (A:=FA) tol) (mid_num (A:=FA)) 2000 0%nat lower upper = (2000%nat, Ok (v, 2000%Z)).
Proof.
  exists gt_half, (/ 2), 0x1.79ca10c924223p-67%float, 0%float, 1%float, 0x1.0000000000001p-1%float.
  split; [ exact gt_half_thr | ]. repeat (split; [ vm_compute; exact I | ]).
  rewrite fval_0, fval_1. split; [ lra | ]. split; [ | vm_compute; reflexivity ].
  unfold fval. replace (Prim2SF 0x1.79ca10c924223p-67%float) with (S754_finite false 6646139978924579 (-119)) by (vm_compute; reflexivity).
  rewrite <- bp_powerRZ. rewrite Rmult_1_l.
  replace ((1 - 0) / 2 ^ 67) with (bpow radix2 52 * bpow radix2 (-119)).
  - apply Rmult_lt_compat_r; [ apply bpow_gt_0 | ].
    change (bpow radix2 52) with (IZR 4503599627370496). apply IZR_lt. lia.
  - rewrite <- bpow_plus. replace (52 + -119)%Z with (- (67))%Z by lia. rewrite bpow_opp.
    replace (bpow radix2 67) with (2 ^ 67); [ field; apply pow_nonzero; lra | ].
    rewrite bp_powerRZ. change 67%Z with (Z.of_nat 67). now rewrite <- pow_powerRZ.
Qed.

(** a zero gradient *)
Lemma ex_zero_case :
  exists s, stable_init (A:=FA) (VScalar (A:=FA) 1%float) [0%float; 0%float] = Ok s /\
  fstable_notneg 2 s /\ fcalc_for 2 true (s_helper s) /\
  (forall i j, (j <= i < 2)%nat -> ffinite (mget (s_mq s) i j)) /\ ffinite (s_kappa s) /\
  (forall i, (i < 2)%nat -> PrimFloat.eqb (vget (A:=FA) [0%float; (-0)%float] i) PrimFloat.zero = true).
Proof.
  exists s0. split; [ exact s0_ok | ]. split; [ exact s0_notneg | ]. split; [ exact c2f_ok | ].
  split; [ | split ].
  - intros i j H. destruct i as [|[|i]]; [ | | lia ]; destruct j as [|[|j]]; try lia; vm_compute; exact I.
  - vm_compute. exact I.
  - intros i H. destruct i as [|[|i]]; [ | | lia ]; vm_compute; reflexivity.
Qed.
