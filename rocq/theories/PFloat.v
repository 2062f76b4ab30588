(** Binary64 arithmetic: each primitive operation as an operation on extended
    reals followed by rounding. *)
From Coq Require Import Reals ZArith Lia Lra Bool Floats Uint63.
From Flocq Require Import Core.Core IEEE754.BinarySingleNaN IEEE754.PrimFloat.
From Verif Require Import Arith SpecFloating.
Local Open Scope R_scope.

Inductive ext : Type := EFin (r : R) | EPinf | ENinf | ENan.

Definition ev (x : PrimFloat.float) : ext :=
  match Prim2SF x with
  | S754_zero _ => EFin 0
  | S754_infinity false => EPinf
  | S754_infinity true => ENinf
  | S754_nan => ENan
  | S754_finite _ _ _ => EFin (fval x)
  end.

Definition rnd : R -> R := round radix2 (FLT_exp (-1074) 53) ZnearestE.
Definition fmt : R -> Prop := generic_format radix2 (FLT_exp (-1074) 53).
Definition big : R := bpow radix2 1024.

(** rounding with overflow *)
Definition rx (r : R) : ext :=
  if Rlt_dec (Rabs (rnd r)) big then EFin (rnd r)
  else if Rlt_dec 0 r then EPinf else ENinf.

Definition esgn (r : R) (p m z : ext) : ext :=
  if Rlt_dec 0 r then p else if Rlt_dec r 0 then m else z.

Definition eadd (x y : ext) : ext :=
  match x, y with
  | ENan, _ | _, ENan => ENan
  | EFin a, EFin b => rx (a + b)
  | EPinf, ENinf | ENinf, EPinf => ENan
  | EPinf, _ | _, EPinf => EPinf
  | ENinf, _ | _, ENinf => ENinf
  end.

Definition eneg (x : ext) : ext :=
  match x with
  | ENan => ENan | EPinf => ENinf | ENinf => EPinf | EFin a => EFin (- a)
  end.

Definition esub (x y : ext) : ext :=
  match x, y with
  | ENan, _ | _, ENan => ENan
  | EFin a, EFin b => rx (a - b)
  | EPinf, EPinf | ENinf, ENinf => ENan
  | EPinf, _ | _, ENinf => EPinf
  | ENinf, _ | _, EPinf => ENinf
  end.

Definition emul (x y : ext) : ext :=
  match x, y with
  | ENan, _ | _, ENan => ENan
  | EFin a, EFin b => rx (a * b)
  | EFin a, EPinf | EPinf, EFin a => esgn a EPinf ENinf ENan
  | EFin a, ENinf | ENinf, EFin a => esgn a ENinf EPinf ENan
  | EPinf, EPinf | ENinf, ENinf => EPinf
  | EPinf, ENinf | ENinf, EPinf => ENinf
  end.

Definition ediv (x y : ext) : ext :=
  match x, y with
  | ENan, _ | _, ENan => ENan
  | EFin a, EFin b => rx (a / b)
  | EFin a, EPinf | EFin a, ENinf => EFin 0
  | EPinf, EFin b => esgn b EPinf ENinf ENan
  | ENinf, EFin b => esgn b ENinf EPinf ENan
  | _, _ => ENan
  end.

Definition eltb (x y : ext) : bool :=
  match x, y with
  | ENan, _ | _, ENan => false
  | EFin a, EFin b => if Rlt_dec a b then true else false
  | ENinf, ENinf => false
  | ENinf, _ => true
  | EFin _, EPinf => true
  | _, _ => false
  end.

Definition eleb (x y : ext) : bool :=
  match x, y with
  | ENan, _ | _, ENan => false
  | EFin a, EFin b => if Rle_dec a b then true else false
  | ENinf, _ => true
  | _, EPinf => true
  | _, _ => false
  end.

Definition eeqb (x y : ext) : bool :=
  match x, y with
  | EFin a, EFin b => if Req_EM_T a b then true else false
  | EPinf, EPinf | ENinf, ENinf => true
  | _, _ => false
  end.

(** ** Bridge to Flocq *)

Lemma fval_B2R : forall x, fval x = B2R (Prim2B x).
Proof.
  intros x. unfold fval. rewrite <- (B2SF_Prim2B x).
  destruct (Prim2B x) as [s|s| |s m e H]; cbn [B2SF B2R]; try reflexivity.
  unfold F2R; cbn [Fnum Fexp].
  change (powerRZ 2 e) with (powerRZ (IZR radix2) e). rewrite <- (bpow_powerRZ radix2 e). destruct s; cbn [cond_Zopp]; 
    [ rewrite opp_IZR | ]; ring.
Qed.

Lemma ev_B : forall x,
  ev x = match Prim2B x with
         | B754_zero _ => EFin 0
         | B754_infinity false => EPinf
         | B754_infinity true => ENinf
         | B754_nan => ENan
         | B754_finite s m e H => EFin (B2R (Prim2B x))
         end.
Proof.
  intros x. unfold ev. rewrite <- (B2SF_Prim2B x), (fval_B2R x).
  destruct (Prim2B x) as [s|s| |s m e H]; reflexivity.
Qed.

Lemma ev_finite : forall x r,
  ev x = EFin r <-> (is_finite (Prim2B x) = true /\ B2R (Prim2B x) = r).
Proof.
  intros x r. rewrite ev_B.
  destruct (Prim2B x) as [s|[|]| |s m e H]; cbn [is_finite]; split; intros K;
    try discriminate; try (destruct K; discriminate);
    try (inversion K; split; reflexivity); destruct K as [_ <-]; reflexivity.
Qed.

Lemma ev_fin_iff : forall x, ffinite x <-> ev x = EFin (fval x).
Proof.
  intros x. unfold ffinite, ev.
  destruct (Prim2SF x) as [s|[|]| |s m e] eqn:E; split; try tauto; try discriminate.
  intros _. unfold fval. now rewrite E.
Qed.

Lemma fval_ev : forall x r, ev x = EFin r -> fval x = r.
Proof. intros x r H. apply ev_finite in H. rewrite fval_B2R. tauto. Qed.

Lemma ffinite_ev : forall x r, ev x = EFin r -> ffinite x.
Proof.
  intros x r. unfold ffinite, ev.
  destruct (Prim2SF x) as [s|[|]| |s m e] eqn:E; try tauto; try discriminate.
Qed.

Lemma ev_fmt : forall x r, ev x = EFin r -> fmt r.
Proof.
  intros x r H. apply ev_finite in H. destruct H as [_ <-].
  exact (generic_format_B2R prec emax (Prim2B x)).
Qed.

Lemma ev_big : forall x r, ev x = EFin r -> Rabs r < big.
Proof.
  intros x r H. apply ev_finite in H. destruct H as [_ <-].
  apply abs_B2R_lt_emax.
Qed.

Global Instance prec_gt_0_53 : Prec_gt_0 53.
Proof. reflexivity. Qed.

Lemma rnd_fmt : forall r, fmt r -> rnd r = r.
Proof. intros r H. apply round_generic; [ typeclasses eauto | exact H ]. Qed.

Lemma rnd_le : forall r s, r <= s -> rnd r <= rnd s.
Proof. intros. apply round_le; typeclasses eauto || assumption. Qed.

Lemma fmt_rnd : forall r, fmt (rnd r).
Proof. intros. apply generic_format_round; typeclasses eauto. Qed.

Lemma rnd_0 : rnd 0 = 0.
Proof. apply round_0. typeclasses eauto. Qed.

Lemma rnd_opp : forall r, rnd (- r) = - rnd r.
Proof. intros. apply round_NE_opp. Qed.

Lemma big_pos : 0 < big.
Proof. apply bpow_gt_0. Qed.

Lemma rx_fmt : forall r, fmt r -> Rabs r < big -> rx r = EFin r.
Proof.
  intros r H K. unfold rx. rewrite (rnd_fmt r H).
  destruct (Rlt_dec (Rabs r) big); [ reflexivity | contradiction ].
Qed.

Lemma rx_0 : rx 0 = EFin 0.
Proof. apply rx_fmt; [ apply generic_format_0 | rewrite Rabs_R0; apply big_pos ]. Qed.

Lemma rnd_pos_big : forall r, Rabs (rnd r) >= big -> r <> 0.
Proof.
  intros r H ->. rewrite rnd_0, Rabs_R0 in H. generalize big_pos. lra.
Qed.

Lemma Bsign_lt : forall (b : binary_float prec emax),
  is_finite b = true -> B2R b <> 0 -> Bsign b = if Rlt_dec (B2R b) 0 then true else false.
Proof.
  intros [s|s| |s m e H] F N; cbn in F, N; try discriminate; try (now elim N).
  cbn [Bsign B2R]. unfold F2R; cbn [Fnum Fexp].
  generalize (bpow_gt_0 radix2 e). intros P.
  destruct s; cbn [cond_Zopp].
  - destruct (Rlt_dec _ _) as [K|K]; [ reflexivity | exfalso; apply K ].
    assert (IZR (- Zpos m) < 0) by (apply IZR_lt; lia). nra.
  - destruct (Rlt_dec _ _) as [K|K]; [ exfalso | reflexivity ].
    assert (0 < IZR (Zpos m)) by (apply IZR_lt; lia). nra.
Qed.

Lemma esgn_0 : forall p m z, esgn 0 p m z = z.
Proof. intros. unfold esgn. destruct (Rlt_dec 0 0); [ lra | reflexivity ]. Qed.

Lemma esgn_fin : forall s mm e (H : SpecFloat.bounded prec emax mm e = true) p m z,
  esgn (B2R (B754_finite s mm e H)) p m z = if s then m else p.
Proof.
  intros. unfold esgn.
  assert (N : B2R (B754_finite s mm e H) <> 0).
  { cbn [B2R]; unfold F2R; cbn [Fnum Fexp]. generalize (bpow_gt_0 radix2 e). intros P.
    apply Rmult_integral_contrapositive. split; [ | lra ].
    apply not_0_IZR. destruct s; cbn; lia. }
  generalize (Bsign_lt (B754_finite s mm e H) eq_refl N). cbn [Bsign].
  set (r := B2R (B754_finite s mm e H)) in *. clearbody r. intros ->.
  destruct (Rlt_dec r 0); destruct (Rlt_dec 0 r); try reflexivity; exfalso; lra.
Qed.

Ltac einj H :=
  try match type of H with
  | EFin _ = EFin _ =>
      apply (f_equal (fun e => match e with EFin r => r | _ => 0 end)) in H;
      cbv beta iota in H; rewrite <- H in *; clear H
  end.

(** an overflowing result *)
Lemma ev_overflow : forall x s,
  B2SF (Prim2B x) = BinarySingleNaN.binary_overflow prec emax mode_NE s ->
  ev x = if s then ENinf else EPinf.
Proof.
  intros x s H. unfold ev. rewrite <- (B2SF_Prim2B x), H. cbn. destruct s; reflexivity.
Qed.

Lemma ev_mul : forall x y, ev (x * y)%float = emul (ev x) (ev y).
Proof.
  intros x y.
  assert (Hfin : forall a b, ev x = EFin a -> ev y = EFin b -> ev (x * y)%float = rx (a * b)).
  { intros a b Ha Hb. apply ev_finite in Ha, Hb.
    destruct Ha as [Fa Va], Hb as [Fb Vb].
    generalize (Bmult_correct prec emax Hprec Hmax mode_NE (Prim2B x) (Prim2B y)).
    rewrite <- mul_equiv, Va, Vb.
    change (round radix2 (SpecFloat.fexp prec emax) (round_mode mode_NE)) with rnd.
    change (bpow radix2 emax) with big.
    unfold rx. case Rlt_bool_spec; intros L K.
    - destruct (Rlt_dec (Rabs (rnd (a * b))) big); [ | lra ].
      apply ev_finite. rewrite Fa, Fb in K. cbn in K. tauto.
    - destruct (Rlt_dec (Rabs (rnd (a * b))) big); [ lra | ].
      apply ev_overflow in K. rewrite K.
      assert (N : a * b <> 0) by (apply rnd_pos_big; lra).
      assert (Na : a <> 0) by (intros ->; lra).
      assert (Nb : b <> 0) by (intros ->; lra).
      rewrite !Bsign_lt by congruence. rewrite Va, Vb.
      destruct (Rlt_dec a 0), (Rlt_dec b 0), (Rlt_dec 0 (a * b)); cbn; try reflexivity; exfalso; nra. }
  destruct (ev x) as [a| | |] eqn:Ex; destruct (ev y) as [b| | |] eqn:Ey;
    try (now apply Hfin); clear Hfin; cbn [emul];
    rewrite ev_B in Ex, Ey; rewrite ev_B, mul_equiv;
    destruct (Prim2B x) as [sx|sx| |sx mx ex' Hx] eqn:Bx; try discriminate Ex;
    try (destruct sx; discriminate Ex);
    destruct (Prim2B y) as [sy|sy| |sy my ey' Hy] eqn:By; try discriminate Ey;
    try (destruct sy; discriminate Ey);
    einj Ex; einj Ey;
    rewrite ?esgn_0, ?esgn_fin;
    try (destruct sx; try discriminate Ex); try (destruct sy; try discriminate Ey); reflexivity.
Qed.

Lemma ev_add : forall x y, ev (x + y)%float = eadd (ev x) (ev y).
Proof.
  intros x y.
  assert (Hfin : forall a b, ev x = EFin a -> ev y = EFin b -> ev (x + y)%float = rx (a + b)).
  { intros a b Ha Hb. generalize (ev_fmt _ _ Ha) (ev_fmt _ _ Hb). intros Ga Gb.
    apply ev_finite in Ha, Hb.
    destruct Ha as [Fa Va], Hb as [Fb Vb].
    generalize (Bplus_correct prec emax Hprec Hmax mode_NE (Prim2B x) (Prim2B y) Fa Fb).
    rewrite <- add_equiv, Va, Vb.
    change (round radix2 (SpecFloat.fexp prec emax) (round_mode mode_NE)) with rnd.
    change (bpow radix2 emax) with big.
    unfold rx. case Rlt_bool_spec; intros L K.
    - destruct (Rlt_dec (Rabs (rnd (a + b))) big); [ | lra ].
      apply ev_finite. tauto.
    - destruct (Rlt_dec (Rabs (rnd (a + b))) big); [ lra | ].
      destruct K as [K KS]. apply ev_overflow in K. rewrite K.
      assert (N : a + b <> 0) by (apply rnd_pos_big; lra).
      assert (Na : a <> 0).
      { intros ->. rewrite Rplus_0_l in L. rewrite (rnd_fmt b Gb) in L.
        assert (Hb : ev y = EFin b) by (apply ev_finite; tauto).
        generalize (ev_big _ _ Hb). lra. }
      assert (Nb : b <> 0).
      { intros ->. rewrite Rplus_0_r in L. rewrite (rnd_fmt a Ga) in L.
        assert (Ha : ev x = EFin a) by (apply ev_finite; tauto).
        generalize (ev_big _ _ Ha). lra. }
      rewrite !Bsign_lt in KS by congruence. rewrite Bsign_lt by congruence.
      rewrite Va, Vb in KS. rewrite Va.
      destruct (Rlt_dec a 0), (Rlt_dec b 0), (Rlt_dec 0 (a + b)); cbn;
        try discriminate KS; try reflexivity; exfalso; lra. }
  destruct (ev x) as [a| | |] eqn:Ex; destruct (ev y) as [b| | |] eqn:Ey;
    try (now apply Hfin); clear Hfin; cbn [eadd];
    rewrite ev_B in Ex, Ey; rewrite ev_B, add_equiv;
    destruct (Prim2B x) as [sx|sx| |sx mx ex' Hx] eqn:Bx; try discriminate Ex;
    try (destruct sx; discriminate Ex);
    destruct (Prim2B y) as [sy|sy| |sy my ey' Hy] eqn:By; try discriminate Ey;
    try (destruct sy; discriminate Ey);
    try (destruct sx; try discriminate Ex); try (destruct sy; try discriminate Ey); reflexivity.
Qed.

Lemma ev_opp : forall x, ev (- x)%float = eneg (ev x).
Proof.
  intros x. rewrite (ev_B x), (ev_B (- x)%float), opp_equiv, B2R_Bopp.
  destruct (Prim2B x) as [s|[|]| |s m e H]; cbn [Bopp eneg]; try reflexivity.
  now rewrite Ropp_0.
Qed.

Lemma ev_sub : forall x y, ev (x - y)%float = esub (ev x) (ev y).
Proof.
  intros x y.
  assert (K : ev (x - y)%float = ev (x + - y)%float).
  { rewrite !ev_B, sub_equiv, add_equiv, opp_equiv.
    match goal with |- match ?a with _ => _ end = match ?b with _ => _ end =>
      assert (E : a = b) by (destruct (Prim2B x), (Prim2B y); reflexivity) end.
    now rewrite E. }
  rewrite K, ev_add, ev_opp.
  destruct (ev x), (ev y); try reflexivity.
Qed.

Lemma ev_div : forall x y, eeqb (ev y) (EFin 0) = false ->
  ev (x / y)%float = ediv (ev x) (ev y).
Proof.
  intros x y Hy.
  assert (Hfin : forall a b, ev x = EFin a -> ev y = EFin b -> ev (x / y)%float = rx (a / b)).
  { intros a b Ha Hb. rewrite Hb in Hy. cbn in Hy.
    destruct (Req_EM_T b 0) as [|Nb]; [ discriminate | ].
    apply ev_finite in Ha, Hb.
    destruct Ha as [Fa Va], Hb as [Fb Vb].
    generalize (Bdiv_correct prec emax Hprec Hmax mode_NE (Prim2B x) (Prim2B y)).
    rewrite <- div_equiv, Va, Vb. intros K. specialize (K Nb). revert K.
    change (round radix2 (SpecFloat.fexp prec emax) (round_mode mode_NE)) with rnd.
    change (bpow radix2 emax) with big.
    unfold rx. case Rlt_bool_spec; intros L K.
    - destruct (Rlt_dec (Rabs (rnd (a / b))) big); [ | lra ].
      apply ev_finite. rewrite Fa in K. tauto.
    - destruct (Rlt_dec (Rabs (rnd (a / b))) big); [ lra | ].
      apply ev_overflow in K. rewrite K.
      assert (N : a / b <> 0) by (apply rnd_pos_big; lra).
      assert (Na : a <> 0) by (intros ->; unfold Rdiv in N; lra).
      rewrite !Bsign_lt by congruence. rewrite Va, Vb.
      assert (E : a = a / b * b) by (field; exact Nb).
      destruct (Rlt_dec a 0), (Rlt_dec b 0), (Rlt_dec 0 (a / b)); cbn; try reflexivity; exfalso; nra. }
  destruct (ev x) as [a| | |] eqn:Ex; destruct (ev y) as [b| | |] eqn:Ey;
    try (now apply Hfin); clear Hfin; cbn [ediv]; cbn [eeqb] in Hy;
    rewrite ev_B in Ex, Ey; rewrite ev_B, div_equiv;
    destruct (Prim2B x) as [sx|sx| |sx mx ex' Hx] eqn:Bx; try discriminate Ex;
    try (destruct sx; discriminate Ex);
    destruct (Prim2B y) as [sy|sy| |sy my ey' Hyy] eqn:By; try discriminate Ey;
    try (destruct sy; discriminate Ey);
    einj Ex; einj Ey;
    try (destruct (Req_EM_T 0 0); [ discriminate Hy | congruence ]);
    rewrite ?esgn_0, ?esgn_fin;
    try (destruct sx; try discriminate Ex); try (destruct sy; try discriminate Ey); reflexivity.
Qed.

Lemma ev_sqrt : forall x a, ev x = EFin a -> 0 <= a -> ev (PrimFloat.sqrt x) = EFin (rnd (R_sqrt.sqrt a)).
Proof.
  intros x a Ha Pa. apply ev_finite in Ha. destruct Ha as [Fa Va].
  generalize (Bsqrt_correct prec emax Hprec Hmax mode_NE (Prim2B x)).
  rewrite <- sqrt_equiv, Va.
  change (round radix2 (SpecFloat.fexp prec emax) (round_mode mode_NE)) with rnd.
  intros (K1 & K2 & _). apply ev_finite. split; [ | exact K1 ]. rewrite K2.
  destruct (Prim2B x) as [s|s| |s m e H] eqn:Bx; try reflexivity; try discriminate Fa.
  destruct s; [ exfalso | reflexivity ].
  assert (N : B2R (B754_finite true m e H) < 0).
  { cbn [B2R]; unfold F2R; cbn [Fnum Fexp cond_Zopp]. generalize (bpow_gt_0 radix2 e).
    assert (IZR (- Zpos m) < 0) by (apply IZR_lt; lia). change (Z.neg m) with (- Z.pos m)%Z. nra. }
  lra.
Qed.

Lemma ev_sqrt_inf : forall x, ev x = EPinf -> ev (PrimFloat.sqrt x) = EPinf.
Proof.
  intros x Hx. rewrite ev_B in Hx |- *. rewrite sqrt_equiv.
  destruct (Prim2B x) as [s|[|]| |s m e H]; try discriminate Hx. reflexivity.
Qed.

Lemma ev_sqrt_nan : forall x, ev x = ENan -> ev (PrimFloat.sqrt x) = ENan.
Proof.
  intros x Hx. rewrite ev_B in Hx |- *. rewrite sqrt_equiv.
  destruct (Prim2B x) as [s|[|]| |s m e H]; try discriminate Hx. reflexivity.
Qed.

Lemma ev_ltb : forall x y, PrimFloat.ltb x y = eltb (ev x) (ev y).
Proof.
  intros x y.
  assert (Hfin : forall a b, ev x = EFin a -> ev y = EFin b -> PrimFloat.ltb x y = eltb (EFin a) (EFin b)).
  { intros a b Ha Hb. apply ev_finite in Ha, Hb. destruct Ha as [Fa Va], Hb as [Fb Vb].
    rewrite ltb_equiv, (Bltb_correct _ _ _ _ Fa Fb), Va, Vb. cbn.
    case Rlt_bool_spec; intros; destruct (Rlt_dec a b); try reflexivity; lra. }
  destruct (ev x) as [a| | |] eqn:Ex; destruct (ev y) as [b| | |] eqn:Ey;
    try (now apply Hfin); clear Hfin;
    rewrite ev_B in Ex, Ey; rewrite ltb_equiv;
    destruct (Prim2B x) as [sx|sx| |sx mx ex' Hx] eqn:Bx; try discriminate Ex;
    try (destruct sx; discriminate Ex);
    destruct (Prim2B y) as [sy|sy| |sy my ey' Hyy] eqn:By; try discriminate Ey;
    try (destruct sy; discriminate Ey);
    try (destruct sx; try discriminate Ex); try (destruct sy; try discriminate Ey); reflexivity.
Qed.

Lemma ev_leb : forall x y, PrimFloat.leb x y = eleb (ev x) (ev y).
Proof.
  intros x y.
  assert (Hfin : forall a b, ev x = EFin a -> ev y = EFin b -> PrimFloat.leb x y = eleb (EFin a) (EFin b)).
  { intros a b Ha Hb. apply ev_finite in Ha, Hb. destruct Ha as [Fa Va], Hb as [Fb Vb].
    rewrite leb_equiv, (Bleb_correct _ _ _ _ Fa Fb), Va, Vb. cbn.
    case Rle_bool_spec; intros; destruct (Rle_dec a b); try reflexivity; lra. }
  destruct (ev x) as [a| | |] eqn:Ex; destruct (ev y) as [b| | |] eqn:Ey;
    try (now apply Hfin); clear Hfin;
    rewrite ev_B in Ex, Ey; rewrite leb_equiv;
    destruct (Prim2B x) as [sx|sx| |sx mx ex' Hx] eqn:Bx; try discriminate Ex;
    try (destruct sx; discriminate Ex);
    destruct (Prim2B y) as [sy|sy| |sy my ey' Hyy] eqn:By; try discriminate Ey;
    try (destruct sy; discriminate Ey);
    try (destruct sx; try discriminate Ex); try (destruct sy; try discriminate Ey); reflexivity.
Qed.

Lemma ev_eqb : forall x y, PrimFloat.eqb x y = eeqb (ev x) (ev y).
Proof.
  intros x y.
  assert (Hfin : forall a b, ev x = EFin a -> ev y = EFin b -> PrimFloat.eqb x y = eeqb (EFin a) (EFin b)).
  { intros a b Ha Hb. apply ev_finite in Ha, Hb. destruct Ha as [Fa Va], Hb as [Fb Vb].
    rewrite eqb_equiv, (Beqb_correct _ _ _ _ Fa Fb), Va, Vb. cbn.
    case Req_bool_spec; intros; destruct (Req_EM_T a b); try reflexivity; lra. }
  destruct (ev x) as [a| | |] eqn:Ex; destruct (ev y) as [b| | |] eqn:Ey;
    try (now apply Hfin); clear Hfin;
    rewrite ev_B in Ex, Ey; rewrite eqb_equiv;
    destruct (Prim2B x) as [sx|sx| |sx mx ex' Hx] eqn:Bx; try discriminate Ex;
    try (destruct sx; discriminate Ex);
    destruct (Prim2B y) as [sy|sy| |sy my ey' Hyy] eqn:By; try discriminate Ey;
    try (destruct sy; discriminate Ey);
    try (destruct sx; try discriminate Ex); try (destruct sy; try discriminate Ey); reflexivity.
Qed.

Lemma ev_zero : ev PrimFloat.zero = EFin 0.
Proof. reflexivity. Qed.

Lemma mul_comm : forall x y, (x * y = y * x)%float.
Proof.
  intros x y. apply Prim2B_inj. rewrite !mul_equiv.
  apply B2SF_inj.
  destruct (Prim2B x) as [sx|sx| |sx mx ex' Hx]; destruct (Prim2B y) as [sy|sy| |sy my ey' Hy];
    cbn [Bmult]; rewrite ?(xorb_comm sx sy); try reflexivity.
  rewrite !B2SF_SF2B. rewrite (xorb_comm sx sy), (Pos.mul_comm mx my), (Z.add_comm ex' ey'). reflexivity.
Qed.

(** zero divided by zero *)
Lemma ev_zero_B : forall x, ev x = EFin 0 -> exists s, Prim2B x = B754_zero s.
Proof.
  intros x. rewrite ev_B. destruct (Prim2B x) as [s|[|]| |s m e H]; try discriminate; [ now exists s | ].
  intros [= K]. exfalso. revert K. cbn [B2R]. intros K. apply eq_0_F2R in K. destruct s; discriminate K.
Qed.

Lemma ev_zero_div : forall x y, ev x = EFin 0 -> ev y = EFin 0 -> ev (x / y)%float = ENan.
Proof.
  intros x y Hx Hy. destruct (ev_zero_B x Hx) as [a Ea]. destruct (ev_zero_B y Hy) as [b Eb].
  rewrite ev_B, div_equiv, Ea, Eb. reflexivity.
Qed.
