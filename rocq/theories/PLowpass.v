(** Proofs about the low-pass oracle. *)
From Coq Require Import Reals List Arith ZArith Lia Lra Bool.
From Verif Require Import Arith Vec ModelCalc ModelEll ModelLowpass SpecDrivers Spec SpecCut SpecSpectral SpecLowpass
  PCalc PAlg PSum PVec PCG2.
Import ListNotations.
Local Open Scope R_scope.

(** ** Round robin *)
Lemma rr_step a b i k : (a <= i < b)%Z ->
  (a + (next_idx a b i - a + k) mod (b - a) = a + (i - a + (k + 1)) mod (b - a))%Z.
Proof.
  intros H. unfold next_idx. destruct (Z.eqb_spec (i + 1) b) as [E|E].
  - replace (i - a + (k + 1))%Z with ((a - a + k) + 1 * (b - a))%Z by lia. rewrite Z.mod_add by lia. reflexivity.
  - do 2 f_equal. lia.
Qed.
Lemma rr_range a b i : (a <= i < b)%Z -> (a <= next_idx a b i < b)%Z.
Proof. intros H. unfold next_idx. destruct (Z.eqb_spec (i + 1) b); lia. Qed.
Lemma rr_cover a b i j : (a <= i < b)%Z -> (a <= j < b)%Z ->
  exists k, (1 <= k <= b - a)%Z /\ (j = a + (i - a + k) mod (b - a))%Z.
Proof.
  intros Hi Hj. exists ((j - i - 1) mod (b - a) + 1)%Z.
  pose proof (Z.mod_pos_bound (j - i - 1) (b - a) ltac:(lia)). split; [lia|].
  replace (i - a + ((j - i - 1) mod (b - a) + 1))%Z with ((i - a + 1) + (j - i - 1) mod (b - a))%Z by lia.
  rewrite Z.add_mod_idemp_r by lia. replace (i - a + 1 + (j - i - 1))%Z with (j - a)%Z by lia.
  rewrite Z.mod_small by lia. lia.
Qed.

Section Scan.
Context (idx : lowpass RA -> Z) (a b : Z) (P : (Z -> Prop) -> lowpass RA -> Prop) (Q : lowpass RA -> Prop)
  (bad : cut RA -> Prop) (body : lowpass RA -> lowpass RA * res (option (cut RA))).
Hypothesis step : forall V o, P V o -> (a <= idx o < b)%Z -> exists o1 r, body o = (o1, r) /\ idx o1 = next_idx a b (idx o) /\
  ((r = Ok None /\ P (fun i => V i \/ i = idx o1) o1) \/ (exists ct, r = Ok (Some ct) /\ bad ct /\ Q o1)).

Lemma scan_ok : forall fuel V o, P V o -> (a <= idx o < b)%Z -> exists o1 r, scan fuel body o = (o1, r) /\
  ((r = Ok None /\ (a <= idx o1 < b)%Z /\ exists V', P V' o1 /\ (forall i, V i -> V' i) /\
      forall k, (1 <= k <= Z.of_nat fuel)%Z -> V' (a + (idx o - a + k) mod (b - a))%Z) \/
   (exists ct, r = Ok (Some ct) /\ bad ct /\ Q o1 /\ (a <= idx o1 < b)%Z)).
Proof.
  induction fuel as [|fuel IH]; intros V o HP Hi; cbn [scan].
  - exists o, (Ok None). split; [reflexivity|]. left. split; [reflexivity|]. split; [exact Hi|]. exists V. split; [exact HP|]. split; [auto|]. intros k Hk. lia.
  - destruct (step V o HP Hi) as (o1 & r1 & E & Ei & [(-> & P1)|(ct & -> & Hb & HQ)]); rewrite E.
    + assert (Hi1 : (a <= idx o1 < b)%Z) by (rewrite Ei; apply rr_range, Hi).
      destruct (IH _ o1 P1 Hi1) as (o2 & r2 & E2 & H). exists o2, r2. split; [exact E2|].
      destruct H as [(-> & Hi2 & V' & P2 & S & C)|H]; [|right; exact H]. left. split; [reflexivity|]. split; [exact Hi2|].
      exists V'. split; [exact P2|]. split; [intros i Vi; apply S; auto|]. intros k Hk.
      destruct (Z.eq_dec k 1) as [->|Hk1].
      * apply S. right. rewrite Ei. pose proof (rr_step a b (idx o) 0 Hi) as R0.
        replace (0 + 1)%Z with 1%Z in R0 by lia. rewrite <- R0. pose proof (rr_range a b (idx o) Hi). rewrite Z.mod_small; lia.
      * specialize (C (k - 1)%Z ltac:(lia)). rewrite Ei in C. rewrite rr_step in C by exact Hi. replace (k - 1 + 1)%Z with k in C by lia. exact C.
    + exists o1, (Ok (Some ct)). split; [reflexivity|]. right. exists ct. repeat split; auto; rewrite Ei; apply rr_range, Hi.
Qed.

Lemma scan_all V o : P V o -> (a <= idx o < b)%Z -> exists o1 r, scan (Z.to_nat (b - a)) body o = (o1, r) /\
  ((r = Ok None /\ (a <= idx o1 < b)%Z /\ exists V', P V' o1 /\ forall i, (a <= i < b)%Z -> V' i) \/
   (exists ct, r = Ok (Some ct) /\ bad ct /\ Q o1 /\ (a <= idx o1 < b)%Z)).
Proof.
  intros HP Hi. destruct (scan_ok (Z.to_nat (b - a)) V o HP Hi) as (o1 & r & E & H). exists o1, r. split; [exact E|].
  destruct H as [(-> & Hi1 & V' & P1 & _ & C)|H]; [|right; exact H]. left. split; [reflexivity|]. split; [exact Hi1|].
  exists V'. split; [exact P1|]. intros i Hj. destruct (rr_cover a b (idx o) i Hi Hj) as (k & Hk & ->). apply C. lia.
Qed.
End Scan.

(** ** Rows and responses *)
Definition resp (F : filter) (z : nat -> R) (j : Z) : R := power_spectrum (f_n F) z (freq (f_n F) (Z.to_nat j)).

(** the part of [describes_lp] that does not mention the positions *)
Definition data_lp (F : filter) (o : lowpass RA) : Prop :=
  (1 <= f_n F)%nat /\ 0 <= f_wp F <= 1 /\ 0 <= f_ws F <= 1 /\
  length (lw_spectrum o) = (15 * f_n F)%nat /\
  (forall i, (i < 15 * f_n F)%nat ->
     length (nth i (lw_spectrum o) nil) = f_n F /\
     forall k, (k < f_n F)%nat -> fm (lw_spectrum o) i k =
       match k with O => 1 | S _ => 2 * cos (freq (f_n F) i * INR k) end) /\
  lw_nwpass o = (Int_part (f_wp F * INR (15 * f_n F - 1)) + 1)%Z /\
  lw_nwstop o = (Int_part (f_ws F * INR (15 * f_n F - 1)) + 1)%Z /\
  lw_lp o = f_lo F /\ lw_up o = f_up F.

Lemma row_resp n (row : vec RA) i z : (1 <= n)%nat -> length row = n ->
  (forall k, (k < n)%nat -> fv row k = match k with O => 1 | S _ => 2 * cos (freq n i * INR k) end) ->
  dot n (fv row) z = power_spectrum n z (freq n i).
Proof.
  intros Hn Hl H. destruct n as [|n]; [lia|]. unfold dot, power_spectrum. replace (S n - 1)%nat with n by lia.
  rewrite sumn_S_l. rewrite (H O) by lia. rewrite <- sumn_scal. f_equal; [ring|].
  apply sumn_ext. intros k Hk. rewrite (H (S k)) by lia. replace (freq (S n) i * INR (S k)) with (INR (S k) * freq (S n) i) by ring. ring.
Qed.

Section Data.
Variable F : filter.
Notation n := (f_n F).
Notation m := (Z.of_nat (15 * f_n F)).

Lemma m1_pos : (1 <= n)%nat -> 0 < INR (15 * n - 1).
Proof. intros H. apply lt_0_INR. lia. Qed.

Lemma edge_spec w i : (1 <= n)%nat -> (Z.of_nat i < Int_part (w * INR (15 * n - 1)) + 1)%Z <-> freq n i <= w * PI.
Proof.
  intros Hn. pose proof (m1_pos Hn) as M. set (M1 := INR (15 * n - 1)) in *. pose proof (base_Int_part (w * M1)) as (B1 & B2).
  pose proof PI_RGT_0 as HP.
  assert (E : freq n i <= w * PI <-> INR i <= w * M1).
  { unfold freq. fold M1. split; intros H.
    - apply Rmult_le_reg_r with (PI / M1); [apply Rdiv_lt_0_compat; assumption|]. replace (w * M1 * (PI / M1)) with (w * PI) by (field; lra). exact H.
    - replace (w * PI) with (w * M1 * (PI / M1)) by (field; lra). apply Rmult_le_compat_r; [apply Rlt_le, Rdiv_lt_0_compat; assumption|exact H]. }
  rewrite E. rewrite INR_IZR_INZ. split; intros H.
  - assert (H' : (Z.of_nat i <= Int_part (w * M1))%Z) by lia. apply IZR_le in H'. lra.
  - apply lt_IZR. rewrite plus_IZR. lra.
Qed.

Lemma edge_range w : (1 <= n)%nat -> 0 <= w <= 1 -> (1 <= Int_part (w * INR (15 * n - 1)) + 1 <= m)%Z.
Proof.
  intros Hn Hw. pose proof (m1_pos Hn) as M. set (M1 := INR (15 * n - 1)) in *. pose proof (base_Int_part (w * M1)) as (B1 & B2).
  assert (0 <= w * M1) by (apply Rmult_le_pos; lra). assert (w * M1 <= M1) by nra.
  assert (E : M1 = IZR (m - 1)).
  { unfold M1. rewrite INR_IZR_INZ. f_equal. lia. }
  assert (-1 < Int_part (w * M1))%Z by (apply lt_IZR; lra).
  assert (Int_part (w * M1) <= m - 1)%Z by (apply le_IZR; lra). lia.
Qed.

Lemma edge_stop : (1 <= n)%nat -> 0 <= f_ws F < 1 -> (Int_part (f_ws F * INR (15 * n - 1)) + 1 < m)%Z.
Proof.
  intros Hn Hw. pose proof (m1_pos Hn) as M. set (M1 := INR (15 * n - 1)) in *. pose proof (base_Int_part (f_ws F * M1)) as (B1 & B2).
  assert (f_ws F * M1 < M1) by nra.
  assert (E : M1 = IZR (m - 1)).
  { unfold M1. rewrite INR_IZR_INZ. f_equal. lia. }
  assert (Int_part (f_ws F * M1) < m - 1)%Z by (apply lt_IZR; lra). lia.
Qed.

Lemma row_ok o i : data_lp F o -> (0 <= i < m)%Z -> exists row : vec RA, row_at (lw_spectrum o) i = Ok row /\
  length row = n /\ forall z, dot n (fv row) z = resp F z i.
Proof.
  intros (Hn & _ & _ & Hl & Hr & _) Hi. unfold row_at. change (@length (list (num RA)) (lw_spectrum o) = (15 * n)%nat) in Hl. rewrite Hl.
  destruct (Z.leb_spec 0 i); [|lia]. destruct (Z.ltb_spec i m); [|lia]. cbn [andb].
  eexists. split; [reflexivity|]. destruct (Hr (Z.to_nat i) ltac:(lia)) as (L & R). split; [exact L|].
  intros z. apply row_resp; [exact Hn|exact L|exact R].
Qed.

Lemma response_ok o i x : data_lp F o -> (0 <= i < m)%Z -> length x = n -> exists row : vec RA,
  response_at o i x = Ok (row, resp F (fv x) i) /\ length row = n /\ forall z, dot n (fv row) z = resp F z i.
Proof.
  intros D Hi Hx. destruct (row_ok o i D Hi) as (row & E & L & R). exists row. split; [|auto].
  unfold response_at. rewrite E. cbn [bind]. unfold dot_checked.
  change (@length (num RA) row = n) in L. change (@length (num RA) x = n) in Hx. rewrite L, Hx, Nat.eqb_refl. cbn [bind].
  rewrite (vdot_R n) by assumption. rewrite R. reflexivity.
Qed.

Lemma resp_cut (row x : vec RA) i z : (forall y, dot n (fv row) y = resp F y i) ->
  cutval n (fv row) (fv x) z = resp F z i - resp F (fv x) i.
Proof. intros R. unfold cutval. rewrite <- !R. unfold dot. rewrite <- sumn_minus. apply sumn_ext. intros; ring. Qed.

Lemma vneg_fv (v : vec RA) i : fv (vneg v) i = - fv v i.
Proof.
  unfold vneg, fv. destruct (Nat.lt_ge_cases i (length v)) as [H|H].
  - rewrite (nth_indep (map aneg v) 0 (aneg (a:=RA) 0)) by (rewrite map_length; exact H). rewrite map_nth. reflexivity.
  - rewrite !nth_overflow; [cbn; lra|exact H|rewrite map_length; exact H].
Qed.
Lemma vneg_cut (v x : vec RA) z : cutval n (fv (vneg v)) (fv x) z = - cutval n (fv v) (fv x) z.
Proof. unfold cutval, dot. rewrite <- sumn_opp. apply sumn_ext. intros i _. rewrite vneg_fv. ring. Qed.
Lemma vneg_len (v : vec RA) : length (vneg v) = length v.
Proof. apply map_length. Qed.

(** a cut of the specification with stop band bound [sp], given at [x] *)
Definition spec_cut (sp : R) (x : vec RA) (ct : cut RA) : Prop :=
  length (fst ct) = n /\ exists b0, first_beta (snd ct) = Some b0 /\ 0 < b0 /\
  forall p z, meets F sp z -> cut_holds OpBias p (snd ct) (cutval n (fv (fst ct)) (fv x) z).

Lemma pair_cut sp (x g : vec RA) b0 b1 : length g = n -> 0 < b0 ->
  (forall z, meets F sp z -> - b1 <= cutval n (fv g) (fv x) z <= - b0) ->
  spec_cut sp x (g, CList [Some (b0 : num RA); Some (b1 : num RA)]).
Proof.
  intros L H0 H. split; [exact L|]. exists b0. split; [reflexivity|]. split; [exact H0|]. intros p z Hz. specialize (H z Hz).
  unfold cut_holds. cbn [fst snd first_beta second_beta]. split; [apply H|]. destruct p; [apply H|exact I].
Qed.
Lemma single_cut sp (x g : vec RA) b0 : length g = n -> 0 < b0 ->
  (forall z, meets F sp z -> cutval n (fv g) (fv x) z <= - b0) -> spec_cut sp x (g, @CSingle RA b0).
Proof.
  intros L H0 H. split; [exact L|]. exists b0. split; [reflexivity|]. split; [exact H0|]. intros p z Hz. specialize (H z Hz).
  unfold cut_holds. cbn [fst snd first_beta second_beta]. split; [apply H|exact I].
Qed.

(** meeting the specification, by index *)
Definition npass : Z := (Int_part (f_wp F * INR (15 * n - 1)) + 1)%Z.
Definition nstop : Z := (Int_part (f_ws F * INR (15 * n - 1)) + 1)%Z.
Definition meets_idx (sp : R) (z : nat -> R) : Prop :=
  (forall i, (0 <= i < npass)%Z -> (i < m)%Z -> f_lo F <= resp F z i <= f_up F) /\
  (forall i, (nstop <= i < m)%Z -> (0 <= i)%Z -> 0 <= resp F z i <= sp) /\
  (forall i, (npass <= i < nstop)%Z -> (0 <= i < m)%Z -> 0 <= resp F z i) /\ 0 <= z O.

Lemma meets_iff sp z : (1 <= n)%nat -> meets F sp z <-> meets_idx sp z.
Proof.
  intros Hn. unfold meets, meets_idx, npass, nstop. split; intros (H1 & H2 & H3 & H4).
  - repeat split; [| | | | |exact H4].
    + apply H1; [exists (Z.to_nat i); split; [lia|reflexivity]|]. apply edge_spec; [exact Hn|]. lia.
    + apply H1; [exists (Z.to_nat i); split; [lia|reflexivity]|]. apply edge_spec; [exact Hn|]. lia.
    + apply H2. split; [exists (Z.to_nat i); split; [lia|reflexivity]|]. apply Rnot_le_lt. rewrite <- edge_spec by exact Hn. lia.
    + apply H2. split; [exists (Z.to_nat i); split; [lia|reflexivity]|]. apply Rnot_le_lt. rewrite <- edge_spec by exact Hn. lia.
    + intros i Hi Hj. apply H3; [exists (Z.to_nat i); split; [lia|reflexivity]|]. split.
      * apply Rnot_le_lt. rewrite <- edge_spec by exact Hn. lia.
      * apply edge_spec; [exact Hn|]. lia.
  - assert (E : forall i, resp F z (Z.of_nat i) = power_spectrum n z (freq n i)) by (intros i; unfold resp; rewrite Nat2Z.id; reflexivity).
    split; [|split; [|split; [|exact H4]]].
    + intros w (i & Hi & ->) Hw. rewrite <- E. apply H1; [|lia]. apply edge_spec in Hw; [|exact Hn]. lia.
    + intros w ((i & Hi & ->) & Hw). rewrite <- E. apply H2; [|lia]. apply Rlt_not_le in Hw. rewrite <- edge_spec in Hw by exact Hn. lia.
    + intros w (i & Hi & ->) (Hw1 & Hw2). rewrite <- E. apply Rlt_not_le in Hw1. rewrite <- edge_spec in Hw1 by exact Hn. rewrite <- edge_spec in Hw2 by exact Hn.
      apply H3; lia.
Qed.

Definition max_idx (z : nat -> R) (f : R) : Prop :=
  (exists i, (nstop <= i < m)%Z /\ (0 <= i)%Z /\ resp F z i = f) /\ forall i, (nstop <= i < m)%Z -> (0 <= i)%Z -> resp F z i <= f.
Lemma max_iff z f : (1 <= n)%nat -> stop_max F z f <-> max_idx z f.
Proof.
  intros Hn. assert (E : forall i, resp F z (Z.of_nat i) = power_spectrum n z (freq n i)) by (intros i; unfold resp; rewrite Nat2Z.id; reflexivity).
  unfold stop_max, max_idx, nstop. split; intros (H1 & H2).
  - destruct H1 as (w & ((i & Hi & ->) & Hw) & H1). split.
    + exists (Z.of_nat i). rewrite E. apply Rlt_not_le in Hw. rewrite <- edge_spec in Hw by exact Hn. repeat split; try lia. exact H1.
    + intros j Hj Hj0. apply H2. split; [exists (Z.to_nat j); split; [lia|reflexivity]|]. apply Rnot_le_lt. rewrite <- edge_spec by exact Hn. lia.
  - destruct H1 as (i & Hi & Hi0 & H1). split.
    + exists (freq n (Z.to_nat i)). split; [|exact H1]. split; [exists (Z.to_nat i); split; [lia|reflexivity]|]. apply Rnot_le_lt. rewrite <- edge_spec by exact Hn. lia.
    + intros w ((j & Hj & ->) & Hw). rewrite <- E. apply Rlt_not_le in Hw. rewrite <- edge_spec in Hw by exact Hn. apply H2; lia.
Qed.

(** ** The three bands *)
Section Call.
Variables (sp : R) (x : vec RA).
Hypothesis Hn : (1 <= n)%nat.
Hypothesis Hwp : 0 <= f_wp F <= 1.
Hypothesis Hws : 0 <= f_ws F <= 1.
Hypothesis Hx : length x = n.

Definition pos1 (o : lowpass RA) : Prop := (0 <= lw_idx1 o < lw_nwpass o)%Z.
Definition pos2 (o : lowpass RA) : Prop := ((lw_nwpass o < lw_nwstop o)%Z -> (lw_nwpass o <= lw_idx2 o < lw_nwstop o)%Z).
Definition pos3 (o : lowpass RA) : Prop := ((lw_nwstop o < m)%Z -> (lw_nwstop o <= lw_idx3 o < m)%Z).
Definition base (o : lowpass RA) : Prop := data_lp F o /\ lw_sp o = sp.

Lemma base_np o : base o -> lw_nwpass o = npass /\ lw_nwstop o = nstop /\ lw_lp o = f_lo F /\ lw_up o = f_up F /\
  Z.of_nat (length (lw_spectrum o)) = m /\ (1 <= npass <= m)%Z /\ (1 <= nstop <= m)%Z.
Proof.
  intros ((_ & _ & _ & L & _ & E1 & E2 & E3 & E4) & _). split; [exact E1|]. split; [exact E2|]. split; [exact E3|]. split; [exact E4|].
  split; [apply (f_equal Z.of_nat L)|]. split; apply edge_range; assumption.
Qed.

Lemma meets_v z i : meets F sp z -> (0 <= i < m)%Z ->
  ((i < npass)%Z -> f_lo F <= resp F z i <= f_up F) /\ ((nstop <= i)%Z -> 0 <= resp F z i <= sp) /\
  ((npass <= i < nstop)%Z -> 0 <= resp F z i).
Proof.
  intros H Hi. apply (meets_iff sp z Hn) in H. destruct H as (H1 & H2 & H3 & _). repeat split; intros; try (apply H1; lia); try (apply H2; lia); apply H3; lia.
Qed.

Definition passP (V : Z -> Prop) (o : lowpass RA) : Prop :=
  base o /\ pos2 o /\ pos3 o /\ forall i, V i -> (0 <= i < npass)%Z -> f_lo F <= resp F (fv x) i <= f_up F.
Definition endQ (o : lowpass RA) : Prop := base o /\ pos2 o /\ pos3 o.

Lemma pass_step_ok V o : passP V o -> (0 <= lw_idx1 o < npass)%Z -> exists o1 r, pass_step x o = (o1, r) /\
  lw_idx1 o1 = next_idx 0 npass (lw_idx1 o) /\
  ((r = Ok None /\ passP (fun i => V i \/ i = lw_idx1 o1) o1) \/ (exists ct, r = Ok (Some ct) /\ spec_cut sp x ct /\ endQ o1)).
Proof.
  intros (B & P2 & P3 & HV) Hi. pose proof (base_np o B) as (E1 & E2 & E3 & E4 & E5 & R1 & R2).
  pose proof (rr_range 0 npass _ Hi) as Hj. unfold pass_step. rewrite E1. set (j := next_idx 0 npass (lw_idx1 o)) in *.
  set (o1 := set_idx1 o j).
  assert (B1 : base o1) by exact B. change (lw_idx1 o1) with j. change (lw_up o1) with (lw_up o). change (lw_lp o1) with (lw_lp o).
  rewrite E3, E4.
  destruct (response_ok o1 j x (proj1 B1) ltac:(lia) Hx) as (row & Er & Lr & Hr). rewrite Er.
  set (v := resp F (fv x) j) in *.
  assert (HC : forall z, meets F sp z -> f_lo F - v <= cutval n (fv row) (fv x) z <= f_up F - v).
  { intros z Hz. rewrite (resp_cut row x j z Hr). fold v. destruct (meets_v z j Hz ltac:(lia)) as (M1 & _). specialize (M1 ltac:(lia)). lra. }
  change (altb (a:=RA) (f_up F) v) with (Rltb (f_up F) v). change (altb (a:=RA) v (f_lo F)) with (Rltb v (f_lo F)).
  destruct (Rltb_spec (f_up F) v) as [U|U].
  { exists o1. eexists. split; [reflexivity|]. split; [reflexivity|]. right. eexists. split; [reflexivity|]. split; [|exact (conj B1 (conj P2 P3))].
    apply pair_cut; [exact Lr|cbn; lra|]. intros z Hz. specialize (HC z Hz). cbn. lra. }
  destruct (Rltb_spec v (f_lo F)) as [L|L].
  { exists o1. eexists. split; [reflexivity|]. split; [reflexivity|]. right. eexists. split; [reflexivity|]. split; [|exact (conj B1 (conj P2 P3))].
    apply pair_cut; [rewrite vneg_len; exact Lr|cbn; lra|]. intros z Hz. rewrite vneg_cut. specialize (HC z Hz). cbn. lra. }
  exists o1. eexists. split; [reflexivity|]. split; [reflexivity|]. left. split; [reflexivity|]. split; [exact B1|]. split; [exact P2|]. split; [exact P3|].
  intros i [H|H] Hb; [apply HV; assumption|]. cbn in H. rewrite H. fold v. lra.
Qed.

Definition stopP (V : Z -> Prop) (o : lowpass RA) : Prop :=
  base o /\ pos1 o /\ pos2 o /\ (forall i, V i -> (nstop <= i < m)%Z /\ 0 <= resp F (fv x) i <= sp) /\
  match lw_fmax o with
  | None => forall i, ~ V i
  | Some f => (nstop <= lw_kmax o < m)%Z /\ resp F (fv x) (lw_kmax o) = f /\ forall i, V i -> resp F (fv x) i <= f
  end.
Definition endS (o : lowpass RA) : Prop := base o /\ pos1 o /\ pos2 o.

Lemma stop_step_ok V o : stopP V o -> (nstop <= lw_idx3 o < m)%Z -> exists o1 r, stop_step x o = (o1, r) /\
  lw_idx3 o1 = next_idx nstop m (lw_idx3 o) /\
  ((r = Ok None /\ stopP (fun i => V i \/ i = lw_idx3 o1) o1) \/ (exists ct, r = Ok (Some ct) /\ spec_cut sp x ct /\ endS o1)).
Proof.
  intros (B & P1 & P2 & HV & HM) Hi. pose proof (base_np o B) as (E1 & E2 & E3 & E4 & E5 & R1 & R2).
  pose proof (rr_range nstop m _ Hi) as Hj. unfold stop_step. rewrite E2, E5. set (j := next_idx nstop m (lw_idx3 o)) in *.
  set (o1 := set_idx3 o j).
  assert (B1 : base o1) by exact B. change (lw_idx3 o1) with j. change (lw_sp o1) with (lw_sp o). rewrite (proj2 B).
  destruct (response_ok o1 j x (proj1 B1) ltac:(lia) Hx) as (row & Er & Lr & Hr). rewrite Er.
  set (v := resp F (fv x) j) in *.
  assert (HC : forall z, meets F sp z -> 0 - v <= cutval n (fv row) (fv x) z <= sp - v).
  { intros z Hz. rewrite (resp_cut row x j z Hr). fold v. destruct (meets_v z j Hz ltac:(lia)) as (_ & M1 & _). specialize (M1 ltac:(lia)). lra. }
  change (altb (a:=RA) sp v) with (Rltb sp v). change (altb (a:=RA) v azero) with (Rltb v 0).
  destruct (Rltb_spec sp v) as [U|U].
  { exists o1. eexists. split; [reflexivity|]. split; [reflexivity|]. right. eexists. split; [reflexivity|]. split; [|exact (conj B1 (conj P1 P2))].
    apply pair_cut; [exact Lr|cbn; lra|]. intros z Hz. specialize (HC z Hz). cbn. lra. }
  destruct (Rltb_spec v 0) as [L|L].
  { exists o1. eexists. split; [reflexivity|]. split; [reflexivity|]. right. eexists. split; [reflexivity|]. split; [|exact (conj B1 (conj P1 P2))].
    apply pair_cut; [rewrite vneg_len; exact Lr|cbn; lra|]. intros z Hz. rewrite vneg_cut. specialize (HC z Hz). cbn. lra. }
  assert (HV1 : forall i, V i \/ i = j -> (nstop <= i < m)%Z /\ 0 <= resp F (fv x) i <= sp).
  { intros i [H| ->]; [apply HV, H|]. split; [lia|]. fold v. lra. }
  change (lw_fmax o1) with (lw_fmax o). unfold exceeds.
  destruct (lw_fmax o) as [f|] eqn:Ef.
  - change (altb (a:=RA) f v) with (Rltb f v). destruct HM as (K1 & K2 & K3). destruct (Rltb_spec f v) as [G|G].
    + eexists. eexists. split; [reflexivity|]. split; [reflexivity|]. left. split; [reflexivity|].
      split; [exact B1|]. split; [exact P1|]. split; [exact P2|]. split; [exact HV1|]. cbn [lw_fmax set_max lw_kmax].
      split; [exact Hj|]. split; [reflexivity|]. intros i [H|H]; [specialize (K3 i H); change (num RA) with R in *; lra|]. cbn in H. rewrite H. apply Rle_refl.
    + eexists. eexists. split; [reflexivity|]. split; [reflexivity|]. left. split; [reflexivity|].
      split; [exact B1|]. split; [exact P1|]. split; [exact P2|]. split; [exact HV1|]. change (lw_fmax o1) with (lw_fmax o). rewrite Ef. change (lw_kmax o1) with (lw_kmax o).
      split; [exact K1|]. split; [exact K2|]. intros i [H|H]; [exact (K3 i H)|]. cbn in H. rewrite H. fold v. change (num RA) with R in *. lra.
  - eexists. eexists. split; [reflexivity|]. split; [reflexivity|]. left. split; [reflexivity|].
    split; [exact B1|]. split; [exact P1|]. split; [exact P2|]. split; [exact HV1|]. cbn [lw_fmax set_max lw_kmax].
    split; [exact Hj|]. split; [reflexivity|]. intros i [H|H]; [destruct (HM i H)|]. cbn in H. rewrite H. apply Rle_refl.
Qed.

Definition transP (f0 : option R) (k0 : Z) (V : Z -> Prop) (o : lowpass RA) : Prop :=
  base o /\ pos1 o /\ pos3 o /\ lw_fmax o = f0 /\ lw_kmax o = k0 /\ forall i, V i -> (npass <= i < nstop)%Z -> 0 <= resp F (fv x) i.
Definition endT (o : lowpass RA) : Prop := base o /\ pos1 o /\ pos3 o.

Lemma trans_step_ok f0 k0 V o : transP f0 k0 V o -> (npass <= lw_idx2 o < nstop)%Z -> exists o1 r, trans_step x o = (o1, r) /\
  lw_idx2 o1 = next_idx npass nstop (lw_idx2 o) /\
  ((r = Ok None /\ transP f0 k0 (fun i => V i \/ i = lw_idx2 o1) o1) \/ (exists ct, r = Ok (Some ct) /\ spec_cut sp x ct /\ endT o1)).
Proof.
  intros (B & P1 & P3 & Hf & Hk & HV) Hi. pose proof (base_np o B) as (E1 & E2 & E3 & E4 & E5 & R1 & R2).
  pose proof (rr_range npass nstop _ Hi) as Hj. unfold trans_step. rewrite E1, E2. set (j := next_idx npass nstop (lw_idx2 o)) in *.
  set (o1 := set_idx2 o j).
  assert (B1 : base o1) by exact B. change (lw_idx2 o1) with j.
  destruct (response_ok o1 j x (proj1 B1) ltac:(lia) Hx) as (row & Er & Lr & Hr). rewrite Er.
  set (v := resp F (fv x) j) in *.
  assert (HC : forall z, meets F sp z -> 0 - v <= cutval n (fv row) (fv x) z).
  { intros z Hz. rewrite (resp_cut row x j z Hr). fold v. destruct (meets_v z j Hz ltac:(lia)) as (_ & _ & M1). specialize (M1 ltac:(lia)). lra. }
  change (altb (a:=RA) v azero) with (Rltb v 0).
  destruct (Rltb_spec v 0) as [L|L].
  { exists o1. eexists. split; [reflexivity|]. split; [reflexivity|]. right. eexists. split; [reflexivity|]. split; [|exact (conj B1 (conj P1 P3))].
    apply single_cut; [rewrite vneg_len; exact Lr|cbn; lra|]. intros z Hz. rewrite vneg_cut. specialize (HC z Hz). cbn. lra. }
  exists o1. eexists. split; [reflexivity|]. split; [reflexivity|]. left. split; [reflexivity|].
  split; [exact B1|]. split; [exact P1|]. split; [exact P3|]. split; [exact Hf|]. split; [exact Hk|].
  intros i [H|H] Hb; [apply HV; assumption|]. cbn in H. rewrite H. fold v. lra.
Qed.

Lemma first_ok o : base o -> pos1 o -> pos2 o -> pos3 o -> exists r, first_coef x o = (o, r) /\
  ((r = Ok None /\ 0 <= fv x 0) \/ (exists ct, r = Ok (Some ct) /\ spec_cut sp x ct)).
Proof.
  intros B P1 P2 P3. unfold first_coef. destruct x as [|x0 xs] eqn:Ex; [cbn in Hx; lia|].
  change (altb (a:=RA) x0 azero) with (Rltb x0 0). destruct (Rltb_spec x0 0) as [L|L].
  - eexists. split; [reflexivity|]. right. eexists. split; [reflexivity|].
    destruct B as ((_ & _ & _ & _ & Hr & _) & _). destruct (Hr O ltac:(lia)) as (Lr & _). change (@length (num RA) (nth 0 (lw_spectrum o) []) = n) in Lr. rewrite Lr.
    assert (G : exists k, n = S k) by (destruct n as [|k]; [lia|eauto]). destruct G as (k & G).
    assert (W : length (vset (vzeros (A:=RA) n) 0 (aneg (a:=RA) aone)) = n).
    { rewrite G. unfold vzeros, vset. cbn. f_equal. apply repeat_length. }
    apply single_cut; [exact W|cbn; lra|].
    intros z (_ & _ & _ & Hz). unfold cutval, dot. rewrite G. rewrite sumn_S_l.
    rewrite sumn_0.
    + unfold vzeros, vset, fv. cbn. lra.
    + intros i Hi. replace (fv (vset (vzeros (A:=RA) (S k)) 0 (aneg (a:=RA) aone)) (S i)) with 0; [ring|].
      unfold vzeros, vset, fv. cbn. destruct (Nat.lt_ge_cases i k) as [H|H].
      * symmetry. apply nth_repeat.
      * symmetry. apply nth_overflow. rewrite repeat_length. exact H.
  - eexists. split; [reflexivity|]. left. split; [reflexivity|apply Rnot_lt_le, L].
Qed.

(** the whole call *)
Lemma feas_main o : base o -> pos1 o -> pos2 o -> pos3 o -> exists o' r, lowpass_assess_feas o x = (o', r) /\
  base o' /\ pos1 o' /\ pos2 o' /\ pos3 o' /\
  ((r = Ok None /\ meets F sp (fv x) /\
     ((nstop < m)%Z -> exists f, lw_fmax o' = Some f /\ (nstop <= lw_kmax o' < m)%Z /\ resp F (fv x) (lw_kmax o') = f /\ max_idx (fv x) f)) \/
   (exists ct, r = Ok (Some ct) /\ spec_cut sp x ct)).
Proof.
  intros B P1 P2 P3. pose proof (base_np o B) as (E1 & E2 & E3 & E4 & E5 & R1 & R2).
  unfold lowpass_assess_feas. rewrite E1, E5.
  assert (A1 : (0 <= lw_idx1 o < npass)%Z) by (rewrite <- E1; exact P1).
  destruct (scan_all lw_idx1 0 npass passP endQ (spec_cut sp x) (pass_step x) pass_step_ok (fun _ => False) o
    ltac:(split; [exact B|split; [exact P2|split; [exact P3|intros i []]]]) A1) as (o1 & r1 & S1 & H1).
  rewrite Z.sub_0_r in S1. rewrite S1.
  destruct H1 as [(-> & I1 & V1 & (B1 & P21 & P31 & Q1) & C1)|(ct & -> & Hc & (B1 & P21 & P31) & I1)]; cbn [andthen].
  2:{ pose proof (base_np o1 B1) as (F1 & _). exists o1, (Ok (Some ct)). split; [reflexivity|]. split; [exact B1|]. split; [unfold pos1; rewrite F1; exact I1|].
      split; [exact P21|]. split; [exact P31|]. right. eauto. }
  pose proof (base_np o1 B1) as (F1 & F2 & F3 & F4 & F5 & _ & _).
  assert (P11 : pos1 o1) by (unfold pos1; rewrite F1; exact I1).
  assert (Pass : forall i, (0 <= i < npass)%Z -> f_lo F <= resp F (fv x) i <= f_up F) by (intros i Hi; apply Q1; [apply C1, Hi|exact Hi]).
  rewrite F2.
  set (o1' := set_max o1 None 0).
  (* stop band *)
  assert (Stop : exists o2 r2, scan (Z.to_nat (m - nstop)) (stop_step x) o1' = (o2, r2) /\ base o2 /\ pos1 o2 /\ pos2 o2 /\ pos3 o2 /\
    ((r2 = Ok None /\ (forall i, (nstop <= i < m)%Z -> 0 <= resp F (fv x) i <= sp) /\
       ((nstop < m)%Z -> exists f, lw_fmax o2 = Some f /\ (nstop <= lw_kmax o2 < m)%Z /\ resp F (fv x) (lw_kmax o2) = f /\ max_idx (fv x) f)) \/
     (exists ct, r2 = Ok (Some ct) /\ spec_cut sp x ct))).
  { destruct (Z.lt_ge_cases nstop m) as [Hlt|Hge].
    - assert (A3 : (nstop <= lw_idx3 o1' < m)%Z) by (change (lw_idx3 o1') with (lw_idx3 o1); rewrite <- F2; apply P31; rewrite F2; exact Hlt).
      destruct (scan_all lw_idx3 nstop m stopP endS (spec_cut sp x) (stop_step x) stop_step_ok (fun _ => False) o1'
        ltac:(split; [exact B1|split; [exact P11|split; [exact P21|split; [intros i []|intros i []]]]]) A3) as (o2 & r2 & S2 & H2).
      exists o2, r2. split; [exact S2|].
      destruct H2 as [(-> & I3 & V2 & (B2 & P12 & P22 & Q2 & M2) & C2)|(ct & -> & Hc & (B2 & P12 & P22) & I3)];
        pose proof (base_np o2 B2) as (_ & G2 & _);
        (split; [exact B2|]); (split; [exact P12|]); (split; [exact P22|]); (split; [intros _; rewrite G2; exact I3|]).
      + left. split; [reflexivity|]. split; [intros i Hi; apply Q2, C2, Hi|]. intros _. destruct (lw_fmax o2) as [f|].
        * destruct M2 as (K1 & K2 & K3). exists f. split; [reflexivity|]. split; [exact K1|]. split; [exact K2|]. split.
          -- exists (lw_kmax o2). split; [exact K1|]. split; [lia|exact K2].
          -- intros i Hi _. apply K3, C2, Hi.
        * exfalso. apply (M2 nstop), C2. lia.
      + right. eauto.
    - replace (Z.to_nat (m - nstop)) with O by lia. exists o1', (Ok None). split; [reflexivity|]. split; [exact B1|]. split; [exact P11|]. split; [exact P21|].
      split; [exact P31|]. left. split; [reflexivity|]. split; [intros; lia|intros; lia]. }
  destruct Stop as (o2 & r2 & S2 & B2 & P12 & P22 & P32 & H2). rewrite S2.
  destruct H2 as [(-> & StopV & StopM)|(ct & -> & Hc)]; cbn [andthen].
  2:{ exists o2, (Ok (Some ct)). split; [reflexivity|]. split; [exact B2|]. split; [exact P12|]. split; [exact P22|]. split; [exact P32|]. right. eauto. }
  pose proof (base_np o2 B2) as (G1 & G2 & _). rewrite G1, G2.
  assert (Trans : exists o3 r3, scan (Z.to_nat (nstop - npass)) (trans_step x) o2 = (o3, r3) /\ base o3 /\ pos1 o3 /\ pos2 o3 /\ pos3 o3 /\
    ((r3 = Ok None /\ (forall i, (npass <= i < nstop)%Z -> 0 <= resp F (fv x) i) /\ lw_fmax o3 = lw_fmax o2 /\ lw_kmax o3 = lw_kmax o2) \/
     (exists ct, r3 = Ok (Some ct) /\ spec_cut sp x ct))).
  { destruct (Z.lt_ge_cases npass nstop) as [Hlt|Hge].
    - assert (A2 : (npass <= lw_idx2 o2 < nstop)%Z) by (rewrite <- G1, <- G2; apply P22; rewrite G1, G2; exact Hlt).
      destruct (scan_all lw_idx2 npass nstop (transP (lw_fmax o2) (lw_kmax o2)) endT (spec_cut sp x) (trans_step x) (trans_step_ok _ _) (fun _ => False) o2
        ltac:(split; [exact B2|split; [exact P12|split; [exact P32|split; [reflexivity|split; [reflexivity|intros i []]]]]]) A2) as (o3 & r3 & S3 & H3).
      exists o3, r3. split; [exact S3|].
      destruct H3 as [(-> & I3 & V3 & (B3 & P13 & P33 & Hf & Hk & Q3) & C3)|(ct & -> & Hc & (B3 & P13 & P33) & I3)];
        pose proof (base_np o3 B3) as (K1 & K2 & _);
        (split; [exact B3|]); (split; [exact P13|]); (split; [intros _; rewrite K1, K2; exact I3|]); (split; [exact P33|]).
      + left. split; [reflexivity|]. split; [intros i Hi; apply Q3; [apply C3, Hi|exact Hi]|]. auto.
      + right. eauto.
    - replace (Z.to_nat (nstop - npass)) with O by lia. exists o2, (Ok None). split; [reflexivity|]. split; [exact B2|]. split; [exact P12|]. split; [exact P22|].
      split; [exact P32|]. left. split; [reflexivity|]. split; [intros; lia|auto]. }
  destruct Trans as (o3 & r3 & S3 & B3 & P13 & P23 & P33 & H3). rewrite S3.
  destruct H3 as [(-> & TransV & Hf & Hk)|(ct & -> & Hc)]; cbn [andthen].
  2:{ exists o3, (Ok (Some ct)). split; [reflexivity|]. split; [exact B3|]. split; [exact P13|]. split; [exact P23|]. split; [exact P33|]. right. eauto. }
  destruct (first_ok o3 B3 P13 P23 P33) as (r & E & H). exists o3, r. split; [exact E|]. split; [exact B3|]. split; [exact P13|]. split; [exact P23|]. split; [exact P33|].
  destruct H as [(-> & H0)|H]; [|right; exact H]. left. split; [reflexivity|]. split.
  - apply meets_iff; [exact Hn|]. split; [intros i Hi _; apply Pass, Hi|]. split; [intros i Hi _; apply StopV, Hi|]. split; [intros i Hi _; apply TransV, Hi|exact H0].
  - rewrite Hf, Hk. exact StopM.
Qed.

End Call.

Lemma describes_split o : describes_lp F o <-> data_lp F o /\ pos1 o /\ pos2 o /\ pos3 o.
Proof. unfold describes_lp, data_lp, pos1, pos2, pos3. tauto. Qed.

Lemma spec_cut_not sp x ct : spec_cut sp x ct -> ~ meets F sp (fv x).
Proof.
  intros (_ & b0 & Hb & Hp & H) M. specialize (H false (fv x) M). unfold cut_holds in H. rewrite Hb in H. destruct H as (H & _).
  assert (Z : cutval n (fv (fst ct)) (fv x) (fv x) = 0) by (unfold cutval, dot; apply sumn_0; intros; ring). rewrite Z in H. lra.
Qed.

Lemma lp_feas o x o' r : describes_lp F o -> length x = n -> lowpass_assess_feas o x = (o', r) ->
  describes_lp F o' /\ lw_sp o' = lw_sp o /\
  ((r = Ok None /\ meets F (lw_sp o) (fv x)) \/
   (exists ct, r = Ok (Some ct) /\ spec_cut (lw_sp o) x ct /\ ~ meets F (lw_sp o) (fv x))).
Proof.
  intros D Hx E. apply describes_split in D. destruct D as (D & P1 & P2 & P3). pose proof D as (Hn & Hwp & Hws & _).
  destruct (feas_main (lw_sp o) x Hn Hwp Hws Hx o (conj D eq_refl) P1 P2 P3) as (o1 & r1 & E1 & (D1 & S1) & Q1 & Q2 & Q3 & H).
  rewrite E in E1. injection E1 as <- <-. split; [apply describes_split; auto|]. split; [exact S1|].
  destruct H as [(-> & M & _)|(ct & -> & C)]; [left; auto|]. right. exists ct. split; [reflexivity|]. split; [exact C|]. eapply spec_cut_not, C.
Qed.

Lemma lp_decides o x o' r : describes_lp F o -> length x = n -> lowpass_assess_feas o x = (o', r) ->
  (exists a, r = Ok a) /\ (r = Ok None <-> meets F (lw_sp o) (fv x)) /\ describes_lp F o' /\ lw_sp o' = lw_sp o.
Proof.
  intros D Hx E. destruct (lp_feas o x o' r D Hx E) as (D' & S & [(-> & M)|(ct & -> & _ & M)]).
  - split; [eauto|]. split; [tauto|]. auto.
  - split; [eauto|]. split; [|auto]. split; [discriminate|]. intros H. contradiction.
Qed.

Lemma lp_cut o x o' g be : describes_lp F o -> length x = n -> lowpass_assess_feas o x = (o', Ok (Some (g, be))) ->
  length g = n /\ exists b0, first_beta be = Some b0 /\ 0 < b0 /\
  forall p z, meets F (lw_sp o) z -> cut_holds OpBias p be (cutval n (fv g) (fv x) z).
Proof.
  intros D Hx E. destruct (lp_feas o x o' _ D Hx E) as (_ & _ & [(H & _)|(ct & H & C & _)]); [discriminate|]. injection H as <-. exact C.
Qed.

(** points of the wrong length *)
Lemma lp_short o x o' r : describes_lp F o -> length x <> n -> lowpass_assess_feas o x = (o', r) ->
  r = Err ValueError /\ describes_lp F o'.
Proof.
  intros D Hx E. apply describes_split in D. destruct D as (D & P1 & P2 & P3). pose proof D as (Hn & Hwp & Hws & _).
  pose proof (base_np (lw_sp o) Hn Hwp Hws o (conj D eq_refl)) as (E1 & E2 & E3 & E4 & E5 & R1 & R2).
  unfold lowpass_assess_feas in E. rewrite E1 in E. destruct (Z.to_nat npass) as [|fuel] eqn:Ef; [lia|].
  cbn [scan] in E. unfold pass_step in E. rewrite E1 in E. unfold pos1 in P1. rewrite E1 in P1. pose proof (rr_range 0 npass _ P1) as Hj.
  set (j := next_idx 0 npass (lw_idx1 o)) in *. 
  destruct (row_ok (set_idx1 o j) j D ltac:(lia)) as (row & Er & Lr & _).
  unfold response_at in E. change (lw_idx1 (set_idx1 o j)) with j in E. rewrite Er in E. cbn [bind] in E. unfold dot_checked in E.
  change (@length (num RA) row = n) in Lr. rewrite Lr in E. destruct (Nat.eqb_spec n (length x)) as [K|K]; [exfalso; apply Hx; symmetry; exact K|].
  cbn [bind andthen] in E. injection E as <- <-. split; [reflexivity|]. apply describes_split. split; [exact D|].
  split; [unfold pos1; cbn [lw_idx1 set_idx1 lw_nwpass]; rewrite E1; exact Hj|]. split; [exact P2|exact P3].
Qed.

(** ** assess_optim *)
Lemma lp_optim o x g o' r : describes_lp F o -> f_ws F < 1 -> length x = n -> lowpass_assess_optim o x g = (o', r) ->
  describes_lp F o' /\ 
  ((exists f gr, r = Ok ((gr, CList [Some (0 : num RA); Some (f : num RA)]), Some (f : num RA)) /\ meets F g (fv x) /\ stop_max F (fv x) f /\ 0 <= f <= g /\
      (length gr = n /\ exists w, in_stop F w /\ power_spectrum n (fv x) w = f /\ forall z, dot n (fv gr) z = power_spectrum n z w) /\
      forall p z, meets F f z -> cut_holds OpCentral p (CList [Some (0 : num RA); Some (f : num RA)]) (cutval n (fv gr) (fv x) z)) \/
   (exists ct, r = Ok (ct, None) /\ spec_cut g x ct /\ ~ meets F g (fv x))).
Proof.
  intros D Hlt Hx E. apply describes_split in D. destruct D as (D & P1 & P2 & P3). pose proof D as (Hn & Hwp & Hws & _).
  destruct (feas_main g x Hn Hwp Hws Hx (set_sp o g) (conj D eq_refl) P1 P2 P3) as (o1 & r1 & E1 & (D1 & S1) & Q1 & Q2 & Q3 & H).
  unfold lowpass_assess_optim in E. rewrite E1 in E.
  assert (DD : describes_lp F o1) by (apply describes_split; auto).
  destruct H as [(-> & M & HM)|(ct & -> & C)].
  2:{ injection E as <- <-. split; [exact DD|]. right. exists ct. split; [reflexivity|]. split; [exact C|]. eapply spec_cut_not, C. }
  pose proof (edge_range (f_ws F) Hn Hws) as Rs. fold nstop in Rs.
  destruct HM as (f & Hf & Hk & Hv & HX); [apply edge_stop; [exact Hn|lra]|].
  destruct (row_ok o1 (lw_kmax o1) D1 ltac:(lia)) as (row & Er & Lr & Hr). rewrite Er, Hf in E. injection E as <- <-. split; [exact DD|].
  left. exists f, row. split; [reflexivity|]. split; [exact M|]. split; [apply max_iff; assumption|].
  assert (B : 0 <= f <= g).
  { rewrite <- Hv. apply (meets_v g x Hn Hx (fv x) (lw_kmax o1) M); lia. }
  split; [exact B|]. split.
  { split; [exact Lr|]. exists (freq n (Z.to_nat (lw_kmax o1))). split; [|split; [exact Hv|exact Hr]]. split; [exists (Z.to_nat (lw_kmax o1)); split; [lia|reflexivity]|].
    apply Rnot_le_lt. rewrite <- edge_spec by exact Hn. fold nstop. lia. }
  intros p z Hz. destruct (meets_v f x Hn Hx z (lw_kmax o1) Hz ltac:(lia)) as (_ & W & _). specialize (W ltac:(lia)).
  rewrite (resp_cut row x (lw_kmax o1) z Hr), Hv. unfold cut_holds. cbn [second_beta]. split; [lra|]. destruct p; [lra|exact I].
Qed.
End Data.
