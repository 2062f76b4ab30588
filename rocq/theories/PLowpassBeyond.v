(** A pass band edge beyond the last sample. *)
From Coq Require Import Reals List Arith ZArith Lia Lra Psatz Bool.
From Verif Require Import Arith Vec ModelCalc ModelEll ModelLowpass SpecDrivers Spec SpecCut SpecSpectral SpecLowpass
  PCalc PLowpass PLowpass2.
Import ListNotations.
Local Open Scope R_scope.

Section Beyond.
Variables (n : nat) (x : vec RA).
Hypothesis Hn : (1 <= n)%nat.
Hypothesis Hx : length x = n.
Notation m := (Z.of_nat (15 * n)).
Notation ps i := (power_spectrum n (fv x) (freq n i)).

Lemma beyond_scan : forall fuel (o : lowpass RA), lw_spectrum o = spectrum_of (A:=RA) RG n -> (m < lw_nwpass o)%Z ->
  (0 <= lw_idx1 o < m)%Z -> (m - lw_idx1 o <= Z.of_nat fuel)%Z -> exists o' r, scan fuel (pass_step x) o = (o', r) /\
  ((r = Err IndexError /\ forall i, (lw_idx1 o < Z.of_nat i < m)%Z -> lw_lp o <= ps i <= lw_up o) \/
   ((exists ct, r = Ok (Some ct)) /\ exists i, (lw_idx1 o < Z.of_nat i < m)%Z /\ ~ (lw_lp o <= ps i <= lw_up o))).
Proof.
  induction fuel as [|fuel IH]; intros o Hs Hp Hi Hf; [cbn in Hf; lia|]. cbn [scan].
  unfold pass_step at 1. cbv zeta. unfold next_idx. destruct (Z.eqb_spec (lw_idx1 o + 1) (lw_nwpass o)); [lia|].
  set (j := (lw_idx1 o + 1)%Z). cbn [set_idx1 lw_idx1 lw_up lw_lp].
  change (response_at (set_idx1 o j) j x) with
    (let* col_k := row_at (lw_spectrum o) j in let* v := dot_checked col_k x in Ok (col_k, v)).
  rewrite Hs. destruct (Z.eq_dec j m) as [E|E].
  - assert (HR : row_at (spectrum_of (A:=RA) RG n) j = Err IndexError).
    { unfold row_at, spectrum_of. rewrite map_length, seq_length.
      destruct (Z.ltb_spec j m); [lia|]. destruct (Z.ltb_spec j 0); [lia|]. rewrite !andb_false_r. reflexivity. }
    rewrite HR. cbn [bind]. do 2 eexists. split; [reflexivity|]. left. split; [reflexivity|]. intros i Hj. lia.
  - set (o0 := lowpass_init (A:=RA) RG n 0 0 0 0 0). set (F := mkFilter n 0 0 0 0).
    assert (D : data_lp F o0).
    { apply describes_split. apply lp_init; [exact Hn| |]; lra. }
    destruct (response_ok F o0 j x D ltac:(cbn [F f_n]; lia) Hx) as (row & HR & Lr & _).
    change (response_at o0 j x) with
      (let* col_k := row_at (spectrum_of (A:=RA) RG n) j in let* v := dot_checked col_k x in Ok (col_k, v)) in HR.
    rewrite HR. unfold resp in *. cbn [F f_n] in *.
    assert (Hj : Z.of_nat (Z.to_nat j) = j) by lia.
    set (v := ps (Z.to_nat j)) in *. change (altb (a:=RA)) with Rltb.
    destruct (PCalc.Rltb_spec (lw_up o) v) as [U|U].
    + do 2 eexists. split; [reflexivity|]. right. split; [eexists; reflexivity|]. exists (Z.to_nat j). split; [lia|]. fold v. intros [_ K]. lra.
    + destruct (PCalc.Rltb_spec v (lw_lp o)) as [W|W].
      * do 2 eexists. split; [reflexivity|]. right. split; [eexists; reflexivity|]. exists (Z.to_nat j). split; [lia|]. fold v. intros [K _]. lra.
      * destruct (IH (set_idx1 o j) Hs Hp ltac:(cbn; lia) ltac:(cbn [set_idx1 lw_idx1]; lia)) as (o' & r & E1 & H1).
        exists o', r. split; [exact E1|]. cbn [set_idx1 lw_idx1 lw_up lw_lp] in H1.
        destruct H1 as [(-> & H1)|(H1 & i & Hi1 & H2)]; [left|right].
        -- split; [reflexivity|]. intros i Hi1. destruct (Z.eq_dec (Z.of_nat i) j) as [Ei|Ei]; [|apply H1; lia].
           replace i with (Z.to_nat j) by lia. fold v. lra.
        -- split; [exact H1|]. exists i. split; [lia|exact H2].
Qed.
End Beyond.

Lemma lp_beyond n wp ws lo up sp (x : vec RA) : (1 <= n)%nat -> INR (15 * n) <= wp * INR (15 * n - 1) -> length x = n ->
  let r := snd (lowpass_assess_feas (lowpass_init (A:=RA) RG n wp ws lo up sp) x) in
  ((exists ct, r = Ok (Some ct)) \/ r = Err IndexError) /\
  (r = Err IndexError <-> forall i, (0 < i < 15 * n)%nat -> lo <= power_spectrum n (fv x) (freq n i) <= up).
Proof.
  intros Hn Hw Hx. cbv zeta.
  assert (HP : (Z.of_nat (15 * n) < lw_nwpass (lowpass_init (A:=RA) RG n wp ws lo up sp))%Z).
  { cbn [lowpass_init lw_nwpass]. change (gfloor RG) with Int_part. change (amul (a:=RA)) with Rmult. change (aofnat (a:=RA)) with INR.
    pose proof (base_Int_part (wp * INR (15 * n - 1))) as (B1 & B2). rewrite INR_IZR_INZ in Hw at 1.
    apply lt_IZR. rewrite plus_IZR. change (num RA) with R in *. lra. }
  unfold lowpass_assess_feas.
  destruct (beyond_scan n x Hn Hx (Z.to_nat (lw_nwpass (lowpass_init (A:=RA) RG n wp ws lo up sp)))
    (lowpass_init (A:=RA) RG n wp ws lo up sp) eq_refl HP ltac:(cbn [lowpass_init lw_idx1]; lia) ltac:(cbn [lowpass_init lw_idx1] in *; lia))
    as (o' & r & E & H). rewrite E. cbn [lowpass_init lw_idx1 lw_lp lw_up] in H.
  destruct H as [(-> & H)|((ct & ->) & i & Hi & H)]; cbn [andthen snd].
  - split; [right; reflexivity|]. split; [|reflexivity]. intros _ i Hi. apply H. lia.
  - split; [left; eexists; reflexivity|]. split; [discriminate|]. intros K. exfalso. apply H, K. lia.
Qed.

Lemma lp_beyond_case : INR (15 * 1) <= 2 * INR (15 * 1 - 1) /\
  snd (lowpass_assess_feas (lowpass_init (A:=RA) RG 1 2 1 0 2 1) [1]) = Err IndexError.
Proof.
  assert (H : INR (15 * 1) <= 2 * INR (15 * 1 - 1)) by (cbn; lra). split; [exact H|].
  apply (lp_beyond 1 2 1 0 2 1 [1] (le_n _) H eq_refl). intros i _. unfold power_spectrum, sumn, fv. cbn. lra.
Qed.
