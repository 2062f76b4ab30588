(** The low-pass oracle in the drivers; its constructor; concrete cases. *)
From Coq Require Import Reals List Arith ZArith Lia Lra Psatz Bool.
From Verif Require Import Arith Vec ModelCalc ModelEll ModelCut ModelSpaces ModelLowpass SpecDrivers Spec SpecCut SpecEll SpecSearch SpecSpectral SpecLowpass
  PCalc PCalc2 PAlg PSum PVec PCG2 PEll PEll2 PEll3 PSpectral PSearch PLmi3 PProfitEx PLowpass.
Import ListNotations.
Local Open Scope R_scope.

Lemma lp_init n wp ws lo up sp : (1 <= n)%nat -> 0 <= wp <= 1 -> 0 <= ws <= 1 ->
  describes_lp (mkFilter n wp ws lo up) (lowpass_init (A:=RA) RG n wp ws lo up sp) /\
  lw_sp (lowpass_init (A:=RA) RG n wp ws lo up sp) = sp.
Proof.
  intros Hn Hwp Hws. set (F := mkFilter n wp ws lo up). split; [|reflexivity]. apply describes_split.
  pose proof (edge_range F wp Hn Hwp) as R1. pose proof (edge_range F ws Hn Hws) as R2. cbn [F f_n] in R1, R2.
  unfold lowpass_init.
  split; [|split; [|split]].
  - split; [exact Hn|]. split; [exact Hwp|]. split; [exact Hws|]. cbn [lw_spectrum F f_n]. split.
    + unfold spectrum_of. rewrite map_length, seq_length. reflexivity.
    + split; [|split; [reflexivity|split; [reflexivity|split; reflexivity]]].
      intros i Hi. unfold spectrum_of.
      assert (E : nth i (map (fun i : nat => spectrum_row (A:=RA) RG n (amul (a:=RA) (aofnat (a:=RA) i) (adiv (a:=RA) (gpi RG) (aofnat (a:=RA) (15 * n - 1)%nat)))) (seq 0 (15 * n))) [] =
        spectrum_row (A:=RA) RG n (freq n i)).
      { etransitivity; [apply (nth_map_gen _ _ i 0%nat); rewrite seq_length; exact Hi|]. rewrite seq_nth by exact Hi. reflexivity. }
      split.
      * etransitivity; [exact (f_equal (@length _) E)|]. unfold spectrum_row. cbn [length]. rewrite map_length, seq_length. lia.
      * intros k Hk. unfold fm. etransitivity; [exact (f_equal (fun r => nth k r 0) E)|]. unfold spectrum_row. destruct k as [|k]; [reflexivity|]. cbn [nth].
        etransitivity; [apply (nth_map_gen _ _ k 0%nat); rewrite seq_length; lia|]. rewrite seq_nth by lia. cbn [RG gcos aofnat RA amul aadd aone]. replace (1 + k)%nat with (S k) by lia.
        replace (1 + 1) with 2 by lra. reflexivity.
  - unfold pos1. cbn [lw_idx1 lw_nwpass]. change (gfloor RG) with Int_part. change (amul (a:=RA)) with Rmult. change (aofnat (a:=RA)) with INR. lia.
  - unfold pos2. cbn [lw_idx2 lw_nwpass lw_nwstop]. lia.
  - unfold pos3. cbn [lw_idx3 lw_nwstop f_n F]. lia.
Qed.

(** ** Contracts and runs *)
Lemma lp_feas_oracle F o p : describes_lp F o -> feas_oracle (f_n F) p (meets F (lw_sp o)) lowpass_assess_feas o.
Proof.
  intros D. exists (fun q => describes_lp F q /\ lw_sp q = lw_sp o). split; [auto|].
  intros q x q' ct (Q1 & Q2) E. destruct (Nat.eq_dec (length x) (f_n F)) as [L|L].
  - destruct (lp_feas F q x q' _ Q1 L E) as (D' & S' & [(H & _)|(c & H & C & _)]); [discriminate|]. injection H as <-. split; [split; [exact D'|congruence]|].
    rewrite Q2 in C. destruct C as (_ & b0 & Hb & Hp & C). split.
    + intros _. right. exists b0. split; [exact Hb|lra].
    + intros z Hz. apply C, Hz.
  - destruct (lp_short F q x q' _ Q1 L E) as (H & _). discriminate.
Qed.

Lemma lp_optim_oracle F o g p : describes_lp F o -> f_ws F < 1 -> optim_oracle (f_n F) p (meets F) lowpass_assess_optim o g.
Proof.
  intros D Hs. exists (fun q _ => describes_lp F q). split; [auto|]. clear o g D.
  intros o x g o' ct v D E. destruct (Nat.eq_dec (length x) (f_n F)) as [L|L].
  - destruct (lp_optim F o x g o' _ D Hs L E) as (D' & [(f & gr & H & M & SM & B & _ & C)|(c & H & C & _)]).
    + injection H as -> ->. split; [exact D'|]. split.
      * split; [discriminate|]. intros z Hz. apply C, Hz.
      * intros z (Z1 & Z2 & Z3 & Z4). split; [exact Z1|]. split; [|split; [exact Z3|exact Z4]]. intros w Hw. specialize (Z2 w Hw). lra.
    + injection H as -> ->. split; [exact D'|]. destruct C as (_ & b0 & Hb & Hp & C). split.
      * intros _. right. exists b0. split; [exact Hb|lra].
      * intros z Hz. apply C, Hz.
  - unfold lowpass_assess_optim in E. destruct (lowpass_assess_feas (set_sp o g) x) as [o1 r1] eqn:E1.
    destruct (lp_short F (set_sp o g) x o1 _ D L E1) as (-> & _). discriminate.
Qed.

Lemma lp_feas_run {St} F (sp : space_ops RA St (vec RA) (cut RA)) opt (o : lowpass RA) s o' s' x k : describes_lp F o ->
  cutting_plane_feas lowpass_assess_feas sp opt o s = (o', s', Ok (Some x, k)) ->
  length x = f_n F /\ meets F (lw_sp o) (fv x).
Proof.
  intros D H. unfold cutting_plane_feas in H.
  destruct (feas_loop_inv (fun q => describes_lp F q /\ lw_sp q = lw_sp o) lowpass_assess_feas sp opt) with (3:=H) as (o1 & (Q1 & Q2) & E).
  - intros q y q' c (Q1 & Q2) E. destruct (Nat.eq_dec (length y) (f_n F)) as [L|L].
    + destruct (lp_feas F q y q' _ Q1 L E) as (D' & S' & _). split; [exact D'|congruence].
    + destruct (lp_short F q y q' _ Q1 L E) as (K & _). discriminate.
  - auto.
  - destruct (Nat.eq_dec (length x) (f_n F)) as [L|L].
    + split; [exact L|]. destruct (lp_decides F o1 x o' _ Q1 L E) as (_ & I & _). rewrite <- Q2. apply I. reflexivity.
    + destruct (lp_short F o1 x o' _ Q1 L E) as (K & _). discriminate.
Qed.

Lemma lp_optim_run {St} F (sp : space_ops RA St (vec RA) (cut RA)) opt (o : lowpass RA) s g o' s' x g' k : describes_lp F o -> f_ws F < 1 ->
  cutting_plane_optim lowpass_assess_optim sp opt o s g = (o', s', Ok (x, g', k)) ->
  g' <= g /\ (forall y, x = Some y -> length y = f_n F /\ meets F g' (fv y) /\ stop_max F (fv y) g').
Proof.
  intros D Hs H. unfold cutting_plane_optim in H.
  destruct (optim_best (fun o1 g1 => describes_lp F o1 /\ g1 <= g) (fun y g1 => length y = f_n F /\ meets F g1 (fv y) /\ stop_max F (fv y) g1)
    lowpass_assess_optim sp opt) with (4:=H) as ((_ & H1) & H2).
  - intros q y g0 q' c v (Q1 & Q2) E. destruct (Nat.eq_dec (length y) (f_n F)) as [L|L].
    + destruct (lp_optim F q y g0 q' _ Q1 Hs L E) as (D' & [(f & gr & K & M & SM & B & _)|(c' & K & _)]); injection K as -> ->.
      * split; [split; [exact D'|lra]|]. split; [exact L|]. split; [|exact SM]. destruct M as (M1 & M2 & M3 & M4). split; [exact M1|]. split; [|split; [exact M3|exact M4]].
        intros w Hw. split; [apply M2, Hw|]. apply (proj2 SM), Hw.
      * split; [split; [exact D'|exact Q2]|exact I].
    + unfold lowpass_assess_optim in E. destruct (lowpass_assess_feas (set_sp q g0) y) as [o1 r1] eqn:E1.
      destruct (lp_short F (set_sp q g0) y o1 _ Q1 L E1) as (-> & _). discriminate.
  - split; [exact D|lra].
  - exact I.
  - split; [exact H1|]. intros y ->. exact H2.
Qed.

Lemma lp_infeasible F n p opt (o : lowpass RA) (e : ell RA) o' e' l u r : describes_lp F o -> f_n F = n -> psd_ell n p e ->
  cutting_plane_feas (logged_feas lowpass_assess_feas) (logged_space (ell_space RA)) opt (o, []) (e, []) = ((o', l), (e', u), r) ->
  said_nosoln u -> forall z, ell_in n e z -> ~ meets F (lw_sp o) z.
Proof.
  intros D <- He H. exact (ell_feas_infeasible _ p opt _ _ _ o e o' e' l u r He (lp_feas_oracle F o p D) H).
Qed.

Lemma lp_optimal F n p opt (o : lowpass RA) (e : ell RA) g o' e' l u x g' k : describes_lp F o -> f_ws F < 1 -> f_n F = n -> psd_ell n p e ->
  cutting_plane_optim (logged_optim lowpass_assess_optim) (logged_space (ell_space RA)) opt (o, []) (e, []) g = ((o', l), (e', u), Ok (x, g', k)) ->
  said_nosoln u -> forall z, ell_in n e z -> ~ meets F g' z.
Proof.
  intros D Hs <- He H. exact (ell_optim_optimal _ p opt _ _ _ (meets F) o e g o' e' l u x g' k He (lp_optim_oracle F o g p D Hs) H).
Qed.
