(** Histories; the complete statement about [assess_optim]. *)
From Coq Require Import Reals List Arith ZArith Lia Lra Psatz Bool.
From Verif Require Import Arith Vec ModelCalc ModelEll ModelCut ModelSpaces ModelLowpass SpecDrivers Spec SpecCut SpecEll SpecSearch SpecSpectral SpecLowpass
  PLowpass PLowpass2 PLowpassEx.
Import ListNotations.
Local Open Scope R_scope.

Lemma lp_feas_any F o x o' r : describes_lp F o -> lowpass_assess_feas o x = (o', r) -> describes_lp F o'.
Proof.
  intros D E. destruct (Nat.eq_dec (length x) (f_n F)) as [L|L]; [apply (lp_feas F o x o' r D L E)|apply (lp_short F o x o' r D L E)].
Qed.
Lemma lp_optim_any F o x g o' r : describes_lp F o -> lowpass_assess_optim o x g = (o', r) -> describes_lp F o'.
Proof.
  intros D E. unfold lowpass_assess_optim in E. destruct (lowpass_assess_feas (set_sp o g) x) as [o1 r1] eqn:E1.
  pose proof (lp_feas_any F (set_sp o g) x o1 r1 D E1) as D1.
  destruct r1 as [[ct|]|]; [injection E as <- _; exact D1| |injection E as <- _; exact D1].
  destruct (row_at _ _), (lw_fmax o1); injection E as <- _; exact D1.
Qed.
Lemma lp_history_gen F h : forall o o', describes_lp F o -> lp_calls h o o' -> describes_lp F o'.
Proof.
  induction h as [|[x|x g] h IH]; intros o o' D H; cbn [lp_calls] in H.
  - subst. exact D.
  - destruct H as (o1 & r & E & H). eapply IH; [|exact H]. eapply lp_feas_any; eassumption.
  - destruct H as (o1 & r & E & H). eapply IH; [|exact H]. eapply lp_optim_any; eassumption.
Qed.
Lemma lp_history n wp ws lo up sp h o : (1 <= n)%nat -> 0 <= wp <= 1 -> 0 <= ws <= 1 ->
  lp_calls h (lowpass_init (A:=RA) RG n wp ws lo up sp) o ->
  describes_lp (mkFilter n wp ws lo up) o.
Proof. intros Hn Hp Hs H. eapply lp_history_gen; [|exact H]. apply lp_init; assumption. Qed.
Lemma lp_history_case : exists o, lp_calls [CallFeas x2; CallOptim z2 1] o2 o.
Proof.
  cbn [lp_calls]. destruct (lowpass_assess_feas o2 x2) as [o1 r1] eqn:E1. destruct (lowpass_assess_optim o1 z2 1) as [o3 r3] eqn:E3.
  exists o3, o1, r1. split; [reflexivity|]. exists o3, r3. auto.
Qed.

Lemma lp_optim_full F o x g o' r :
  describes_lp F o -> f_ws F < 1 -> length x = f_n F -> lowpass_assess_optim o x g = (o', r) ->
  describes_lp F o' /\ exists gr be v, r = Ok ((gr, be), v) /\ length gr = f_n F /\
  (v <> None <-> meets F g (fv x)) /\
  (forall f, v = Some f -> stop_max F (fv x) f /\ 0 <= f <= g /\ be = CList [Some (0 : num RA); Some f] /\
     (exists w, in_stop F w /\ power_spectrum (f_n F) (fv x) w = f /\
        forall z, dot (f_n F) (fv gr) z = power_spectrum (f_n F) z w) /\
     forall p z, meets F f z -> cut_holds OpCentral p be (cutval (f_n F) (fv gr) (fv x) z)) /\
  (v = None -> exists b0, first_beta be = Some b0 /\ 0 < b0 /\
     forall p z, meets F g z -> cut_holds OpBias p be (cutval (f_n F) (fv gr) (fv x) z)).
Proof.
  intros D Hs L E. destruct (lp_optim F o x g o' r D Hs L E) as (D' & [(f & gr & -> & M & SM & B & (Lg & W) & C)|([gr be] & -> & C & M)]); (split; [exact D'|]).
  - exists gr, (CList [Some (0 : num RA); Some (f : num RA)]), (Some f). split; [reflexivity|]. split; [exact Lg|]. split; [split; [auto|discriminate]|]. split; [|discriminate].
    intros f' H. injection H as <-. auto.
  - exists gr, be, None. split; [reflexivity|]. destruct C as (Lg & C). split; [exact Lg|]. split; [split; [congruence|intros K; contradiction]|]. split; [discriminate|].
    intros _. exact C.
Qed.

Lemma lp_empty (A : Arith) (o o' : lowpass A) : lowpass_assess_feas o [] <> (o', Ok None).
Proof.
  unfold lowpass_assess_feas, andthen.
  destruct (scan _ _ o) as [o1 [[c|]|e]]; [discriminate| |discriminate].
  destruct (scan _ _ _) as [o2 [[c|]|e]]; [discriminate| |discriminate].
  destruct (scan _ _ _) as [o3 [[c|]|e]]; [discriminate| |discriminate].
  discriminate.
Qed.
