(** Lemmas about [Ell]. *)
From Coq Require Import Reals List Arith Lia Lra Psatz Bool.
From Verif Require Import Arith Vec Broadcast PBroadcast ModelCalc ModelEll SpecDrivers Spec SpecCut SpecEll
  PSum PAlg PCalc PCalc2 PCalc3 PCalc5 PVec PGeo.
Import ListNotations.
Local Open Scope R_scope.

Lemma ell_update_core_eq k ct e : ell_update k ct e = ell_update_core (strat_of k) ct e.
Proof. destruct k; reflexivity. Qed.

Definition new_ell (e : ell RA) (g : vec RA) (w r s d : R) : ell RA :=
  let gt := mvmul (mq e) g in
  let xc1 := vsub (xc e) (vscale (A:=RA) (r / w) gt) in
  let mq1 := msub (mq e) (mscale (A:=RA) (s / w) (outer gt gt)) in
  let kappa1 := kappa e * d in
  if no_defer_trick e then
    mkEll (no_defer_trick e) (mscale (A:=RA) kappa1 mq1) xc1 (aone (a:=RA)) (kappa e * w : num RA) (helper e)
  else mkEll (no_defer_trick e) mq1 xc1 (kappa1 : num RA) (kappa e * w : num RA) (helper e).

Section Step.
Variables (n : nat) (e : ell RA) (g : vec RA) (beta : cutchoice RA).
Hypothesis HM : mat_wf n (mq e).
Hypothesis Hx : length (xc e) = n.
Hypothesis Hg : length g = n.
Let M := fm (mq e).
Let gf := fv g.
Let w := quad n M gf.
Let T := kappa e * w.

Lemma omega_R : vdot g (mvmul (mq e) g) = w.
Proof.
  rewrite (vdot_R n); [|exact Hg|rewrite mvmul_length; apply HM].
  apply dot_ext; [reflexivity|]. intros i Hi. apply mvmul_R; assumption.
Qed.

Lemma shape_ok : forallb (fun row => Nat.eqb (length row) (length g)) (mq e)
                 && Nat.eqb (length (mq e)) (length g) = true.
Proof.
  destruct HM as [H1 H2]. apply andb_true_intro. split; [|apply Nat.eqb_eq; llia].
  apply forallb_forall. intros row Hr. apply Nat.eqb_eq.
  apply (In_nth _ _ []) in Hr. destruct Hr as (i & Hi & <-). rewrite H2; llia.
Qed.

Lemma update_zero_omega k : nonzero n gf -> w = 0 -> ell_update k (g, beta) e = (e, Ok NoEffect).
Proof.
  intros Hz Hw. rewrite ell_update_core_eq. unfold ell_update_core.
  apply (forallb_zero n g Hg) in Hz. rewrite Hz, shape_ok. cbn [negb].
  rewrite omega_R, Hw. cbn. unfold Reqb. destruct (Req_EM_T 0 0); [reflexivity|congruence].
Qed.

Lemma update_eq k : nonzero n gf -> w <> 0 ->
  ell_update k (g, beta) e =
  match strat_of k (helper e) beta T with
  | Err x => (set_tsq e T, Err x)
  | Ok (st, None) => (set_tsq e T, Ok st)
  | Ok (st, Some (r, s, d)) => (new_ell e g w r s d, Ok st)
  end.
Proof.
  intros Hz Hw. rewrite ell_update_core_eq. unfold ell_update_core.
  apply (forallb_zero n g Hg) in Hz. rewrite Hz, shape_ok. cbn [negb].
  rewrite omega_R. change (aeqb (a:=RA) w azero) with (Reqb w 0).
  unfold Reqb. destruct (Req_EM_T w 0) as [|_]; [congruence|].
  change (amul (a:=RA) (kappa e) w) with T. cbn [tsq set_tsq].
  destruct (strat_of k (helper e) beta T) as [[st [[[r s] d]|]]|]; [|reflexivity|reflexivity].
  destruct HM as [H1 _]. rewrite isub_eq by (unfold vscale; rewrite map_length, mvmul_length; llia).
  unfold new_ell. destruct (no_defer_trick e); reflexivity.
Qed.

Lemma new_helper r s d : helper (new_ell e g w r s d) = helper e.
Proof. unfold new_ell. destruct (no_defer_trick e); reflexivity. Qed.
Lemma new_tsq r s d : tsq (new_ell e g w r s d) = T.
Proof. unfold new_ell. destruct (no_defer_trick e); reflexivity. Qed.
Lemma new_flag r s d : no_defer_trick (new_ell e g w r s d) = no_defer_trick e.
Proof. unfold new_ell. destruct (no_defer_trick e) eqn:E; cbn; congruence. Qed.

Lemma new_xc_length r s d : length (xc (new_ell e g w r s d)) = n.
Proof.
  assert (H : length (vsub (xc e) (vscale (A:=RA) (r / w) (mvmul (mq e) g))) = n).
  { rewrite vsub_length; [exact Hx|]. rewrite vscale_length, mvmul_length. destruct HM; llia. }
  unfold new_ell. destruct (no_defer_trick e); exact H.
Qed.

Lemma new_xc r s d i : (i < n)%nat ->
  fv (xc (new_ell e g w r s d)) i = cutC n M gf (fv (xc e)) w r i.
Proof.
  intros Hi.
  assert (H : fv (vsub (xc e) (vscale (A:=RA) (r / w) (mvmul (mq e) g))) i
              = cutC n M gf (fv (xc e)) w r i).
  { rewrite vsub_R; [|rewrite vscale_length, mvmul_length; destruct HM; llia|llia].
    rewrite vscale_R by (rewrite mvmul_length; destruct HM; llia).
    rewrite (mvmul_R n) by assumption. reflexivity. }
  unfold new_ell. destruct (no_defer_trick e); exact H.
Qed.

Definition raw_mq (s : R) : mat RA :=
  msub (mq e) (mscale (A:=RA) (s / w) (outer (mvmul (mq e) g) (mvmul (mq e) g))).

Lemma gt_length : length (mvmul (mq e) g) = n.
Proof. rewrite mvmul_length. apply HM. Qed.

Lemma raw_wf s : mat_wf n (raw_mq s).
Proof. apply msub_wf; [exact HM|]. apply mscale_wf, outer_wf; apply gt_length. Qed.

Lemma raw_R s i j : (i < n)%nat -> (j < n)%nat -> fm (raw_mq s) i j = cutM n M gf w s i j.
Proof.
  intros Hi Hj. unfold raw_mq. rewrite (msub_R n); [|exact HM|apply mscale_wf, outer_wf; apply gt_length|exact Hi|exact Hj].
  rewrite (mscale_R n); [|apply outer_wf; apply gt_length|exact Hi|exact Hj].
  rewrite (outer_R n) by (apply gt_length || assumption).
  rewrite !(mvmul_R n) by assumption. reflexivity.
Qed.

Lemma new_wf r s d : mat_wf n (mq (new_ell e g w r s d)).
Proof.
  unfold new_ell. destruct (no_defer_trick e); cbn [mq]; [apply mscale_wf|]; apply raw_wf.
Qed.

Lemma new_mq r s d i j : (i < n)%nat -> (j < n)%nat ->
  fm (mq (new_ell e g w r s d)) i j =
  (if no_defer_trick e then kappa e * d else 1) * cutM n M gf w s i j.
Proof.
  intros Hi Hj. unfold new_ell. destruct (no_defer_trick e); cbn [mq].
  - rewrite (mscale_R n); [|apply raw_wf|exact Hi|exact Hj]. fold (raw_mq s). rewrite raw_R by assumption. reflexivity.
  - fold (raw_mq s). rewrite raw_R by assumption. ring.
Qed.

Lemma new_kappa r s d :
  kappa (new_ell e g w r s d) = if no_defer_trick e then 1 else kappa e * d.
Proof. unfold new_ell. destruct (no_defer_trick e); reflexivity. Qed.

End Step.
