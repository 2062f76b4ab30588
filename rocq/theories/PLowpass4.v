(** Convergence of the low-pass design. *)
From Coq Require Import Reals List Arith ZArith Lia Lra Psatz Bool.
From Verif Require Import Arith Vec ModelCalc ModelEll ModelStable ModelCut ModelSpaces ModelLowpass SpecDrivers Spec SpecCut SpecEll SpecStable SpecSearch SpecConverge SpecSpectral SpecLowpass
  PCalc PCalc2 PAlg PSum PVec PEll PEll2 PEll3 PSearch PLowpass PLowpass2 PLowpass3 PConv PConv2 PConv3 PStable5.
Import ListNotations.
Local Open Scope R_scope.

(** ** Every gradient has first coefficient 1 or -1 *)
Definition rows1 (m : mat RA) : Prop := forall i row, row_at m i = Ok row -> fv row 0 = 1.
Definition unit_cut (p : bool) (ct : cut RA) : Prop := (fv (fst ct) 0 = 1 \/ fv (fst ct) 0 = -1) /\ usable p (snd ct).
Definition unit_step (p : bool) (m : mat RA) (body : lowpass RA -> lowpass RA * res (option (cut RA))) : Prop :=
  forall o, lw_spectrum o = m -> lw_spectrum (fst (body o)) = m /\ forall ct, snd (body o) = Ok (Some ct) -> unit_cut p ct.

Lemma scan_unit p m body : unit_step p m body -> forall fuel, unit_step p m (scan fuel body).
Proof.
  intros H fuel. induction fuel as [|fuel IH]; intros o Ho; cbn [scan].
  - split; [exact Ho|discriminate].
  - destruct (H o Ho) as (H1 & H2). destruct (body o) as [o1 r]. cbn [fst snd] in *. destruct r as [[ct|]|x].
    + split; [exact H1|exact H2].
    + apply IH, H1.
    + split; [exact H1|exact H2].
Qed.

Lemma andthen_unit p m b k : unit_step p m b -> unit_step p m k -> unit_step p m (fun o => andthen (b o) k).
Proof.
  intros Hb Hk o Ho. destruct (Hb o Ho) as (H1 & H2). destruct (b o) as [o1 r]. cbn [fst snd andthen] in *. destruct r as [[ct|]|x].
  - split; [exact H1|exact H2].
  - apply Hk, H1.
  - split; [exact H1|exact H2].
Qed.

Lemma response_unit (o : lowpass RA) i x g v : rows1 (lw_spectrum o) -> response_at o i x = Ok (g, v) -> fv g 0 = 1.
Proof.
  intros H E. unfold response_at in E. destruct (row_at (lw_spectrum o) i) as [row|e] eqn:R; [|discriminate]. cbn [bind] in E.
  destruct (dot_checked row x); [|discriminate]. cbn [bind] in E. injection E as <- _. apply (H i row R).
Qed.

Ltac unit_tac := split; [assumption|]; intros ct E; try discriminate E; injection E as <-; split; [cbn [fst]; rewrite ?vneg_fv; first [left; lra|right; lra]|exact I].

Lemma pass_unit p m x : rows1 m -> unit_step p m (pass_step (A:=RA) x).
Proof.
  intros Hm o Ho. unfold pass_step. cbv zeta. set (o1 := set_idx1 o _). assert (H1 : lw_spectrum o1 = m) by exact Ho.
  destruct (response_at o1 (lw_idx1 o1) x) as [[g v]|e] eqn:R; cbn [fst snd]; [|split; [exact H1|discriminate]].
  assert (U : fv g 0 = 1) by (eapply response_unit; [rewrite H1; exact Hm|exact R]).
  destruct (altb _ _); [cbn [fst snd]; unit_tac|]. destruct (altb _ _); cbn [fst snd]; [unit_tac|split; [exact H1|discriminate]].
Qed.
Lemma stop_unit p m x : rows1 m -> unit_step p m (stop_step (A:=RA) x).
Proof.
  intros Hm o Ho. unfold stop_step. cbv zeta. set (o1 := set_idx3 o _). assert (H1 : lw_spectrum o1 = m) by exact Ho.
  destruct (response_at o1 (lw_idx3 o1) x) as [[g v]|e] eqn:R; cbn [fst snd]; [|split; [exact H1|discriminate]].
  assert (U : fv g 0 = 1) by (eapply response_unit; [rewrite H1; exact Hm|exact R]).
  destruct (altb _ _); [cbn [fst snd]; unit_tac|]. destruct (altb _ _); cbn [fst snd]; [unit_tac|]. destruct (exceeds _ _); cbn [fst snd]; (split; [exact H1|discriminate]).
Qed.
Lemma trans_unit p m x : rows1 m -> unit_step p m (trans_step (A:=RA) x).
Proof.
  intros Hm o Ho. unfold trans_step. cbv zeta. set (o1 := set_idx2 o _). assert (H1 : lw_spectrum o1 = m) by exact Ho.
  destruct (response_at o1 (lw_idx2 o1) x) as [[g v]|e] eqn:R; cbn [fst snd]; [|split; [exact H1|discriminate]].
  assert (U : fv g 0 = 1) by (eapply response_unit; [rewrite H1; exact Hm|exact R]).
  destruct (altb _ _); cbn [fst snd]; [unit_tac|split; [exact H1|discriminate]].
Qed.
Lemma first_unit p m x : (1 <= length (nth 0 m []))%nat -> unit_step p m (first_coef (A:=RA) x).
Proof.
  intros Hm o Ho. unfold first_coef. cbv zeta. rewrite Ho. destruct x as [|x0 x]; cbn [fst snd]; [split; [exact Ho|discriminate]|].
  destruct (altb _ _); cbn [fst snd]; [|split; [exact Ho|discriminate]]. split; [exact Ho|]. intros ct E. injection E as <-. split; [right|exact I].
  cbn [fst]. change (num RA) with R in *. destruct (length (nth 0 m [])) as [|k]; [lia|]. unfold vzeros. cbn [repeat vset]. unfold fv. cbn [nth]. cbn [aneg RA aone]. reflexivity.
Qed.

Lemma rows1_lp F o : describes_lp F o -> rows1 (lw_spectrum o).
Proof.
  intros (Hn & _ & _ & Hl & Hr & _) i row E. unfold row_at in E. change (@length (list (num RA)) (lw_spectrum o) = (15 * f_n F)%nat) in Hl. rewrite Hl in E. set (m := (15 * f_n F)%nat) in *.
  assert (H : exists k, (k < m)%nat /\ row = nth k (lw_spectrum o) []).
  { destruct (Z.leb_spec 0 i); destruct (Z.ltb_spec i (Z.of_nat m)); cbn [andb] in E.
    - exists (Z.to_nat i). split; [lia|]. injection E as <-. reflexivity.
    - destruct (Z.ltb_spec i 0); [lia|]. rewrite andb_false_r in E. discriminate.
    - destruct (Z.leb_spec (- Z.of_nat m) i); destruct (Z.ltb_spec i 0); cbn [andb] in E; try discriminate; try lia.
      exists (Z.to_nat (Z.of_nat m + i)). split; [lia|]. injection E as <-. reflexivity.
    - destruct (Z.leb_spec (- Z.of_nat m) i); destruct (Z.ltb_spec i 0); cbn [andb] in E; try discriminate; try lia. }
  destruct H as (k & Hk & ->). apply (proj2 (Hr k Hk) 0%nat). lia.
Qed.

Lemma lp_feas_unit F o x o' ct p : describes_lp F o -> lowpass_assess_feas o x = (o', Ok (Some ct)) -> unit_cut p ct.
Proof.
  intros D E. pose proof (rows1_lp F o D) as R1. set (m := lw_spectrum o) in *.
  assert (L0 : (1 <= length (nth 0 m []))%nat). { destruct D as (Hn & _ & _ & Hl & Hr & _). destruct (Hr 0%nat ltac:(lia)) as (L & _). fold m in L. change (@length (num RA) (nth 0 m []) = f_n F) in L. lia. }
  unfold lowpass_assess_feas in E. cbv zeta in E.
  assert (U : unit_step p m (fun q => andthen (scan (Z.to_nat (lw_nwpass o)) (pass_step x) q) (fun o =>
    andthen (scan (Z.to_nat (Z.of_nat (length m) - lw_nwstop o)) (stop_step x) (set_max o None 0)) (fun o =>
    andthen (scan (Z.to_nat (lw_nwstop o - lw_nwpass o)) (trans_step x) o) (fun o => first_coef x o))))).
  { apply andthen_unit; [apply scan_unit, pass_unit, R1|].
    apply (andthen_unit p m (fun o => scan (Z.to_nat (Z.of_nat (length m) - lw_nwstop o)) (stop_step x) (set_max o None 0))).
    - intros q Hq. apply (scan_unit p m _ (stop_unit p m x R1)). exact Hq.
    - apply (andthen_unit p m (fun o => scan (Z.to_nat (lw_nwstop o - lw_nwpass o)) (trans_step x) o)).
      + intros q Hq. apply (scan_unit p m _ (trans_unit p m x R1)). exact Hq.
      + apply first_unit, L0. }
  destruct (U o eq_refl) as (_ & H). apply H. unfold m. rewrite E. reflexivity.
Qed.

Lemma unit_norm n (g : vec RA) : (1 <= n)%nat -> fv g 0 = 1 \/ fv g 0 = -1 -> 1 * 1 <= dot n (fv g) (fv g).
Proof.
  intros Hn H. destruct n as [|n]; [lia|]. unfold dot. rewrite sumn_S_l.
  assert (0 <= sumn n (fun i => fv g (S i) * fv g (S i))) by (apply sumn_ge_0; intros; nra). destruct H as [->| ->]; lra.
Qed.

(** ** Contracts and runs *)
Lemma lp_good_feas F o p : describes_lp F o -> good_feas_oracle (f_n F) p (meets F (lw_sp o)) 1 lowpass_assess_feas o.
Proof.
  intros D. exists (fun q => describes_lp F q /\ lw_sp q = lw_sp o). split; [auto|].
  intros q x (Q1 & Q2) L. unfold vec_wf in L. destruct (lowpass_assess_feas q x) as [q' r] eqn:E.
  destruct (lp_feas F q x q' _ Q1 L E) as (D' & S' & [(H & _)|(c & H & C & _)]); subst r.
  - exists q', None. split; [reflexivity|]. split; [split; [exact D'|congruence]|discriminate].
  - exists q', (Some c). split; [reflexivity|]. split; [split; [exact D'|congruence]|]. intros ct K. injection K as <-.
    rewrite Q2 in C. destruct C as (C0 & b0 & Hb & Hp & C). destruct (lp_feas_unit F q x q' c p Q1 E) as (U1 & U2).
    split; [exact C0|]. split; [apply unit_norm; [apply D|exact U1]|]. split; [exact U2|]. split.
    + intros _. right. exists b0. split; [exact Hb|lra].
    + intros z Hz. apply C, Hz.
Qed.

Lemma lp_good_optim F o g p : describes_lp F o -> f_ws F < 1 -> good_optim_oracle (f_n F) p (meets F) 1 lowpass_assess_optim o g.
Proof.
  intros D Hs. exists (fun q _ => describes_lp F q). split; [auto|]. clear o g D.
  intros o x g o' ct v D E. pose proof E as E0. unfold lowpass_assess_optim in E0. destruct (lowpass_assess_feas (set_sp o g) x) as [o1 r1] eqn:E1.
  destruct (Nat.eq_dec (length x) (f_n F)) as [L|L].
  - destruct (lp_optim F o x g o' _ D Hs L E) as (D' & [(f & gr & H & M & SM & B & (Lg & _) & C)|(c & H & C & _)]).
    + injection H as -> ->. split; [exact D'|]. split.
      * intros _. split; [exact Lg|]. split; [|split; [exact I|split; [discriminate|]]].
        -- apply unit_norm; [apply D|]. left. destruct r1 as [[c|]|e]; [discriminate| |discriminate].
           destruct (row_at (lw_spectrum o1) (lw_kmax o1)) as [row|e] eqn:R; [|discriminate]. destruct (lw_fmax o1); [|discriminate]. injection E0 as _ <- _ _.
           exact (rows1_lp F o1 (lp_feas_any F (set_sp o g) x o1 _ D E1) _ _ R).
        -- intros z Hz. apply C, Hz.
      * intros z (Z1 & Z2 & Z3 & Z4). split; [exact Z1|]. split; [|split; [exact Z3|exact Z4]]. intros w Hw. specialize (Z2 w Hw). lra.
    + injection H as -> ->. split; [exact D'|]. destruct C as (C0 & b0 & Hb & Hp & C). intros _.
      assert (U : unit_cut p c).
      { destruct r1 as [[c1|]|e]; [|destruct (row_at _ _); [destruct (lw_fmax o1)|]; discriminate|discriminate]. injection E0 as _ <-. exact (lp_feas_unit F (set_sp o g) x o1 c1 p D E1). }
      destruct U as (U1 & U2). split; [exact C0|]. split; [apply unit_norm; [apply D|exact U1]|]. split; [exact U2|]. split.
      * intros _. right. exists b0. split; [exact Hb|lra].
      * intros z Hz. apply C, Hz.
  - destruct (lp_short F (set_sp o g) x o1 _ D L E1) as (-> & _). discriminate.
Qed.

Lemma lp_feas_converges F p k x0 (e0 : ell RA) c r (opt : options RA) (o : lowpass RA) :
  describes_lp F o -> ell_init (@VScalar RA k) x0 = Ok e0 -> vec_wf (f_n F) x0 -> 0 < k -> 0 < r ->
  (forall z, ball (f_n F) c r z -> ball (f_n F) (fv x0) (sqrt k) z /\ meets F (lw_sp o) z) ->
  tolerance opt <= r * r ->
  INR (f_n F) * (INR (f_n F) + 1) * ln (k / (r * r)) < IZR (max_iters opt) ->
  exists o' e' x j, cutting_plane_feas lowpass_assess_feas (ell_space RA) opt o (ell_set_parallel e0 p) = (o', e', Ok (Some x, j)) /\
    vec_wf (f_n F) x /\ meets F (lw_sp o) (fv x).
Proof.
  intros D E Hx Hk Hr Hb Ht HI.
  destruct (ell_feas_ball (f_n F) p k x0 e0 c r 1 opt _ lowpass_assess_feas (meets F (lw_sp o)) o E Hx Hk Hr ltac:(lra) Hb (lp_good_feas F o p D) ltac:(lra) HI)
    as (o' & e' & x & j & H1 & H2 & _).
  exists o', e', x, j. split; [exact H1|]. destruct (lp_feas_run F _ opt o _ o' e' x j D H1) as (L & M). auto.
Qed.

Lemma lp_optim_converges F p k x0 (e0 : ell RA) c r (opt : options RA) (o : lowpass RA) g o' e' x' g' j :
  describes_lp F o -> f_ws F < 1 -> ell_init (@VScalar RA k) x0 = Ok e0 -> vec_wf (f_n F) x0 -> 0 < k -> 0 < r ->
  (forall z, ball (f_n F) c r z -> ball (f_n F) (fv x0) (sqrt k) z) ->
  tolerance opt <= r * r ->
  INR (f_n F) * (INR (f_n F) + 1) * ln (k / (r * r)) < IZR (max_iters opt) ->
  cutting_plane_optim lowpass_assess_optim (ell_space RA) opt o (ell_set_parallel e0 p) g = (o', e', Ok (x', g', j)) ->
  ~ (forall z, ball (f_n F) c r z -> meets F g' z).
Proof.
  intros D Hs E Hx Hk Hr Hb Ht HI H.
  apply (ell_optim_converges (f_n F) p (@VScalar RA k) x0 e0 c r 1 opt _ _ lowpass_assess_optim (meets F) o g o' e' x' g' j E Hx Hk Hr ltac:(lra)) in H.
  - exact H.
  - intros z Hz. apply (scalar_in (f_n F) k x0 e0 z E Hx). specialize (Hb z Hz). unfold ball in Hb. rewrite sqrt_sqrt in Hb by lra. exact Hb.
  - apply lp_good_optim; assumption.
  - lra.
  - apply scalar_count; assumption.
Qed.
