(** Concrete runs of [bsearch] over [BSearchAdaptor]. *)
From Coq Require Import Reals List Arith Lia Lra Psatz Bool ZArith.
From Verif Require Import Arith Vec ModelCalc ModelEll ModelStable ModelCut ModelSpaces SpecDrivers Spec SpecCut SpecEll SpecStable SpecSearch SpecConverge
  PSum PAlg PCalc PCalc2 PCalc3 PCalc5 PCalcEx PVec PGeo PEll PEll2 PEll3 PEllEx PStableEx PSearchEx PConv3 PConvEx PAdaptor.
Import ListNotations.
Local Open Scope R_scope.

(** Polygons [a . z <= b] for all [(a, b)] of a list that depends on the
    parameter; the oracle returns the first violated inequality. *)
Definition edge : Type := (vec RA * R)%type.
Definition inside (l : list edge) (z : nat -> R) : Prop := forall h, In h l -> dot 2 (fv (fst h)) z <= snd h.
Fixpoint scan (l : list edge) (x : vec RA) : option (cut RA) :=
  match l with
  | [] => None
  | h :: l' => if Rle_dec (dot 2 (fv (fst h)) (fv x)) (snd h) then scan l' x
               else Some (fst h, @CSingle RA (dot 2 (fv (fst h)) (fv x) - snd h))
  end.
Definition poly_feas (L : R -> list edge) (g : R) (x : vec RA) : R * res (option (cut RA)) := (g, Ok (scan (L g) x)).
Definition poly_update (g : R) (_ : R) : R := g.

Definition unit_edge (h : edge) : Prop := vec_wf 2 (fst h) /\ dot 2 (fv (fst h)) (fv (fst h)) = 1.

Lemma scan_spec l x : (forall h, In h l -> unit_edge h) ->
  match scan l x with
  | None => inside l (fv x)
  | Some ct => exists h, In h l /\ snd h < dot 2 (fv (fst h)) (fv x) /\ ct = (fst h, @CSingle RA (dot 2 (fv (fst h)) (fv x) - snd h))
  end.
Proof.
  induction l as [|h l IH]; intros Hl; cbn [scan]; [intros h []|]. destruct (Rle_dec _ _) as [C|C].
  - specialize (IH (fun h' Hh => Hl h' (or_intror Hh))). destruct (scan l x).
    + destruct IH as (h' & A & B). exists h'. split; [right; exact A|exact B].
    + intros h' [<-|Hh]; [exact C|apply IH, Hh].
  - exists h. split; [left; reflexivity|]. split; [lra|reflexivity].
Qed.

Lemma poly_para L p g : (forall g h, In h (L g) -> unit_edge h) ->
  para_oracle 2 (fun g => inside (L g)) (fun g => inside (L g)) (fun U ct x => good_cut 2 p U 1 OpBias ct x) (poly_feas L) poly_update g.
Proof.
  intros HL. exists (fun _ => True). split; [exact I|]. intros o g1' _. exists (fun o => o = g1'). split; [reflexivity|]. split; [intros; exact I|].
  intros o1 x -> Hx. exists g1', (scan (L g1') x). split; [reflexivity|]. split; [reflexivity|].
  pose proof (scan_spec (L g1') x (HL g1')) as Sp. destruct (scan (L g1') x) as [ct|]; [|exact Sp].
  destruct Sp as (h & Hh & Hv & ->). destruct (HL g1' h Hh) as (Hw & Hd). unfold good_cut. cbn [fst snd]. split; [exact Hw|]. split; [rewrite Hd; lra|].
  split; [exact I|]. split.
  - intros _. right. eexists. split; [reflexivity|]. lra.
  - intros z Hz. cbn [fst snd]. unfold cut_holds; cbn [first_beta second_beta]. split; [|exact I]. specialize (Hz h Hh). unfold cutval.
    rewrite dot_minus_r. lra.
Qed.

Lemma dot2 (a b : R) (z : nat -> R) : dot 2 (fv (@cons (num RA) a [b])) z = a * z 0%nat + b * z 1%nat.
Proof. unfold dot, sumn, fv. cbn. lra. Qed.

(** the square with its side cut at [z0 <= g] *)
Definition square (g : R) : list edge := [([1; 0] : vec RA, 1); ([-1; 0] : vec RA, 1); ([0; 1] : vec RA, 1); ([0; -1] : vec RA, 1); ([1; 0] : vec RA, g)].
Lemma square_unit g h : In h (square g) -> unit_edge h.
Proof. intros [<-|[<-|[<-|[<-|[<-|[]]]]]]; (split; [reflexivity|]); cbn [fst]; rewrite dot2; unfold fv; cbn; lra. Qed.
Lemma square_in g z : inside (square g) z <-> -1 <= z 0%nat <= 1 /\ -1 <= z 1%nat <= 1 /\ z 0%nat <= g.
Proof.
  split.
  - intros H. pose proof (H _ (or_introl eq_refl)) as A1. pose proof (H _ (or_intror (or_introl eq_refl))) as A2.
    pose proof (H _ (or_intror (or_intror (or_introl eq_refl)))) as A3. pose proof (H _ (or_intror (or_intror (or_intror (or_introl eq_refl))))) as A4.
    pose proof (H _ (or_intror (or_intror (or_intror (or_intror (or_introl eq_refl)))))) as A5.
    cbn [fst snd] in *. rewrite dot2 in *. lra.
  - intros H h [<-|[<-|[<-|[<-|[<-|[]]]]]]; cbn [fst snd]; rewrite dot2; lra.
Qed.

Definition e9 : ell RA := @mkEll RA false [[1; 0]; [0; 1]] [0; 0] 9 0 (calc_R true 2).
Lemma e9_init : ell_init (A:=RA) (@VScalar RA 9) (@cons R 0 [0]) = Ok e9.
Proof. unfold ell_init. cbn [length]. rewrite calc_init_R by auto. reflexivity. Qed.
Definition opt9 : options RA := @mkOptions RA 1000%Z (1/64).
Lemma sqrt_9 : sqrt 9 = 3.
Proof. replace 9 with (3 * 3) by ring. apply sqrt_square. lra. Qed.
Lemma abs_sq x a : 0 <= a -> x * x <= a * a -> - a <= x <= a.
Proof. intros. split; apply Rnot_lt_le; intros C; nra. Qed.
Lemma ball2_box c r z : 0 <= r -> ball 2 c r z -> (- r <= z 0%nat - c 0%nat <= r) /\ (- r <= z 1%nat - c 1%nat <= r).
Proof. intros Hr H. apply ball2 in H.
  pose proof (Rle_0_sqr (z 0%nat - c 0%nat)) as A. pose proof (Rle_0_sqr (z 1%nat - c 1%nat)) as B. unfold Rsqr in *.
  split; apply abs_sq; lra.
Qed.

Lemma square_ball g z : -1/2 <= g -> ball 2 (pt (-3/4) 0) (1/8) z -> inside (square g) z.
Proof. intros Hg H. apply ball2_box in H; [|lra]. change (pt (-3/4) 0 0%nat) with (-3/4) in H. change (pt (-3/4) 0 1%nat) with 0 in H. apply square_in. lra. Qed.
Lemma square_far g x z : inside (square g) x -> ball 2 (pt (-3/4) 0) (1/8) z -> ball 2 x (sqrt 9) z.
Proof.
  intros Hx H. apply (square_ball 0) in H; [|lra]. apply square_in in H. apply square_in in Hx. apply ball2. rewrite sqrt_9.
  assert (A : (z 0%nat - x 0%nat) * (z 0%nat - x 0%nat) <= 4) by nra. assert (B : (z 1%nat - x 1%nat) * (z 1%nat - x 1%nat) <= 4) by nra. lra.
Qed.
Lemma square_start z : ball 2 (pt (-3/4) 0) (1/8) z -> ball 2 (fv (@cons R 0 [0])) (sqrt 9) z.
Proof. apply (square_far 0). apply square_in. unfold fv. cbn. lra. Qed.

Lemma ln_pow_le x y k : 0 < x -> 0 < y -> x <= y ^ k -> ln x <= INR k * (y - 1).
Proof.
  intros Hx Hy H. apply Rle_trans with (ln (y ^ k)).
  - destruct H as [H| ->]; [left; apply ln_increasing; assumption|right; reflexivity].
  - rewrite ln_pow by exact Hy. apply Rmult_le_compat_l; [apply pos_INR|]. apply ln_le, Hy.
Qed.
Lemma count9 : INR 2 * (INR 2 + 1) * ln (9 / (1/8 * (1/8))) < IZR (max_iters opt9).
Proof. assert (H : ln (9 / (1/8 * (1/8))) <= INR 4 * (5 - 1)) by (apply ln_pow_le; lra). cbn in *. lra. Qed.

Lemma square_query (x : vec RA) g : inside (square g) (fv x) -> poly_feas square g x = (g, Ok None).
Proof.
  intros H. unfold poly_feas. pose proof (scan_spec (square g) x (square_unit g)) as Sp. destruct (scan (square g) x) as [ct|]; [|reflexivity].
  destruct Sp as (h & Hh & Hv & _). specialize (H h Hh). lra.
Qed.

Lemma square_run : bsearch (assess_bs (poly_feas square) poly_update (ell_space RA) opt9) (narrow_num (A := RA) (3/5)) (mid_num (A := RA)) 10
    (0, ell_set_parallel e9 true) (-1/2) (3/2) = ((1/2, ell_set_parallel e9 true), Ok (1/2, 1%Z)).
Proof.
  unfold bsearch. change (Z.to_nat 10) with (S (S 8)). cbn [bsearch_loop].
  assert (N1 : narrow_num (A := RA) (3/5) (-1/2) (3/2) = false).
  { unfold narrow_num. change (Rltb ((3/2 - -1/2) / (1 + 1)) (3/5) = false). apply Rltb_false. lra. }
  rewrite N1. assert (M : mid_num (A := RA) (-1/2) (3/2) = 1/2) by (unfold mid_num, atwo; cbn; lra). rewrite M.
  assert (Q : assess_bs (poly_feas square) poly_update (ell_space RA) opt9 (0, ell_set_parallel e9 true) (1/2) = ((1/2, ell_set_parallel e9 true), Ok true)).
  { unfold assess_bs, cutting_plane_feas, poly_update. change (budget opt9) with (Pos.to_nat 1000). change (Pos.to_nat 1000) with (S (pred (Pos.to_nat 1000))). cbn [feas_loop].
    change (sp_xc (ell_space RA) (ell_set_parallel e9 true)) with (@cons R 0 [0]).
    rewrite square_query; [reflexivity|]. apply square_in. unfold fv. cbn. lra. }
  rewrite Q. assert (N2 : narrow_num (A := RA) (3/5) (-1/2) (1/2) = true).
  { unfold narrow_num. change (Rltb ((1/2 - -1/2) / (1 + 1)) (3/5) = true). apply Rltb_true. lra. }
  rewrite N2. reflexivity.
Qed.

(** Two half planes; below the parameter 1 the second one is added.  Accepting
    1 moves the centre to (0, 4/5); the ellipsoid of the original shape about
    that centre does not reach the second half plane. *)
Definition tilt (g : R) : list edge :=
  (if Rlt_dec g 1 then [([-24/25; 7/25] : vec RA, -9/5)] else []) ++ [([0; -1] : vec RA, -1/5)].
Lemma tilt_unit g h : In h (tilt g) -> unit_edge h.
Proof.
  unfold tilt. destruct (Rlt_dec g 1); [intros [<-|[<-|[]]]|intros [<-|[]]]; (split; [reflexivity|]); cbn [fst]; rewrite dot2; unfold fv; cbn; lra.
Qed.
Lemma tilt_ball g z : ball 2 (pt (39/20) (11/50)) (1/200) z -> inside (tilt g) z.
Proof.
  intros H. apply ball2_box in H; [|lra]. change (pt (39/20) (11/50) 0%nat) with (39/20) in H. change (pt (39/20) (11/50) 1%nat) with (11/50) in H.
  intros h Hh. unfold tilt in Hh. destruct (Rlt_dec g 1); [destruct Hh as [<-|[<-|[]]]|destruct Hh as [<-|[]]]; cbn [fst snd]; rewrite dot2; change (num RA) with R in *; lra.
Qed.
Lemma tilt_start z : ball 2 (pt (39/20) (11/50)) (1/200) z -> ball 2 (fv (@cons R 0 [0])) (sqrt 4) z.
Proof.
  intros H. apply ball2_box in H; [|lra]. change (pt (39/20) (11/50) 0%nat) with (39/20) in H. change (pt (39/20) (11/50) 1%nat) with (11/50) in H.
  apply ball2. rewrite sqrt_4. unfold fv. cbn. nra.
Qed.
Definition opt10 : options RA := @mkOptions RA 1000%Z (1/40000).
Lemma count10 : INR 2 * (INR 2 + 1) * ln (4 / (1/200 * (1/200))) < IZR (max_iters opt10).
Proof. assert (H : ln (4 / (1/200 * (1/200))) <= INR 8 * (5 - 1)) by (apply ln_pow_le; lra). cbn in *. lra. Qed.

Definition y45 : vec RA := [0; 4/5].
Definition gdown : vec RA := [0; -1].
Definition gtilt : vec RA := [-24/25; 7/25].
Definition e45 : ell RA := ell_set_xc e4 y45.

Lemma gdown_w : quad 2 (fm (mq e4)) (fv gdown) = 1.
Proof. unfold quad, bil, dot, mv, fm, fv, sumn. cbn. lra. Qed.
Lemma gtilt_w : quad 2 (fm (mq e45)) (fv gtilt) = 1.
Proof. unfold quad, bil, dot, mv, fm, fv, sumn. cbn. lra. Qed.

Lemma down_update : exists e', ell_update_bias_cut (gdown, @CSingle RA (1/5)) e4 = (e', Ok Success) /\ xc e' = y45 /\ tsq e' = 4.
Proof.
  assert (HT : kappa e4 * quad 2 (fm (mq e4)) (fv gdown) = 4) by (rewrite gdown_w; cbn; lra).
  change (ell_update_bias_cut (gdown, @CSingle RA (1/5)) e4) with (ell_update OpBias (gdown, @CSingle RA (1/5)) e4).
  rewrite (update_eq 2 e4 gdown (@CSingle RA (1/5))); [|apply e4_pd|reflexivity|reflexivity|exists 1%nat; split; [auto|cbn; lra]|rewrite gdown_w; lra].
  rewrite HT. change (helper e4) with (calc_R true 2).
  rewrite strat_norm by (auto || lra). cbn [norm eff_res is_q]. unfold single_res. rewrite sqrt_4.
  rewrite Rleb_true, Rltb_false by lra. eexists. split; [reflexivity|]. rewrite gdown_w. split.
  - unfold new_ell, sg_rho. cbn. unfold y45. f_equal; [|f_equal]; field.
  - rewrite <- gdown_w. rewrite (new_tsq 2 e4 gdown). exact HT.
Qed.

Lemma tilt_update : exists e', ell_update_bias_cut (gtilt, @CSingle RA (253/125)) e45 = (e', Ok NoSoln).
Proof.
  assert (HT : kappa e45 * quad 2 (fm (mq e45)) (fv gtilt) = 4) by (rewrite gtilt_w; cbn; lra).
  change (ell_update_bias_cut (gtilt, @CSingle RA (253/125)) e45) with (ell_update OpBias (gtilt, @CSingle RA (253/125)) e45).
  rewrite (update_eq 2 e45 gtilt (@CSingle RA (253/125))); [|apply e4_pd|reflexivity|reflexivity|exists 1%nat; split; [auto|cbn; lra]|rewrite gtilt_w; lra].
  rewrite HT. change (helper e45) with (calc_R true 2).
  rewrite strat_norm by (auto || lra). cbn [norm eff_res is_q]. unfold single_res. rewrite sqrt_4.
  rewrite Rleb_true, Rltb_true by lra. eexists. reflexivity.
Qed.

Lemma tilt_query1 : poly_feas tilt 1 (xc e4) = (1, Ok (Some (gdown, @CSingle RA (1/5)))).
Proof.
  unfold poly_feas, tilt. destruct (Rlt_dec 1 1) as [C|_]; [lra|]. cbn [app scan fst snd]. rewrite dot2. change (fv (xc e4) 0%nat) with 0. change (fv (xc e4) 1%nat) with 0.
  destruct (Rle_dec _ _) as [C|_]; [lra|]. replace (0 * 0 + -1 * 0 - -1/5) with (1/5) by lra. reflexivity.
Qed.
Lemma tilt_query2 : poly_feas tilt 1 y45 = (1, Ok None).
Proof.
  unfold poly_feas, tilt. destruct (Rlt_dec 1 1) as [C|_]; [lra|]. cbn [app scan fst snd]. rewrite dot2. change (fv y45 0%nat) with 0. change (fv y45 1%nat) with (4/5).
  destruct (Rle_dec _ _) as [_|C]; [reflexivity|lra].
Qed.
Lemma tilt_query3 : poly_feas tilt (1/2) (xc e45) = (1/2, Ok (Some (gtilt, @CSingle RA (253/125)))).
Proof.
  unfold poly_feas, tilt. destruct (Rlt_dec (1/2) 1) as [_|C]; [|lra]. cbn [app scan fst snd]. rewrite dot2. change (fv (xc e45) 0%nat) with 0. change (fv (xc e45) 1%nat) with (4/5).
  destruct (Rle_dec _ _) as [C|_]; [lra|]. replace (-24/25 * 0 + 7/25 * (4/5) - -9/5) with (253/125) by lra. reflexivity.
Qed.

Lemma tilt_assess1 : assess_bs (poly_feas tilt) poly_update (ell_space RA) opt10 (0, e4) 1 = ((1, e45), Ok true).
Proof.
  unfold assess_bs, cutting_plane_feas, poly_update. change (budget opt10) with (S (S (pred (pred (Pos.to_nat 1000))))). cbn [feas_loop].
  change (sp_xc (ell_space RA) e4) with (xc e4). rewrite tilt_query1. destruct down_update as (e' & E & Ex & Et).
  change (sp_bias (ell_space RA) (gdown, @CSingle RA (1/5)) e4) with (ell_update_bias_cut (gdown, @CSingle RA (1/5)) e4). rewrite E.
  assert (St : stop_test (ell_space RA) opt10 Success e' = false).
  { unfold stop_test. change (sp_tsq (ell_space RA) e') with (tsq e'). rewrite Et. change (negb true || Rltb 4 (1/40000) = false)%bool. cbn [negb orb]. apply Rltb_false. lra. }
  rewrite St. change (sp_xc (ell_space RA) e') with (xc e'). rewrite Ex, tilt_query2. reflexivity.
Qed.
Lemma tilt_assess2 : assess_bs (poly_feas tilt) poly_update (ell_space RA) opt10 (1, e45) (1/2) = ((1/2, e45), Ok false).
Proof.
  unfold assess_bs, cutting_plane_feas, poly_update. change (budget opt10) with (S (pred (Pos.to_nat 1000))). cbn [feas_loop].
  change (sp_xc (ell_space RA) e45) with (xc e45). rewrite tilt_query3. destruct tilt_update as (e' & E).
  change (sp_bias (ell_space RA) (gtilt, @CSingle RA (253/125)) e45) with (ell_update_bias_cut (gtilt, @CSingle RA (253/125)) e45). rewrite E. reflexivity.
Qed.
(** a fresh adaptor accepts the same parameter *)
Lemma tilt_fresh : exists ad, assess_bs (poly_feas tilt) poly_update (ell_space RA) opt10 (0, ell_set_parallel e4 true) (1/2) = (ad, Ok true).
Proof.
  destruct (poly_para tilt true (1/2) tilt_unit) as (inv & Hi & Hf). destruct (Hf (1/2) (1/2) Hi) as (inv' & Hu & _ & Hq).
  destruct (ell_feas_ball 2 true 4 (@cons R 0 [0]) e4 (pt (39/20) (11/50)) (1/200) 1 opt10 R (poly_feas tilt) (inside (tilt (1/2))) (1/2) e4_init eq_refl) as (o' & e' & x & j & E & _); try lra.
  - intros z Hz. split; [apply tilt_start, Hz|apply tilt_ball, Hz].
  - exists inv'. split; [exact Hu|]. intros o x Ho Hx. destruct (Hq o x Ho Hx) as (o' & a & A1 & A2 & A3). exists o', a. split; [exact A1|]. split; [exact A2|]. intros ct ->. exact A3.
  - cbn. lra.
  - exact count10.
  - unfold assess_bs, poly_update. rewrite E. eexists. reflexivity.
Qed.

Lemma tilt_run : bsearch (assess_bs (poly_feas tilt) poly_update (ell_space RA) opt10) (narrow_num (A := RA) (3/10)) (mid_num (A := RA)) 10
    (0, ell_set_parallel e4 true) 0 2 = ((1/2, e45), Ok (1, 2%Z)).
Proof.
  unfold bsearch. change (Z.to_nat 10) with (S (S (S 7))). cbn [bsearch_loop].
  assert (N1 : narrow_num (A := RA) (3/10) 0 2 = false) by (change (Rltb ((2 - 0) / (1 + 1)) (3/10) = false); apply Rltb_false; lra).
  rewrite N1. assert (M : mid_num (A := RA) 0 2 = 1) by (unfold mid_num, atwo; cbn; lra). rewrite M.
  change (ell_set_parallel e4 true) with e4. rewrite tilt_assess1.
  assert (N2 : narrow_num (A := RA) (3/10) 0 1 = false) by (change (Rltb ((1 - 0) / (1 + 1)) (3/10) = false); apply Rltb_false; lra).
  rewrite N2. assert (M2 : mid_num (A := RA) 0 1 = 1/2) by (unfold mid_num, atwo; cbn; lra). rewrite M2, tilt_assess2.
  assert (N3 : narrow_num (A := RA) (3/10) (1/2) 1 = true) by (change (Rltb ((1 - 1/2) / (1 + 1)) (3/10) = true); apply Rltb_true; lra).
  rewrite N3. reflexivity.
Qed.

Lemma recentring : exists k x0 (e0 : ell RA) c r gmin (opt : options RA) (Orc : Type) (f : Orc -> vec RA -> Orc * res (option (cut RA)))
    (update : R -> Orc -> Orc) (S : R -> (nat -> R) -> Prop) (o : Orc) tol maxit lower upper g0 g ad' v j,
  ell_init (@VScalar RA k) x0 = Ok e0 /\ vec_wf 2 x0 /\ 0 < k /\ 0 < r /\ 0 < gmin /\ 0 < tol /\
  para_oracle 2 S S (fun U ct x => good_cut 2 true U gmin OpBias ct x) f update o /\
  (forall g z, g0 <= g -> ball 2 c r z -> S g z) /\
  (forall z, ball 2 c r z -> ball 2 (fv x0) (sqrt k) z) /\
  tolerance opt <= r * r * (gmin * gmin) /\
  INR 2 * (INR 2 + 1) * ln (k / (r * r)) < IZR (max_iters opt) /\
  lower <= g0 /\ g0 <= g < v /\
  bsearch (assess_bs f update (ell_space RA) opt) (narrow_num (A := RA) tol) (mid_num (A := RA)) maxit (o, ell_set_parallel e0 true) lower upper = (ad', Ok (v, j)) /\
  (j < maxit)%Z /\ g0 + 2 * tol <= v /\
  (exists ad, assess_bs f update (ell_space RA) opt ad' g = (ad, Ok false)) /\
  (exists ad, assess_bs f update (ell_space RA) opt (o, ell_set_parallel e0 true) g = (ad, Ok true)).
Proof.
  exists 4, (@cons R 0 [0]), e4, (pt (39/20) (11/50)), (1/200), 1, opt10, R, (poly_feas tilt), poly_update, (fun g => inside (tilt g)), 0, (3/10), 10%Z, 0, 2, (1/4), (1/2), (1/2, e45), 1, 2%Z.
  split; [exact e4_init|]. split; [reflexivity|]. repeat (split; [lra|]).
  split; [apply poly_para, tilt_unit|]. split; [intros g z _; apply tilt_ball|]. split; [exact tilt_start|]. split; [cbn; lra|]. split; [exact count10|].
  split; [lra|]. split; [lra|]. split; [exact tilt_run|]. split; [lia|]. split; [lra|]. split; [|exact tilt_fresh].
  unfold assess_bs, poly_update. pose proof tilt_assess2 as A. unfold assess_bs, poly_update in A. exists (1/2, e45). exact A.
Qed.

(** the same oracle, with the cuts seen to have a margin *)
Definition inside_by (eps : R) (l : list edge) (z : nat -> R) : Prop := forall h, In h l -> dot 2 (fv (fst h)) z <= snd h - eps.
Lemma poly_para_m L p eps g : 0 <= eps -> (forall g h, In h (L g) -> unit_edge h) ->
  para_oracle 2 (fun g => inside (L g)) (fun g => inside_by eps (L g)) (fun U ct x => margin_cut 2 p U eps OpBias ct x) (poly_feas L) poly_update g.
Proof.
  intros He HL. exists (fun _ => True). split; [exact I|]. intros o g1' _. exists (fun o => o = g1'). split; [reflexivity|]. split; [intros; exact I|].
  intros o1 x -> Hx. exists g1', (scan (L g1') x). split; [reflexivity|]. split; [reflexivity|].
  pose proof (scan_spec (L g1') x (HL g1')) as Sp. destruct (scan (L g1') x) as [ct|]; [|exact Sp].
  destruct Sp as (h & Hh & Hv & ->). destruct (HL g1' h Hh) as (Hw & Hd). unfold margin_cut. cbn [fst snd]. split; [exact Hw|].
  split; [exact I|]. split; [split|].
  - intros _. right. eexists. split; [reflexivity|]. lra.
  - intros z Hz. cbn [fst snd]. unfold cut_holds; cbn [first_beta second_beta]. split; [|exact I]. specialize (Hz h Hh). unfold cutval.
    rewrite dot_minus_r. lra.
  - intros z Hz. specialize (Hz h Hh). unfold cutval. rewrite dot_minus_r. lra.
Qed.

Lemma square_in_by eps g z : inside_by eps (square g) z <-> -1 + eps <= z 0%nat <= 1 - eps /\ -1 + eps <= z 1%nat <= 1 - eps /\ z 0%nat <= g - eps.
Proof.
  split.
  - intros H. pose proof (H _ (or_introl eq_refl)) as A1. pose proof (H _ (or_intror (or_introl eq_refl))) as A2.
    pose proof (H _ (or_intror (or_intror (or_introl eq_refl)))) as A3. pose proof (H _ (or_intror (or_intror (or_intror (or_introl eq_refl))))) as A4.
    pose proof (H _ (or_intror (or_intror (or_intror (or_intror (or_introl eq_refl)))))) as A5.
    cbn [fst snd] in *. rewrite dot2 in *. lra.
  - intros H h [<-|[<-|[<-|[<-|[<-|[]]]]]]; cbn [fst snd]; rewrite dot2; lra.
Qed.
Lemma square_ball_by g z : -1/2 <= g -> ball 2 (pt (-3/4) 0) (1/8) z -> inside_by (1/8) (square g) z.
Proof. intros Hg H. apply ball2_box in H; [|lra]. change (pt (-3/4) 0 0%nat) with (-3/4) in H. change (pt (-3/4) 0 1%nat) with 0 in H. apply square_in_by. lra. Qed.

Definition s9 : stable RA := @mkStable RA false [[1; 0]; [0; 1]] [0; 0] 9 0 2 (calc_R true 2).
Lemma s9_init : stable_init (A:=RA) (@VScalar RA 9) (@cons R 0 [0]) = Ok s9.
Proof. unfold stable_init. cbn [length]. rewrite calc_init_R by auto. reflexivity. Qed.
Lemma square_run_stable : bsearch (assess_bs (poly_feas square) poly_update (stable_space RA) opt9) (narrow_num (A := RA) (3/5)) (mid_num (A := RA)) 10
    (0, stable_set_parallel s9 true) (-1/2) (3/2) = ((1/2, stable_set_parallel s9 true), Ok (1/2, 1%Z)).
Proof.
  unfold bsearch. change (Z.to_nat 10) with (S (S 8)). cbn [bsearch_loop].
  assert (N1 : narrow_num (A := RA) (3/5) (-1/2) (3/2) = false).
  { unfold narrow_num. change (Rltb ((3/2 - -1/2) / (1 + 1)) (3/5) = false). apply Rltb_false. lra. }
  rewrite N1. assert (M : mid_num (A := RA) (-1/2) (3/2) = 1/2) by (unfold mid_num, atwo; cbn; lra). rewrite M.
  assert (Q : assess_bs (poly_feas square) poly_update (stable_space RA) opt9 (0, stable_set_parallel s9 true) (1/2) = ((1/2, stable_set_parallel s9 true), Ok true)).
  { unfold assess_bs, cutting_plane_feas, poly_update. change (budget opt9) with (S (pred (Pos.to_nat 1000))). cbn [feas_loop].
    change (sp_xc (stable_space RA) (stable_set_parallel s9 true)) with (@cons R 0 [0]).
    rewrite square_query; [reflexivity|]. apply square_in. unfold fv. cbn. lra. }
  rewrite Q. assert (N2 : narrow_num (A := RA) (3/5) (-1/2) (1/2) = true).
  { unfold narrow_num. change (Rltb ((1/2 - -1/2) / (1 + 1)) (3/5) = true). apply Rltb_true. lra. }
  rewrite N2. reflexivity.
Qed.
