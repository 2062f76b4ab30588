(** Properties C01-C13 of the drivers.  They hold for every arithmetic
    (floats included), every search space and every stateful oracle. *)
From Coq Require Import List Arith ZArith Bool Reals.
From Verif Require Import Arith Vec ModelCalc ModelCut ModelHeap SpecDrivers Toy
  PDrivers PDrivers2 PBsInt PHeap PDriversP.
Import ListNotations.

(** ** C01 *)
Theorem C01_feas_returns_accepted_point :
  forall (A : Arith) (St V C Orc : Type) (f : Orc -> V -> Orc * res (option C))
         (sp : space_ops A St V C) (opt : options A) o s o' s' x k,
  cutting_plane_feas f sp opt o s = (o', s', Ok (Some x, k)) ->
  x = sp_xc sp s' /\
  exists l u,
    cutting_plane_feas (logged_feas f) (logged_space sp) opt (o, []) (s, [])
      = ((o', (x, Ok None) :: l), (s', u), Ok (Some x, k)) /\
    Forall2 feas_match l u /\ Forall (went_on (tolerance opt)) u /\ k = Z.of_nat (length l).
Proof. exact feas_accepted. Qed.
Print Assumptions C01_feas_returns_accepted_point.

Example C01_case :
  cutting_plane_feas toy_feas toy_space (toy_opt 100) 0%Z (10, 1000)%Z
    = (5%Z, (2, 62)%Z, Ok (Some 2%Z, 4%Z)).
Proof. vm_compute. reflexivity. Qed.

(** ** C02 *)
Theorem C02_feas_none_causes :
  forall (A : Arith) (St V C Orc : Type) (f : Orc -> V -> Orc * res (option C))
         (sp : space_ops A St V C) (opt : options A) o s o' s' k,
  cutting_plane_feas f sp opt o s = (o', s', Ok (None, k)) ->
  exists l u,
    cutting_plane_feas (logged_feas f) (logged_space sp) opt (o, []) (s, [])
      = ((o', l), (s', u), Ok (None, k)) /\
    Forall2 feas_match l u /\
    ((exists e u1 st, u = e :: u1 /\ Forall (went_on (tolerance opt)) u1 /\ ev_res e = Ok st /\
        (st <> Success \/ altb (ev_tsq e) (tolerance opt) = true) /\
        k = Z.of_nat (length u1) /\ length l = S (length u1)) \/
     (Forall (went_on (tolerance opt)) u /\ length l = Z.to_nat (max_iters opt) /\
      k = max_iters opt)).
Proof. exact feas_none. Qed.
Print Assumptions C02_feas_none_causes.

Theorem C02_feas_call_budget :
  forall (A : Arith) (St V C Orc : Type) (f : Orc -> V -> Orc * res (option C))
         (sp : space_ops A St V C) (opt : options A) o s o' s' r,
  cutting_plane_feas f sp opt o s = (o', s', r) ->
  exists l u,
    cutting_plane_feas (logged_feas f) (logged_space sp) opt (o, []) (s, [])
      = ((o', l), (s', u), r) /\ (length l <= Z.to_nat (max_iters opt))%nat /\
    (length u <= length l)%nat.
Proof. exact feas_calls. Qed.
Print Assumptions C02_feas_call_budget.

Example C02_case_budget :
  cutting_plane_feas toy_never toy_space (toy_opt 3) 0%Z (10, 1000)%Z
    = (3%Z, (4, 125)%Z, Ok (None, 3%Z)).
Proof. vm_compute. reflexivity. Qed.
Example C02_case_tolerance :
  cutting_plane_feas toy_never toy_space (toy_opt 30) 0%Z (10, 5)%Z
    = (3%Z, (4, 0)%Z, Ok (None, 2%Z)).
Proof. vm_compute. reflexivity. Qed.

(** ** C03 *)
Theorem C03_optim_value_achieved :
  forall (A : Arith) (St V C Orc G : Type) (f : Orc -> V -> G -> Orc * res (C * option G))
         (sp : space_ops A St V C) (opt : options A) o s g o' s' x g' k,
  cutting_plane_optim f sp opt o s g = (o', s', Ok (x, g', k)) ->
  exists l u,
    cutting_plane_optim (logged_optim f) (logged_space sp) opt (o, []) (s, []) g
      = ((o', l), (s', u), Ok (x, g', k)) /\
    ((x = None /\ g' = g /\ Forall (fun q => value_of q = None) l) \/
     (exists y gin c post pre,
        x = Some y /\ l = post ++ (y, gin, Ok (c, Some g')) :: pre /\
        Forall (fun q => value_of q = None) post)).
Proof. exact optim_value. Qed.
Print Assumptions C03_optim_value_achieved.

Example C03_case :
  cutting_plane_optim toy_optim toy_space (toy_opt 4) 0%Z (10, 1000)%Z 8%Z
    = (4%Z, (-2, 62)%Z, Ok (Some 1%Z, 1%Z, 4%Z)).
Proof. vm_compute. reflexivity. Qed.

(** ** C04 *)
Theorem C04_optim_best_value :
  forall (A : Arith) (St V C Orc G : Type) (f : Orc -> V -> G -> Orc * res (C * option G))
         (sp : space_ops A St V C) (opt : options A) (better : G -> G -> Prop),
  (forall g, better g g) -> (forall a b c, better a b -> better b c -> better a c) ->
  (forall o x g o' c v, f o x g = (o', Ok (c, Some v)) -> better v g) ->
  forall o s g o' s' x g' k,
  cutting_plane_optim f sp opt o s g = (o', s', Ok (x, g', k)) ->
  exists l u,
    cutting_plane_optim (logged_optim f) (logged_space sp) opt (o, []) (s, []) g
      = ((o', l), (s', u), Ok (x, g', k)) /\
    better g' g /\ (forall q v, In q l -> value_of q = Some v -> better g' v).
Proof. exact @optim_best. Qed.
Print Assumptions C04_optim_best_value.

Example C04_case :
  (forall o x g o' c v, toy_optim o x g = (o', Ok (c, Some v)) -> (v <= g)%Z).
Proof. exact toy_optim_better. Qed.

(** ** C05 *)
Theorem C05_optim_central_on_improvement :
  forall (A : Arith) (St V C Orc G : Type) (f : Orc -> V -> G -> Orc * res (C * option G))
         (sp : space_ops A St V C) (opt : options A) o s g o' s' x g' k,
  cutting_plane_optim f sp opt o s g = (o', s', Ok (x, g', k)) ->
  exists l u,
    cutting_plane_optim (logged_optim f) (logged_space sp) opt (o, []) (s, []) g
      = ((o', l), (s', u), Ok (x, g', k)) /\
    Forall2 optim_match l u /\ gammas_ok l g /\
    ((exists e u1 st, u = e :: u1 /\ Forall (went_on (tolerance opt)) u1 /\ ev_res e = Ok st /\
        (st <> Success \/ altb (ev_tsq e) (tolerance opt) = true) /\ k = Z.of_nat (length u1)) \/
     (Forall (went_on (tolerance opt)) u /\ length u = Z.to_nat (max_iters opt) /\
      k = max_iters opt)).
Proof. exact optim_trace. Qed.
Print Assumptions C05_optim_central_on_improvement.

Example C05_case :
  snd (snd (fst (cutting_plane_optim (logged_optim toy_optim) (logged_space toy_space)
                   (toy_opt 3) (0%Z, []) ((10, 1000)%Z, []) 8%Z)))
    = [@mkEv ZA Z OpCentral 3%Z (Ok Success) 125%Z;
       @mkEv ZA Z OpCentral 3%Z (Ok Success) 250%Z;
       @mkEv ZA Z OpBias 3%Z (Ok Success) 500%Z].
Proof. vm_compute. reflexivity. Qed.

(** ** C06 *)
Theorem C06_optim_q_value_achieved :
  forall (A : Arith) (St V C Orc G : Type)
         (f : Orc -> V -> G -> bool -> Orc * res (C * V * option G * bool))
         (sp : space_ops A St V C) (opt : options A) o s g o' s' x g' k,
  cutting_plane_optim_q f sp opt o s g = (o', s', Ok (x, g', k)) ->
  exists l u,
    cutting_plane_optim_q (logged_q f) (logged_space sp) opt (o, []) (s, []) g
      = ((o', l), (s', u), Ok (x, g', k)) /\
    ((x = None /\ g' = g /\ Forall (fun q => value_of_q q = None) l) \/
     (exists y gin rt c xq alt post pre,
        x = Some xq /\ l = post ++ (y, gin, rt, Ok (c, xq, Some g', alt)) :: pre /\
        Forall (fun q => value_of_q q = None) post)).
Proof. exact optim_q_value. Qed.
Print Assumptions C06_optim_q_value_achieved.

Example C06_case :
  cutting_plane_optim_q toy_q toy_space (toy_opt 4) 0%Z (10, 1000)%Z 8%Z
    = (4%Z, (4, 250)%Z, Ok (Some 1007%Z, 7%Z, 4%Z)).
Proof. vm_compute. reflexivity. Qed.

(** ** C07 *)
Theorem C07_optim_q_retry_protocol :
  forall (A : Arith) (St V C Orc G : Type)
         (f : Orc -> V -> G -> bool -> Orc * res (C * V * option G * bool))
         (sp : space_ops A St V C) (opt : options A) o s g o' s' x g' k,
  cutting_plane_optim_q f sp opt o s g = (o', s', Ok (x, g', k)) ->
  exists l u,
    cutting_plane_optim_q (logged_q f) (logged_space sp) opt (o, []) (s, []) g
      = ((o', l), (s', u), Ok (x, g', k)) /\
    ((q_history (tolerance opt) g l u /\ length l = Z.to_nat (max_iters opt) /\ k = max_iters opt) \/
     (exists q e alt st lq le, l = q :: lq /\ u = e :: le /\
        q_history (tolerance opt) g lq le /\ q_match q e alt /\
        q_retry q = retry_after lq le /\ q_gamma q = snd (last_value_q lq g) /\
        ev_res e = Ok st /\
        (st = NoSoln \/ (st = NoEffect /\ alt = false) \/
         (st <> NoSoln /\ altb (ev_tsq e) (tolerance opt) = true)) /\
        k = Z.of_nat (length lq))).
Proof. exact optim_q_protocol. Qed.
Print Assumptions C07_optim_q_retry_protocol.

(** chronologically the retry flags of this run are false, true, false, true *)
Example C07_case :
  map q_retry (snd (fst (fst (cutting_plane_optim_q (logged_q toy_q) (logged_space toy_space)
                 (toy_opt 4) (0%Z, []) ((10, 1000)%Z, []) 8%Z))))
    = [true; false; true; false].
Proof. vm_compute. reflexivity. Qed.

(** ** C08 *)
Theorem C08_optim_best_point_is_stable :
  forall (A : Arith) (St V C : Type) (dflt : V) (sp : space_ops A St V C) (opt : options A)
         (Orc G : Type) (f : Orc -> addr -> G -> list V -> Orc * list V * res (C * option G))
         (owns : Orc -> addr -> Prop) o s h g o' l' s' h' x g' k,
  well_behaved dflt f owns ->
  (snd s < length h)%nat -> (forall b, owns o b -> (b < length h)%nat) ->
  h_cutting_plane_optim dflt sp opt (hlogged dflt f) (o, []) s h g
    = ((o', l'), s', h', Ok (x, g', k)) ->
  (forall a, x = Some a -> a <> snd s') /\
  ((x = None /\ g' = g /\ forall y gi c v, ~ In (y, gi, Ok (c, Some v)) l') \/
   (exists a gin c post pre, x = Some a /\
      l' = post ++ (hget dflt h' a, gin, Ok (c, Some g')) :: pre /\
      forall y gi c v, ~ In (y, gi, Ok (c, Some v)) post)).
Proof. exact @h_optim_safe. Qed.
Print Assumptions C08_optim_best_point_is_stable.

Example C08_case :
  well_behaved 0%Z toy_heap_optim (fun _ _ => False) /\
  exists o l s h, h_cutting_plane_optim 0%Z toy_space (toy_opt 4) (hlogged 0%Z toy_heap_optim)
    (0%Z, []) ((10, 1000)%Z, 0) [10%Z] 8%Z = ((o, l), s, h, Ok (Some 3, 1%Z, 4%Z)) /\
    hget 0%Z h 3 = 1%Z /\ hget 0%Z h 0 = (-2)%Z.
Proof. exact toy_heap_case. Qed.

(** the discrete driver stores the reference: a well-formed oracle handing out
    the centre array gets its best point overwritten *)
Theorem C08_optim_q_best_point_is_stable_refuted :
  exists (St V C Orc : Type) (dflt : V) (sp : space_ops ZA St V C) (opt : options ZA)
         (f : Orc -> addr -> Z -> bool -> list V -> Orc * list V * res (C * addr * option Z * bool))
         o s h g o' l' s' h' a g' k,
    h_cutting_plane_optim_q dflt sp opt (hlogged_q dflt f) (o, []) s h g
      = ((o', l'), s', h', Ok (Some a, g', k)) /\
    (exists y, hlast_q l' g = (Some y, g') /\ hget dflt h' a <> y).
Proof. exact toy_q_alias_refutes. Qed.
Print Assumptions C08_optim_q_best_point_is_stable_refuted.

(** what is needed of the oracle for the discrete driver to be safe *)
Theorem C08_optim_q_best_point_if_not_shared :
  forall (A : Arith) (St V C : Type) (dflt : V) (sp : space_ops A St V C) (opt : options A)
         (Orc G : Type)
         (f : Orc -> addr -> G -> bool -> list V -> Orc * list V * res (C * addr * option G * bool))
         (owns : Orc -> addr -> Prop) o s h g o' l' s' h' x g' k,
  well_behaved_q dflt f owns -> (snd s < length h)%nat ->
  h_cutting_plane_optim_q dflt sp opt (hlogged_q dflt f) (o, []) s h g
    = ((o', l'), s', h', Ok (x, g', k)) ->
  (option_map (hget dflt h') x, g') = hlast_q l' g.
Proof. exact @h_optim_q_safe. Qed.
Print Assumptions C08_optim_q_best_point_if_not_shared.

Example C08_q_case : well_behaved_q 0%Z toy_q_fresh (fun _ _ => False).
Proof. exact toy_q_fresh_ok. Qed.

(** ** C09 *)
Theorem C09_bsearch_bracket :
  forall (B N : Type) (f : B -> N -> B * res bool) (narrow : N -> N -> bool) (mid : N -> N -> N)
         (maxit : Z) o lower upper o' v k,
  bsearch f narrow mid maxit o lower upper = (o', Ok (v, k)) ->
  exists l, bsearch (logged_bs f) narrow mid maxit (o, []) lower upper = ((o', l), Ok (v, k)) /\
    (length l <= Z.to_nat maxit)%nat /\
    v = up_end l upper /\ (v = upper \/ In (v, Ok true) l) /\
    bs_queries_ok narrow mid l lower upper /\ Forall answered l /\
    ((k = Z.of_nat (length l) /\ narrow (lo_end l lower) v = true) \/
     (k = maxit /\ length l = Z.to_nat maxit)).
Proof. exact bsearch_bracket. Qed.
Print Assumptions C09_bsearch_bracket.

Example C09_case :
  bsearch (fun (o : nat) x => (S o, Ok (Z.leb 37 x))) (narrow_int 1 1%positive) mid_int 20 O 0%Z 100%Z
    = (7, Ok (37, 7)%Z).
Proof. vm_compute. reflexivity. Qed.

(** ** C10 *)
Theorem C10_bsearch_real_precision :
  forall (B : Type) (f : B -> R -> B * res bool) (t : R),
  (forall o x, exists b, snd (f o x) = Ok b /\ (b = true -> (t <= x)%R) /\ (b = false -> (x <= t)%R)) ->
  forall (tol : R) (maxit : Z) o lower upper o' v k,
  (lower <= t <= upper)%R ->
  bsearch f (narrow_num (A := RA) tol) (mid_num (A := RA)) maxit o lower upper = (o', Ok (v, k)) ->
  (0 <= maxit)%Z ->
  (t <= v)%R /\
  ((k < maxit)%Z -> (v < t + 2 * tol)%R) /\
  (forall j : nat, (Z.of_nat j < maxit)%Z -> ((upper - lower) / 2 ^ (S j) < tol)%R ->
     (k <= Z.of_nat j)%Z) /\
  (k = maxit -> (v <= t + (upper - lower) / 2 ^ (Z.to_nat maxit))%R).
Proof. exact @bsearch_real. Qed.
Print Assumptions C10_bsearch_real_precision.

Example C10_case : forall o x, exists b,
  snd ((fun (o : nat) (x : R) => (S o, Ok (Rleb 1 x))) o x) = Ok b /\
  (b = true -> (1 <= x)%R) /\ (b = false -> (x <= 1)%R).
Proof. exact threshold_oracle_ok. Qed.

(** ** C11 *)
Theorem C11_bsearch_int :
  forall (B : Type) (f : B -> Z -> B * res bool) (t : Z),
  (forall o x, snd (f o x) = Ok (t <=? x)%Z) ->
  forall (tn : Z) (td : positive), (2 * tn <= Zpos td)%Z ->
  forall (maxit : Z) o lower upper,
  (lower < t <= upper)%Z ->
  exists o' v,
    bsearch f (narrow_int tn td) mid_int maxit o lower upper = (o', Ok (v, maxit)) /\
    (t <= v <= upper)%Z /\
    ((upper - lower <= 2 ^ Z.of_nat (Z.to_nat maxit))%Z -> v = t).
Proof. exact @bsearch_int. Qed.
Print Assumptions C11_bsearch_int.

(** the run reaches the threshold after 7 queries and then spins until max_iters *)
Example C11_case :
  bsearch (fun (o : nat) x => (S o, Ok (Z.leb (-37) x))) (narrow_int 1 100000%positive) mid_int 20 O
    (-100)%Z 100%Z = (20, Ok (-37, 20)%Z).
Proof. vm_compute. reflexivity. Qed.

(** the two integer formulas are the ones of the code read over the rationals: half the width of the
    interval against the tolerance [tn/td], and the midpoint truncated towards zero *)
Theorem C11_formulas :
  forall (tn : Z) (td : positive) l u,
  (narrow_int tn td l u = true <-> ((IZR u - IZR l) / 2 < IZR tn / IZR (Zpos td))%R) /\
  (let x := (IZR l + (IZR u - IZR l) / 2)%R in
   ((0 <= x)%R -> (0 <= IZR (mid_int l u))%R /\ (IZR (mid_int l u) <= x < IZR (mid_int l u) + 1)%R) /\
   ((x < 0)%R -> (IZR (mid_int l u) <= 0)%R /\ (IZR (mid_int l u) - 1 < x <= IZR (mid_int l u))%R)).
Proof. exact bs_int_formulas. Qed.
Print Assumptions C11_formulas.

Example C11_formulas_case :
  narrow_int 3 2 10 12 = true /\ narrow_int 3 2 10 13 = false /\ mid_int (-4) 1 = (-1)%Z /\ mid_int 3 8 = 5%Z.
Proof. repeat split. Qed.

(** any tolerance: where a run stops, how close the answer is when it stopped on the tolerance, and after how
    many queries it must have done so *)
Theorem C11_any_tolerance :
  forall (B : Type) (f : B -> Z -> B * res bool) (t : Z),
  (forall o x, snd (f o x) = Ok (t <=? x)%Z) ->
  forall (tn : Z) (td : positive) (maxit : Z) o lower upper o' v k,
  (lower < t <= upper)%Z -> (0 <= maxit)%Z ->
  bsearch f (narrow_int tn td) mid_int maxit o lower upper = (o', Ok (v, k)) ->
  (t <= v <= upper)%Z /\
  ((k < maxit)%Z -> ((v - t + 1) * Zpos td < 2 * tn)%Z) /\
  (forall j : nat, (Z.of_nat j < maxit)%Z ->
     ((upper - lower - 1 + 2 ^ Z.of_nat j) * Zpos td < 2 * tn * 2 ^ Z.of_nat j)%Z -> (k <= Z.of_nat j)%Z).
Proof. exact @bsearch_int_tol. Qed.
Print Assumptions C11_any_tolerance.

(** tolerance 3: stops after 6 queries with an answer less than 5 above the threshold *)
Example C11_any_tolerance_case :
  bsearch (fun (o : nat) x => (S o, Ok (Z.leb (-36) x))) (narrow_int 3 1%positive) mid_int 20 O
    (-100)%Z 100%Z = (6, Ok (-34, 6)%Z) /\
  ((100 - (-100) - 1 + 2 ^ Z.of_nat 6) * 1 < 2 * 3 * 2 ^ Z.of_nat 6)%Z.
Proof. split; vm_compute; reflexivity. Qed.

(** ** C12 *)
Theorem C12_adaptor_isolates :
  forall (A : Arith) (St V C Orc G : Type) (f : Orc -> V -> Orc * res (option C))
         (update : G -> Orc -> Orc) (sp : space_ops A St V C) (opt : options A) o s g ad' r,
  assess_bs f update sp opt (o, s) g = (ad', r) ->
  exists o' s' rf,
    cutting_plane_feas f sp opt (update g o) s = (o', s', rf) /\ fst ad' = o' /\
    (r = Ok true <-> exists x k, rf = Ok (Some x, k)) /\
    (r = Ok false <-> exists k, rf = Ok (None, k)) /\
    (forall e, r = Err e <-> rf = Err e) /\
    (forall x k, rf = Ok (Some x, k) -> x = sp_xc sp s' /\ snd ad' = sp_set_xc sp x s) /\
    (r <> Ok true -> snd ad' = s).
Proof. exact @assess_bs_spec. Qed.
Print Assumptions C12_adaptor_isolates.

Example C12_case :
  assess_bs toy_gfeas (fun g _ => g) toy_space (toy_opt 50) (0, (10, 1000))%Z 6%Z
    = ((6, (6, 1000))%Z, Ok true) /\
  assess_bs toy_gfeas (fun g _ => g) toy_space (toy_opt 50) (0, (10, 1000))%Z (-60)%Z
    = ((-60, (10, 1000))%Z, Ok false).
Proof. split; vm_compute; reflexivity. Qed.

(** ** C13 *)
Theorem C13_bsearch_adaptor_witness :
  forall (A : Arith) (St V C Orc G : Type) (f : Orc -> V -> Orc * res (option C))
         (update : G -> Orc -> Orc) (sp : space_ops A St V C) (opt : options A)
         (tuned : Orc -> G -> Prop),
  (forall g o, tuned (update g o) g) ->
  (forall o x o' r g, f o x = (o', r) -> tuned o g -> tuned o' g) ->
  (forall x s, sp_xc sp (sp_set_xc sp x s) = x) ->
  forall (narrow : G -> G -> bool) (mid : G -> G -> G) (maxit : Z) ad lower upper ad' v k,
  bsearch (assess_bs f update sp opt) narrow mid maxit ad lower upper = (ad', Ok (v, k)) ->
  exists l,
    bsearch (logged_bs (assess_bs f update sp opt)) narrow mid maxit (ad, []) lower upper
      = ((ad', l), Ok (v, k)) /\
    ((exists w, In (w, Ok true) l) ->
       exists o1 o2, tuned o1 v /\ f o1 (x_best sp ad') = (o2, Ok None)) /\
    ((forall w, ~ In (w, Ok true) l) -> v = upper /\ x_best sp ad' = x_best sp ad).
Proof. exact @bsearch_adaptor. Qed.
Print Assumptions C13_bsearch_adaptor_witness.

Example C13_case :
  bsearch (assess_bs toy_gfeas (fun g _ => g) toy_space (toy_opt 50))
    (narrow_int 1 1%positive) mid_int 20 (0, (10, 1000))%Z (-60)%Z 60%Z
    = ((1, (1, 1000))%Z, Ok (1, 6)%Z).
Proof. vm_compute. reflexivity. Qed.
