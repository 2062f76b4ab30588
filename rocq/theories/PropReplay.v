(** Property C99: the drivers query the successive centres of the search space, apply the cuts to it in
    order, and pass every exception on unchanged.  For every arithmetic, space and stateful oracle. *)
From Coq Require Import List Arith ZArith Bool.
From Verif Require Import Arith ModelCalc ModelCut SpecDrivers SpecReplay Toy ToyReplay PReplay.
Import ListNotations.

Theorem C99_feas_in_step :
  forall (A : Arith) (St V C Orc : Type) (f : Orc -> V -> Orc * res (option C))
    (sp : space_ops A St V C) (opt : options A) o s o' s' r,
  cutting_plane_feas f sp opt o s = (o', s', r) ->
  exists l u, cutting_plane_feas (logged_feas f) (logged_space sp) opt (o, []) (s, []) = ((o', l), (s', u), r) /\
  run_in_step sp fst s s' l u.
Proof. exact @feas_replay. Qed.
Print Assumptions C99_feas_in_step.

Example C99_feas_case :
  exists l u, cutting_plane_feas (logged_feas toy_feas) (logged_space toy_space) (toy_opt 100) (0%Z, []) ((10, 1000)%Z, [])
    = ((5%Z, l), ((2, 62)%Z, u), Ok (Some 2%Z, 4%Z)) /\ map fst l = [2; 4; 6; 8; 10]%Z /\ length u = 4 /\
  replay toy_space (10, 1000)%Z u = (2, 62)%Z.
Proof. do 2 eexists. split; [vm_compute; reflexivity|]. vm_compute. auto. Qed.

Theorem C99_optim_in_step :
  forall (A : Arith) (St V C Orc G : Type) (f : Orc -> V -> G -> Orc * res (C * option G))
    (sp : space_ops A St V C) (opt : options A) o s g o' s' r,
  cutting_plane_optim f sp opt o s g = (o', s', r) ->
  exists l u, cutting_plane_optim (logged_optim f) (logged_space sp) opt (o, []) (s, []) g = ((o', l), (s', u), r) /\
  run_in_step sp (fun q => fst (fst q)) s s' l u.
Proof. exact @optim_replay. Qed.
Print Assumptions C99_optim_in_step.

Example C99_optim_case :
  exists l u o r, cutting_plane_optim (logged_optim toy_optim) (logged_space toy_space) (toy_opt 3) (0%Z, []) ((10, 1000)%Z, []) 8%Z
    = ((o, l), ((1, 125)%Z, u), r) /\ map (fun q => fst (fst q)) l = [4; 7; 10]%Z /\
  map (fun e => ev_kind e) u = [OpCentral; OpCentral; OpBias] /\ replay toy_space (10, 1000)%Z u = (1, 125)%Z.
Proof. do 4 eexists. split; [vm_compute; reflexivity|]. vm_compute. auto. Qed.

Theorem C99_optim_q_in_step :
  forall (A : Arith) (St V C Orc G : Type)
    (f : Orc -> V -> G -> bool -> Orc * res (C * V * option G * bool))
    (sp : space_ops A St V C) (opt : options A) o s g o' s' r,
  cutting_plane_optim_q f sp opt o s g = (o', s', r) ->
  exists l u, cutting_plane_optim_q (logged_q f) (logged_space sp) opt (o, []) (s, []) g = ((o', l), (s', u), r) /\
  run_in_step sp (fun q => fst (fst (fst q))) s s' l u.
Proof. exact @optim_q_replay. Qed.
Print Assumptions C99_optim_q_in_step.

Example C99_optim_q_case :
  exists l u o r, cutting_plane_optim_q (logged_q toy_q) (logged_space toy_space) (toy_opt 4) (0%Z, []) ((10, 1000)%Z, []) 8%Z
    = ((o, l), ((4, 250)%Z, u), r) /\ map (fun q => fst (fst (fst q))) l = [7; 7; 10; 10]%Z /\
  replay toy_space (10, 1000)%Z u = (4, 250)%Z.
Proof. do 4 eexists. split; [vm_compute; reflexivity|]. vm_compute. auto. Qed.

Theorem C99_feas_raises :
  forall (A : Arith) (St V C Orc : Type) (f : Orc -> V -> Orc * res (option C))
    (sp : space_ops A St V C) (opt : options A) o s o' s' e,
  cutting_plane_feas f sp opt o s = (o', s', Err e) ->
  exists l u, cutting_plane_feas (logged_feas f) (logged_space sp) opt (o, []) (s, []) = ((o', l), (s', u), Err e) /\
  ((exists y l1, l = (y, Err e) :: l1 /\ Forall2 feas_match l1 u /\ Forall (went_on (tolerance opt)) u) \/
   (exists ev u1, u = ev :: u1 /\ ev_res ev = Err e /\ Forall2 feas_match l u /\ Forall (went_on (tolerance opt)) u1)).
Proof. exact @feas_raises. Qed.
Print Assumptions C99_feas_raises.

Example C99_feas_raise_case :
  cutting_plane_feas toy_feas_raise toy_space (toy_opt 100) 0%Z (10, 1000)%Z = (4%Z, (4, 125)%Z, Err IndexError) /\
  cutting_plane_feas (fun o _ => (o, Ok (Some 7%Z))) toy_space_raise (toy_opt 100) 0%Z (10, 1000)%Z
    = (0%Z, (10, 1)%Z, Err AssertionError).
Proof. split; vm_compute; reflexivity. Qed.

Theorem C99_optim_raises :
  forall (A : Arith) (St V C Orc G : Type) (f : Orc -> V -> G -> Orc * res (C * option G))
    (sp : space_ops A St V C) (opt : options A) o s g o' s' e,
  cutting_plane_optim f sp opt o s g = (o', s', Err e) ->
  exists l u, cutting_plane_optim (logged_optim f) (logged_space sp) opt (o, []) (s, []) g = ((o', l), (s', u), Err e) /\
  ((exists y gy l1, l = (y, gy, Err e) :: l1 /\ Forall2 optim_match l1 u /\ Forall (went_on (tolerance opt)) u) \/
   (exists ev u1, u = ev :: u1 /\ ev_res ev = Err e /\ Forall2 optim_match l u /\ Forall (went_on (tolerance opt)) u1)).
Proof. exact @optim_raises. Qed.
Print Assumptions C99_optim_raises.

Example C99_optim_raise_case :
  cutting_plane_optim toy_optim_raise toy_space (toy_opt 100) 0%Z (10, 1000)%Z 20%Z = (3%Z, (4, 250)%Z, Err ValueError) /\
  cutting_plane_optim (fun o x g => (o, Ok (7%Z, Some g))) toy_space_raise (toy_opt 100) 0%Z (10, 1000)%Z 20%Z
    = (0%Z, (10, 1)%Z, Err AssertionError).
Proof. split; vm_compute; reflexivity. Qed.

Theorem C99_optim_q_raises :
  forall (A : Arith) (St V C Orc G : Type)
    (f : Orc -> V -> G -> bool -> Orc * res (C * V * option G * bool))
    (sp : space_ops A St V C) (opt : options A) o s g o' s' e,
  cutting_plane_optim_q f sp opt o s g = (o', s', Err e) ->
  exists l u, cutting_plane_optim_q (logged_q f) (logged_space sp) opt (o, []) (s, []) g = ((o', l), (s', u), Err e) /\
  ((exists q lq, l = q :: lq /\ snd q = Err e /\ q_history (tolerance opt) g lq u /\
      q_retry q = retry_after lq u /\ q_gamma q = snd (last_value_q lq g)) \/
   (exists q ev alt lq le, l = q :: lq /\ u = ev :: le /\ q_history (tolerance opt) g lq le /\
      q_match q ev alt /\ q_retry q = retry_after lq le /\ q_gamma q = snd (last_value_q lq g) /\ ev_res ev = Err e)).
Proof. exact @optim_q_raises. Qed.
Print Assumptions C99_optim_q_raises.

Example C99_optim_q_raise_case :
  cutting_plane_optim_q toy_q_raise toy_space (toy_opt 100) 0%Z (10, 1000)%Z 20%Z = (3%Z, (4, 250)%Z, Err ZeroDivision) /\
  cutting_plane_optim_q (fun o x g r => (o, Ok (7%Z, x, Some g, true))) toy_space_raise (toy_opt 100) 0%Z (10, 1000)%Z 20%Z
    = (0%Z, (10, 1)%Z, Err AssertionError).
Proof. split; vm_compute; reflexivity. Qed.

Theorem C99_bsearch_raises :
  forall (B N : Type) (f : B -> N -> B * res bool) (narrow : N -> N -> bool) (mid : N -> N -> N)
    (maxit : Z) o lower upper o' e,
  bsearch f narrow mid maxit o lower upper = (o', Err e) ->
  exists l, bsearch (logged_bs f) narrow mid maxit (o, []) lower upper = ((o', l), Err e) /\
    bs_queries_ok narrow mid l lower upper /\ exists y l', l = (y, Err e) :: l' /\ Forall answered l'.
Proof. exact @bsearch_raises. Qed.
Print Assumptions C99_bsearch_raises.

Example C99_bsearch_raise_case :
  bsearch (fun o x => ((o + 1)%Z, if (x <? 5)%Z then Err ValueError else Ok true))
    (fun l u => (u - l <? 2)%Z) (fun l u => ((l + u) / 2)%Z) 100%Z 0%Z 0%Z 32%Z = (3%Z, Err ValueError).
Proof. vm_compute. reflexivity. Qed.

