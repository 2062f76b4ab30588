(** Properties C34 and C36: what a run of a driver on [Ell] says about the
    set the oracle describes. *)
From Coq Require Import Reals List ZArith Lra.
From Verif Require Import Arith Vec ModelCalc ModelEll ModelCut ModelSpaces
  SpecDrivers Spec SpecCut SpecEll SpecSearch.
From Verif Require Import PEll2 PEllEx PSearch PSearchEx.
Import ListNotations.
Local Open Scope R_scope.

(** C34: no point of the set is ever lost; while there is one in the initial
    ellipsoid no update answers "no solution"; every successful update confines
    all of them to a slab. *)
Theorem C34_feas_keeps_feasible_points :
  forall n p (opt : options RA) (Orc : Type) (f : Orc -> vec RA -> Orc * res (option (cut RA)))
    (S : (nat -> R) -> Prop) o (e : ell RA) o' e' l u r,
  psd_ell n p e -> feas_oracle n p S f o ->
  cutting_plane_feas (logged_feas f) (logged_space (ell_space RA)) opt (o, []) (e, [])
    = ((o', l), (e', u), r) ->
  forall z, S z -> ell_in n e z ->
  ell_in n e' z /\ ~ said_nosoln u /\
  (forall m, r = Ok (None, m) -> Forall2 (fun q ev => confined n z (fst q) ev) l u).
Proof. exact ell_feas_kept. Qed.
Print Assumptions C34_feas_keeps_feasible_points.

Theorem C34_nosoln_means_infeasible :
  forall n p (opt : options RA) (Orc : Type) (f : Orc -> vec RA -> Orc * res (option (cut RA)))
    (S : (nat -> R) -> Prop) o (e : ell RA) o' e' l u r,
  psd_ell n p e -> feas_oracle n p S f o ->
  cutting_plane_feas (logged_feas f) (logged_space (ell_space RA)) opt (o, []) (e, [])
    = ((o', l), (e', u), r) ->
  said_nosoln u -> forall z, ell_in n e z -> ~ S z.
Proof. exact ell_feas_infeasible. Qed.
Print Assumptions C34_nosoln_means_infeasible.

Theorem C34_small_means_thin :
  forall n p (opt : options RA) (Orc : Type) (f : Orc -> vec RA -> Orc * res (option (cut RA)))
    (S : (nat -> R) -> Prop) o (e : ell RA) o' e' l u m,
  psd_ell n p e -> feas_oracle n p S f o ->
  cutting_plane_feas (logged_feas f) (logged_space (ell_space RA)) opt (o, []) (e, [])
    = ((o', l), (e', u), Ok (None, m)) ->
  stopped_small opt u ->
  forall z, S z -> ell_in n e z -> exists x a l' ev u', l = (x, a) :: l' /\ u = ev :: u' /\
    cutval n (fv (fst (ev_cut ev))) (fv x) z * cutval n (fv (fst (ev_cut ev))) (fv x) z < tolerance opt.
Proof. exact ell_feas_small. Qed.
Print Assumptions C34_small_means_thin.

(** the disc of radius 2 and the half planes [z0 <= -3] (missed) and [z0 <= -1]
    (met; tolerance 5 stops the run after one cut) *)
Example C34_case_nosoln : psd_ell 2 true e4 /\ feas_oracle 2 true (half 3) (half_feas 3) tt /\
  exists l u e',
  cutting_plane_feas (logged_feas (half_feas 3)) (logged_space (ell_space RA)) opt5 (tt, []) (e4, [])
    = ((tt, l), (e', u), Ok (None, 0%Z)) /\ said_nosoln u.
Proof. exact (conj (pd_psd _ _ _ e4_pd) (conj (half_oracle 3 true) half3_run)). Qed.

Example C34_case_small : psd_ell 2 true e4 /\ feas_oracle 2 true (half 1) (half_feas 1) tt /\
  half 1 (pt (-2) 0) /\ ell_in 2 e4 (pt (-2) 0) /\
  exists l u e',
  cutting_plane_feas (logged_feas (half_feas 1)) (logged_space (ell_space RA)) opt5 (tt, []) (e4, [])
    = ((tt, l), (e', u), Ok (None, 0%Z)) /\ stopped_small opt5 u.
Proof.
  split; [exact (pd_psd _ _ _ e4_pd)|]. split; [exact (half_oracle 1 true)|].
  split; [unfold half, pt, fv; cbn; lra|]. split; [apply e4_in; lra|exact half1_run].
Qed.

(** C36: points strictly better than the returned value are never lost, so a
    "no solution" means that the returned value is optimal over the initial
    ellipsoid. *)
Theorem C36_optim_keeps_better_points :
  forall n p (opt : options RA) (Orc G : Type)
    (f : Orc -> vec RA -> G -> Orc * res (cut RA * option G)) (S : G -> (nat -> R) -> Prop)
    o (e : ell RA) g o' e' l u x g' k,
  psd_ell n p e -> optim_oracle n p S f o g ->
  cutting_plane_optim (logged_optim f) (logged_space (ell_space RA)) opt (o, []) (e, []) g
    = ((o', l), (e', u), Ok (x, g', k)) ->
  forall z, S g' z -> S g z /\ (ell_in n e z ->
    ell_in n e' z /\ ~ said_nosoln u /\
    Forall2 (fun q ev => confined n z (fst (fst q)) ev) l u).
Proof. exact ell_optim_kept. Qed.
Print Assumptions C36_optim_keeps_better_points.

Theorem C36_nosoln_means_optimal :
  forall n p (opt : options RA) (Orc G : Type)
    (f : Orc -> vec RA -> G -> Orc * res (cut RA * option G)) (S : G -> (nat -> R) -> Prop)
    o (e : ell RA) g o' e' l u x g' k,
  psd_ell n p e -> optim_oracle n p S f o g ->
  cutting_plane_optim (logged_optim f) (logged_space (ell_space RA)) opt (o, []) (e, []) g
    = ((o', l), (e', u), Ok (x, g', k)) ->
  said_nosoln u -> forall z, ell_in n e z -> ~ S g' z.
Proof. exact ell_optim_optimal. Qed.
Print Assumptions C36_nosoln_means_optimal.

Theorem C36_q_keeps_better_points :
  forall n p (opt : options RA) (Orc G : Type)
    (f : Orc -> vec RA -> G -> bool -> Orc * res (cut RA * vec RA * option G * bool))
    (S : G -> (nat -> R) -> Prop) o (e : ell RA) g o' e' l u x g' k,
  psd_ell n p e -> optim_q_oracle n p S f o g ->
  cutting_plane_optim_q (logged_q f) (logged_space (ell_space RA)) opt (o, []) (e, []) g
    = ((o', l), (e', u), Ok (x, g', k)) ->
  forall z, S g' z -> S g z /\ (ell_in n e z ->
    ell_in n e' z /\ ~ said_nosoln u /\
    Forall2 (fun q ev => confined n z (fst (fst (fst q))) ev) l u).
Proof. exact ell_optim_q_kept. Qed.
Print Assumptions C36_q_keeps_better_points.

Theorem C36_q_nosoln_means_optimal :
  forall n p (opt : options RA) (Orc G : Type)
    (f : Orc -> vec RA -> G -> bool -> Orc * res (cut RA * vec RA * option G * bool))
    (S : G -> (nat -> R) -> Prop) o (e : ell RA) g o' e' l u x g' k,
  psd_ell n p e -> optim_q_oracle n p S f o g ->
  cutting_plane_optim_q (logged_q f) (logged_space (ell_space RA)) opt (o, []) (e, []) g
    = ((o', l), (e', u), Ok (x, g', k)) ->
  said_nosoln u -> forall z, ell_in n e z -> ~ S g' z.
Proof. exact ell_optim_q_optimal. Qed.
Print Assumptions C36_q_nosoln_means_optimal.

Example C36_case : psd_ell 2 true e4 /\ optim_oracle 2 true below min_z0 tt (-3) /\
  exists l u e',
  cutting_plane_optim (logged_optim min_z0) (logged_space (ell_space RA)) opt5 (tt, []) (e4, []) (-3)
    = ((tt, l), (e', u), Ok (None, -3, 0%Z)) /\ said_nosoln u.
Proof. exact (conj (pd_psd _ _ _ e4_pd) (conj (min_oracle true (-3)) min_run)). Qed.

Example C36_q_case : psd_ell 2 true e4 /\ optim_q_oracle 2 true below min_z0_q tt (-3) /\
  exists l u e',
  cutting_plane_optim_q (logged_q min_z0_q) (logged_space (ell_space RA)) opt5 (tt, []) (e4, []) (-3)
    = ((tt, l), (e', u), Ok (None, -3, 0%Z)) /\ said_nosoln u.
Proof. exact (conj (pd_psd _ _ _ e4_pd) (conj (min_q_oracle true (-3)) min_q_run)). Qed.
