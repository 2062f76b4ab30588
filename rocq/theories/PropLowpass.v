(** Properties C53-C55: the low-pass filter oracle. *)
From Coq Require Import Reals List Arith ZArith Lra PrimFloat.
From Verif Require Import Arith Vec ModelCalc ModelEll ModelCut ModelSpaces ModelLowpass
  SpecDrivers Spec SpecCut SpecEll SpecSearch SpecSpectral SpecLowpass.
From Verif Require Import PEll2 PEllEx PSearchEx PProfitEx PLowpass PLowpass2 PLowpassEx PLowpass3 PLowpassBeyond PLowpassEmpty.
Import ListNotations.
Local Open Scope R_scope.

(** The constructor. *)
Theorem C53_init : forall n wp ws lo up sp, (1 <= n)%nat -> 0 <= wp <= 1 -> 0 <= ws <= 1 ->
  describes_lp (mkFilter n wp ws lo up) (lowpass_init (A:=RA) RG n wp ws lo up sp) /\
  lw_sp (lowpass_init (A:=RA) RG n wp ws lo up sp) = sp.
Proof. exact lp_init. Qed.
Print Assumptions C53_init.

(** [create_lowpass_case]: pass band to 0.12 pi within a factor 1.025 of one
    (squared), stop band from 0.20 pi below 0.125 (squared). *)
Theorem C53_standard_case : forall n, (1 <= n)%nat ->
  describes_lp (mkFilter n (12/100) (20/100) (1600/1681) (1681/1600)) (create_lowpass_case (A:=RA) RG n) /\
  lw_sp (create_lowpass_case (A:=RA) RG n) = 1/64.
Proof. exact lp_case_ok. Qed.
Print Assumptions C53_standard_case.

(** No oracle, whatever its state, accepts the empty point. *)
Theorem C53_empty_never_accepted : forall (A : Arith) (o o' : lowpass A), lowpass_assess_feas o [] <> (o', Ok None).
Proof. exact @lp_empty. Qed.
Print Assumptions C53_empty_never_accepted.

(** A pass band edge so far beyond 1 that the band has more samples than there
    are: nothing is accepted, and [IndexError] is raised exactly when every
    sample but the first is within the pass band bounds. *)
Theorem C53_edge_beyond : forall n wp ws lo up sp (x : vec RA),
  (1 <= n)%nat -> INR (15 * n) <= wp * INR (15 * n - 1) -> length x = n ->
  let r := snd (lowpass_assess_feas (lowpass_init (A:=RA) RG n wp ws lo up sp) x) in
  ((exists ct, r = Ok (Some ct)) \/ r = Err IndexError) /\
  (r = Err IndexError <-> forall i, (0 < i < 15 * n)%nat -> lo <= power_spectrum n (fv x) (freq n i) <= up).
Proof. exact lp_beyond. Qed.
Print Assumptions C53_edge_beyond.

Example C53_edge_beyond_case : INR (15 * 1) <= 2 * INR (15 * 1 - 1) /\
  snd (lowpass_assess_feas (lowpass_init (A:=RA) RG 1 2 1 0 2 1) [1]) = Err IndexError.
Proof. exact lp_beyond_case. Qed.

(** C53: [describes_lp] holds in every reachable state, whatever the positions. *)
Theorem C53_decides_specification : forall F o x o' r,
  describes_lp F o -> length x = f_n F -> lowpass_assess_feas o x = (o', r) ->
  (exists a, r = Ok a) /\ (r = Ok None <-> meets F (lw_sp o) (fv x)) /\
  describes_lp F o' /\ lw_sp o' = lw_sp o.
Proof. exact lp_decides. Qed.
Print Assumptions C53_decides_specification.

Theorem C53_wrong_length : forall F o x o' r,
  describes_lp F o -> length x <> f_n F -> lowpass_assess_feas o x = (o', r) ->
  r = Err ValueError /\ describes_lp F o'.
Proof. exact lp_short. Qed.
Print Assumptions C53_wrong_length.

(** After any history of calls. *)
Theorem C53_after_any_history : forall n wp ws lo up sp h o,
  (1 <= n)%nat -> 0 <= wp <= 1 -> 0 <= ws <= 1 ->
  lp_calls h (lowpass_init (A:=RA) RG n wp ws lo up sp) o ->
  describes_lp (mkFilter n wp ws lo up) o.
Proof. exact lp_history. Qed.
Print Assumptions C53_after_any_history.

Theorem C53_run : forall (St : Type) F (sp : space_ops RA St (vec RA) (cut RA)) opt (o : lowpass RA) s o' s' x k,
  describes_lp F o ->
  cutting_plane_feas lowpass_assess_feas sp opt o s = (o', s', Ok (Some x, k)) ->
  length x = f_n F /\ meets F (lw_sp o) (fv x).
Proof. exact @lp_feas_run. Qed.
Print Assumptions C53_run.

(** [1/2 + 1/2 cos w] with the pass band at 0 and the stop band above [pi/2]. *)
Example C53_case : describes_lp f2 o2 /\ meets f2 (1/2) (fv x2) /\
  (exists o', lowpass_assess_feas o2 x2 = (o', Ok None)) /\
  (exists o' g be, lowpass_assess_feas o2 z2 = (o', Ok (Some (g, be)))).
Proof. exact (conj o2_d (conj x2_meets (conj x2_feasible z2_infeasible))). Qed.
Example C53_history_case : exists o, lp_calls [CallFeas x2; CallOptim z2 1] o2 o.
Proof. exact lp_history_case. Qed.
Example C53_run_case : exists o' e', cutting_plane_feas lowpass_assess_feas (ell_space RA) opt5 o2 e5 = (o', e', Ok (Some x2, 0%Z)).
Proof. exact lp_feas_run_case. Qed.

(** C54 *)
Theorem C54_cut_valid : forall F o x o' g be,
  describes_lp F o -> length x = f_n F -> lowpass_assess_feas o x = (o', Ok (Some (g, be))) ->
  length g = f_n F /\ exists b0, first_beta be = Some b0 /\ 0 < b0 /\
  forall p z, meets F (lw_sp o) z -> cut_holds OpBias p be (cutval (f_n F) (fv g) (fv x) z).
Proof. exact lp_cut. Qed.
Print Assumptions C54_cut_valid.

Theorem C54_feas_oracle : forall F o p,
  describes_lp F o -> feas_oracle (f_n F) p (meets F (lw_sp o)) lowpass_assess_feas o.
Proof. exact lp_feas_oracle. Qed.
Print Assumptions C54_feas_oracle.

Theorem C54_run_infeasible : forall F n p opt (o : lowpass RA) (e : ell RA) o' e' l u r,
  describes_lp F o -> f_n F = n -> psd_ell n p e ->
  cutting_plane_feas (logged_feas lowpass_assess_feas) (logged_space (ell_space RA)) opt (o, []) (e, [])
    = ((o', l), (e', u), r) ->
  said_nosoln u -> forall z, ell_in n e z -> ~ meets F (lw_sp o) z.
Proof. exact lp_infeasible. Qed.
Print Assumptions C54_run_infeasible.

Example C54_case : describes_lp f2 o2 /\ meets f2 (lw_sp o2) (fv x2) /\
  exists o' g be, lowpass_assess_feas o2 z2 = (o', Ok (Some (g, be))).
Proof. exact (conj o2_d (conj x2_meets z2_infeasible)). Qed.
Example C54_run_case : describes_lp f3 o3 /\ psd_ell 2 true e4 /\ exists o' l u e',
  cutting_plane_feas (logged_feas lowpass_assess_feas) (logged_space (ell_space RA)) opt5 (o3, []) (e4, [])
    = ((o', l), (e', u), Ok (None, 0%Z)) /\ said_nosoln u.
Proof. exact (conj o3_d (conj (pd_psd _ _ _ e4_pd) lp_feas_nosoln_case)). Qed.

(** C55, for a stop band with at least one sample *)
Theorem C55_stop_band_maximum : forall F o x g o' r,
  describes_lp F o -> f_ws F < 1 -> length x = f_n F -> lowpass_assess_optim o x g = (o', r) ->
  describes_lp F o' /\ exists gr be v, r = Ok ((gr, be), v) /\ length gr = f_n F /\
  (v <> None <-> meets F g (fv x)) /\
  (forall f, v = Some f -> stop_max F (fv x) f /\ 0 <= f <= g /\ be = CList [Some (0 : num RA); Some f] /\
     (exists w, in_stop F w /\ power_spectrum (f_n F) (fv x) w = f /\
        forall z, dot (f_n F) (fv gr) z = power_spectrum (f_n F) z w) /\
     forall p z, meets F f z -> cut_holds OpCentral p be (cutval (f_n F) (fv gr) (fv x) z)) /\
  (v = None -> exists b0, first_beta be = Some b0 /\ 0 < b0 /\
     forall p z, meets F g z -> cut_holds OpBias p be (cutval (f_n F) (fv gr) (fv x) z)).
Proof. exact lp_optim_full. Qed.
Print Assumptions C55_stop_band_maximum.

Theorem C55_optim_oracle : forall F o g p,
  describes_lp F o -> f_ws F < 1 -> optim_oracle (f_n F) p (meets F) lowpass_assess_optim o g.
Proof. exact lp_optim_oracle. Qed.
Print Assumptions C55_optim_oracle.

(** The returned filter meets the specification and the returned value is its
    largest stop band response. *)
Theorem C55_run : forall (St : Type) F (sp : space_ops RA St (vec RA) (cut RA)) opt (o : lowpass RA) s g o' s' x g' k,
  describes_lp F o -> f_ws F < 1 ->
  cutting_plane_optim lowpass_assess_optim sp opt o s g = (o', s', Ok (x, g', k)) ->
  g' <= g /\ (forall y, x = Some y -> length y = f_n F /\ meets F g' (fv y) /\ stop_max F (fv y) g').
Proof. exact @lp_optim_run. Qed.
Print Assumptions C55_run.

(** After "no solution", nothing in the initial ellipsoid meets the
    specification with the returned stop band bound. *)
Theorem C55_run_optimal : forall F n p opt (o : lowpass RA) (e : ell RA) g o' e' l u x g' k,
  describes_lp F o -> f_ws F < 1 -> f_n F = n -> psd_ell n p e ->
  cutting_plane_optim (logged_optim lowpass_assess_optim) (logged_space (ell_space RA)) opt (o, []) (e, []) g
    = ((o', l), (e', u), Ok (x, g', k)) ->
  said_nosoln u -> forall z, ell_in n e z -> ~ meets F g' z.
Proof. exact lp_optimal. Qed.
Print Assumptions C55_run_optimal.

(** With no sample in the stop band, in doubles: an accepted point is reported
    with minus infinity and the pair of bounds (0, -inf), whatever its response;
    a run ends there, at the first acceptable centre. *)
Theorem C55_no_stop_band_value : forall (o o' : lowpass FA) row rest x g, lw_spectrum o = row :: rest ->
  (Z.of_nat (length (lw_spectrum o)) <= lw_nwstop o)%Z ->
  lowpass_assess_feas (set_sp o g) x = (o', Ok None) ->
  lowpass_assess_optim o x g =
    (o', Ok ((row, CList [Some (PrimFloat.zero : num FA); Some (neg_infinity : num FA)]), Some (neg_infinity : num FA))).
Proof. exact no_stop_value. Qed.
Print Assumptions C55_no_stop_band_value.

Theorem C55_no_stop_band_run : forall opt (o : lowpass FA) (e : ell FA) g o' e' x g' m,
  lw_spectrum o <> [] -> (Z.of_nat (length (lw_spectrum o)) <= lw_nwstop o)%Z -> use_parallel_cut (helper e) = true ->
  cutting_plane_optim lowpass_assess_optim (ell_space FA) opt o e g = (o', e', Ok (x, g', m)) ->
  match x with Some y => y = xc e' /\ g' = neg_infinity | None => g' = g end.
Proof. exact no_stop_run. Qed.
Print Assumptions C55_no_stop_band_run.

Example C55_no_stop_band_case : exists e o' e', e_nostop = Ok e /\ use_parallel_cut (helper e) = true /\
  cutting_plane_optim lowpass_assess_optim (ell_space FA) (mkOptions (A:=FA) 10 1%float) lp_nostop e (5 : num FA)%float =
    (o', e', Ok (Some [1; 0]%float, neg_infinity, 0%Z)).
Proof. exact no_stop_case. Qed.

Example C55_case : describes_lp f2 o2 /\ f_ws f2 < 1 /\ exists o' gr f,
  lowpass_assess_optim o2 x2 (1/2) = (o', Ok ((gr, CList [Some (0 : num RA); Some (f : num RA)]), Some (f : num RA))) /\
  0 <= f /\ length gr = 2%nat /\ fv gr 0 = 1.
Proof. split; [exact o2_d|]. split; [cbn; lra|exact x2_value]. Qed.
Example C55_run_case : exists o' e' f k,
  cutting_plane_optim lowpass_assess_optim (ell_space RA) opt1 o2 e5 (1/2) = (o', e', Ok (Some x2, f, k)).
Proof. exact lp_optim_run_case. Qed.
Example C55_run_optimal_case : describes_lp f3 o3 /\ f_ws f3 < 1 /\ psd_ell 2 true e4 /\ exists o' l u e',
  cutting_plane_optim (logged_optim lowpass_assess_optim) (logged_space (ell_space RA)) opt5 (o3, []) (e4, []) (1/2)
    = ((o', l), (e', u), Ok (None, 1/2, 0%Z)) /\ said_nosoln u.
Proof. split; [exact o3_d|]. split; [cbn; lra|]. exact (conj (pd_psd _ _ _ e4_pd) lp_optim_nosoln_case). Qed.
