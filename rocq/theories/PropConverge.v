(** Properties C35, C62 to C65: the drivers converge. *)
From Coq Require Import Reals List ZArith Lra Lia.
From Verif Require Import Arith Vec ModelCalc ModelEll ModelStable ModelCut ModelSpaces ModelLowpass ModelLdlt ModelLmi
  SpecDrivers Spec SpecCut SpecEll SpecStable SpecSearch SpecConverge SpecSpectral SpecLowpass SpecLdlt.
From Verif Require Import PEll2 PEllEx PStableEx PSearchEx PProfitEx PLowpassEx PConv3 PLowpass4 PLmi3 PLmi4 PConvEx.
Import ListNotations.
Local Open Scope R_scope.

(** C35: a set holding a ball of radius [r] is found, within
    [n (n + 1) ln (kappa / r^2)] iterations. *)
Theorem C35_ell_converges :
  forall n p k x0 (e0 : ell RA) c r gmin (opt : options RA) (Orc : Type)
    (f : Orc -> vec RA -> Orc * res (option (cut RA))) (S : (nat -> R) -> Prop) (o : Orc),
  ell_init (@VScalar RA k) x0 = Ok e0 -> vec_wf n x0 -> 0 < k -> 0 < r -> 0 < gmin ->
  (forall z, ball n c r z -> ball n (fv x0) (sqrt k) z /\ S z) ->
  good_feas_oracle n p S gmin f o ->
  tolerance opt <= r * r * (gmin * gmin) ->
  INR n * (INR n + 1) * ln (k / (r * r)) < IZR (max_iters opt) ->
  exists o' e' x j,
    cutting_plane_feas f (ell_space RA) opt o (ell_set_parallel e0 p) = (o', e', Ok (Some x, j)) /\
    vec_wf n x /\ IZR j <= INR n * (INR n + 1) * ln (k / (r * r)).
Proof. exact ell_feas_ball. Qed.
Print Assumptions C35_ell_converges.

Theorem C35_stable_converges :
  forall n p k x0 (s0 : stable RA) c r gmin (opt : options RA) (Orc : Type)
    (f : Orc -> vec RA -> Orc * res (option (cut RA))) (S : (nat -> R) -> Prop) (o : Orc),
  stable_init (@VScalar RA k) x0 = Ok s0 -> vec_wf n x0 -> 0 < k -> 0 < r -> 0 < gmin ->
  (forall z, ball n c r z -> ball n (fv x0) (sqrt k) z /\ S z) ->
  good_feas_oracle n p S gmin f o ->
  tolerance opt <= r * r * (gmin * gmin) ->
  INR n * (INR n + 1) * ln (k / (r * r)) < IZR (max_iters opt) ->
  exists o' s' x j,
    cutting_plane_feas f (stable_space RA) opt o (stable_set_parallel s0 p) = (o', s', Ok (Some x, j)) /\
    vec_wf n x /\ IZR j <= INR n * (INR n + 1) * ln (k / (r * r)).
Proof. exact stable_feas_ball. Qed.
Print Assumptions C35_stable_converges.

(** From any initial ellipsoid, scalar or diagonal *)
Theorem C35_ell_converges_any :
  forall n p v x0 (e0 : ell RA) c r gmin (opt : options RA) (Orc : Type)
    (f : Orc -> vec RA -> Orc * res (option (cut RA))) (S : (nat -> R) -> Prop) (o : Orc),
  ell_init v x0 = Ok e0 -> vec_wf n x0 -> val_pos n v -> 0 < r -> 0 < gmin ->
  (forall z, ball n c r z -> ell_in n e0 z /\ S z) ->
  good_feas_oracle n p S gmin f o ->
  tolerance opt <= r * r * (gmin * gmin) ->
  vol0 n v < (r * r) ^ n * exp (IZR (max_iters opt) / (INR n + 1)) ->
  exists o' e' x j,
    cutting_plane_feas f (ell_space RA) opt o (ell_set_parallel e0 p) = (o', e', Ok (Some x, j)) /\
    vec_wf n x /\ (0 <= j < max_iters opt)%Z /\
    (r * r) ^ n * exp (IZR j / (INR n + 1)) <= vol0 n v.
Proof. exact ell_feas_converges. Qed.
Print Assumptions C35_ell_converges_any.

Theorem C35_stable_converges_any :
  forall n p v x0 (s0 : stable RA) c r gmin (opt : options RA) (Orc : Type)
    (f : Orc -> vec RA -> Orc * res (option (cut RA))) (S : (nat -> R) -> Prop) (o : Orc),
  stable_init v x0 = Ok s0 -> vec_wf n x0 -> val_pos n v -> 0 < r -> 0 < gmin ->
  (forall z, ball n c r z -> stable_in n s0 z /\ S z) ->
  good_feas_oracle n p S gmin f o ->
  tolerance opt <= r * r * (gmin * gmin) ->
  vol0 n v < (r * r) ^ n * exp (IZR (max_iters opt) / (INR n + 1)) ->
  exists o' s' x j,
    cutting_plane_feas f (stable_space RA) opt o (stable_set_parallel s0 p) = (o', s', Ok (Some x, j)) /\
    vec_wf n x /\ (0 <= j < max_iters opt)%Z /\
    (r * r) ^ n * exp (IZR j / (INR n + 1)) <= vol0 n v.
Proof. exact stable_feas_converges. Qed.
Print Assumptions C35_stable_converges_any.

(** the half plane [z0 <= -1] in the disc of radius 2; it holds the ball of
    radius 1/4 about (-3/2, 0) *)
Example C35_case :
  ell_init (@VScalar RA 4) z2 = Ok e4 /\ stable_init (@VScalar RA 4) z2 = Ok s4 /\ vec_wf 2 z2 /\
  (forall z, ball 2 (pt (-3/2) 0) (1/4) z -> ball 2 (fv z2) (sqrt 4) z /\ half 1 z) /\
  good_feas_oracle 2 true (half 1) 1 (half_feas 1) tt /\
  tolerance opt1000 <= 1/4 * (1/4) * (1 * 1) /\
  INR 2 * (INR 2 + 1) * ln (4 / (1/4 * (1/4))) < IZR (max_iters opt1000).
Proof.
  split; [exact e4_init|]. split; [exact s4_init|]. split; [reflexivity|]. split; [exact half_ball|].
  split; [exact (half_good 1 true)|]. split; [cbn; lra|exact count1000].
Qed.

(** C62: no ball of radius [r] in the initial ellipsoid consists of points
    strictly better than the returned value. *)
Theorem C62_ell_optim_converges :
  forall n p v x0 (e0 : ell RA) c r gmin (opt : options RA) (Orc G : Type)
    (f : Orc -> vec RA -> G -> Orc * res (cut RA * option G)) (S : G -> (nat -> R) -> Prop)
    (o : Orc) g o' e' x' g' k,
  ell_init v x0 = Ok e0 -> vec_wf n x0 -> val_pos n v -> 0 < r -> 0 < gmin ->
  (forall z, ball n c r z -> ell_in n e0 z) ->
  good_optim_oracle n p S gmin f o g ->
  tolerance opt <= r * r * (gmin * gmin) ->
  vol0 n v < (r * r) ^ n * exp (IZR (max_iters opt) / (INR n + 1)) ->
  cutting_plane_optim f (ell_space RA) opt o (ell_set_parallel e0 p) g = (o', e', Ok (x', g', k)) ->
  ~ (forall z, ball n c r z -> S g' z).
Proof. exact ell_optim_converges. Qed.
Print Assumptions C62_ell_optim_converges.

Theorem C62_stable_optim_converges :
  forall n p v x0 (s0 : stable RA) c r gmin (opt : options RA) (Orc G : Type)
    (f : Orc -> vec RA -> G -> Orc * res (cut RA * option G)) (S : G -> (nat -> R) -> Prop)
    (o : Orc) g o' s' x' g' k,
  stable_init v x0 = Ok s0 -> vec_wf n x0 -> val_pos n v -> 0 < r -> 0 < gmin ->
  (forall z, ball n c r z -> stable_in n s0 z) ->
  good_optim_oracle n p S gmin f o g ->
  tolerance opt <= r * r * (gmin * gmin) ->
  vol0 n v < (r * r) ^ n * exp (IZR (max_iters opt) / (INR n + 1)) ->
  cutting_plane_optim f (stable_space RA) opt o (stable_set_parallel s0 p) g = (o', s', Ok (x', g', k)) ->
  ~ (forall z, ball n c r z -> S g' z).
Proof. exact stable_optim_converges. Qed.
Print Assumptions C62_stable_optim_converges.

(** minimising [z0] over the disc of radius 2, one iteration *)
Example C62_case :
  ell_init (@VScalar RA 4) z2 = Ok e4 /\ stable_init (@VScalar RA 4) z2 = Ok s4 /\
  (forall z, ball 2 (fv z2) (19/10) z -> ell_in 2 e4 z) /\
  good_optim_oracle 2 true below 1 min_z0 tt 1 /\
  tolerance opt1 <= 19/10 * (19/10) * (1 * 1) /\
  vol0 2 (@VScalar RA 4) < (19/10 * (19/10)) ^ 2 * exp (IZR (max_iters opt1) / (INR 2 + 1)) /\
  exists e' k, cutting_plane_optim min_z0 (ell_space RA) opt1 tt (ell_set_parallel e4 true) 1
    = (tt, e', Ok (Some z2, 0, k)).
Proof.
  split; [exact e4_init|]. split; [exact s4_init|].
  split; [intros z Hz; apply (scalar_in 2 4 z2 e4 z e4_init eq_refl); apply big_ball in Hz; unfold ball in Hz;
          rewrite sqrt_sqrt in Hz by lra; exact Hz|].
  split; [exact (min_good true 1)|]. split; [cbn; lra|]. split; [apply scalar_count; [lra|lra|exact count1]|].
  exact min_central_run.
Qed.

(** C63: a filter is found when the specification has room for a ball of
    radius [r]; the optimised stop band bound is optimal up to such a ball. *)
Theorem C63_lowpass_converges :
  forall F p k x0 (e0 : ell RA) c r (opt : options RA) (o : lowpass RA),
  describes_lp F o -> ell_init (@VScalar RA k) x0 = Ok e0 -> vec_wf (f_n F) x0 -> 0 < k -> 0 < r ->
  (forall z, ball (f_n F) c r z -> ball (f_n F) (fv x0) (sqrt k) z /\ meets F (lw_sp o) z) ->
  tolerance opt <= r * r ->
  INR (f_n F) * (INR (f_n F) + 1) * ln (k / (r * r)) < IZR (max_iters opt) ->
  exists o' e' x j,
    cutting_plane_feas lowpass_assess_feas (ell_space RA) opt o (ell_set_parallel e0 p)
      = (o', e', Ok (Some x, j)) /\
    vec_wf (f_n F) x /\ meets F (lw_sp o) (fv x).
Proof. exact lp_feas_converges. Qed.
Print Assumptions C63_lowpass_converges.

Theorem C63_lowpass_near_optimal :
  forall F p k x0 (e0 : ell RA) c r (opt : options RA) (o : lowpass RA) g o' e' x' g' j,
  describes_lp F o -> f_ws F < 1 -> ell_init (@VScalar RA k) x0 = Ok e0 -> vec_wf (f_n F) x0 ->
  0 < k -> 0 < r ->
  (forall z, ball (f_n F) c r z -> ball (f_n F) (fv x0) (sqrt k) z) ->
  tolerance opt <= r * r ->
  INR (f_n F) * (INR (f_n F) + 1) * ln (k / (r * r)) < IZR (max_iters opt) ->
  cutting_plane_optim lowpass_assess_optim (ell_space RA) opt o (ell_set_parallel e0 p) g
    = (o', e', Ok (x', g', j)) ->
  ~ (forall z, ball (f_n F) c r z -> meets F g' z).
Proof. exact lp_optim_converges. Qed.
Print Assumptions C63_lowpass_near_optimal.

(** [3/4 + 1/2 cos w], and everything within 1/16 of it *)
Example C63_case :
  describes_lp f6 o6 /\ ell_init (@VScalar RA 4) z2 = Ok e4 /\ vec_wf (f_n f6) z2 /\
  (forall z, ball 2 (pt (3/4) (1/4)) (1/16) z -> ball 2 (fv z2) (sqrt 4) z /\ meets f6 (lw_sp o6) z) /\
  INR 2 * (INR 2 + 1) * ln (4 / (1/16 * (1/16))) < IZR (max_iters (@mkOptions RA 10000%Z (1/256))).
Proof.
  split; [exact o6_d|]. split; [exact e4_init|]. split; [reflexivity|]. split; [exact f6_ball|exact count6].
Qed.
Example C63_optim_case :
  describes_lp f2 o2 /\ f_ws f2 < 1 /\ ell_init (@VScalar RA 4) x2 = Ok e5 /\ vec_wf (f_n f2) x2 /\
  (forall z, ball 2 (fv x2) (19/10) z -> ball 2 (fv x2) (sqrt 4) z) /\
  INR 2 * (INR 2 + 1) * ln (4 / (19/10 * (19/10))) < IZR (max_iters opt1) /\
  exists o' e' f k, cutting_plane_optim lowpass_assess_optim (ell_space RA) opt1 o2 (ell_set_parallel e5 true) (1/2)
    = (o', e', Ok (Some x2, f, k)).
Proof.
  split; [exact o2_d|]. split; [cbn; lra|]. split; [exact e5_init|]. split; [reflexivity|]. split; [exact big_ball5|].
  split; [exact count1|exact lp_optim_run_case].
Qed.

(** C64: the same without a bound on the gradients, when the cuts leave a
    margin: the sought set lies [eps] beyond the hyperplane through the point
    that was refused. *)
Theorem C64_ell_margin :
  forall n p v x0 (e0 : ell RA) c r eps (opt : options RA) (Orc : Type)
    (f : Orc -> vec RA -> Orc * res (option (cut RA))) (S : (nat -> R) -> Prop) (o : Orc),
  ell_init v x0 = Ok e0 -> vec_wf n x0 -> val_pos n v -> 0 < r -> 0 < eps ->
  (forall z, ball n c r z -> ell_in n e0 z /\ S z) ->
  margin_feas_oracle n p S eps f o ->
  tolerance opt <= eps * eps ->
  vol0 n v < (r * r) ^ n * exp (IZR (max_iters opt) / (INR n + 1)) ->
  exists o' e' x j,
    cutting_plane_feas f (ell_space RA) opt o (ell_set_parallel e0 p) = (o', e', Ok (Some x, j)) /\
    vec_wf n x /\ (0 <= j < max_iters opt)%Z /\
    (r * r) ^ n * exp (IZR j / (INR n + 1)) <= vol0 n v.
Proof. exact ell_feas_converges_m. Qed.
Print Assumptions C64_ell_margin.

Theorem C64_stable_margin :
  forall n p v x0 (s0 : stable RA) c r eps (opt : options RA) (Orc : Type)
    (f : Orc -> vec RA -> Orc * res (option (cut RA))) (S : (nat -> R) -> Prop) (o : Orc),
  stable_init v x0 = Ok s0 -> vec_wf n x0 -> val_pos n v -> 0 < r -> 0 < eps ->
  (forall z, ball n c r z -> stable_in n s0 z /\ S z) ->
  margin_feas_oracle n p S eps f o ->
  tolerance opt <= eps * eps ->
  vol0 n v < (r * r) ^ n * exp (IZR (max_iters opt) / (INR n + 1)) ->
  exists o' s' x j,
    cutting_plane_feas f (stable_space RA) opt o (stable_set_parallel s0 p) = (o', s', Ok (Some x, j)) /\
    vec_wf n x /\ (0 <= j < max_iters opt)%Z /\
    (r * r) ^ n * exp (IZR j / (INR n + 1)) <= vol0 n v.
Proof. exact stable_feas_converges_m. Qed.
Print Assumptions C64_stable_margin.

Theorem C64_ell_margin_optim :
  forall n p v x0 (e0 : ell RA) c r eps (opt : options RA) (Orc G : Type)
    (f : Orc -> vec RA -> G -> Orc * res (cut RA * option G)) (S : G -> (nat -> R) -> Prop)
    (o : Orc) g o' e' x' g' k,
  ell_init v x0 = Ok e0 -> vec_wf n x0 -> val_pos n v -> 0 < r -> 0 < eps ->
  (forall z, ball n c r z -> ell_in n e0 z) ->
  margin_optim_oracle n p S eps f o g ->
  tolerance opt <= eps * eps ->
  vol0 n v < (r * r) ^ n * exp (IZR (max_iters opt) / (INR n + 1)) ->
  cutting_plane_optim f (ell_space RA) opt o (ell_set_parallel e0 p) g = (o', e', Ok (x', g', k)) ->
  ~ (forall z, ball n c r z -> S g' z).
Proof. exact ell_optim_converges_m. Qed.
Print Assumptions C64_ell_margin_optim.

Theorem C64_stable_margin_optim :
  forall n p v x0 (s0 : stable RA) c r eps (opt : options RA) (Orc G : Type)
    (f : Orc -> vec RA -> G -> Orc * res (cut RA * option G)) (S : G -> (nat -> R) -> Prop)
    (o : Orc) g o' s' x' g' k,
  stable_init v x0 = Ok s0 -> vec_wf n x0 -> val_pos n v -> 0 < r -> 0 < eps ->
  (forall z, ball n c r z -> stable_in n s0 z) ->
  margin_optim_oracle n p S eps f o g ->
  tolerance opt <= eps * eps ->
  vol0 n v < (r * r) ^ n * exp (IZR (max_iters opt) / (INR n + 1)) ->
  cutting_plane_optim f (stable_space RA) opt o (stable_set_parallel s0 p) g = (o', s', Ok (x', g', k)) ->
  ~ (forall z, ball n c r z -> S g' z).
Proof. exact stable_optim_converges_m. Qed.
Print Assumptions C64_stable_margin_optim.

(** an oracle for [z0 <= -1], and the points with [z0 <= -5/4] *)
Example C64_case :
  ell_init (@VScalar RA 4) z2 = Ok e4 /\ stable_init (@VScalar RA 4) z2 = Ok s4 /\ vec_wf 2 z2 /\
  (forall z, ball 2 (pt (-3/2) 0) (1/8) z -> ball 2 (fv z2) (sqrt 4) z /\ half (5/4) z) /\
  margin_feas_oracle 2 true (half (5/4)) (1/4) (half_feas 1) tt /\
  tolerance opt2000 <= 1/4 * (1/4) /\
  vol0 2 (@VScalar RA 4) < (1/8 * (1/8)) ^ 2 * exp (IZR (max_iters opt2000) / (INR 2 + 1)).
Proof.
  split; [exact e4_init|]. split; [exact s4_init|]. split; [reflexivity|]. split; [exact half_ball8|].
  split; [exact (half_margin true)|]. split; [cbn; lra|apply scalar_count; [lra|lra|exact count2000]].
Qed.
(** minimising [z0] over the disc of radius 2: points better by 1/10 *)
Example C64_optim_case :
  ell_init (@VScalar RA 4) z2 = Ok e4 /\
  (forall z, ball 2 (fv z2) (19/10) z -> ball 2 (fv z2) (sqrt 4) z) /\
  margin_optim_oracle 2 true (below_by (1/10)) (1/10) min_z0 tt 1 /\
  vol0 2 (@VScalar RA 4) < (19/10 * (19/10)) ^ 2 * exp (IZR (max_iters opt1) / (INR 2 + 1)) /\
  exists e' k, cutting_plane_optim min_z0 (ell_space RA) opt1 tt (ell_set_parallel e4 true) 1
    = (tt, e', Ok (Some z2, 0, k)).
Proof.
  split; [exact e4_init|]. split; [exact big_ball|]. split; [apply min_margin; lra|].
  split; [apply scalar_count; [lra|lra|exact count1]|]. exact min_central_run.
Qed.

(** C65: a matrix inequality with a solution of margin [eps] and room for a
    ball is solved, within the same number of iterations. *)
Theorem C65_lmi_converges :
  forall m n p k x0 c r eps (opt : options RA),
  vec_wf n x0 -> 0 < k -> 0 < r -> 0 < eps -> tolerance opt <= eps * eps ->
  INR n * (INR n + 1) * ln (k / (r * r)) < IZR (max_iters opt) ->
  forall (o : lmi RA) (e0 : ell RA),
  lmi_wf m o -> length (mat_f o) = n -> ell_init (@VScalar RA k) x0 = Ok e0 ->
  (forall z, ball n c r z ->
     ball n (fv x0) (sqrt k) z /\ above m eps (lmi_at (mat_f o) (mat_f0 o) z)) ->
  exists o' e' x j,
    cutting_plane_feas lmi_assess_feas (ell_space RA) opt o (ell_set_parallel e0 p)
      = (o', e', Ok (Some x, j)) /\
    vec_wf n x /\ posdef m (lmi_at (mat_f o) (mat_f0 o) (fv x)) /\
    IZR j <= INR n * (INR n + 1) * ln (k / (r * r)).
Proof. exact lmi_ell_converges. Qed.
Print Assumptions C65_lmi_converges.

Theorem C65_lmi_converges_stable :
  forall m n p k x0 c r eps (opt : options RA),
  vec_wf n x0 -> 0 < k -> 0 < r -> 0 < eps -> tolerance opt <= eps * eps ->
  INR n * (INR n + 1) * ln (k / (r * r)) < IZR (max_iters opt) ->
  forall (o : lmi RA) (s0 : stable RA),
  lmi_wf m o -> length (mat_f o) = n -> stable_init (@VScalar RA k) x0 = Ok s0 ->
  (forall z, ball n c r z ->
     ball n (fv x0) (sqrt k) z /\ above m eps (lmi_at (mat_f o) (mat_f0 o) z)) ->
  exists o' s' x j,
    cutting_plane_feas lmi_assess_feas (stable_space RA) opt o (stable_set_parallel s0 p)
      = (o', s', Ok (Some x, j)) /\
    vec_wf n x /\ posdef m (lmi_at (mat_f o) (mat_f0 o) (fv x)) /\
    IZR j <= INR n * (INR n + 1) * ln (k / (r * r)).
Proof. exact lmi_stable_converges. Qed.
Print Assumptions C65_lmi_converges_stable.

Theorem C65_lmi0_converges :
  forall m n p k x0 c r eps (opt : options RA),
  vec_wf n x0 -> 0 < k -> 0 < r -> 0 < eps -> tolerance opt <= eps * eps ->
  INR n * (INR n + 1) * ln (k / (r * r)) < IZR (max_iters opt) ->
  forall (o : lmi0 RA) (e0 : ell RA),
  lmi0_wf m o -> length (mat0_f o) = n -> ell_init (@VScalar RA k) x0 = Ok e0 ->
  (forall z, ball n c r z ->
     ball n (fv x0) (sqrt k) z /\ above m eps (lmi0_at (mat0_f o) z)) ->
  exists o' e' x j,
    cutting_plane_feas lmi0_assess_feas (ell_space RA) opt o (ell_set_parallel e0 p)
      = (o', e', Ok (Some x, j)) /\
    vec_wf n x /\ posdef m (lmi0_at (mat0_f o) (fv x)) /\
    IZR j <= INR n * (INR n + 1) * ln (k / (r * r)).
Proof. exact lmi0_ell_converges. Qed.
Print Assumptions C65_lmi0_converges.

Theorem C65_lmi0_converges_stable :
  forall m n p k x0 c r eps (opt : options RA),
  vec_wf n x0 -> 0 < k -> 0 < r -> 0 < eps -> tolerance opt <= eps * eps ->
  INR n * (INR n + 1) * ln (k / (r * r)) < IZR (max_iters opt) ->
  forall (o : lmi0 RA) (s0 : stable RA),
  lmi0_wf m o -> length (mat0_f o) = n -> stable_init (@VScalar RA k) x0 = Ok s0 ->
  (forall z, ball n c r z ->
     ball n (fv x0) (sqrt k) z /\ above m eps (lmi0_at (mat0_f o) z)) ->
  exists o' s' x j,
    cutting_plane_feas lmi0_assess_feas (stable_space RA) opt o (stable_set_parallel s0 p)
      = (o', s', Ok (Some x, j)) /\
    vec_wf n x /\ posdef m (lmi0_at (mat0_f o) (fv x)) /\
    IZR j <= INR n * (INR n + 1) * ln (k / (r * r)).
Proof. exact lmi0_stable_converges. Qed.
Print Assumptions C65_lmi0_converges_stable.

Theorem C65_lmi_old_converges :
  forall m n p k x0 c r eps (opt : options RA),
  vec_wf n x0 -> 0 < k -> 0 < r -> 0 < eps -> tolerance opt <= eps * eps ->
  INR n * (INR n + 1) * ln (k / (r * r)) < IZR (max_iters opt) ->
  forall (o : lmi RA) (e0 : ell RA),
  lmi_wf m o -> length (mat_f o) = n -> ell_init (@VScalar RA k) x0 = Ok e0 ->
  (forall z, ball n c r z ->
     ball n (fv x0) (sqrt k) z /\ above m eps (lmi_at (mat_f o) (mat_f0 o) z)) ->
  exists o' e' x j,
    cutting_plane_feas lmi_old_assess_feas (ell_space RA) opt o (ell_set_parallel e0 p)
      = (o', e', Ok (Some x, j)) /\
    vec_wf n x /\ posdef m (lmi_at (mat_f o) (mat_f0 o) (fv x)) /\
    IZR j <= INR n * (INR n + 1) * ln (k / (r * r)).
Proof. exact lmi_old_ell_converges. Qed.
Print Assumptions C65_lmi_old_converges.

Theorem C65_lmi_old_converges_stable :
  forall m n p k x0 c r eps (opt : options RA),
  vec_wf n x0 -> 0 < k -> 0 < r -> 0 < eps -> tolerance opt <= eps * eps ->
  INR n * (INR n + 1) * ln (k / (r * r)) < IZR (max_iters opt) ->
  forall (o : lmi RA) (s0 : stable RA),
  lmi_wf m o -> length (mat_f o) = n -> stable_init (@VScalar RA k) x0 = Ok s0 ->
  (forall z, ball n c r z ->
     ball n (fv x0) (sqrt k) z /\ above m eps (lmi_at (mat_f o) (mat_f0 o) z)) ->
  exists o' s' x j,
    cutting_plane_feas lmi_old_assess_feas (stable_space RA) opt o (stable_set_parallel s0 p)
      = (o', s', Ok (Some x, j)) /\
    vec_wf n x /\ posdef m (lmi_at (mat_f o) (mat_f0 o) (fv x)) /\
    IZR j <= INR n * (INR n + 1) * ln (k / (r * r)).
Proof. exact lmi_old_stable_converges. Qed.
Print Assumptions C65_lmi_old_converges_stable.

(** [[-1 - z0, z1], [z1, 1]] > 0 from the disc of radius 2 *)
Example C65_case :
  lmi_wf 2 cone_lmi /\ length (mat_f cone_lmi) = 2%nat /\ ~ posdef 2 (lmi_at (mat_f cone_lmi) (mat_f0 cone_lmi) (fv z2)) /\
  ell_init (@VScalar RA 4) z2 = Ok e4 /\ stable_init (@VScalar RA 4) z2 = Ok s4 /\
  (forall z, ball 2 (pt (-3/2) 0) (1/8) z ->
     ball 2 (fv z2) (sqrt 4) z /\ above 2 (1/4) (lmi_at (mat_f cone_lmi) (mat_f0 cone_lmi) z)) /\
  tolerance opt2000 <= 1/4 * (1/4) /\
  INR 2 * (INR 2 + 1) * ln (4 / (1/8 * (1/8))) < IZR (max_iters opt2000).
Proof.
  split; [exact cone_lmi_wf|]. split; [reflexivity|]. split; [exact cone_lmi_out|]. split; [exact e4_init|]. split; [exact s4_init|].
  split; [exact cone_ball|]. split; [cbn; lra|exact count2000].
Qed.
(** [[z0, z1], [z1, z0]] > 0 *)
Example C65_lmi0_case :
  lmi0_wf 2 doc_lmi0 /\ length (mat0_f doc_lmi0) = 2%nat /\
  (forall z, ball 2 (pt (3/2) 0) (1/8) z ->
     ball 2 (fv z2) (sqrt 4) z /\ above 2 (1/4) (lmi0_at (mat0_f doc_lmi0) z)).
Proof. exact (conj doc_lmi0_wf (conj eq_refl doc0_ball)). Qed.
