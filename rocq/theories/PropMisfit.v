(** C98. Inputs whose lengths do not fit, over every arithmetic (reals and doubles included).
    [Ell] and [EllStable] differ: the first refuses every gradient of the wrong length with
    ValueError and is left unchanged; the second reports IndexError for a short one, and for a
    long one computes [tsq] with the surplus entries and may answer as if nothing were wrong. *)
From Coq Require Import Reals List Arith ZArith Bool Lia Floats.
From Verif Require Import Arith Vec ModelCalc ModelEll ModelStable SpecDrivers Spec SpecMisfit SpecFloating.
From Verif Require Import PMisfit PMisfitEx.
Import ListNotations.

Theorem C98_ell_gradient : forall (A : Arith) n k (g : vec A) beta (e : ell A),
  square n (mq e) -> length g <> n -> any_ell_update A k (g, beta) e = (e, Err ValueError).
Proof. exact @ell_bad_gradient. Qed.
Print Assumptions C98_ell_gradient.

(** a centre of the wrong length (set through the property): only [tsq] is changed *)
Theorem C98_ell_centre : forall (A : Arith) n k (g : vec A) beta (e e1 : ell A) o,
  2 <= n -> square n (mq e) -> length g = n -> length (xc e) <> n ->
  existsb (fun x => negb (aeqb x azero)) g = true ->
  aeqb (vdot g (mvmul (mq e) g)) azero = false ->
  any_ell_update A k (g, beta) e = (e1, o) ->
  mq e1 = mq e /\ xc e1 = xc e /\ kappa e1 = kappa e /\ helper e1 = helper e /\
  no_defer_trick e1 = no_defer_trick e /\ tsq e1 = amul (kappa e) (vdot g (mvmul (mq e) g)) /\
  o = match any_strat A k (helper e) beta (tsq e1) with
      | Err x => Err x
      | Ok (st, None) => Ok st
      | Ok (_, Some _) => Err ValueError
      end.
Proof. exact @ell_bad_centre. Qed.
Print Assumptions C98_ell_centre.

Example C98_ell_case : exists e, ell_init (A:=FA) (VScalar (A:=FA) 1%float) [0%float; 0%float] = Ok e /\
  square 2 (mq e) /\ length (@cons (num FA) 1%float [1%float; 1%float]) <> 2 /\
  existsb (fun x => negb (aeqb x azero)) (@cons (num FA) 1%float [0%float]) = true /\
  aeqb (vdot (@cons (num FA) 1%float [0%float]) (mvmul (mq e) (@cons (num FA) 1%float [0%float]))) azero = false /\
  snd (any_ell_update FA OpCentral ([1%float; 0%float], CSingle (A:=FA) 0%float) (ell_set_xc e [0%float; 0%float; 0%float]))
    = Err ValueError.
Proof. exact ex_misfit_ell. Qed.

(** A diagonal of length one beside a longer centre: numpy stretches the step, every coordinate
    of the centre moves by the same amount. *)
Theorem C98_ell_stretch : forall (A : Arith) k (m g0 : num A) beta (e : ell A) st rho sigma delta,
  mq e = [[m]] -> aeqb g0 azero = false ->
  let u := vdot [m] [g0] in let w := vdot [g0] [u] in
  aeqb w azero = false -> any_strat A k (helper e) beta (amul (kappa e) w) = Ok (st, Some (rho, sigma, delta)) ->
  exists e1, any_ell_update A k ([g0], beta) e = (e1, Ok st) /\
  xc e1 = map (fun x => asub x (amul (adiv rho w) u)) (xc e).
Proof. exact @ell_stretch. Qed.
Print Assumptions C98_ell_stretch.

Example C98_ell_stretch_case : exists e,
  ell_init (A:=FA) (VDiag (A:=FA) [1%float]) [0%float; 5%float] = Ok e /\ mq e = [[1%float]] /\
  aeqb (a:=FA) 1%float azero = false /\
  aeqb (a:=FA) (vdot (A:=FA) [1%float] [vdot (A:=FA) [1%float] [1%float]]) azero = false /\
  exists t, any_strat FA OpCentral (helper e) (CSingle (A:=FA) 0%float)
    (amul (kappa e) (vdot (A:=FA) [1%float] [vdot (A:=FA) [1%float] [1%float]])) = Ok (Success, Some t).
Proof. exact ex_stretch. Qed.

(** [EllStable], a short gradient (or too small a matrix): the entries of the first row beside the
    diagonal, which hold intermediate results only, may have been overwritten *)
Theorem C98_stable_short : forall (A : Arith) k (g : vec A) beta (s : stable A),
  length g < s_ndim s \/ length (s_mq s) < s_ndim s ->
  exists s1, any_stable_update A k (g, beta) s = (s1, Err IndexError) /\ same_rest s s1 /\ s_tsq s1 = s_tsq s /\
  (forall i j, (0 < i \/ j = 0 \/ length g < j) -> mget (s_mq s1) i j = mget (s_mq s) i j).
Proof. exact @stable_short. Qed.
Print Assumptions C98_stable_short.

Example C98_stable_short_case : exists s, stable_init (A:=FA) (VScalar (A:=FA) 1%float) [0%float; 0%float] = Ok s /\
  length (@cons (num FA) 1%float []) < s_ndim s.
Proof. exact ex_misfit_short. Qed.

(** ... a long gradient: the ellipsoid is kept; without a triple from the calculation the call
    returns its status, with one it raises ValueError (the reals cannot divide by a zero
    [omega], where doubles go on to the ValueError) *)
Theorem C98_stable_long : forall (A : Arith) k (g : vec A) beta (s s1 : stable A) o,
  s_ndim s < length g -> s_ndim s <= length (s_mq s) -> length (s_xc s) <> length g ->
  any_stable_update A k (g, beta) s = (s1, o) ->
  same_rest s s1 /\ (forall i j, j <= i -> mget (s_mq s1) i j = mget (s_mq s) i j) /\
  match any_strat A k (s_helper s) beta (s_tsq s1) with
  | Err x => o = Err x
  | Ok (st, None) => o = Ok st
  | Ok (_, Some _) => o = Err ValueError \/ adivz A = false /\ o = Err ZeroDivision
  end.
Proof. exact @stable_long. Qed.
Print Assumptions C98_stable_long.

(** the surplus entries count in [tsq], each with its square times [kappa] *)
Theorem C98_stable_long_tsq : forall k (g : vec RA) beta (s : stable RA),
  s_ndim s < length g -> s_ndim s <= length (s_mq s) -> length (s_xc s) <> length g ->
  s_tsq (fst (any_stable_update RA k (g, beta) s)) =
  (s_tsq (fst (any_stable_update RA k (firstn (s_ndim s) g, beta) s)) +
   s_kappa s * sumn (length g - s_ndim s) (fun i => fv g (s_ndim s + i) * fv g (s_ndim s + i)))%R.
Proof. exact stable_long_tsq. Qed.
Print Assumptions C98_stable_long_tsq.

(** a deep cut that misses the ellipsoid: NoSoln with the gradient cut to its length, an
    exception with the surplus entry (whose square enlarges [tsq] from 1 to 10) *)
Example C98_stable_long_case : exists s, stable_init (A:=FA) (VScalar (A:=FA) 1%float) [0%float; 0%float] = Ok s /\
  s_ndim s < length (@cons (num FA) 1%float [0%float; 3%float]) /\ s_ndim s <= length (s_mq s) /\
  length (s_xc s) <> length (@cons (num FA) 1%float [0%float; 3%float]) /\
  snd (any_stable_update FA OpBias ([1%float; 0%float], CSingle (A:=FA) 2%float) s) = Ok NoSoln /\
  snd (any_stable_update FA OpBias ([1%float; 0%float; 3%float], CSingle (A:=FA) 2%float) s) = Err ValueError /\
  snd (any_stable_update FA OpBias ([1%float; 0%float; 3%float], CSingle (A:=FA) 4%float) s) = Ok NoSoln /\
  s_tsq (fst (any_stable_update FA OpBias ([1%float; 0%float; 3%float], CSingle (A:=FA) 4%float) s)) = 10%float.
Proof. exact ex_misfit_long. Qed.

(** ... a centre of the wrong length *)
Theorem C98_stable_centre : forall (A : Arith) k (g : vec A) beta (s s1 : stable A) o,
  length g = s_ndim s -> s_ndim s <= length (s_mq s) -> length (s_xc s) <> s_ndim s ->
  any_stable_update A k (g, beta) s = (s1, o) ->
  same_rest s s1 /\ (forall i j, j <= i -> mget (s_mq s1) i j = mget (s_mq s) i j) /\
  match any_strat A k (s_helper s) beta (s_tsq s1) with
  | Err x => o = Err x
  | Ok (st, None) => o = Ok st
  | Ok (_, Some _) => o = Err ValueError \/ adivz A = false /\ o = Err ZeroDivision
  end.
Proof. exact @stable_bad_centre. Qed.
Print Assumptions C98_stable_centre.

Example C98_stable_centre_case : exists s, stable_init (A:=FA) (VScalar (A:=FA) 1%float) [0%float; 0%float] = Ok s /\
  let s3 := stable_set_xc s [0%float; 0%float; 0%float] in
  length (@cons (num FA) 1%float [1%float]) = s_ndim s3 /\ s_ndim s3 <= length (s_mq s3) /\
  length (s_xc s3) <> s_ndim s3 /\
  snd (any_stable_update FA OpCentral ([1%float; 1%float], CSingle (A:=FA) 0%float) s3) = Err ValueError.
Proof. exact ex_misfit_centre. Qed.
