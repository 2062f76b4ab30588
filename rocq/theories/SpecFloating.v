(** What a binary64 number denotes, written without the model: the real value
    of a finite number, and the order with infinities. *)
From Coq Require Import Reals ZArith List Floats.
From Verif Require Import Arith Vec ModelCalc ModelEll ModelStable SpecDrivers.
Import ListNotations.
Local Open Scope R_scope.

(** finite: neither an infinity nor a NaN *)
Definition ffinite (x : float) : Prop :=
  match Prim2SF x with
  | S754_zero _ => True
  | S754_finite _ _ _ => True
  | _ => False
  end.

(** the real number denoted by a finite float, [(-1)^s * m * 2^e] *)
Definition fval (x : float) : R :=
  match Prim2SF x with
  | S754_finite s m e => (if s then -1 else 1) * IZR (Zpos m) * powerRZ 2 e
  | _ => 0
  end.

(** unit roundoff and the smallest positive number *)
Definition u53 : R := powerRZ 2 (-53).
Definition tiny : R := powerRZ 2 (-1074).

(** the value is a number, possibly infinite, that is at least zero *)
Definition fnonneg (x : float) : Prop := PrimFloat.leb PrimFloat.zero x = true.
(** ... or strictly positive *)
Definition fpos (x : float) : Prop := PrimFloat.ltb PrimFloat.zero x = true.
(** not a negative number (NaN allowed) *)
Definition fnotneg (x : float) : Prop := PrimFloat.ltb x PrimFloat.zero = false.
(** not a number: differs from itself *)
Definition fnan (x : float) : Prop := PrimFloat.eqb x x = false.

(** The update methods of [Ell] and [EllStable] in double arithmetic, and runs
    of calls (the object stays usable after an exception). *)
Definition fell_update (k : op_kind) : cut FA -> ell FA -> ell FA * res cut_status :=
  match k with
  | OpBias => ell_update_bias_cut
  | OpCentral => ell_update_central_cut
  | OpQ => ell_update_q
  end.

Fixpoint fell_seq (l : list (op_kind * cut FA)) (e : ell FA) : ell FA * list (res cut_status) :=
  match l with
  | [] => (e, [])
  | (k, ct) :: l' =>
      let '(e1, o) := fell_update k ct e in
      let '(e2, os) := fell_seq l' e1 in (e2, o :: os)
  end.

Definition fstable_update (k : op_kind) : cut FA -> stable FA -> stable FA * res cut_status :=
  match k with
  | OpBias => stable_update_bias_cut
  | OpCentral => stable_update_central_cut
  | OpQ => stable_update_q
  end.

Fixpoint fstable_seq (l : list (op_kind * cut FA)) (s : stable FA)
  : stable FA * list (res cut_status) :=
  match l with
  | [] => (s, [])
  | (k, ct) :: l' =>
      let '(s1, o) := fstable_update k ct s in
      let '(s2, os) := fstable_seq l' s1 in (s2, o :: os)
  end.

(** constructor arguments without negative entries *)
Definition fval_notneg (n : nat) (v : ellval FA) : Prop :=
  match v with
  | VScalar k => fnotneg k
  | VDiag d => length d = n /\ forall i, (i < n)%nat -> fnotneg (vget d i)
  end.

(** the calls are central cuts with a single offset and gradients of length [n] *)
Definition central_calls (n : nat) (l : list (op_kind * cut FA)) : Prop :=
  forall k ct, In (k, ct) l -> k = OpCentral /\ length (fst ct) = n /\ exists b, snd ct = CSingle b.

(** the calculation behind each update method *)
Definition fstrat_of (k : op_kind) : strategy FA :=
  match k with
  | OpBias => calc_single_or_parallel
  | OpCentral => calc_single_or_parallel_central_cut
  | OpQ => calc_single_or_parallel_q
  end.

(** [EllStable] object of dimension [n] whose stored diagonal and scale are not negative *)
Definition fstable_notneg (n : nat) (s : stable FA) : Prop :=
  s_ndim s = n /\ length (s_xc s) = n /\ length (s_mq s) = n /\ (forall i, (i < n)%nat -> length (nth i (s_mq s) []) = n) /\
  (forall j, (j < n)%nat -> fnotneg (mget (s_mq s) j j)) /\ fnotneg (s_kappa s).

(** A calculator as built by the constructor, with the parallel flag set to [p]. *)
Definition fcalc_for (n : nat) (p : bool) (c : calc FA) : Prop :=
  exists c0, calc_init n = Ok c0 /\ c = mkCalc p (c_n_f c0) (c_helper c0).

(** The offsets of a cut as real numbers, and their being finite. *)
Definition cut_real (beta : cutchoice FA) : cutchoice RA :=
  match beta with
  | CSingle b => @CSingle RA (fval b)
  | CList l => @CList RA (map (option_map fval) l)
  end.
Definition cut_finite (beta : cutchoice FA) : Prop :=
  match beta with
  | CSingle b => ffinite b
  | CList l => forall b, In (Some b) l -> ffinite b
  end.

(** Width of a bisection bracket after [j] rounded halvings of [lower, upper]: the exact
    halving with a relative error per step, plus the resolution of the numbers around. *)
Definition bs_width_bound (lower upper : R) (j : nat) : R :=
  (upper - lower) * ((1 + u53) / 2) ^ j + 3 * (u53 * Rmax (Rabs lower) (Rabs upper) + tiny).

(** Stored vectors and matrices of doubles as real vectors and matrices. *)
Definition ffv (l : list float) : nat -> R := fun i => fval (nth i l PrimFloat.zero).
Definition ffm (m : list (list float)) : nat -> nat -> R := fun i j => fval (nth j (nth i m []) PrimFloat.zero).
