(** What it means for a displacement to satisfy a cut.  [t] is the value
    [g . (x - xc)] of the cut's linear form at a point [x]. *)
From Coq Require Import Reals List.
From Verif Require Import Arith ModelCalc ModelEll SpecDrivers Spec.
Import ListNotations.
Local Open Scope R_scope.

(** First and second offset of a cut ([None] when absent).  The second offset
    counts only when parallel cuts are enabled. *)
Definition first_beta (beta : cutchoice RA) : option R :=
  match beta with
  | CSingle b => Some b
  | CList (Some b :: _) => Some b
  | _ => None
  end.

Definition second_beta (par : bool) (beta : cutchoice RA) : option R :=
  match beta with
  | CList (_ :: o :: _) => if par then o else None
  | _ => None
  end.

(** [t <= - beta0] (for a central cut [t <= 0]) and, for a parallel cut,
    [- beta1 <= t]. *)
Definition cut_holds (k : op_kind) (par : bool) (beta : cutchoice RA) (t : R) : Prop :=
  match k with
  | OpCentral => t <= 0
  | _ => match first_beta beta with Some b0 => t <= - b0 | None => True end
  end /\
  match second_beta par beta with Some b1 => - b1 <= t | None => True end.

(** The cut strategy behind each of the three update methods. *)
Definition strat_of (k : op_kind) : strategy RA :=
  match k with
  | OpBias => calc_single_or_parallel
  | OpCentral => calc_single_or_parallel_central_cut
  | OpQ => calc_single_or_parallel_q
  end.

(** The three update methods. *)
Definition ell_update (k : op_kind) : cut RA -> ell RA -> ell RA * res cut_status :=
  match k with
  | OpBias => ell_update_bias_cut
  | OpCentral => ell_update_central_cut
  | OpQ => ell_update_q
  end.

(** A calculator as built by the constructor, with the parallel flag set to [p]. *)
Definition calc_for (n : nat) (p : bool) (c : calc RA) : Prop :=
  exists c0, calc_init n = Ok c0 /\ c = mkCalc p (c_n_f c0) (c_helper c0).

(** A deep or central cut: the centre does not satisfy it strictly. *)
Definition deep (k : op_kind) (beta : cutchoice RA) : Prop :=
  k = OpCentral \/ exists b0, first_beta beta = Some b0 /\ 0 <= b0.

(** The side condition under which a two-sided cut applied with
    [update_bias_cut] is sound: the two offsets do not straddle the centre by
    more than the method allows ([update_q] tests this and answers NoEffect,
    [update_bias_cut] does not).  [T] is [tsq].  It holds in particular when
    [b0 >= 0]. *)
Definition bias_cond (n : nat) (k : op_kind) (p : bool) (beta : cutchoice RA) (T : R) : Prop :=
  k = OpBias -> forall b0 b1, first_beta beta = Some b0 -> second_beta p beta = Some b1 ->
  b0 <= b1 -> 0 <= T + INR n * (b0 * b1).
