(** What the properties say about [Ell] objects. *)
From Coq Require Import Reals List.
From Verif Require Import Arith Vec ModelCalc ModelEll SpecDrivers Spec SpecCut.
Import ListNotations.
Local Open Scope R_scope.

(** An object of dimension [n] with symmetric positive semidefinite shape
    matrix and a calculator as built by the constructor, parallel flag [p]. *)
Definition psd_ell (n : nat) (p : bool) (e : ell RA) : Prop :=
  mat_wf n (mq e) /\ vec_wf n (xc e) /\ calc_for n p (helper e) /\
  symmetric n (fm (mq e)) /\ possemidef n (fm (mq e)).

(** Moreover positive definite with positive scale. *)
Definition pd_ell (n : nat) (p : bool) (e : ell RA) : Prop :=
  mat_wf n (mq e) /\ vec_wf n (xc e) /\ calc_for n p (helper e) /\
  symmetric n (fm (mq e)) /\ posdef n (fm (mq e)) /\ 0 < kappa e.

(** [x] lies in the ellipsoid the object stands for. *)
Definition ell_in (n : nat) (e : ell RA) (x : nat -> R) : Prop :=
  in_ellipsoid n (fv (xc e)) (kappa e) (fm (mq e)) x.

(** [x] satisfies the cut [ct], applied with method [k] to the object [e]. *)
Definition cut_sat (n : nat) (k : op_kind) (p : bool) (e : ell RA) (ct : cut RA)
    (x : nat -> R) : Prop :=
  cut_holds k p (snd ct) (cutval n (fv (fst ct)) (fv (xc e)) x).

(** The value of [tsq] the update will compute. *)
Definition cut_tsq (n : nat) (e : ell RA) (ct : cut RA) : R :=
  kappa e * quad n (fm (mq e)) (fv (fst ct)).

(** A run of update calls; the log holds the object before each call, the
    method, the cut and the outcome (the object stays usable after an
    exception). *)
Inductive ell_run : ell RA -> list (ell RA * op_kind * cut RA * res cut_status) -> ell RA -> Prop :=
| run_nil : forall e, ell_run e [] e
| run_cons : forall e k ct e1 o l e2,
    ell_update k ct e = (e1, o) -> ell_run e1 l e2 ->
    ell_run e ((e, k, ct, o) :: l) e2.

(** The same as a function of the calls, with the outcomes in order. *)
Fixpoint ell_seq (l : list (op_kind * cut RA)) (e : ell RA) : ell RA * list (res cut_status) :=
  match l with
  | [] => (e, [])
  | (k, ct) :: l' =>
      let '(e1, o) := ell_update k ct e in
      let '(e2, os) := ell_seq l' e1 in (e2, o :: os)
  end.

(** The cut leaves points of the ellipsoid on which its linear form takes two
    different values (it does not miss, touch or flatten the ellipsoid). *)
Definition cut_proper (n : nat) (k : op_kind) (p : bool) (e : ell RA) (ct : cut RA) : Prop :=
  exists x y, ell_in n e x /\ cut_sat n k p e ct x /\ ell_in n e y /\ cut_sat n k p e ct y /\
    cutval n (fv (fst ct)) (fv (xc e)) x <> cutval n (fv (fst ct)) (fv (xc e)) y.

(** Constructor arguments: a scale, or a nonnegative / positive diagonal. *)
Definition val_nonneg (n : nat) (v : ellval RA) : Prop :=
  match v with VScalar k => True | VDiag d => length d = n /\ forall i, (i < n)%nat -> 0 <= fv d i end.
Definition val_pos (n : nat) (v : ellval RA) : Prop :=
  match v with VScalar k => 0 < k | VDiag d => length d = n /\ forall i, (i < n)%nat -> 0 < fv d i end.

