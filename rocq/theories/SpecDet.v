(** The determinant, by expansion along the first column. *)
From Coq Require Import Reals Arith List.
From Verif Require Import Arith Vec ModelCalc ModelEll ModelStable Spec SpecDrivers SpecEll SpecStable.
Import ListNotations.
Local Open Scope R_scope.

(** the rows of a minor: all but row [i] *)
Definition skip (i a : nat) : nat := if Nat.ltb a i then a else S a.

Fixpoint det (n : nat) (M : nat -> nat -> R) : R :=
  match n with
  | O => 1
  | S m => sumn (S m) (fun i => (-1) ^ i * M i O * det m (fun a b => M (skip i a) (S b)))
  end.

(** The squared volume of the ellipsoid in units of that of the unit ball:
    [det (kappa * mq)]. *)
Definition sqvol (n : nat) (e : ell RA) : R := det n (fun i j => kappa e * fm (mq e) i j).

(** The number of accepted cuts in the log of a run. *)
Fixpoint accepted (l : list (ell RA * op_kind * cut RA * res cut_status)) : nat :=
  match l with
  | [] => O
  | (_, _, _, Ok Success) :: l' => S (accepted l')
  | _ :: l' => accepted l'
  end.

(** The same for [EllStable]: the ellipsoid is [(x - xc)^T L D^-1 L^T (x - xc) <= kappa]. *)
Definition sqvol_s (n : nat) (s : stable RA) : R := s_kappa s ^ n / det n (ldl n (fm (s_mq s))).

(** A run of update calls of [EllStable], as [ell_run]. *)
Inductive stable_run : stable RA -> list (stable RA * op_kind * cut RA * res cut_status) -> stable RA -> Prop :=
| srun_nil : forall s, stable_run s [] s
| srun_cons : forall s k ct s1 o l s2,
    stable_update k ct s = (s1, o) -> stable_run s1 l s2 ->
    stable_run s ((s, k, ct, o) :: l) s2.
