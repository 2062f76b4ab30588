(** Vocabulary for the drafts: intervals and two-sided matrix inequalities. *)
From Coq Require Import Reals List.
From Verif Require Import Arith Vec ModelDraft Spec SpecLdlt.
Import ListNotations.
Local Open Scope R_scope.

(** [y] lies in the interval the object stands for *)
Definition in_interval (e : ell1d RA) (y : R) : Prop := d_xc e - d_rd e <= y <= d_xc e + d_rd e.

(** the cut [(grad, beta)] read at the centre of [e] *)
Definition half_line (e : ell1d RA) (grad beta y : R) : Prop := grad * (y - d_xc e) + beta <= 0.

(** [0 <= F(y) <= U] *)
Definition lmi2_sol (m : nat) (f : list (list (list R))) (u : list (list R)) (y : nat -> R) : Prop :=
  possemidef m (lmi0_at f y) /\ possemidef m (lmi_at f u y).

(** [F(y) - B] *)
Definition lmi3_at (f : list (list (list R))) (b : list (list R)) (y : nat -> R) : nat -> nat -> R :=
  fun i j => sumn (length f) (fun k => fm (nth k f []) i j * y k) - fm b i j.
