(** Specification vocabulary: finite sums, quadratic forms, ellipsoids, cuts.
    Independent of the model: points and vectors are functions [nat -> R] of
    which the first [n] values matter, matrices functions [nat -> nat -> R]. *)
From Coq Require Import Reals List Arith.
Local Open Scope R_scope.

(** [sumn n f = f 0 + ... + f (n-1)] *)
Fixpoint sumn (n : nat) (f : nat -> R) : R :=
  match n with
  | O => 0
  | S k => sumn k f + f k
  end.

Fixpoint prodn (n : nat) (f : nat -> R) : R :=
  match n with
  | O => 1
  | S k => prodn k f * f k
  end.

Definition dot (n : nat) (u v : nat -> R) : R := sumn n (fun i => u i * v i).

Definition mv (n : nat) (M : nat -> nat -> R) (y : nat -> R) : nat -> R :=
  fun i => sumn n (fun j => M i j * y j).

(** [u^T M v] and [v^T M v] *)
Definition bil (n : nat) (M : nat -> nat -> R) (u v : nat -> R) : R := dot n u (mv n M v).
Definition quad (n : nat) (M : nat -> nat -> R) (v : nat -> R) : R := bil n M v v.

Definition symmetric (n : nat) (M : nat -> nat -> R) : Prop :=
  forall i j, (i < n)%nat -> (j < n)%nat -> M i j = M j i.

Definition nonzero (n : nat) (v : nat -> R) : Prop := exists i, (i < n)%nat /\ v i <> 0.

Definition posdef (n : nat) (M : nat -> nat -> R) : Prop :=
  forall v, nonzero n v -> 0 < quad n M v.

Definition possemidef (n : nat) (M : nat -> nat -> R) : Prop :=
  forall v, 0 <= quad n M v.

(** The ellipsoid with centre [c], scale [k] and shape [M], without using an
    inverse: for invertible symmetric [M] this is
    [(x - c)^T M^-1 (x - c) <= k] (see [in_ellipsoid_inverse]). *)
Definition in_ellipsoid (n : nat) (c : nat -> R) (k : R) (M : nat -> nat -> R)
    (x : nat -> R) : Prop :=
  exists y, (forall i, (i < n)%nat -> x i - c i = mv n M y i) /\ quad n M y <= k.

(** Value of the cut's linear form at [x]: [g . (x - c)]. *)
Definition cutval (n : nat) (g c x : nat -> R) : R := dot n g (fun i => x i - c i).

(** [g . (x - c) + beta <= 0] *)
Definition sat_single (n : nat) (g c : nat -> R) (beta : R) (x : nat -> R) : Prop :=
  cutval n g c x + beta <= 0.

(** [- b1 <= g . (x - c) <= - b0] *)
Definition sat_parallel (n : nat) (g c : nat -> R) (b0 b1 : R) (x : nat -> R) : Prop :=
  - b1 <= cutval n g c x <= - b0.

(** Entries of a list / list of lists as functions. *)
Definition fv (l : list R) : nat -> R := fun i => nth i l 0.
Definition fm (m : list (list R)) : nat -> nat -> R := fun i j => nth j (nth i m nil) 0.
Definition vec_wf (n : nat) (l : list R) : Prop := length l = n.
Definition mat_wf (n : nat) (m : list (list R)) : Prop :=
  length m = n /\ forall i, (i < n)%nat -> length (nth i m nil) = n.
