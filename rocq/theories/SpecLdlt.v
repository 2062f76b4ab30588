(** What the properties say about [LDLTMgr] objects and the LMI oracles. *)
From Coq Require Import Reals List Arith Bool.
From Verif Require Import Arith Vec ModelCalc ModelEll ModelLdlt ModelLmi Spec.
Import ListNotations.
Local Open Scope R_scope.

(** An object of dimension [n], whatever earlier calls left in it. *)
Definition ldlt_wf (n : nat) (s : ldlt RA) : Prop :=
  l_ndim s = n /\ vec_wf n (wit s) /\ mat_wf n (storage s).

(** The witness vector: the slice [wit[start:stop]] named by [pos], zero
    elsewhere. *)
Definition wit_vec (s : ldlt RA) : nat -> R :=
  fun i => if Nat.leb (fst (pos s)) i && Nat.ltb i (snd (pos s)) then fv (wit s) i else 0.

Definition upper (n : nat) (M : nat -> nat -> R) : Prop :=
  forall i j, (j < i < n)%nat -> M i j = 0.

(** The same shapes over any arithmetic. *)
Definition shape {A : Arith} (n : nat) (s : ldlt A) : Prop :=
  l_ndim s = n /\ length (wit s) = n /\ length (storage s) = n /\
  forall i, (i < n)%nat -> length (nth i (storage s) []) = n.

(** Number of rows the last factorisation has visited. *)
Definition rows {A : Arith} (n : nat) (s : ldlt A) : nat :=
  if is_spd s then n else snd (pos s).

(** Linear matrix inequalities: the matrix [B - sum_k x_k F_k] and the
    homogeneous [sum_k x_k F_k]. *)
Definition lmi_at (f : list (list (list R))) (b : list (list R)) (x : nat -> R) : nat -> nat -> R :=
  fun i j => fm b i j - sumn (length f) (fun k => fm (nth k f []) i j * x k).
Definition lmi0_at (f : list (list (list R))) (x : nat -> R) : nat -> nat -> R :=
  fun i j => sumn (length f) (fun k => fm (nth k f []) i j * x k).

Definition sym_mat (m : nat) (a : list (list R)) : Prop := mat_wf m a /\ symmetric m (fm a).

(** An oracle object with symmetric [m * m] data, whatever earlier calls left
    in its factorisation manager. *)
Definition lmi_wf (m : nat) (o : lmi RA) : Prop :=
  sym_mat m (mat_f0 o) /\ Forall (sym_mat m) (mat_f o) /\ ldlt_wf m (ldlt_mgr o).
Definition lmi0_wf (m : nat) (o : lmi0 RA) : Prop :=
  Forall (sym_mat m) (mat0_f o) /\ ldlt_wf m (ldlt0_mgr o).

(** Shapes of the data over any arithmetic, and the answers of an oracle to a
    sequence of questions. *)
Definition square_mat {A : Arith} (m : nat) (a : mat A) : Prop :=
  length a = m /\ forall i, (i < m)%nat -> length (nth i a []) = m.
Definition lmi_shape {A : Arith} (m : nat) (o : lmi A) : Prop :=
  square_mat m (mat_f0 o) /\ Forall (square_mat m) (mat_f o) /\ shape m (ldlt_mgr o).
Fixpoint answers {Orc Q Ans : Type} (call : Orc -> Q -> Orc * Ans) (o : Orc) (qs : list Q) : list Ans :=
  match qs with
  | [] => []
  | q :: qs => snd (call o q) :: answers call (fst (call o q)) qs
  end.

(** [M - eps I] is positive semidefinite *)
Definition above (m : nat) (eps : R) (M : nat -> nat -> R) : Prop :=
  forall v, eps * dot m v v <= quad m M v.
