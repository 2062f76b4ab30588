(** Lists as numpy arrays.  Reads outside the array give zero and writes
    outside do nothing; every model function that uses them is either guarded
    by an explicit shape check or stated under well-formedness hypotheses. *)
From Coq Require Import List Arith Bool.
From Verif Require Import Arith.
Import ListNotations.

Section Vec.
Context {A : Arith}.
Local Open Scope num_scope.

Definition vec : Type := list (num A).
Definition mat : Type := list (list (num A)).

(** [v[i]] *)
Definition vget (v : vec) (i : nat) : num A := nth i v azero.

(** [l[i] = x] *)
Fixpoint upd {T : Type} (l : list T) (i : nat) (x : T) : list T :=
  match l, i with
  | [], _ => []
  | _ :: t, O => x :: t
  | h :: t, S k => h :: upd t k x
  end.

Definition vset (v : vec) (i : nat) (x : num A) : vec := upd v i x.

(** [m[i, j]] *)
Definition mget (m : mat) (i j : nat) : num A := vget (nth i m []) j.

(** [m[i, j] = x] *)
Definition mset (m : mat) (i j : nat) (x : num A) : mat :=
  upd m i (vset (nth i m []) j x).

Fixpoint map2 {T U V : Type} (f : T -> U -> V) (l : list T) (k : list U) : list V :=
  match l, k with
  | a :: l', b :: k' => f a b :: map2 f l' k'
  | _, _ => []
  end.

(** [sum(v)]: left fold from zero, as Python's builtin and (up to the
    unspecified order of BLAS summation) numpy's reductions. *)
Definition vsum (v : vec) : num A := fold_left aadd v azero.

(** [u.dot(v)] *)
Definition vdot (u v : vec) : num A := vsum (map2 amul u v).

(** [m @ v] *)
Definition mvmul (m : mat) (v : vec) : vec := map (fun row => vdot row v) m.

(** [c * v] *)
Definition vscale (c : num A) (v : vec) : vec := map (amul c) v.

(** [u - v], [u + v] *)
Definition vsub (u v : vec) : vec := map2 asub u v.
Definition vadd (u v : vec) : vec := map2 aadd u v.

(** [np.outer(u, v)] *)
Definition outer (u v : vec) : mat := map (fun a => vscale a v) u.

(** [c * m], [m - k] *)
Definition mscale (c : num A) (m : mat) : mat := map (vscale c) m.
Definition msub (m k : mat) : mat := map2 vsub m k.

(** [np.diag(d)] *)
Definition mdiag (d : vec) : mat :=
  map (fun i => map (fun j => if Nat.eqb i j then vget d i else azero)
                    (seq 0 (length d)))
      (seq 0 (length d)).

(** [np.eye(n)] *)
Definition meye (n : nat) : mat := mdiag (repeat aone n).

(** [np.zeros(n)], [np.zeros((n, n))] *)
Definition vzeros (n : nat) : vec := repeat azero n.
Definition mzeros (n : nat) : mat := repeat (vzeros n) n.

End Vec.

Arguments vec : clear implicits.
Arguments mat : clear implicits.
