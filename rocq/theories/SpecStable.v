(** What the properties say about [EllStable] objects. *)
From Coq Require Import Reals List Arith.
From Verif Require Import Arith Vec ModelCalc ModelEll ModelStable SpecDrivers Spec SpecCut SpecEll.
Import ListNotations.
Local Open Scope R_scope.

(** The unit lower triangular matrix stored strictly below the diagonal. *)
Definition lowf (M : nat -> nat -> R) (i j : nat) : R :=
  if Nat.ltb j i then M i j else if Nat.eqb i j then 1 else 0.

(** [(L^T x)_j] *)
Definition tL (n : nat) (M : nat -> nat -> R) (x : nat -> R) (j : nat) : R :=
  sumn n (fun i => lowf M i j * x i).

(** [L D^-1 L^T], where [D] is the stored diagonal. *)
Definition ldl (n : nat) (M : nat -> nat -> R) (i k : nat) : R :=
  sumn n (fun j => lowf M i j * lowf M k j / M j j).

Definition inverse (n : nat) (M P : nat -> nat -> R) : Prop :=
  forall i k, (i < n)%nat -> (k < n)%nat ->
  sumn n (fun j => M i j * P j k) = if Nat.eqb i k then 1 else 0.

(** Well-formed object of dimension [n] with positive diagonal. *)
Definition stable_ok (n : nat) (p : bool) (s : stable RA) : Prop :=
  mat_wf n (s_mq s) /\ vec_wf n (s_xc s) /\ s_ndim s = n /\ calc_for n p (s_helper s) /\
  (forall j, (j < n)%nat -> 0 < fm (s_mq s) j j).

(** [(x - xc)^T L D^-1 L^T (x - xc) <= kappa] *)
Definition stable_in (n : nat) (s : stable RA) (x : nat -> R) : Prop :=
  sumn n (fun j => tL n (fm (s_mq s)) (fun i => x i - fv (s_xc s) i) j
                 * tL n (fm (s_mq s)) (fun i => x i - fv (s_xc s) i) j / fm (s_mq s) j j)
  <= s_kappa s.

(** The [Ell] object and the [EllStable] object stand for the same ellipsoid:
    equal centre, scale, [tsq] and calculator, and the shape matrix of the
    first is the inverse of the product of the factors of the second. *)
Definition agree (n : nat) (e : ell RA) (s : stable RA) : Prop :=
  xc e = s_xc s /\ kappa e = s_kappa s /\ tsq e = s_tsq s /\ helper e = s_helper s /\
  inverse n (fm (mq e)) (ldl n (fm (s_mq s))).

Definition stable_update (k : op_kind) : cut RA -> stable RA -> stable RA * res cut_status :=
  match k with
  | OpBias => stable_update_bias_cut
  | OpCentral => stable_update_central_cut
  | OpQ => stable_update_q
  end.

Fixpoint stable_seq (l : list (op_kind * cut RA)) (s : stable RA) : stable RA * list (res cut_status) :=
  match l with
  | [] => (s, [])
  | (k, ct) :: l' =>
      let '(s1, o) := stable_update k ct s in
      let '(s2, os) := stable_seq l' s1 in (s2, o :: os)
  end.

(** no all-zero gradients among the cuts *)
Definition grads_nonzero (l : list (op_kind * cut RA)) : Prop :=
  forall k ct, In (k, ct) l -> nonzero (length (fst ct)) (fv (fst ct)).

(** all gradients of the dimension [n] *)
Definition grads_fit (n : nat) (l : list (op_kind * cut RA)) : Prop :=
  forall k ct, In (k, ct) l -> vec_wf n (fst ct).

(** Well-formed and with the [no_defer_trick] flag off (its initial value). *)
Definition stable_sound (n : nat) (p : bool) (s : stable RA) : Prop :=
  stable_ok n p s /\ s_no_defer_trick s = false.
