(** Concrete runs in double arithmetic. *)
From Coq Require Import Reals List Arith ZArith Bool Lia Floats.
From Verif Require Import Arith Vec ModelCalc ModelEll ModelStable SpecDrivers SpecFloating.
Import ListNotations.
Local Open Scope float_scope.

(** [k] central cuts with gradient (2, 3) *)
Definition thirty_six (k : nat) : list (op_kind * cut FA) :=
  repeat (OpCentral, ([2; 3] : vec FA, CSingle (A:=FA) 0)) k.

Definition e0 : ell FA :=
  match ell_init (A:=FA) (VScalar (A:=FA) 1) [0; 0] with Ok e => e
  | Err _ => mkEll (A:=FA) false [] [] 0 0 (mkCalc (A:=FA) false 0 (mkCore (A:=FA) 0 0 0 0 0 0 0 0 0)) end.
Definition s0 : stable FA :=
  match stable_init (A:=FA) (VScalar (A:=FA) 1) [0; 0] with Ok e => e
  | Err _ => mkStable (A:=FA) false [] [] 0 0 0%nat (mkCalc (A:=FA) false 0 (mkCore (A:=FA) 0 0 0 0 0 0 0 0 0)) end.

Definition is_ok {X} (r : res X) : bool := match r with Ok _ => true | Err _ => false end.

Lemma e0_ok : ell_init (A:=FA) (VScalar (A:=FA) 1) [0; 0] = Ok e0.
Proof.
  unfold e0. assert (H : is_ok (ell_init (A:=FA) (VScalar (A:=FA) 1) [0; 0]) = true) by (vm_compute; reflexivity).
  destruct (ell_init (A:=FA) (VScalar (A:=FA) 1) [0; 0]); [ reflexivity | discriminate ].
Qed.
Lemma s0_ok : stable_init (A:=FA) (VScalar (A:=FA) 1) [0; 0] = Ok s0.
Proof.
  unfold s0. assert (H : is_ok (stable_init (A:=FA) (VScalar (A:=FA) 1) [0; 0]) = true) by (vm_compute; reflexivity).
  destruct (stable_init (A:=FA) (VScalar (A:=FA) 1) [0; 0]); [ reflexivity | discriminate ].
Qed.

Lemma ex_sym :
  exists e, ell_init (A:=FA) (VScalar (A:=FA) 1%float) [0%float; 0%float] = Ok e /\
  mget (mq (fst (fell_seq (thirty_six 36) e))) 0 1 = (-0x1.d89d89d89d89fp-2)%float /\
  mget (mq (fst (fell_seq (thirty_six 36) e))) 1 0 = (-0x1.d89d89d89d89fp-2)%float.
Proof.
  exists e0. split; [ exact e0_ok | ]. split; vm_compute; reflexivity.
Qed.

Lemma thirty_six_central k : central_calls 2 (thirty_six k).
Proof.
  intros q ct H. apply repeat_spec in H. injection H as -> ->.
  split; [ reflexivity | ]. split; [ reflexivity | ]. eexists. reflexivity.
Qed.

Lemma ex_stable_case :
  exists s, stable_init (A:=FA) (VScalar (A:=FA) 1%float) [0%float; 0%float] = Ok s /\
  fval_notneg 2 (VScalar (A:=FA) 1%float) /\ central_calls 2 (thirty_six 36) /\
  snd (fstable_seq (thirty_six 36) s) = repeat (Ok Success) 36 /\
  fpos (s_tsq (fst (fstable_seq (thirty_six 36) s))).
Proof.
  exists s0. split; [ exact s0_ok | ]. split; [ vm_compute; reflexivity | ].
  split; [ apply thirty_six_central | ]. split; vm_compute; reflexivity.
Qed.

Lemma ex_step_case :
  exists s st rho sigma delta, stable_init (A:=FA) (VScalar (A:=FA) 1%float) [0%float; 0%float] = Ok s /\
  fstable_notneg 2 s /\
  fstrat_of OpBias (s_helper s) (CSingle (A:=FA) 0.5%float) 1%float = Ok (st, Some (rho, sigma, delta)) /\
  fnonneg sigma /\ PrimFloat.ltb sigma PrimFloat.one = true /\ fnotneg delta /\
  s_tsq (fst (fstable_update OpBias ([1%float; 0%float], CSingle (A:=FA) 0.5%float) s)) = 1%float.
Proof.
  exists s0. do 4 eexists. split; [ exact s0_ok | ]. split.
  - split; [ reflexivity | ]. split; [ reflexivity | ]. split; [ reflexivity | ]. split; [ | split; [ | vm_compute; reflexivity ] ].
    + intros i Hi. destruct i as [|[|i]]; [ reflexivity | reflexivity | lia ].
    + intros i Hi. destruct i as [|[|i]]; [ vm_compute; reflexivity | vm_compute; reflexivity | lia ].
  - split; [ vm_compute; reflexivity | ]. split; [ vm_compute; reflexivity | ].
    split; [ vm_compute; reflexivity | ]. split; vm_compute; reflexivity.
Qed.

Lemma ex_ell_fails :
  exists (v : ellval FA) x0 (e : ell FA) (g : vec FA) k,
  ell_init v x0 = Ok e /\ fval_notneg 2 v /\ length g = 2%nat /\ (forall i, (i < 2)%nat -> fpos (vget g i)) /\
  let r := fell_seq (repeat (OpCentral, (g, CSingle (A:=FA) PrimFloat.zero)) (S k)) e in
  snd r = (repeat (Ok Success) k ++ [Err ValueError])%list /\ ~ fnotneg (tsq (fst r)).
Proof.
  exists (VScalar (A:=FA) 1), [0; 0], e0, [2; 3], 35%nat. split; [ exact e0_ok | ].
  split; [ vm_compute; reflexivity | ]. split; [ reflexivity | ]. split.
  - intros i Hi. destruct i as [|[|i]]; [ vm_compute; reflexivity | vm_compute; reflexivity | lia ].
  - split; [ vm_compute; reflexivity | ]. vm_compute. discriminate.
Qed.
