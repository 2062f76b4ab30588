(** Concrete cases for inputs of the wrong length, in doubles. *)
From Coq Require Import List Arith ZArith Bool Lia Floats.
From Verif Require Import Arith Vec ModelCalc ModelEll ModelStable SpecDrivers SpecMisfit SpecFloating PFloatEx.
Import ListNotations.

Lemma ex_misfit_ell : exists e, ell_init (A:=FA) (VScalar (A:=FA) 1%float) [0%float; 0%float] = Ok e /\
  square 2 (mq e) /\ length (@cons (num FA) 1%float [1%float; 1%float]) <> 2 /\
  existsb (fun x => negb (aeqb x azero)) (@cons (num FA) 1%float [0%float]) = true /\
  aeqb (vdot (@cons (num FA) 1%float [0%float]) (mvmul (mq e) (@cons (num FA) 1%float [0%float]))) azero = false /\
  snd (any_ell_update FA OpCentral ([1%float; 0%float], CSingle (A:=FA) 0%float) (ell_set_xc e [0%float; 0%float; 0%float]))
    = Err ValueError.
Proof.
  exists e0. split; [ exact e0_ok | ]. split.
  - split; [ vm_compute; reflexivity | ]. intros row H. assert (Q : forallb (fun r => Nat.eqb (length r) 2) (mq e0) = true) by (vm_compute; reflexivity).
    rewrite forallb_forall in Q. apply Nat.eqb_eq. exact (Q row H).
  - split; [ discriminate | ]. repeat split; vm_compute; reflexivity.
Qed.

Lemma ex_misfit_short : exists s, stable_init (A:=FA) (VScalar (A:=FA) 1%float) [0%float; 0%float] = Ok s /\
  length (@cons (num FA) 1%float []) < s_ndim s.
Proof. exists s0. split; [ exact s0_ok | ]. replace (s_ndim s0) with 2 by (vm_compute; reflexivity). cbn. lia. Qed.

Lemma ex_misfit_long : exists s, stable_init (A:=FA) (VScalar (A:=FA) 1%float) [0%float; 0%float] = Ok s /\
  s_ndim s < length (@cons (num FA) 1%float [0%float; 3%float]) /\ s_ndim s <= length (s_mq s) /\
  length (s_xc s) <> length (@cons (num FA) 1%float [0%float; 3%float]) /\
  snd (any_stable_update FA OpBias ([1%float; 0%float], CSingle (A:=FA) 2%float) s) = Ok NoSoln /\
  snd (any_stable_update FA OpBias ([1%float; 0%float; 3%float], CSingle (A:=FA) 2%float) s) = Err ValueError /\
  snd (any_stable_update FA OpBias ([1%float; 0%float; 3%float], CSingle (A:=FA) 4%float) s) = Ok NoSoln /\
  s_tsq (fst (any_stable_update FA OpBias ([1%float; 0%float; 3%float], CSingle (A:=FA) 4%float) s)) = 10%float.
Proof.
  exists s0. split; [ exact s0_ok | ].
  replace (s_ndim s0) with 2 by (vm_compute; reflexivity). replace (length (s_mq s0)) with 2 by (vm_compute; reflexivity).
  replace (length (s_xc s0)) with 2 by (vm_compute; reflexivity).
  split; [ cbn; lia | ]. split; [ lia | ]. split; [ discriminate | ]. repeat split; vm_compute; reflexivity.
Qed.

Lemma ex_misfit_centre : exists s, stable_init (A:=FA) (VScalar (A:=FA) 1%float) [0%float; 0%float] = Ok s /\
  let s3 := stable_set_xc s [0%float; 0%float; 0%float] in
  length (@cons (num FA) 1%float [1%float]) = s_ndim s3 /\ s_ndim s3 <= length (s_mq s3) /\
  length (s_xc s3) <> s_ndim s3 /\
  snd (any_stable_update FA OpCentral ([1%float; 1%float], CSingle (A:=FA) 0%float) s3) = Err ValueError.
Proof.
  exists s0. split; [ exact s0_ok | ]. cbv zeta.
  replace (s_ndim (stable_set_xc s0 [0%float; 0%float; 0%float])) with 2 by (vm_compute; reflexivity).
  replace (length (s_mq (stable_set_xc s0 [0%float; 0%float; 0%float]))) with 2 by (vm_compute; reflexivity).
  split; [ reflexivity | ]. split; [ lia | ]. split; [ discriminate | ]. vm_compute; reflexivity.
Qed.

Definition row_ell : ell FA :=
  match ell_init (A:=FA) (VDiag (A:=FA) [1%float]) [0%float; 5%float] with Ok e => e | Err _ => e0 end.
Definition row_strat : res (stratres FA) := any_strat FA OpCentral (helper row_ell) (CSingle (A:=FA) 0%float)
    (amul (kappa row_ell) (vdot (A:=FA) [1%float] [vdot (A:=FA) [1%float] [1%float]])).
Definition accepts (r : res (stratres FA)) : bool := match r with Ok (Success, Some _) => true | _ => false end.

Lemma ex_stretch : exists e, ell_init (A:=FA) (VDiag (A:=FA) [1%float]) [0%float; 5%float] = Ok e /\ mq e = [[1%float]] /\
  aeqb (a:=FA) 1%float azero = false /\
  aeqb (a:=FA) (vdot (A:=FA) [1%float] [vdot (A:=FA) [1%float] [1%float]]) azero = false /\
  exists t, any_strat FA OpCentral (helper e) (CSingle (A:=FA) 0%float)
    (amul (kappa e) (vdot (A:=FA) [1%float] [vdot (A:=FA) [1%float] [1%float]])) = Ok (Success, Some t).
Proof.
  exists row_ell. split.
  { unfold row_ell. assert (H : is_ok (ell_init (A:=FA) (VDiag (A:=FA) [1%float]) [0%float; 5%float]) = true) by (vm_compute; reflexivity).
    destruct (ell_init (A:=FA) (VDiag (A:=FA) [1%float]) [0%float; 5%float]); [ reflexivity | discriminate ]. }
  split; [ vm_compute; reflexivity | ]. split; [ vm_compute; reflexivity | ]. split; [ vm_compute; reflexivity | ].
  fold row_strat. assert (H : accepts row_strat = true) by (vm_compute; reflexivity).
  unfold accepts in H. destruct row_strat as [[[| | |] [t|]]|]; try discriminate. exists t. reflexivity.
Qed.
