(** [Ell] and [EllStable] as instances of the search space interface. *)
From Coq Require Import List Arith Bool.
From Verif Require Import Arith Vec ModelCalc ModelEll ModelStable ModelCut.

Definition ell_space (A : Arith) : space_ops A (ell A) (vec A) (cut A) :=
  mkSpace xc tsq ell_update_bias_cut ell_update_central_cut ell_update_q
          (fun x e => ell_set_xc e x).

Definition stable_space (A : Arith) : space_ops A (stable A) (vec A) (cut A) :=
  mkSpace s_xc s_tsq stable_update_bias_cut stable_update_central_cut stable_update_q
          (fun x e => stable_set_xc e x).
