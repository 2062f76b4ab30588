(** Toy oracles and a toy space that raise, for the concrete cases of C99. *)
From Coq Require Import List ZArith Bool.
From Verif Require Import Arith ModelCalc ModelCut Toy.

(** a toy oracle that raises below 5 *)
Definition toy_feas_raise (o x : Z) : Z * res (option Z) :=
  ((o + 1)%Z, if (x <? 5)%Z then Err IndexError else Ok (Some 2%Z)).
Definition toy_optim_raise (o x g : Z) : Z * res (Z * option Z) :=
  ((o + 1)%Z, if (x <? 5)%Z then Err ValueError else Ok (3%Z, Some x)).
Definition toy_q_raise (o x g : Z) (retry : bool) : Z * res (Z * Z * option Z * bool) :=
  ((o + 1)%Z, if (x <? 5)%Z then Err ZeroDivision else Ok (3%Z, x, Some x, false)).
(** a toy space whose update raises when the cut is 7 *)
Definition toy_upd_raise (c : Z) (s : Z * Z) : (Z * Z) * res cut_status :=
  if (c =? 7)%Z then ((fst s, 1%Z), Err AssertionError) else toy_upd c s.
Definition toy_space_raise : space_ops ZA (Z * Z) Z Z :=
  @mkSpace ZA _ _ _ (@fst Z Z) (@snd Z Z) toy_upd_raise toy_upd_raise toy_upd_raise (fun x s => (x, snd s)).
