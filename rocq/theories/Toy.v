(** A small integer search space and oracles, used only to exhibit concrete
    runs that meet the hypotheses of the driver theorems. *)
From Coq Require Import List ZArith Bool.
From Verif Require Import Arith ModelCalc ModelCut ModelHeap.
Import ListNotations.
Local Open Scope Z_scope.

Definition ZA : Arith :=
  mkArith Z 0 1 Z.add Z.sub Z.mul Z.div Z.opp Z.sqrt Z.ltb Z.leb Z.eqb Z.of_nat false.

(** state: centre and tsq; a cut moves the centre by its value *)
Definition toy_upd (c : Z) (s : Z * Z) : (Z * Z) * res cut_status :=
  let st := if c =? 0 then NoSoln else if 100 <? c then NoEffect else Success in
  match st with
  | Success => ((fst s - c, snd s / 2), Ok Success)
  | _ => (s, Ok st)
  end.

Definition toy_space : space_ops ZA (Z * Z) Z Z :=
  @mkSpace ZA _ _ _ (@fst Z Z) (@snd Z Z) toy_upd toy_upd toy_upd (fun x s => (x, snd s)).

Definition toy_opt (m : Z) : options ZA := @mkOptions ZA m 1.

(** accepts points [<= 3]; counts its calls *)
Definition toy_feas (o : Z) (x : Z) : Z * res (option Z) :=
  (o + 1, Ok (if x <=? 3 then None else Some 2)).

(** always answers "infeasible" *)
Definition toy_never (o : Z) (x : Z) : Z * res (option Z) := (o + 1, Ok (Some 2)).

(** minimises x: reports x whenever it improves on gamma *)
Definition toy_optim (o : Z) (x g : Z) : Z * res (Z * option Z) :=
  (o + 1, Ok (3, if x <? g then Some x else None)).

(** discrete: hands out x + 1000 with the value x; the first cut has no effect *)
Definition toy_q (o : Z) (x g : Z) (retry : bool) : Z * res (Z * Z * option Z * bool) :=
  (o + 1, Ok (if retry then 3 else 101, x + 1000, if x <? g then Some x else None, negb retry)).

(** heap oracle handing out the centre array itself *)
Definition toy_q_alias (o : Z) (a : nat) (g : Z) (retry : bool) (h : list Z)
  : Z * list Z * res (Z * nat * option Z * bool) :=
  (o + 1, h, Ok (3, a, if hget 0 h a <? g then Some (hget 0 h a) else None, false)).

(** heap oracle allocating a fresh array for the point *)
Definition toy_q_fresh (o : Z) (a : nat) (g : Z) (retry : bool) (h : list Z)
  : Z * list Z * res (Z * nat * option Z * bool) :=
  (o + 1, h ++ [hget 0 h a],
   Ok (3, length h, if hget 0 h a <? g then Some (hget 0 h a) else None, false)).

Definition toy_heap_optim (o : Z) (a : nat) (g : Z) (h : list Z)
  : Z * list Z * res (Z * option Z) :=
  (o + 1, h, Ok (3, if hget 0 h a <? g then Some (hget 0 h a) else None)).

(** gamma-parameterised feasibility: accept iff x <= gamma *)
Definition toy_gfeas (o : Z) (x : Z) : Z * res (option Z) :=
  (o, Ok (if x <=? o then None else Some 1)).
