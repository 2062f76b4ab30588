(** A concrete run of the discrete driver on references. *)
From Coq Require Import List Arith ZArith Bool.
From Verif Require Import Arith Vec ModelCalc ModelCut ModelHeap ModelEll ModelProfit ModelHeapQ SpecHeap Toy.
Import ListNotations.
Local Open Scope Z_scope.

Definition toy_trans : Trans ZA := mkTrans ZA (fun x => x) (fun x => x) (fun x => x).

(** a cut moves the centre by ten times its gradient *)
Definition toy_vupd (ct : cut ZA) (s : list Z * Z) : (list Z * Z) * res cut_status :=
  ((vsub (A:=ZA) (fst s) (map (Z.mul 10) (fst ct)), snd s), Ok Success).
Definition toy_vspace : space_ops ZA (list Z * Z) (vec ZA) (cut ZA) :=
  @mkSpace ZA _ _ _ (@fst (list Z) Z) (@snd (list Z) Z) toy_vupd toy_vupd toy_vupd (fun x s => (x, snd s)).

Lemma toy_profit_q : exists o o' s',
  hprofit_q_init toy_trans (1, 1, 10)%Z [2; 2]%Z [1; 1]%Z [[20; 5]%Z] = ([[20; 5]%Z; [0; 0]%Z], Ok o) /\
  xc_attribute toy_vspace /\
  snd (hprofit_q_assess toy_trans o 0%nat 1%Z false [[20; 5]%Z; [0; 0]%Z]) = Ok (([1; 0]%Z, CSingle (A:=ZA) 10%Z), 0%nat, None, true) /\
  h_cutting_plane_optim_q [] toy_vspace (toy_opt 3) (hprofit_q_assess toy_trans) o (([0; 0]%Z, 1000%Z), 0%nat)
    [[20; 5]%Z; [0; 0]%Z] 1%Z
  = (o', s', [[20; 25]%Z; [0; 0]%Z; [10; 5]%Z], Ok (Some 2%nat, 16%Z, 3%Z)).
Proof.
  eexists _, _, _. split; [reflexivity|]. split; [repeat split; intros []; reflexivity|].
  split; vm_compute; reflexivity.
Qed.
