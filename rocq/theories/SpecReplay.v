(** The updates of a run, replayed on the search space from its start. *)
From Coq Require Import List ZArith.
From Verif Require Import Arith ModelCalc ModelCut SpecDrivers.
Import ListNotations.

Section Replay.
Context {A : Arith} {St V C Q : Type}.
Variable sp : space_ops A St V C.
(** the point of a query *)
Variable point : Q -> V.

Definition method (k : op_kind) : C -> St -> St * res cut_status :=
  match k with OpBias => sp_bias sp | OpCentral => sp_central sp | OpQ => sp_q sp end.

(** the state after the updates [u] (newest first) *)
Fixpoint replay (s : St) (u : list (upd_event A C)) : St :=
  match u with
  | [] => s
  | e :: u' => fst (method (ev_kind e) (ev_cut e) (replay s u'))
  end.

(** every query was made at the centre left by the updates before it, and every update has the
    outcome and the [tsq()] that the space gives in that state *)
Fixpoint in_step (s : St) (l : list Q) (u : list (upd_event A C)) : Prop :=
  match l, u with
  | [], [] => True
  | q :: l', e :: u' =>
      point q = sp_xc sp (replay s u') /\
      ev_res e = snd (method (ev_kind e) (ev_cut e) (replay s u')) /\
      ev_tsq e = sp_tsq sp (replay s u) /\ in_step s l' u'
  | _, _ => False
  end.

(** ... possibly with one more query, which was not followed by an update *)
Definition run_in_step (s s' : St) (l : list Q) (u : list (upd_event A C)) : Prop :=
  s' = replay s u /\
  (in_step s l u \/ exists q l', l = q :: l' /\ in_step s l' u /\ point q = sp_xc sp s').
End Replay.
