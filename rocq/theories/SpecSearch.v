(** Oracles that describe a set, and what a run of a driver says about it. *)
From Coq Require Import Reals List.
From Verif Require Import Arith Vec ModelCalc ModelEll ModelCut SpecDrivers Spec SpecCut.
Import ListNotations.
Local Open Scope R_scope.

(** Every point of [S] satisfies the cut [ct] given at [x] and applied with
    method [k]; cuts applied with [update_bias_cut] do not exclude part of the
    centre's own side (deep or neutral cuts). *)
Definition cut_keeps (n : nat) (p : bool) (S : (nat -> R) -> Prop) (k : op_kind)
    (ct : cut RA) (x : vec RA) : Prop :=
  (k = OpBias -> deep k (snd ct)) /\
  forall z, S z -> cut_holds k p (snd ct) (cutval n (fv (fst ct)) (fv x) z).

(** A feasibility oracle for the set [S], in the state [o]; some property of
    its states that is kept between the calls makes its cuts valid. *)
Definition feas_oracle {Orc : Type} (n : nat) (p : bool) (S : (nat -> R) -> Prop)
    (f : Orc -> vec RA -> Orc * res (option (cut RA))) (o : Orc) : Prop :=
  exists inv : Orc -> Prop, inv o /\
  forall o x o' ct, inv o -> f o x = (o', Ok (Some ct)) -> inv o' /\ cut_keeps n p S OpBias ct x.

(** An optimisation oracle in the state [o], started with the value [g];
    [S g] are the feasible points strictly better than the value [g].  A
    reported value is no worse than the one passed in.  The kept property may
    depend on the current value. *)
Definition optim_oracle {Orc G : Type} (n : nat) (p : bool) (S : G -> (nat -> R) -> Prop)
    (f : Orc -> vec RA -> G -> Orc * res (cut RA * option G)) (o : Orc) (g : G) : Prop :=
  exists inv : Orc -> G -> Prop, inv o g /\
  forall o x g o' ct v, inv o g -> f o x g = (o', Ok (ct, v)) ->
  inv o' (match v with Some g' => g' | None => g end) /\
  match v with
  | None => cut_keeps n p (S g) OpBias ct x
  | Some g' => cut_keeps n p (S g') OpCentral ct x /\ (forall z, S g' z -> S g z)
  end.

(** The same for the discrete driver, which only uses [update_q]. *)
Definition optim_q_oracle {Orc G : Type} (n : nat) (p : bool) (S : G -> (nat -> R) -> Prop)
    (f : Orc -> vec RA -> G -> bool -> Orc * res (cut RA * vec RA * option G * bool)) (o : Orc) (g : G) : Prop :=
  exists inv : Orc -> G -> Prop, inv o g /\
  forall o x g b o' ct y v m, inv o g -> f o x g b = (o', Ok (ct, y, v, m)) ->
  inv o' (match v with Some g' => g' | None => g end) /\
  match v with
  | None => cut_keeps n p (S g) OpQ ct x
  | Some g' => cut_keeps n p (S g') OpQ ct x /\ (forall z, S g' z -> S g z)
  end.

(** The update [e], made at the centre [x], confines [z] to a slab:
    [(g . (z - x))^2 <= tsq]. *)
Definition confined (n : nat) (z : nat -> R) (x : vec RA) (e : upd_event RA (cut RA)) : Prop :=
  ev_res e = Ok Success ->
  cutval n (fv (fst (ev_cut e))) (fv x) z * cutval n (fv (fst (ev_cut e))) (fv x) z <= ev_tsq e.

Definition said_nosoln (u : list (upd_event RA (cut RA))) : Prop :=
  exists e, In e u /\ ev_res e = Ok NoSoln.

(** The run stopped because the last update left less than the tolerance; [c]
    is the centre that update was made at, [g] its gradient. *)
Definition stopped_small (opt : options RA) (u : list (upd_event RA (cut RA))) : Prop :=
  exists e u', u = e :: u' /\ ev_res e = Ok Success /\ ev_tsq e < tolerance opt.
