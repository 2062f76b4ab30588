(** Vocabulary of the convergence properties. *)
From Coq Require Import Reals List.
From Verif Require Import Arith Vec ModelCalc ModelEll ModelCut SpecDrivers Spec SpecCut SpecSearch.
Import ListNotations.
Local Open Scope R_scope.

Definition ball (n : nat) (c : nat -> R) (r : R) (z : nat -> R) : Prop :=
  dot n (fun i => z i - c i) (fun i => z i - c i) <= r * r.

(** The offsets have a form the update accepts: the first is present, and so
    is the second of a two-sided cut unless parallel cuts are switched off. *)
Definition usable (p : bool) (be : cutchoice RA) : Prop :=
  match be with
  | CSingle _ => True
  | CList (Some _ :: None :: _) => p = false
  | CList (Some _ :: _) => True
  | CList _ => False
  end.

(** A usable cut that keeps [S], with a gradient of norm at least [gmin]. *)
Definition good_cut (n : nat) (p : bool) (S : (nat -> R) -> Prop) (gmin : R) (k : op_kind)
    (ct : cut RA) (x : vec RA) : Prop :=
  vec_wf n (fst ct) /\ gmin * gmin <= dot n (fv (fst ct)) (fv (fst ct)) /\
  usable p (snd ct) /\ cut_keeps n p S k ct x.

(** A feasibility oracle that answers at every point and whose cuts are good. *)
Definition good_feas_oracle {Orc : Type} (n : nat) (p : bool) (S : (nat -> R) -> Prop) (gmin : R)
    (f : Orc -> vec RA -> Orc * res (option (cut RA))) (o : Orc) : Prop :=
  exists inv : Orc -> Prop, inv o /\
  forall o x, inv o -> vec_wf n x -> exists o' a, f o x = (o', Ok a) /\ inv o' /\
  forall ct, a = Some ct -> good_cut n p S gmin OpBias ct x.

(** An optimisation oracle whose cuts are good. *)
Definition good_optim_oracle {Orc G : Type} (n : nat) (p : bool) (S : G -> (nat -> R) -> Prop) (gmin : R)
    (f : Orc -> vec RA -> G -> Orc * res (cut RA * option G)) (o : Orc) (g : G) : Prop :=
  exists inv : Orc -> G -> Prop, inv o g /\
  forall o x g o' ct v, inv o g -> f o x g = (o', Ok (ct, v)) ->
  inv o' (match v with Some g' => g' | None => g end) /\
  match v with
  | None => vec_wf n x -> good_cut n p (S g) gmin OpBias ct x
  | Some g' => (vec_wf n x -> good_cut n p (S g') gmin OpCentral ct x) /\ (forall z, S g' z -> S g z)
  end.

(** A usable cut that keeps [S], with all of [S] at least [eps] beyond the
    hyperplane through [x]: for instance the cut of a convex function at a point
    where it is non-negative, when it is at most [-eps] on [S]. *)
Definition margin_cut (n : nat) (p : bool) (S : (nat -> R) -> Prop) (eps : R) (k : op_kind)
    (ct : cut RA) (x : vec RA) : Prop :=
  vec_wf n (fst ct) /\ usable p (snd ct) /\ cut_keeps n p S k ct x /\
  forall z, S z -> cutval n (fv (fst ct)) (fv x) z <= - eps.

Definition margin_feas_oracle {Orc : Type} (n : nat) (p : bool) (S : (nat -> R) -> Prop) (eps : R)
    (f : Orc -> vec RA -> Orc * res (option (cut RA))) (o : Orc) : Prop :=
  exists inv : Orc -> Prop, inv o /\
  forall o x, inv o -> vec_wf n x -> exists o' a, f o x = (o', Ok a) /\ inv o' /\
  forall ct, a = Some ct -> margin_cut n p S eps OpBias ct x.

Definition margin_optim_oracle {Orc G : Type} (n : nat) (p : bool) (S : G -> (nat -> R) -> Prop) (eps : R)
    (f : Orc -> vec RA -> G -> Orc * res (cut RA * option G)) (o : Orc) (g : G) : Prop :=
  exists inv : Orc -> G -> Prop, inv o g /\
  forall o x g o' ct v, inv o g -> f o x g = (o', Ok (ct, v)) ->
  inv o' (match v with Some g' => g' | None => g end) /\
  match v with
  | None => vec_wf n x -> margin_cut n p (S g) eps OpBias ct x
  | Some g' => (vec_wf n x -> margin_cut n p (S g') eps OpCentral ct x) /\ (forall z, S g' z -> S g z)
  end.

(** [kappa^n prod d_i] of the initial ellipsoid *)
Definition vol0 (n : nat) (v : ellval RA) : R :=
  match v with VScalar k => k ^ n | VDiag d => prodn n (fv d) end.

(** A feasibility oracle with a parameter, as used by [BSearchAdaptor].  After
    [update g] it accepts only points of [S g], and its cuts are of the kind
    [ok] for the set [T g]. *)
Definition para_oracle {Orc : Type} (n : nat) (S T : R -> (nat -> R) -> Prop)
    (ok : ((nat -> R) -> Prop) -> cut RA -> vec RA -> Prop)
    (f : Orc -> vec RA -> Orc * res (option (cut RA))) (update : R -> Orc -> Orc) (o : Orc) : Prop :=
  exists inv : Orc -> Prop, inv o /\
  forall o g, inv o -> exists inv' : Orc -> Prop, inv' (update g o) /\ (forall o, inv' o -> inv o) /\
  forall o x, inv' o -> vec_wf n x -> exists o' a, f o x = (o', Ok a) /\ inv' o' /\
  match a with None => S g (fv x) | Some ct => ok (T g) ct x end.
