(** Relating the drivers on references to the drivers on values. *)
From Coq Require Import List ZArith.
From Verif Require Import Arith ModelCalc ModelCut ModelHeap.
Import ListNotations.

Section SpecHeap.
Context {A : Arith} {St V C : Type}.
Variable dflt : V.
Variable sp : space_ops A St V C.

(** [xc] and [set_xc] read and write one attribute. *)
Definition xc_attribute : Prop :=
  (forall x s, sp_xc sp (sp_set_xc sp x s) = x) /\
  (forall s, sp_set_xc sp (sp_xc sp s) s = s) /\
  (forall x y s, sp_set_xc sp y (sp_set_xc sp x s) = sp_set_xc sp y s).

(** The value a search space object has in a heap. *)
Definition value_of (h : list V) (s : hspace (St:=St)) : St :=
  sp_set_xc sp (nth (snd s) h dflt) (fst s).

(** An oracle that only reads the array it is given. *)
Definition reads {Orc R : Type} (f : Orc -> V -> Orc * R) (o : Orc) (a : addr) (h : list V) : Orc * list V * R :=
  let '(o1, r) := f o (nth a h dflt) in (o1, h, r).
Definition reads_g {Orc G R : Type} (f : Orc -> V -> G -> Orc * R) (o : Orc) (a : addr) (g : G) (h : list V) : Orc * list V * R :=
  let '(o1, r) := f o (nth a h dflt) g in (o1, h, r).
(** ... and answers with a new array (discrete oracles). *)
Definition reads_q {Orc G : Type} (f : Orc -> V -> G -> bool -> Orc * res (C * V * option G * bool))
    (o : Orc) (a : addr) (g : G) (retry : bool) (h : list V) : Orc * list V * res (C * addr * option G * bool) :=
  let '(o1, r) := f o (nth a h dflt) g retry in
  match r with
  | Ok (c, x, v, alt) => (o1, h ++ [x], Ok (c, length h, v, alt))
  | Err e => (o1, h, Err e)
  end.

(** Reading the reference in an answer. *)
Definition deref (h : list V) (x : option addr) : option V := option_map (fun a => nth a h dflt) x.
Definition feas_res (h : list V) (r : res (option addr * Z)) : res (option V * Z) :=
  match r with Ok (x, k) => Ok (deref h x, k) | Err e => Err e end.
Definition optim_res {G : Type} (h : list V) (r : res (option addr * G * Z)) : res (option V * G * Z) :=
  match r with Ok (x, g, k) => Ok (deref h x, g, k) | Err e => Err e end.

(** What a run leaves in memory: the centre stays the array it was, which now
    holds the final centre; no other array of the caller is touched. *)
Definition only_centre_changed (s : hspace (St:=St)) (h : list V) (s' : hspace (St:=St)) (h' : list V) : Prop :=
  snd s' = snd s /\ nth (snd s) h' dflt = sp_xc sp (value_of h' s') /\
  (length h <= length h')%nat /\ forall b, (b < length h)%nat -> b <> snd s -> nth b h' dflt = nth b h dflt.
End SpecHeap.
