(** Observers for the drivers: an oracle or a search space wrapped so that it
    records every call.  The wrapped objects are again legal oracles and
    spaces, so the drivers can be run on them; the records (newest first) are
    what the properties talk about. *)
From Coq Require Import List Arith ZArith Bool.
From Verif Require Import Arith ModelCalc ModelCut.
Import ListNotations.

Section Observers.
Context {A : Arith} {St V C Orc G : Type}.

Inductive op_kind : Type := OpBias | OpCentral | OpQ.

(** One update of the space: which method, the cut, the outcome, and [tsq()] afterwards. *)
Record upd_event : Type := mkEv {
  ev_kind : op_kind;
  ev_cut : C;
  ev_res : res cut_status;
  ev_tsq : num A
}.

(** The update neither failed nor gave a reason to stop. *)
Definition went_on (tol : num A) (e : upd_event) : Prop :=
  ev_res e = Ok Success /\ altb (ev_tsq e) tol = false.

Definition log_upd (k : op_kind) (f : C -> St -> St * res cut_status) (tsq : St -> num A)
    (c : C) (s : St * list upd_event) : (St * list upd_event) * res cut_status :=
  let '(s1, r) := f c (fst s) in ((s1, mkEv k c r (tsq s1) :: snd s), r).

Definition logged_space (sp : space_ops A St V C)
  : space_ops A (St * list upd_event) V C :=
  mkSpace (fun s => sp_xc sp (fst s)) (fun s => sp_tsq sp (fst s))
          (log_upd OpBias (sp_bias sp) (sp_tsq sp))
          (log_upd OpCentral (sp_central sp) (sp_tsq sp))
          (log_upd OpQ (sp_q sp) (sp_tsq sp))
          (fun x s => (sp_set_xc sp x (fst s), snd s)).

(** [assess_feas] calls: the point and the answer. *)
Definition logged_feas (f : Orc -> V -> Orc * res (option C))
    (o : Orc * list (V * res (option C))) (x : V)
  : (Orc * list (V * res (option C))) * res (option C) :=
  let '(o1, r) := f (fst o) x in ((o1, (x, r) :: snd o), r).

(** [assess_optim] calls: the point, the gamma passed in, the answer. *)
Definition logged_optim (f : Orc -> V -> G -> Orc * res (C * option G))
    (o : Orc * list (V * G * res (C * option G))) (x : V) (g : G)
  : (Orc * list (V * G * res (C * option G))) * res (C * option G) :=
  let '(o1, r) := f (fst o) x g in ((o1, (x, g, r) :: snd o), r).

(** [assess_optim_q] calls: gamma, the retry flag, the answer. *)
Definition logged_q (f : Orc -> V -> G -> bool -> Orc * res (C * V * option G * bool))
    (o : Orc * list (V * G * bool * res (C * V * option G * bool))) (x : V) (g : G) (b : bool)
  : (Orc * list (V * G * bool * res (C * V * option G * bool)))
    * res (C * V * option G * bool) :=
  let '(o1, r) := f (fst o) x g b in ((o1, (x, g, b, r) :: snd o), r).

(** The value carried by an [assess_optim] / [assess_optim_q] answer. *)
Definition value_of (q : V * G * res (C * option G)) : option G :=
  match snd q with Ok (_, v) => v | Err _ => None end.
Definition value_of_q (q : V * G * bool * res (C * V * option G * bool)) : option G :=
  match snd q with Ok (_, _, v, _) => v | Err _ => None end.

(** [assess_bs] calls *)
Definition logged_bs {B N : Type} (f : B -> N -> B * res bool) (o : B * list (N * res bool)) (x : N)
  : (B * list (N * res bool)) * res bool :=
  let '(o1, r) := f (fst o) x in ((o1, (x, r) :: snd o), r).

Notation ev := upd_event.
(** the update [e] applies the cut the query [q] returned *)
Definition feas_match (q : V * res (option C)) (e : upd_event) : Prop :=
  ev_kind e = OpBias /\ snd q = Ok (Some (ev_cut e)).

Notation qry := (V * G * res (C * option G))%type.

(** the update [e] applies the cut of the answer, centrally iff it carries a value *)
Definition optim_match (q : qry) (e : ev) : Prop :=
  (exists v, snd q = Ok (ev_cut e, Some v) /\ ev_kind e = OpCentral) \/
  (snd q = Ok (ev_cut e, None) /\ ev_kind e = OpBias).

(** the pair (best point, best value) after the queries [l] (newest first) *)
Fixpoint last_value (l : list qry) (xb : option V) (g : G) : option V * G :=
  match l with
  | [] => (xb, g)
  | q :: l' => match value_of q with
               | Some v => (Some (fst (fst q)), v)
               | None => last_value l' xb g
               end
  end.

(** every query was given the value current at its time *)
Fixpoint gammas_ok (l : list qry) (g : G) : Prop :=
  match l with
  | [] => True
  | q :: l' => snd (fst q) = snd (last_value l' None g) /\ gammas_ok l' g
  end.

Notation qqry := (V * G * bool * res (C * V * option G * bool))%type.

Definition q_retry (q : qqry) : bool := snd (fst q).
Definition q_gamma (q : qqry) : G := snd (fst (fst q)).

(** the update applies the cut of the answer; the answer announced [alt] *)
Definition q_match (q : qqry) (e : ev) (alt : bool) : Prop :=
  ev_kind e = OpQ /\ exists x v, snd q = Ok (ev_cut e, x, v, alt).

(** the run goes on after a status *)
Definition q_continues (tol : num A) (alt : bool) (e : ev) : Prop :=
  altb (ev_tsq e) tol = false /\
  (ev_res e = Ok Success \/ ev_res e = Ok Unknown \/ (ev_res e = Ok NoEffect /\ alt = true)).

Definition retry_after (lq : list qqry) (le : list ev) : bool :=
  match lq, le with
  | q :: _, e :: _ =>
      match ev_res e with
      | Ok NoEffect => true
      | Ok Unknown => q_retry q
      | _ => false
      end
  | _, _ => false
  end.

Fixpoint last_value_q (l : list qqry) (g : G) : option V * G :=
  match l with
  | [] => (None, g)
  | (_, Ok (_, x, Some v, _)) :: _ => (Some x, v)
  | _ :: l' => last_value_q l' g
  end.

(** rounds (newest first) all of which continued *)
Inductive q_history (tol : num A) (g0 : G) : list qqry -> list ev -> Prop :=
| qh_nil : q_history tol g0 [] []
| qh_cons q e alt lq le :
    q_history tol g0 lq le -> q_match q e alt ->
    q_retry q = retry_after lq le -> q_gamma q = snd (last_value_q lq g0) ->
    q_continues tol alt e ->
    q_history tol g0 (q :: lq) (e :: le).

End Observers.
Arguments upd_event : clear implicits.

(** ** bsearch observations (newest first) *)
Section BSObs.
Context {N : Type}.
Variable narrow : N -> N -> bool.
Variable mid : N -> N -> N.
Notation blog := (list (N * res bool)).

(** newest rejected / accepted value, or the initial bound *)
Fixpoint lo_end (l : blog) (lo : N) : N :=
  match l with
  | [] => lo
  | (x, Ok false) :: _ => x
  | _ :: l' => lo_end l' lo
  end.
Fixpoint up_end (l : blog) (up : N) : N :=
  match l with
  | [] => up
  | (x, Ok true) :: _ => x
  | _ :: l' => up_end l' up
  end.

(** every query is the middle of the bracket certified so far *)
Fixpoint bs_queries_ok (l : blog) (lo up : N) : Prop :=
  match l with
  | [] => True
  | (x, _) :: l' =>
      x = mid (lo_end l' lo) (up_end l' up) /\
      narrow (lo_end l' lo) (up_end l' up) = false /\ bs_queries_ok l' lo up
  end.

Definition answered (q : N * res bool) : Prop := exists b, snd q = Ok b.

End BSObs.
