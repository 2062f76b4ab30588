(** Reference-level model of the drivers: arrays are heap cells, a search space
    refers to its centre array and updates it in place. *)
From Coq Require Import List Arith ZArith Bool.
From Verif Require Import Arith Vec ModelCalc ModelCut.
Import ListNotations.

Section Heap.
Context {A : Arith} {St V C : Type}.
Variable dflt : V.

(** Addresses are indices into the heap; arrays are never freed. *)
Definition addr : Type := nat.
Definition heap : Type := list V.
Definition hget (h : heap) (a : addr) : V := nth a h dflt.
Definition hset (h : heap) (a : addr) (v : V) : heap := upd h a v.
(** [copy.copy(arr)]: a new cell with the same contents *)
Definition halloc (h : heap) (v : V) : heap * addr := (h ++ [v], length h).

(** A search space object: its scalar/matrix attributes and the reference
    [_xc].  The value part is the value-level model with [_xc] read from the
    heap before each method call. *)
Definition hspace : Type := (St * addr)%type.
Variable sp : space_ops A St V C.

(** ell.py:88-95, ell_stable.py:81-86: [xc()] returns the array itself *)
Definition h_xc (s : hspace) : addr := snd s.
(** ell.py:97-104: [set_xc] stores the reference *)
Definition h_set_xc (a : addr) (s : hspace) : hspace := (fst s, a).
Definition h_tsq (s : hspace) : num A := sp_tsq sp (fst s).

(** The update methods: [self._xc -= ...] (ell.py:256, ell_stable.py:232)
    overwrites the cell in place. *)
Definition h_update (f : C -> St -> St * res cut_status) (c : C) (s : hspace) (h : heap)
  : hspace * heap * res cut_status :=
  let '(s1, r) := f c (sp_set_xc sp (hget h (snd s)) (fst s)) in
  ((s1, snd s), hset h (snd s) (sp_xc sp s1), r).

Variable opt : options A.

Definition h_stop (st : cut_status) (s : hspace) : bool :=
  negb (is_success st) || altb (h_tsq s) (tolerance opt).

(** ** cutting_plane_optim, cutting_plane.py:185-197, with references *)
Section Optim.
Context {Orc G : Type}.
(** the oracle receives the reference returned by [xc()] *)
Variable assess_optim : Orc -> addr -> G -> heap -> Orc * heap * res (C * option G).

Fixpoint h_optim_loop (fuel : nat) (niter : Z) (o : Orc) (s : hspace) (h : heap)
    (x_best : option addr) (gamma : G)
  : Orc * hspace * heap * res (option addr * G * Z) :=
  match fuel with
  | O => (o, s, h, Ok (x_best, gamma, max_iters opt))
  | S fuel' =>
      let '(o1, h1, r) := assess_optim o (h_xc s) gamma h in
      match r with
      | Err x => (o1, s, h1, Err x)
      | Ok (ct, gamma1) =>
          let '(x_best1, gamma', upd) :=
            match gamma1 with
            | Some g1 =>
                let '(h2, a) := halloc h1 (hget h1 (h_xc s)) in
                (Some a, g1, h_update (sp_central sp) ct s h2)
            | None => (x_best, gamma, h_update (sp_bias sp) ct s h1)
            end in
          let '(s1, h2, rs) := upd in
          match rs with
          | Err x => (o1, s1, h2, Err x)
          | Ok st =>
              if h_stop st s1 then (o1, s1, h2, Ok (x_best1, gamma', niter))
              else h_optim_loop fuel' (niter + 1)%Z o1 s1 h2 x_best1 gamma'
          end
      end
  end.

Definition h_cutting_plane_optim (o : Orc) (s : hspace) (h : heap) (gamma : G) :=
  h_optim_loop (budget opt) 0%Z o s h None gamma.
End Optim.

(** ** cutting_plane_optim_q, cutting_plane.py:272-292, with references:
    [x_best = x_q] stores the reference without copying *)
Section OptimQ.
Context {Orc G : Type}.
Variable assess_optim_q :
  Orc -> addr -> G -> bool -> heap -> Orc * heap * res (C * addr * option G * bool).

Fixpoint h_optim_q_loop (fuel : nat) (niter : Z) (o : Orc) (s : hspace) (h : heap)
    (x_best : option addr) (gamma : G) (retry : bool)
  : Orc * hspace * heap * res (option addr * G * Z) :=
  match fuel with
  | O => (o, s, h, Ok (x_best, gamma, max_iters opt))
  | S fuel' =>
      let '(o1, h1, r) := assess_optim_q o (h_xc s) gamma retry h in
      match r with
      | Err x => (o1, s, h1, Err x)
      | Ok (ct, x_q, gamma1, more_alt) =>
          let '(x_best1, gamma') :=
            match gamma1 with
            | Some g1 => (Some x_q, g1)
            | None => (x_best, gamma)
            end in
          let '(s1, h2, rs) := h_update (sp_q sp) ct s h1 in
          let continue_with (retry1 : bool) :=
            if altb (h_tsq s1) (tolerance opt)
            then (o1, s1, h2, Ok (x_best1, gamma', niter))
            else h_optim_q_loop fuel' (niter + 1)%Z o1 s1 h2 x_best1 gamma' retry1 in
          match rs with
          | Err x => (o1, s1, h2, Err x)
          | Ok Success => continue_with false
          | Ok NoSoln => (o1, s1, h2, Ok (x_best1, gamma', niter))
          | Ok NoEffect =>
              if negb more_alt then (o1, s1, h2, Ok (x_best1, gamma', niter))
              else continue_with true
          | Ok Unknown => continue_with retry
          end
      end
  end.

Definition h_cutting_plane_optim_q (o : Orc) (s : hspace) (h : heap) (gamma : G) :=
  h_optim_q_loop (budget opt) 0%Z o s h None gamma false.
End OptimQ.

(** ** cutting_plane_feas, cutting_plane.py:116-125, with references: the
    answer is the centre array itself *)
Section Feas.
Context {Orc : Type}.
Variable assess_feas : Orc -> addr -> heap -> Orc * heap * res (option C).

Fixpoint h_feas_loop (fuel : nat) (niter : Z) (o : Orc) (s : hspace) (h : heap)
  : Orc * hspace * heap * res (option addr * Z) :=
  match fuel with
  | O => (o, s, h, Ok (None, max_iters opt))
  | S fuel' =>
      let '(o1, h1, r) := assess_feas o (h_xc s) h in
      match r with
      | Err x => (o1, s, h1, Err x)
      | Ok None => (o1, s, h1, Ok (Some (h_xc s), niter))
      | Ok (Some ct) =>
          let '(s1, h2, rs) := h_update (sp_bias sp) ct s h1 in
          match rs with
          | Err x => (o1, s1, h2, Err x)
          | Ok st =>
              if h_stop st s1 then (o1, s1, h2, Ok (None, niter))
              else h_feas_loop fuel' (niter + 1)%Z o1 s1 h2
          end
      end
  end.

Definition h_cutting_plane_feas (o : Orc) (s : hspace) (h : heap) :=
  h_feas_loop (budget opt) 0%Z o s h.
End Feas.

(** ** BSearchAdaptor, cutting_plane.py:347-380, with references: the sub-run
    works on a deep copy of the space, [set_xc] stores the copy's centre array *)
Section Adaptor.
Context {Orc P : Type}.
Variable assess_feas : Orc -> addr -> heap -> Orc * heap * res (option C).
Variable update : P -> Orc -> Orc.

Definition h_assess_bs (ad : Orc * hspace) (gamma : P) (h : heap)
  : (Orc * hspace) * heap * res bool :=
  let '(o, s) := ad in
  let '(h1, a) := halloc h (hget h (h_xc s)) in
  let o1 := update gamma o in
  let '(o2, _, h2, r) := h_cutting_plane_feas assess_feas o1 (fst s, a) h1 in
  match r with
  | Err x => ((o2, s), h2, Err x)
  | Ok (Some x_feas, _) => ((o2, h_set_xc x_feas s), h2, Ok true)
  | Ok (None, _) => ((o2, s), h2, Ok false)
  end.

(** cutting_plane.py:360-363 *)
Definition h_x_best (ad : Orc * hspace) : addr := h_xc (snd ad).
End Adaptor.

End Heap.
