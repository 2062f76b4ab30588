(** Model of [cutting_plane.py]: the drivers, over arbitrary search spaces and
    arbitrary stateful oracles.

    Arrays are values here: [copy.copy], [copy.deepcopy] and plain assignment
    are all the identity.  The reference-level behaviour is modelled separately
    in [ModelHeap.v]. *)
From Coq Require Import List Arith ZArith Bool.
From Verif Require Import Arith ModelCalc.
Import ListNotations.

Section Drivers.
Context {A : Arith}.           (* the type of tsq and tolerance *)
Context {St V C : Type}.        (* search space state, points, cuts *)

(** The [SearchSpace] interface, ell_typing.py:128-163. *)
Record space_ops : Type := mkSpace {
  sp_xc : St -> V;
  sp_tsq : St -> num A;
  sp_bias : C -> St -> St * res cut_status;
  sp_central : C -> St -> St * res cut_status;
  sp_q : C -> St -> St * res cut_status;
  sp_set_xc : V -> St -> St
}.

(** ell_config.py:33-44; [verbose] is never read *)
Record options : Type := mkOptions {
  max_iters : Z;
  tolerance : num A
}.

(** Number of iterations of [for niter in range(max_iters)]. *)
Definition budget (opt : options) : nat := Z.to_nat (max_iters opt).

(** cutting_plane.py:123, 195: [status != Success or tsq < tolerance] *)
Definition stop_test (sp : space_ops) (opt : options) (st : cut_status) (s : St) : bool :=
  negb (is_success st) || altb (sp_tsq sp s) (tolerance opt).

(** ** cutting_plane_feas *)
Section Feas.
Context {Orc : Type}.
(** [omega.assess_feas], may change the oracle and may raise *)
Variable assess_feas : Orc -> V -> Orc * res (option C).
Variable sp : space_ops.
Variable opt : options.

(** cutting_plane.py:116-125 *)
Fixpoint feas_loop (fuel : nat) (niter : Z) (o : Orc) (s : St)
  : Orc * St * res (option V * Z) :=
  match fuel with
  | O => (o, s, Ok (None, max_iters opt))
  | S fuel' =>
      let '(o1, r) := assess_feas o (sp_xc sp s) in
      match r with
      | Err x => (o1, s, Err x)
      | Ok None => (o1, s, Ok (Some (sp_xc sp s), niter))
      | Ok (Some ct) =>
          let '(s1, rs) := sp_bias sp ct s in
          match rs with
          | Err x => (o1, s1, Err x)
          | Ok st =>
              if stop_test sp opt st s1 then (o1, s1, Ok (None, niter))
              else feas_loop fuel' (niter + 1)%Z o1 s1
          end
      end
  end.

(** cutting_plane.py:37-125.  When [max_iters] is negative the loop body never
    runs and [max_iters] itself is returned. *)
Definition cutting_plane_feas (o : Orc) (s : St) : Orc * St * res (option V * Z) :=
  feas_loop (budget opt) 0%Z o s.

End Feas.

(** ** cutting_plane_optim *)
Section Optim.
Context {Orc G : Type}.
(** [omega.assess_optim] *)
Variable assess_optim : Orc -> V -> G -> Orc * res (C * option G).
Variable sp : space_ops.
Variable opt : options.

(** cutting_plane.py:186-197 *)
Fixpoint optim_loop (fuel : nat) (niter : Z) (o : Orc) (s : St) (x_best : option V) (gamma : G)
  : Orc * St * res (option V * G * Z) :=
  match fuel with
  | O => (o, s, Ok (x_best, gamma, max_iters opt))
  | S fuel' =>
      let '(o1, r) := assess_optim o (sp_xc sp s) gamma in
      match r with
      | Err x => (o1, s, Err x)
      | Ok (ct, gamma1) =>
          let '(x_best1, gamma', upd) :=
            match gamma1 with
            | Some g1 => (Some (sp_xc sp s), g1, sp_central sp ct s)
            | None => (x_best, gamma, sp_bias sp ct s)
            end in
          let '(s1, rs) := upd in
          match rs with
          | Err x => (o1, s1, Err x)
          | Ok st =>
              if stop_test sp opt st s1 then (o1, s1, Ok (x_best1, gamma', niter))
              else optim_loop fuel' (niter + 1)%Z o1 s1 x_best1 gamma'
          end
      end
  end.

(** cutting_plane.py:128-197 *)
Definition cutting_plane_optim (o : Orc) (s : St) (gamma : G)
  : Orc * St * res (option V * G * Z) :=
  optim_loop (budget opt) 0%Z o s None gamma.

End Optim.

(** ** cutting_plane_optim_q *)
Section OptimQ.
Context {Orc G : Type}.
(** [omega.assess_optim_q] *)
Variable assess_optim_q : Orc -> V -> G -> bool -> Orc * res (C * V * option G * bool).
Variable sp : space_ops.
Variable opt : options.

(** cutting_plane.py:274-292 *)
Fixpoint optim_q_loop (fuel : nat) (niter : Z) (o : Orc) (s : St)
    (x_best : option V) (gamma : G) (retry : bool)
  : Orc * St * res (option V * G * Z) :=
  match fuel with
  | O => (o, s, Ok (x_best, gamma, max_iters opt))
  | S fuel' =>
      let '(o1, r) := assess_optim_q o (sp_xc sp s) gamma retry in
      match r with
      | Err x => (o1, s, Err x)
      | Ok (ct, x_q, gamma1, more_alt) =>
          let '(x_best1, gamma') :=
            match gamma1 with
            | Some g1 => (Some x_q, g1)
            | None => (x_best, gamma)
            end in
          let '(s1, rs) := sp_q sp ct s in
          let continue_with (retry1 : bool) :=
            if altb (sp_tsq sp s1) (tolerance opt)
            then (o1, s1, Ok (x_best1, gamma', niter))
            else optim_q_loop fuel' (niter + 1)%Z o1 s1 x_best1 gamma' retry1 in
          match rs with
          | Err x => (o1, s1, Err x)
          | Ok Success => continue_with false
          | Ok NoSoln => (o1, s1, Ok (x_best1, gamma', niter))
          | Ok NoEffect =>
              if negb more_alt then (o1, s1, Ok (x_best1, gamma', niter))
              else continue_with true
          | Ok Unknown => continue_with retry
          end
      end
  end.

(** cutting_plane.py:244-292 *)
Definition cutting_plane_optim_q (o : Orc) (s : St) (gamma : G)
  : Orc * St * res (option V * G * Z) :=
  optim_q_loop (budget opt) 0%Z o s None gamma false.

End OptimQ.

End Drivers.

Arguments space_ops : clear implicits.
Arguments options : clear implicits.
Arguments mkSpace {A St V C}.
Arguments mkOptions {A}.

(** ** bsearch *)
Section BSearch.
Context {B N : Type}.
(** [omega.assess_bs] *)
Variable assess_bs : B -> N -> B * res bool.
(** [(upper - lower) / 2 < tolerance] and [T(lower + tau)]; these are the only
    places where the number type enters. *)
Variable narrow : N -> N -> bool.
Variable mid : N -> N -> N.
Variable maxit : Z.

(** cutting_plane.py:326-335 *)
Fixpoint bsearch_loop (fuel : nat) (niter : Z) (o : B) (lower upper : N)
  : B * res (N * Z) :=
  match fuel with
  | O => (o, Ok (upper, maxit))
  | S fuel' =>
      if narrow lower upper then (o, Ok (upper, niter))
      else
        let gamma := mid lower upper in
        let '(o1, r) := assess_bs o gamma in
        match r with
        | Err x => (o1, Err x)
        | Ok true => bsearch_loop fuel' (niter + 1)%Z o1 lower gamma
        | Ok false => bsearch_loop fuel' (niter + 1)%Z o1 gamma upper
        end
  end.

(** cutting_plane.py:295-335 *)
Definition bsearch (o : B) (lower upper : N) : B * res (N * Z) :=
  bsearch_loop (Z.to_nat maxit) 0%Z o lower upper.

End BSearch.

(** cutting_plane.py:327-330 for float bounds ([T = float]) *)
Section BSearchNum.
Context {A : Arith}.
Local Open Scope num_scope.
Definition narrow_num (tol : num A) (lower upper : num A) : bool :=
  (upper - lower) / atwo <? tol.
Definition mid_num (lower upper : num A) : num A := lower + (upper - lower) / atwo.
End BSearchNum.

(** cutting_plane.py:327-330 for int bounds ([T = int]): [tau] is a true
    division and [int()] truncates toward zero, so [int(lower + tau)] is the
    truncated quotient of [lower + upper] by 2.  (Exact as long as the ints are
    below 2^53, where Python's true division is exact.)  The tolerance is given
    as a fraction [tn/td], [td > 0]. *)
Definition narrow_int (tn : Z) (td : positive) (lower upper : Z) : bool :=
  ((upper - lower) * Zpos td <? 2 * tn)%Z.
Definition mid_int (lower upper : Z) : Z := Z.quot (lower + upper) 2.

(** ** BSearchAdaptor *)
Section Adaptor.
Context {A : Arith} {St V C Orc G : Type}.
Variable assess_feas : Orc -> V -> Orc * res (option C).
(** [omega.update(gamma)], ell_typing.py:51 *)
Variable update : G -> Orc -> Orc.
Variable sp : space_ops A St V C.
Variable opt : options A.

(** cutting_plane.py:365-380; the adaptor object is the pair (omega, space).
    [copy.deepcopy] of the space is the identity on values: the sub-run works
    on its own [St] value. *)
Definition assess_bs (ad : Orc * St) (gamma : G) : (Orc * St) * res bool :=
  let '(o, s) := ad in
  let o1 := update gamma o in
  let '(o2, _, r) := cutting_plane_feas assess_feas sp opt o1 s in
  match r with
  | Err x => ((o2, s), Err x)
  | Ok (Some x_feas, _) => ((o2, sp_set_xc sp x_feas s), Ok true)
  | Ok (None, _) => ((o2, s), Ok false)
  end.

(** cutting_plane.py:360-363 *)
Definition x_best (ad : Orc * St) : V := sp_xc sp (snd ad).

End Adaptor.
