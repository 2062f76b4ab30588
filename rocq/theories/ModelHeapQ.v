(** Reference-level model of [ProfitQOracle], oracles/profit_oracle.py:250-301:
    which arrays it hands out and keeps. *)
From Coq Require Import List Arith ZArith Bool.
From Verif Require Import Arith Vec ModelCalc ModelEll ModelCut ModelHeap ModelProfit.
Import ListNotations.

Section HeapQ.
Context {A : Arith}.
Variable T : Trans A.

(** The object: the inner oracle and the reference [xd].  The inner oracle
    keeps no reference to an array it is given or hands out. *)
Definition hprofit_q : Type := (profit A * addr)%type.

(** profit_oracle.py:263-268: [xd] is a new array *)
Definition hprofit_q_init (params : num A * num A * num A) (elasticities price_out : vec A) (h : list (vec A))
  : list (vec A) * res hprofit_q :=
  match profit_init T params elasticities price_out with
  | Err e => (h, Err e)
  | Ok omega => let '(h1, xd) := halloc h [azero; azero] in (h1, Ok (omega, xd))
  end.

(** profit_oracle.py:298-301: [self.xd] itself is handed out *)
Definition hprofit_q_finish (o : hprofit_q) (a : addr) (gamma : num A) (retry : bool) (h : list (vec A))
  : hprofit_q * list (vec A) * res (cut A * addr * option (num A) * bool) :=
  let '(omega, xd) := o in
  let '(o1, r) := profit_q_finish T (mkProfitQ omega (hget [] h xd)) (hget [] h a) gamma retry in
  ((pq_omega o1, xd), h, let* v := r in let '(ct, _, g1, alt) := v in Ok (ct, xd, g1, alt)).

(** profit_oracle.py:270-301: an infeasible centre is handed back as it came
    (line 291), [self.xd = np.log(yd)] is a new array (line 296) *)
Definition hprofit_q_assess (o : hprofit_q) (a : addr) (gamma : num A) (retry : bool) (h : list (vec A))
  : hprofit_q * list (vec A) * res (cut A * addr * option (num A) * bool) :=
  if retry then hprofit_q_finish o a gamma retry h
  else
    let '(omega, xd) := o in
    let '(omega, r) := profit_assess_feas T omega (hget [] h a) gamma in
    match r with
    | Err e => ((omega, xd), h, Err e)
    | Ok (Some ct) => ((omega, xd), h, Ok (ct, a, None, true))
    | Ok None =>
        let '(h1, xd1) := halloc h (discretise T (hget [] h a)) in
        hprofit_q_finish (omega, xd1) a gamma retry h1
    end.

End HeapQ.
