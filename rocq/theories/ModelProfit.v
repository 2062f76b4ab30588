(** Model of [oracles/profit_oracle.py]. *)
From Coq Require Import List Arith ZArith Bool Reals.
From Verif Require Import Arith Vec Broadcast ModelCalc ModelEll.
Import ListNotations.

(** [np.exp]/[math.exp], the logarithm, and [np.round] *)
Record Trans (A : Arith) : Type := mkTrans {
  texp : num A -> num A;
  tlog : num A -> num A;
  tround : num A -> num A
}.
Arguments texp {A} _ _.
Arguments tlog {A} _ _.
Arguments tround {A} _ _.

(** [np.round]: to the nearest integer, ties to the even one *)
Definition Rround (x : R) : R :=
  let k := Int_part x in
  if Rlt_dec (frac_part x) (1 / 2) then IZR k
  else if Rlt_dec (1 / 2) (frac_part x) then IZR (k + 1)
  else if Z.even k then IZR k else IZR (k + 1).

Definition RT : Trans RA := mkTrans RA exp ln Rround.

Section Profit.
Context {A : Arith}.
Variable T : Trans A.
Local Open Scope num_scope.

(** [math.log]: raises ValueError unless the argument is positive. *)
Definition plog (x : num A) : res (num A) :=
  if x <=? azero then Err ValueError else Ok (tlog T x).

(** ** ProfitOracle, profit_oracle.py:30-187.  The attributes [log_Cobb], [q]
    and [vy] do not exist before the first call of [fn2]; the tuples [fns] and
    [grads] are constant and dispatched on below. *)
Record profit : Type := mkProfit {
  p_idx : Z;
  p_cobb : option (num A);
  p_q : option (vec A);
  p_vy : option (num A);
  p_logpa : num A;
  p_logk : num A;
  p_price : vec A;
  p_elast : vec A
}.

Definition set_idx (o : profit) (i : Z) : profit :=
  mkProfit i (p_cobb o) (p_q o) (p_vy o) (p_logpa o) (p_logk o) (p_price o) (p_elast o).
Definition set_cobb (o : profit) (c : num A) : profit :=
  mkProfit (p_idx o) (Some c) (p_q o) (p_vy o) (p_logpa o) (p_logk o) (p_price o) (p_elast o).
Definition set_q (o : profit) (q : vec A) : profit :=
  mkProfit (p_idx o) (p_cobb o) (Some q) (p_vy o) (p_logpa o) (p_logk o) (p_price o) (p_elast o).
Definition set_vy (o : profit) (v : num A) : profit :=
  mkProfit (p_idx o) (p_cobb o) (p_q o) (Some v) (p_logpa o) (p_logk o) (p_price o) (p_elast o).
Definition set_elast (o : profit) (e : vec A) : profit :=
  mkProfit (p_idx o) (p_cobb o) (p_q o) (p_vy o) (p_logpa o) (p_logk o) (p_price o) e.

(** profit_oracle.py:59-82 *)
Definition profit_init (params : num A * num A * num A) (elasticities price_out : vec A) : res profit :=
  let '(unit_price, scale, limit) := params in
  let* log_pa := plog (unit_price * scale) in
  let* log_k := plog limit in
  Ok (mkProfit (-1) None None None log_pa log_k price_out elasticities).

(** profit_oracle.py:84-94 *)
Definition fn1 (o : profit) (x : vec A) : res (num A) :=
  match x with
  | [] => Err IndexError
  | x0 :: _ => Ok (x0 - p_logk o)
  end.

(** profit_oracle.py:96-113.  [ndarray.dot] does not stretch. *)
Definition fn2 (o : profit) (x : vec A) (gamma : num A) : profit * res (num A) :=
  if negb (Nat.eqb (length (p_elast o)) (length x)) then (o, Err ValueError) else
  let cobb := p_logpa o + vdot (p_elast o) x in
  let o := set_cobb o cobb in
  match bcast2 amul (p_price o) (map (texp T) x) with
  | Err e => (o, Err e)
  | Ok q =>
      let o := set_q o q in
      match q with
      | q0 :: q1 :: _ =>
          let vy := q0 + q1 in
          let o := set_vy o vy in
          (o, let* l := plog (gamma + vy) in Ok (l - cobb))
      | _ => (o, Err IndexError)
      end
  end.

(** profit_oracle.py:115-121 *)
Definition grad1 : vec A := [aone; azero].

(** [self.q / d - self.elasticities]; numpy scalars, no exception.  [d] is
    positive whenever the code reaches it (see DESIGN.md). *)
Definition quot_minus (q : vec A) (d : num A) (e : vec A) : res (vec A) :=
  bcast2 asub (map (fun a => a / d) q) e.

(** profit_oracle.py:123-134 *)
Definition grad2 (o : profit) (gamma : num A) : res (vec A) :=
  match p_q o, p_vy o with
  | Some q, Some vy => quot_minus q (gamma + vy) (p_elast o)
  | _, _ => Err AttributeError
  end.

(** [self.fns[i]], [self.grads[i]] on tuples of length two *)
Definition fns (i : Z) (o : profit) (x : vec A) (gamma : num A) : profit * res (num A) :=
  if Z.eqb i 0 || Z.eqb i (-2) then (o, fn1 o x)
  else if Z.eqb i 1 || Z.eqb i (-1) then fn2 o x gamma
  else (o, Err IndexError).
Definition grads (i : Z) (o : profit) (gamma : num A) : res (vec A) :=
  if Z.eqb i 0 || Z.eqb i (-2) then Ok grad1
  else if Z.eqb i 1 || Z.eqb i (-1) then grad2 o gamma
  else Err IndexError.

(** profit_oracle.py:151-156, one pass of the loop *)
Definition profit_round (o : profit) (xc : vec A) (gamma : num A) : profit * res (option (cut A)) :=
  let i := (p_idx o + 1)%Z in
  let i := if Z.eqb i 2 then 0%Z else i in
  let o := set_idx o i in
  let '(o, r) := fns i o xc gamma in
  match r with
  | Err e => (o, Err e)
  | Ok fj =>
      if azero <? fj then (o, let* g := grads i o gamma in Ok (Some (g, CSingle fj)))
      else (o, Ok None)
  end.

(** profit_oracle.py:136-157 *)
Definition profit_assess_feas (o : profit) (xc : vec A) (gamma : num A) : profit * res (option (cut A)) :=
  let '(o, r) := profit_round o xc gamma in
  match r with
  | Ok None => profit_round o xc gamma
  | _ => (o, r)
  end.

(** profit_oracle.py:159-187 *)
Definition profit_assess_optim (o : profit) (xc : vec A) (gamma : num A)
  : profit * res (cut A * option (num A)) :=
  let '(o, r) := profit_assess_feas o xc gamma in
  match r with
  | Err e => (o, Err e)
  | Ok (Some ct) => (o, Ok (ct, None))
  | Ok None =>
      match p_cobb o, p_vy o, p_q o with
      | Some cobb, Some vy, Some q =>
          let gamma := texp T cobb - vy in
          (o, let* g := quot_minus q (gamma + vy) (p_elast o) in Ok ((g, CSingle azero), Some gamma))
      | _, _, _ => (o, Err AttributeError)
      end
  end.

(** ** ProfitRbOracle, profit_oracle.py:190-247 *)
Record profit_rb : Type := mkProfitRb {
  rb_elast : vec A;
  rb_uie : num A * num A;
  rb_omega : profit
}.

(** profit_oracle.py:202-233 *)
Definition profit_rb_init (params : num A * num A * num A) (elasticities price_out : vec A)
    (vparams : num A * num A * num A * num A * num A) : res profit_rb :=
  let '(e1, e2, e3, e4, e5) := vparams in
  let '(unit_price, scale, limit) := params in
  let* price := bcast2 aadd price_out [e5; e5] in
  let* omega := profit_init (unit_price - e3, scale, limit - e4) elasticities price in
  Ok (mkProfitRb elasticities (e1, e2) omega).

(** profit_oracle.py:242-245 *)
Definition rb_shift (u x : num A) : num A := if azero <? x then - u else u.

(** profit_oracle.py:235-247 *)
Definition profit_rb_assess_optim (o : profit_rb) (xc : vec A) (gamma : num A)
  : profit_rb * res (cut A * option (num A)) :=
  match rb_elast o, xc with
  | a0 :: a1 :: rest, x0 :: x1 :: _ =>
      let a_rb := (a0 + rb_shift (fst (rb_uie o)) x0) :: (a1 + rb_shift (snd (rb_uie o)) x1) :: rest in
      let omega := set_elast (rb_omega o) a_rb in
      let '(omega, r) := profit_assess_optim omega xc gamma in
      (mkProfitRb (rb_elast o) (rb_uie o) omega, r)
  | _, _ => (o, Err IndexError)
  end.

(** ** ProfitQOracle, profit_oracle.py:250-301 *)
Record profit_disc : Type := mkProfitQ {
  pq_omega : profit;
  pq_xd : vec A
}.

(** profit_oracle.py:263-268 *)
Definition profit_q_init (params : num A * num A * num A) (elasticities price_out : vec A) : res profit_disc :=
  let* omega := profit_init params elasticities price_out in
  Ok (mkProfitQ omega [azero; azero]).

(** profit_oracle.py:293-296: round, replace 0 by 1, back to log space *)
Definition discretise (xc : vec A) : vec A :=
  map (fun x => let y := tround T (texp T x) in tlog T (if y =? azero then aone else y)) xc.

(** profit_oracle.py:298-301.  [beta] is a number in all cuts of [omega]. *)
Definition profit_q_finish (o : profit_disc) (xc : vec A) (gamma : num A) (retry : bool)
  : profit_disc * res (cut A * vec A * option (num A) * bool) :=
  let xd := pq_xd o in
  let '(omega, r) := profit_assess_optim (pq_omega o) xd gamma in
  let o := mkProfitQ omega xd in
  match r with
  | Err e => (o, Err e)
  | Ok ((g, CSingle beta), gamma_new) =>
      (o, let* d := bcast2 asub xd xc in
          if Nat.eqb (length g) (length d) then Ok ((g, CSingle (beta + vdot g d)), xd, gamma_new, negb retry)
          else Err ValueError)
  | Ok ((_, CList _), _) => (o, Err TypeError)
  end.

(** profit_oracle.py:270-301 *)
Definition profit_assess_optim_q (o : profit_disc) (xc : vec A) (gamma : num A) (retry : bool)
  : profit_disc * res (cut A * vec A * option (num A) * bool) :=
  if retry then profit_q_finish o xc gamma retry
  else
    let '(omega, r) := profit_assess_feas (pq_omega o) xc gamma in
    match r with
    | Err e => (mkProfitQ omega (pq_xd o), Err e)
    | Ok (Some ct) => (mkProfitQ omega (pq_xd o), Ok (ct, xc, None, true))
    | Ok None => profit_q_finish (mkProfitQ omega (discretise xc)) xc gamma retry
    end.

End Profit.

Arguments profit : clear implicits.
Arguments profit_rb : clear implicits.
Arguments profit_disc : clear implicits.
