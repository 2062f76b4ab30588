(** Model of the draft [ell_calc.tpy], an older calculator kept beside the
    sources. *)
From Coq Require Import List Arith Bool.
From Verif Require Import Arith ModelCalc.
Import ListNotations.

Section DraftCalc.
Context {A : Arith}.
Local Open Scope num_scope.

(** ell_calc.tpy:15-22 *)
Record tcalc : Type := mkTcalc {
  t_par : bool;
  t_n_f : num A;
  t_half_n : num A;
  t_cst0 : num A;
  t_cst1 : num A;
  t_cst2 : num A;
  t_cst3 : num A
}.

(** ell_calc.tpy:24-53; [x ** 2] is modelled as [x * x] throughout *)
Definition tcalc_init (n : nat) : res tcalc :=
  let nf := aofnat n in
  let* cst0 := pdiv aone (nf + aone) in
  let* cst1 := pdiv (nf * nf) (nf * nf - aone) in
  Ok (mkTcalc true nf (nf / atwo) cst0 cst1 (atwo * cst0) (nf * cst0)).

(** ell_calc.tpy:308-351 *)
Definition t_bias_cut_core (c : tcalc) (beta tau eta : num A) : res (stratres A) :=
  let rho := t_cst0 c * eta in
  let* sigma := pdiv (t_cst2 c * eta) (tau + beta) in
  let* alpha := pdiv beta tau in
  Ok (Success, Some (rho, sigma, t_cst1 c * (aone - alpha * alpha))).

(** ell_calc.tpy:270-306 *)
Definition t_bias_cut (c : tcalc) (beta tsq : num A) : res (stratres A) :=
  if azero <=? beta then
    if tsq <? beta * beta then Ok (NoSoln, None)
    else
      let* tau := psqrt tsq in
      t_bias_cut_core c beta tau (tau + t_n_f c * beta)
  else Err AssertionError.

(** ell_calc.tpy:165-211 *)
Definition t_parallel_core (c : tcalc) (beta0 beta1 b1sq b0b1 tsq : num A) : res (stratres A) :=
  let b0sq := beta0 * beta0 in
  let t0 := tsq - b0sq in
  let t1 := tsq - b1sq in
  let h := t_half_n c * (b1sq - b0sq) in
  let* xi := psqrt (t0 * t1 + h * h) in
  let bsumsq := b0sq + atwo * b0b1 + b1sq in
  let* q := pdiv (t_cst2 c * (tsq + b0b1 - xi)) bsumsq in
  let sigma := t_cst3 c + q in
  let rho := sigma * (beta0 + beta1) / atwo in
  let* q2 := pdiv xi (t_n_f c) in
  let* delta := pdiv (t_cst1 c * ((t0 + t1) / atwo + q2)) tsq in
  Ok (Success, Some (rho, sigma, delta)).

(** ell_calc.tpy:104-128 *)
Definition t_parallel (c : tcalc) (beta0 beta1 tsq : num A) : res (stratres A) :=
  if beta1 <? beta0 then Ok (NoSoln, None)
  else
    let b1sq := beta1 * beta1 in
    if (azero <? beta1) && (tsq <? b1sq) then t_bias_cut c beta0 tsq
    else t_parallel_core c beta0 beta1 b1sq (beta0 * beta1) tsq.

(** ell_calc.tpy:353-370 *)
Definition t_central_cut (c : tcalc) (tsq : num A) : res (stratres A) :=
  let* tau := psqrt tsq in
  Ok (Success, Some (t_cst0 c * tau, t_cst2 c, t_cst1 c)).

(** ell_calc.tpy:225-263 *)
Definition t_parallel_central_cut (c : tcalc) (beta1 tsq : num A) : res (stratres A) :=
  if beta1 <? azero then Ok (NoSoln, None)
  else
    let b1sq := beta1 * beta1 in
    if (tsq <? b1sq) || negb (t_par c) then t_central_cut c tsq
    else
      let* a1sq := pdiv b1sq tsq in
      let h := t_half_n c * a1sq in
      let* xi := psqrt (aone - a1sq + h * h) in
      let* q := pdiv (t_cst2 c * (aone - xi)) a1sq in
      let sigma := t_cst3 c + q in
      let rho := sigma * beta1 / atwo in
      let* q2 := pdiv xi (t_n_f c) in
      Ok (Success, Some (rho, sigma, t_cst1 c * (aone - a1sq / atwo + q2))).

(** ell_calc.tpy:426-455 *)
Definition t_bias_cut_q (c : tcalc) (beta tsq : num A) : res (stratres A) :=
  let* tau := psqrt tsq in
  if tau <? beta then Ok (NoSoln, None)
  else
    let eta := tau + t_n_f c * beta in
    if eta <=? azero then Ok (NoEffect, None)
    else t_bias_cut_core c beta tau eta.

(** ell_calc.tpy:397-424 *)
Definition t_parallel_q (c : tcalc) (beta0 beta1 tsq : num A) : res (stratres A) :=
  if beta1 <? beta0 then Ok (NoSoln, None)
  else
    let b1sq := beta1 * beta1 in
    if (azero <? beta1) && (tsq <? b1sq) then t_bias_cut_q c beta0 tsq
    else
      let b0b1 := beta0 * beta1 in
      if t_n_f c * b0b1 <? - tsq then Ok (NoEffect, None)
      else t_parallel_core c beta0 beta1 b1sq b0b1 tsq.

(** The dispatch of ell_calc.tpy:55-77 and 372-395; a bound that is [None]
    raises TypeError at the first comparison. *)
Definition t_dispatch (single : num A -> res (stratres A)) (par : num A -> num A -> res (stratres A))
    (c : tcalc) (beta : cutchoice A) : res (stratres A) :=
  match beta with
  | CSingle b => single b
  | CList l =>
      if Nat.ltb (length l) 2 || negb (t_par c) then let* b0 := beta_at0 l in single b0
      else
        match l with
        | Some b0 :: Some b1 :: _ => par b0 b1
        | _ => Err TypeError
        end
  end.

(** ell_calc.tpy:55-77 *)
Definition t_single_or_parallel (c : tcalc) (beta : cutchoice A) (tsq : num A) : res (stratres A) :=
  t_dispatch (fun b => t_bias_cut c b tsq) (fun b0 b1 => t_parallel c b0 b1 tsq) c beta.

(** ell_calc.tpy:372-395 *)
Definition t_single_or_parallel_q (c : tcalc) (beta : cutchoice A) (tsq : num A) : res (stratres A) :=
  t_dispatch (fun b => t_bias_cut_q c b tsq) (fun b0 b1 => t_parallel_q c b0 b1 tsq) c beta.

(** ell_calc.tpy:79-99 *)
Definition t_single_or_parallel_central_cut (c : tcalc) (beta : cutchoice A) (tsq : num A) : res (stratres A) :=
  match beta with
  | CSingle _ => t_central_cut c tsq
  | CList l =>
      if Nat.ltb (length l) 2 || negb (t_par c) then t_central_cut c tsq
      else
        match l with
        | _ :: Some b1 :: _ => t_parallel_central_cut c b1 tsq
        | _ => Err TypeError
        end
  end.

End DraftCalc.

Arguments tcalc : clear implicits.
