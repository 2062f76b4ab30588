(** Model of [ell_config.py], [ell_calc_core.py] and [ell_calc.py]. *)
From Coq Require Import List Arith Bool.
From Verif Require Import Arith Vec.
Import ListNotations.

(** ell_config.py:14-30 *)
Inductive cut_status : Type := Success | NoSoln | NoEffect | Unknown.

Definition is_success (s : cut_status) : bool :=
  match s with Success => true | _ => false end.

Section Calc.
Context {A : Arith}.
Local Open Scope num_scope.

(** The [beta] of a cut: a single number or a sequence, whose entries may be
    [None] (ell_typing.py, [CutChoice]; the code asserts [beta[1] is not None]). *)
Inductive cutchoice : Type :=
| CSingle : num A -> cutchoice
| CList : list (option (num A)) -> cutchoice.

(** Result triple (rho, sigma, delta). *)
Definition triple : Type := (num A * num A * num A)%type.

(** ** EllCalcCore *)

(** ell_calc_core.py:41-47, the attributes *)
Record core : Type := mkCore {
  n_f : num A;
  half_n : num A;
  n_plus_1 : num A;
  inv_n : num A;
  n_sq : num A;
  cst0 : num A;
  cst1 : num A;
  cst2 : num A;
  cst3 : num A
}.

(** ell_calc_core.py:49-85, [__init__] *)
Definition core_init (nf : num A) : res core :=
  let half_n := nf / atwo in
  let n_plus_1 := nf + aone in
  let* inv_n := pdiv aone nf in
  let n_sq := nf * nf in
  let* cst0 := pdiv aone n_plus_1 in
  let* cst1 := pdiv n_sq (n_sq - aone) in
  let cst2 := atwo * cst0 in
  let cst3 := nf * cst0 in
  Ok (mkCore nf half_n n_plus_1 inv_n n_sq cst0 cst1 cst2 cst3).

(** ell_calc_core.py:87-113 *)
Definition core_central_cut (c : core) (tau : num A) : triple :=
  (cst0 c * tau, cst2 c, cst1 c).

(** ell_calc_core.py:115-165 *)
Definition core_bias_cut_fast (c : core) (beta tau eta : num A) : res triple :=
  let* alpha := pdiv beta tau in
  let rho := cst0 c * eta in
  let* sigma := pdiv (cst2 c * eta) (tau + beta) in
  let delta := cst1 c * (aone - alpha) * (aone + alpha) in
  Ok (rho, sigma, delta).

(** ell_calc_core.py:167-209 *)
Definition core_bias_cut (c : core) (beta tau : num A) : res triple :=
  core_bias_cut_fast c beta tau (tau + n_f c * beta).

(** ell_calc_core.py:211-261 *)
Definition core_parallel_central_cut (c : core) (beta1 tsq : num A) : res triple :=
  let* a1sq := pdiv (beta1 * beta1) tsq in
  let k := half_n c * a1sq in
  let* s := psqrt (aone - a1sq + k * k) in
  let r := k + s in
  let* rho := pdiv beta1 (r + aone) in
  let* sigma := pdiv atwo (r + aone) in
  let* delta := pdiv r (r - inv_n c) in
  Ok (rho, sigma, delta).

(** ell_calc_core.py:263-315; [x ** 2] is modelled as [x * x] *)
Definition core_parallel_central_cut_old (c : core) (beta1 tsq : num A) : res triple :=
  let b1sq := beta1 * beta1 in
  let* a1sq := pdiv b1sq tsq in
  let h := half_n c * a1sq in
  let* xi := psqrt (aone - a1sq + h * h) in
  let* q := pdiv (cst2 c * (aone - xi)) a1sq in
  let sigma := cst3 c + q in
  let rho := sigma * beta1 / atwo in
  let* q2 := pdiv xi (n_f c) in
  let delta := cst1 c * (aone - a1sq / atwo + q2) in
  Ok (rho, sigma, delta).

(** ell_calc_core.py:443-487 *)
Definition core_parallel_bias_cut_fast
    (c : core) (beta0 beta1 tsq b0b1 eta : num A) : res triple :=
  let b0sq := beta0 * beta0 in
  let b1sq := beta1 * beta1 in
  let zeta0 := tsq - b0sq in
  let zeta1 := tsq - b1sq in
  let h := half_n c * (b1sq - b0sq) in
  let* xi := psqrt (zeta0 * zeta1 + h * h) in
  let bsum := beta0 + beta1 in
  let bsumsq := bsum * bsum in
  let* sigma := pdiv (atwo * eta) (tsq + b0b1 + half_n c * bsumsq + xi) in
  let rho := sigma * (beta0 + beta1) / atwo in
  let* q := pdiv xi (n_f c) in
  let* delta := pdiv (cst1 c * ((zeta0 + zeta1) / atwo + q)) tsq in
  Ok (rho, sigma, delta).

(** ell_calc_core.py:317-373 *)
Definition core_parallel_bias_cut (c : core) (beta0 beta1 tsq : num A) : res triple :=
  let b0b1 := beta0 * beta1 in
  core_parallel_bias_cut_fast c beta0 beta1 tsq b0b1 (tsq + n_f c * b0b1).

(** ell_calc_core.py:375-441 *)
Definition core_parallel_bias_cut_fast_old
    (c : core) (beta0 beta1 tsq b0b1 eta : num A) : res triple :=
  let bavg := ahalf * (beta0 + beta1) in
  let bavgsq := bavg * bavg in
  let h := ahalf * (tsq + b0b1) + n_f c * bavgsq in
  let gamma_q := h * h - n_plus_1 c * eta * bavgsq in
  let gamma_q := if gamma_q <? azero then azero else gamma_q in
  let* s := psqrt gamma_q in
  let k := h + s in
  if k <=? eta then
    let* tau := psqrt tsq in Ok (core_central_cut c tau)
  else
    let* sigma := pdiv eta k in
    let* inv_mu := pdiv eta (k - eta) in
    let rho := bavg * sigma in
    let* delta := pdiv (tsq + inv_mu * (bavgsq * sigma - b0b1)) tsq in
    Ok (rho, sigma, delta).

(** ell_calc_core.py:489-537 *)
Definition core_parallel_bias_cut_fast2
    (c : core) (beta0 beta1 tsq b0b1 eta : num A) : res triple :=
  let b0sq := beta0 * beta0 in
  let b1sq := beta1 * beta1 in
  let zeta0 := tsq - b0sq in
  let zeta1 := tsq - b1sq in
  let h := half_n c * (b1sq - b0sq) in
  let* xi := psqrt (zeta0 * zeta1 + h * h) in
  let bsum := beta0 + beta1 in
  let bsumsq := bsum * bsum in
  let* q := pdiv (cst2 c * (tsq + b0b1 - xi)) bsumsq in
  let sigma := cst3 c + q in
  let rho := sigma * (beta0 + beta1) / atwo in
  let* q2 := pdiv xi (n_f c) in
  let* delta := pdiv (cst1 c * ((zeta0 + zeta1) / atwo + q2)) tsq in
  Ok (rho, sigma, delta).

(** ell_calc_core.py:539-598; same operations as [_fast2] with [b0b1]
    recomputed *)
Definition core_parallel_bias_cut_old (c : core) (beta0 beta1 tsq : num A) : res triple :=
  let b0b1 := beta0 * beta1 in
  let b0sq := beta0 * beta0 in
  let b1sq := beta1 * beta1 in
  let zeta0 := tsq - b0sq in
  let zeta1 := tsq - b1sq in
  let h := half_n c * (b1sq - b0sq) in
  let* xi := psqrt (zeta0 * zeta1 + h * h) in
  let bsum := beta0 + beta1 in
  let bsumsq := bsum * bsum in
  let* q := pdiv (cst2 c * (tsq + b0b1 - xi)) bsumsq in
  let sigma := cst3 c + q in
  let rho := sigma * (beta0 + beta1) / atwo in
  let* q2 := pdiv xi (n_f c) in
  let* delta := pdiv (cst1 c * ((zeta0 + zeta1) / atwo + q2)) tsq in
  Ok (rho, sigma, delta).

(** ** EllCalc *)

(** ell_calc.py:44-46, the attributes *)
Record calc : Type := mkCalc {
  use_parallel_cut : bool;
  c_n_f : num A;
  c_helper : core
}.

(** ell_calc.py:48-65, [__init__] ([n] is the length of an array, a nat) *)
Definition calc_init (n : nat) : res calc :=
  if Nat.leb 2 n then
    let* h := core_init (aofnat n) in
    Ok (mkCalc true (aofnat n) h)
  else Err AssertionError.

(** What the cut strategies return. *)
Definition stratres : Type := (cut_status * option triple)%type.

Definition some_triple (r : res triple) : res stratres :=
  let* t := r in Ok (Success, Some t).

(** [beta[0]] *)
Definition beta_at0 (l : list (option (num A))) : res (num A) :=
  match l with
  | [] => Err IndexError
  | None :: _ => Err TypeError
  | Some b :: _ => Ok b
  end.

(** ell_calc.py:166-208 *)
Definition calc_bias_cut (c : calc) (beta tsq : num A) : res stratres :=
  if azero <=? beta then
    let bsq := beta * beta in
    if tsq <? bsq then Ok (NoSoln, None)
    else
      let* tau := psqrt tsq in
      some_triple (core_bias_cut (c_helper c) beta tau)
  else Err AssertionError.

(** ell_calc.py:136-164 *)
Definition calc_parallel (c : calc) (beta0 beta1 tsq : num A) : res stratres :=
  if beta1 <? beta0 then Ok (NoSoln, None)
  else
    let b1sq := beta1 * beta1 in
    if (azero <? beta1) && (tsq <=? b1sq) then calc_bias_cut c beta0 tsq
    else some_triple (core_parallel_bias_cut (c_helper c) beta0 beta1 tsq).

(** ell_calc.py:67-97.  [beta[0] = None] would raise TypeError at the first
    comparison or multiplication; the model raises it on access. *)
Definition calc_single_or_parallel (c : calc) (beta : cutchoice) (tsq : num A)
  : res stratres :=
  match beta with
  | CSingle b => calc_bias_cut c b tsq
  | CList l =>
      if Nat.ltb (length l) 2 || negb (use_parallel_cut c) then
        let* b0 := beta_at0 l in calc_bias_cut c b0 tsq
      else
        match l with
        | _ :: None :: _ => Err AssertionError
        | o0 :: Some b1 :: _ =>
            let* b0 := beta_at0 l in calc_parallel c b0 b1 tsq
        | _ => Err IndexError
        end
  end.

(** ell_calc.py:99-134 *)
Definition calc_single_or_parallel_central_cut
    (c : calc) (beta : cutchoice) (tsq : num A) : res stratres :=
  let central :=
    let* tau := psqrt tsq in Ok (Success, Some (core_central_cut (c_helper c) tau)) in
  match beta with
  | CSingle _ => central
  | CList l =>
      if Nat.ltb (length l) 2 || negb (use_parallel_cut c) then central
      else
        match l with
        | _ :: None :: _ => Err AssertionError
        | _ :: Some b1 :: _ =>
            if b1 <? azero then Ok (NoSoln, None)
            else
              let b1sq := b1 * b1 in
              if tsq <=? b1sq then central
              else some_triple (core_parallel_central_cut (c_helper c) b1 tsq)
        | _ => Err IndexError
        end
  end.

(** ell_calc.py:263-303 *)
Definition calc_bias_cut_q (c : calc) (beta tsq : num A) : res stratres :=
  let* tau := psqrt tsq in
  if tau <? beta then Ok (NoSoln, None)
  else
    let eta := tau + c_n_f c * beta in
    if eta <=? azero then Ok (NoEffect, None)
    else some_triple (core_bias_cut_fast (c_helper c) beta tau eta).

(** ell_calc.py:233-261 *)
Definition calc_parallel_q (c : calc) (beta0 beta1 tsq : num A) : res stratres :=
  if beta1 <? beta0 then Ok (NoSoln, None)
  else
    let b1sq := beta1 * beta1 in
    if (azero <? beta1) && (tsq <=? b1sq) then calc_bias_cut_q c beta0 tsq
    else
      let b0b1 := beta0 * beta1 in
      let eta := tsq + c_n_f c * b0b1 in
      if eta <=? azero then Ok (NoEffect, None)
      else some_triple
             (core_parallel_bias_cut_fast (c_helper c) beta0 beta1 tsq b0b1 eta).

(** ell_calc.py:210-231 *)
Definition calc_single_or_parallel_q (c : calc) (beta : cutchoice) (tsq : num A)
  : res stratres :=
  match beta with
  | CSingle b => calc_bias_cut_q c b tsq
  | CList l =>
      if Nat.ltb (length l) 2 || negb (use_parallel_cut c) then
        let* b0 := beta_at0 l in calc_bias_cut_q c b0 tsq
      else
        match l with
        | _ :: None :: _ => Err AssertionError
        | o0 :: Some b1 :: _ =>
            let* b0 := beta_at0 l in calc_parallel_q c b0 b1 tsq
        | _ => Err IndexError
        end
  end.

End Calc.

Arguments cutchoice : clear implicits.
Arguments core : clear implicits.
Arguments calc : clear implicits.
Arguments triple : clear implicits.
Arguments stratres : clear implicits.
