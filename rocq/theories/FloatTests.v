(** Running the model on the literals of the project's own tests and doctests,
    with primitive binary64 floats.  These are tests of the model's fidelity,
    not proofs of any property. *)
From Coq Require Import List Arith ZArith Bool PrimFloat.
From Verif Require Import Arith Vec ModelCalc ModelEll ModelStable ModelCut ModelSpaces
  ModelLdlt ModelLmi.
Import ListNotations.
Local Open Scope float_scope.
Local Set Warnings "-inexact-float".

Definition feq (x y : float) : bool := PrimFloat.eqb x y.
(** pytest.approx: relative tolerance 1e-6, absolute tolerance 1e-12 *)
Definition fapprox (x y : float) : bool :=
  PrimFloat.leb (abs (x - y)) (0x1.0c6f7a0b5ed8dp-20 * abs y + 0x1.19799812dea11p-40).

Definition triple_eq (r : res (triple FA)) (a b c : float) : bool :=
  match r with
  | Ok (x, y, z) => feq x a && feq y b && feq z c
  | Err _ => false
  end.
Definition core4 : res (core FA) := core_init (A := FA) 4.
Definition core3 : res (core FA) := core_init (A := FA) 3.

(** ell_calc_core.py:154-159 *)
Example t_bias_fast :
  triple_eq (let* c := core3 in core_bias_cut_fast c 1 2 5)
            1.25 0.8333333333333334 0.84375 = true.
Proof. vm_compute. reflexivity. Qed.
(** ell_calc_core.py:202-207 *)
Example t_bias :
  triple_eq (let* c := core3 in core_bias_cut c 0 2) 0.5 0.5 1.125 = true.
Proof. vm_compute. reflexivity. Qed.
(** ell_calc_core.py:251-253 *)
Example t_par_central :
  triple_eq (let* c := core4 in core_parallel_central_cut c 0.09 0.01)
    0.020941836487980856 0.46537414417735234 1.082031295477563 = true.
Proof. vm_compute. reflexivity. Qed.
(** ell_calc_core.py:302-304 *)
Example t_par_central_old :
  triple_eq (let* c := core4 in core_parallel_central_cut_old c 0.09 0.01)
    0.02094183648798086 0.46537414417735246 1.082031295477563 = true.
Proof. vm_compute. reflexivity. Qed.
(** ell_calc_core.py:362-368 *)
Example t_par_bias1 :
  triple_eq (let* c := core4 in core_parallel_bias_cut c 0.01 0.11 0.01)
    0.027228509068282114 0.45380848447136857 1.0443438549074862 = true.
Proof. vm_compute. reflexivity. Qed.
Example t_par_bias2 :
  triple_eq (let* c := core4 in core_parallel_bias_cut c (-0.25) 0.25 1)
    0 0.8 1.25 = true.
Proof. vm_compute. reflexivity. Qed.
Example t_par_bias3 :
  triple_eq (let* c := core4 in core_parallel_bias_cut c 0 0.09 0.01)
    0.020941836487980856 0.46537414417735234 1.082031295477563 = true.
Proof. vm_compute. reflexivity. Qed.
(** ell_calc_core.py:420-424 *)
Example t_par_fast_old :
  triple_eq (let* c := core4 in core_parallel_bias_cut_fast_old c 0.11 0.01 0.01 0.0011 0.0144)
    0.027228509068282114 0.45380848447136857 1.0443438549074862 = true.
Proof. vm_compute. reflexivity. Qed.
Example t_par_fast_old2 :
  triple_eq (let* c := core4 in core_parallel_bias_cut_fast_old c (-0.25) 0.25 1 (-0.0625) 0.75)
    0 0.8 1.25 = true.
Proof. vm_compute. reflexivity. Qed.
(** ell_calc_core.py:471-475 *)
Example t_par_fast :
  triple_eq (let* c := core4 in core_parallel_bias_cut_fast c 0.11 0.01 0.01 0.0011 0.0144)
    0.027228509068282114 0.45380848447136857 1.0443438549074862 = true.
Proof. vm_compute. reflexivity. Qed.
(** ell_calc_core.py:521-525 *)
Example t_par_fast2 :
  triple_eq (let* c := core4 in core_parallel_bias_cut_fast2 c 0.11 0.01 0.01 0.0011 0.0144)
    0.02722850906828212 0.4538084844713687 1.0443438549074862 = true.
Proof. vm_compute. reflexivity. Qed.
(** ell_calc_core.py:584-586 *)
Example t_par_old :
  triple_eq (let* c := core4 in core_parallel_bias_cut_old c 0.11 0.01 0.01)
    0.02722850906828212 0.4538084844713687 1.0443438549074862 = true.
Proof. vm_compute. reflexivity. Qed.

(** ell_calc.py:182-198, 278-292 *)
Definition calc3 : res (calc FA) := calc_init 3.
Definition rho_of (r : res (stratres FA)) : res (cut_status * option float) :=
  let* (s, t) := r in
  Ok (s, match t with Some (x, _, _) => Some x | None => None end).
Example t_calc1 : rho_of (let* c := calc3 in calc_bias_cut c 1 4) = Ok (Success, Some 1.25).
Proof. vm_compute. reflexivity. Qed.
Example t_calc2 : rho_of (let* c := calc3 in calc_bias_cut c 1.5 2) = Ok (NoSoln, None).
Proof. vm_compute. reflexivity. Qed.
Example t_calc3 : rho_of (let* c := calc3 in calc_bias_cut_q c 0 4) = Ok (Success, Some 0.5).
Proof. vm_compute. reflexivity. Qed.
Example t_calc4 : rho_of (let* c := calc3 in calc_bias_cut_q c (-1.5) 4) = Ok (NoEffect, None).
Proof. vm_compute. reflexivity. Qed.

(** tests/test_ell.py *)
Definition vapprox (u v : list float) : bool :=
  Nat.eqb (length u) (length v) && forallb (fun p => fapprox (fst p) (snd p)) (combine u v).
Definition mapprox (u v : list (list float)) : bool :=
  Nat.eqb (length u) (length v) && forallb (fun p => vapprox (fst p) (snd p)) (combine u v).
Definition halves : list float := [0.5; 0.5; 0.5; 0.5].
Definition c4 (a b : float) : list (list float) :=
  [[a; b; b; b]; [b; a; b; b]; [b; b; a; b]; [b; b; b; a]].
Definition run_ell (upd : cut FA -> ell FA -> ell FA * res cut_status)
    (b : cutchoice FA) (st : cut_status) (x d o k t : float) : bool :=
  match ell_init (A := FA) (VScalar (A:=FA) 0.01) [0; 0; 0; 0] with
  | Err _ => false
  | Ok e =>
      let '(e1, r) := upd (halves, b) e in
      match r with
      | Ok s => match s, st with
                | Success, Success | NoSoln, NoSoln | NoEffect, NoEffect => true
                | _, _ => false end
      | Err _ => false
      end
      && vapprox (xc e1) [x; x; x; x] && mapprox (mq e1) (c4 d o) && fapprox (kappa e1) k
      && fapprox (tsq e1) t
  end.
Example t_ell_central :
  run_ell ell_update_central_cut (CSingle (A:=FA) 0) Success (-0.01) 0.9 (-0.1) (0.16 / 15) 0.01 = true.
Proof. vm_compute. reflexivity. Qed.
Example t_ell_bias :
  run_ell ell_update_bias_cut (CSingle (A:=FA) 0.05) Success (-0.03) 0.8 (-0.2) 0.008 0.01 = true.
Proof. vm_compute. reflexivity. Qed.
Example t_ell_par_central :
  run_ell ell_update_central_cut (CList (A:=FA) [Some 0; Some 0.05]) Success
          (-0.01) 0.8 (-0.2) 0.012 0.01 = true.
Proof. vm_compute. reflexivity. Qed.
Example t_ell_par :
  run_ell ell_update_bias_cut (CList (A:=FA) [Some 0.01; Some 0.04]) Success
          (-0.0116) 0.768 (-0.232) 0.01232 0.01 = true.
Proof. vm_compute. reflexivity. Qed.
Example t_ell_par_noeff :
  run_ell ell_update_bias_cut (CList (A:=FA) [Some (-0.04); Some 0.0625]) Success
          0 1 0 0.01 0.01 = true.
Proof. vm_compute. reflexivity. Qed.
Example t_ell_q_noeff :
  run_ell ell_update_q (CList (A:=FA) [Some (-0.04); Some 0.0625]) NoEffect
          0 1 0 0.01 0.01 = true.
Proof. vm_compute. reflexivity. Qed.
Example t_ell_q :
  run_ell ell_update_q (CList (A:=FA) [Some 0.01; Some 0.04]) Success
          (-0.0116) 0.768 (-0.232) 0.01232 0.01 = true.
Proof. vm_compute. reflexivity. Qed.

(** tests/test_ell_stable.py *)
Definition run_stable (upd : cut FA -> stable FA -> stable FA * res cut_status)
    (b : cutchoice FA) (x k t : float) : bool :=
  match stable_init (A := FA) (VScalar (A:=FA) 0.01) [0; 0; 0; 0] with
  | Err _ => false
  | Ok e =>
      let '(e1, r) := upd (halves, b) e in
      match r with Ok Success => true | _ => false end
      && vapprox (s_xc e1) [x; x; x; x] && fapprox (s_kappa e1) k && fapprox (s_tsq e1) t
  end.
Example t_stable_central :
  run_stable stable_update_central_cut (CSingle (A:=FA) 0) (-0.01) (0.16 / 15) 0.01 = true.
Proof. vm_compute. reflexivity. Qed.
Example t_stable_bias :
  run_stable stable_update_bias_cut (CSingle (A:=FA) 0.05) (-0.03) 0.008 0.01 = true.
Proof. vm_compute. reflexivity. Qed.
Example t_stable_par :
  run_stable stable_update_bias_cut (CList (A:=FA) [Some 0.01; Some 0.04]) (-0.0116) 0.01232 0.01 = true.
Proof. vm_compute. reflexivity. Qed.

(** ** Whole runs: iteration counts *)
Definition niters_feas {O S} (r : O * S * res (option (list float) * Z)) : option (bool * Z) :=
  match snd r with
  | Ok (Some _, n) => Some (true, n) | Ok (None, n) => Some (false, n) | Err _ => None
  end.
Definition niters_optim {O S} (r : O * S * res (option (list float) * float * Z))
  : option (bool * Z) :=
  match snd r with
  | Ok (Some _, _, n) => Some (true, n) | Ok (None, _, n) => Some (false, n) | Err _ => None
  end.
Definition dflt : options FA := mkOptions (A := FA) 2000 1e-20.
Definition opt (n : Z) (t : float) : options FA := mkOptions (A := FA) n t.
Definition with_ell {T} (k : float) (x : list float) (f : ell FA -> option T) : option T :=
  match ell_init (A := FA) (VScalar (A:=FA) k) x with Ok e => f e | Err _ => None end.
Definition with_stable {T} (k : float) (x : list float) (f : stable FA -> option T) : option T :=
  match stable_init (A := FA) (VScalar (A:=FA) k) x with Ok e => f e | Err _ => None end.

Definition pos0 (x : float) : bool := PrimFloat.ltb 0 x.
Definition cut1 (g : list float) (b : float) : cut FA := (g, CSingle (A:=FA) b).

(** tests/test_example1.py *)
Fixpoint rr1 (k : nat) (idx : nat) (x y gamma : float)
  : nat * res (cut FA * option float) :=
  match k with
  | O => (idx, Ok (cut1 [-1; -1] 0, Some (x + y)))
  | S k' =>
      let idx := if Nat.eqb idx 2 then 0%nat else Datatypes.S idx in
      let '(g, fj) :=
        match idx with
        | 0%nat => ([1; 1], x + y - 3)
        | 1%nat => ([-1; 1], - x + y + 1)
        | _ => ([-1; -1], gamma - (x + y))
        end in
      if pos0 fj then (idx, Ok (cut1 g fj, None)) else rr1 k' idx x y gamma
  end.
Definition oracle1 (idx : nat) (xc : list float) (gamma : float) :=
  rr1 3 idx (vget (A:=FA) xc 0) (vget (A:=FA) xc 1) gamma.
(** idx = -1 initially: the next index is 0, as from 2 *)
Example t_example1 :
  with_ell 10 [0; 0] (fun e => niters_optim
    (cutting_plane_optim oracle1 (ell_space FA) (opt 2000 1e-10) 2%nat e neg_infinity))
  = Some (true, 25%Z).
Proof. vm_compute. reflexivity. Qed.
Example t_example1_infeas1 :
  with_ell 10 [100; 100] (fun e => option_map fst (niters_optim
    (cutting_plane_optim oracle1 (ell_space FA) dflt 2%nat e neg_infinity)))
  = Some false.
Proof. vm_compute. reflexivity. Qed.
Example t_example1_infeas2 :
  with_ell 10 [0; 0] (fun e => option_map fst (niters_optim
    (cutting_plane_optim oracle1 (ell_space FA) dflt 2%nat e 100)))
  = Some false.
Proof. vm_compute. reflexivity. Qed.

(** tests/test_example2.py *)
Fixpoint rr2 (k idx : nat) (x y : float) : nat * res (option (cut FA)) :=
  match k with
  | O => (idx, Ok None)
  | S k' =>
      let idx := if Nat.eqb idx 1 then 0%nat else Datatypes.S idx in
      let '(g, fj) :=
        match idx with
        | 0%nat => ([1; 1], x + y - 3)
        | _ => ([-1; 1], - x + y + 1)
        end in
      if pos0 fj then (idx, Ok (Some (cut1 g fj))) else rr2 k' idx x y
  end.
Definition oracle2 (idx : nat) (xc : list float) :=
  rr2 2 idx (vget (A:=FA) xc 0) (vget (A:=FA) xc 1).
Example t_example2 :
  with_ell 10 [0; 0] (fun e => niters_feas
    (cutting_plane_feas oracle2 (ell_space FA) dflt 1%nat e)) = Some (true, 1%Z).
Proof. vm_compute. reflexivity. Qed.
Example t_example2_infeas :
  with_ell 10 [100; 100] (fun e => niters_feas
    (cutting_plane_feas oracle2 (ell_space FA) dflt 1%nat e)) = Some (false, 0%Z).
Proof. vm_compute. reflexivity. Qed.

(** tests/test_example3.py: bsearch + BSearchAdaptor + EllStable *)
Fixpoint rr3 (k idx : nat) (target x y : float) : nat * res (option (cut FA)) :=
  match k with
  | O => (idx, Ok None)
  | S k' =>
      let idx := if Nat.eqb idx 3 then 0%nat else Datatypes.S idx in
      let '(g, fj) :=
        match idx with
        | 0%nat => ([-1; 0], - x - 1)
        | 1%nat => ([0; -1], - y - 2)
        | 2%nat => ([1; 1], x + y - 1)
        | _ => ([2; -3], 2 * x - 3 * y - target)
        end in
      if pos0 fj then (idx, Ok (Some (cut1 g fj))) else rr3 k' idx target x y
  end.
Definition oracle3 (st : nat * float) (xc : list float) :=
  let '(idx1, r) := rr3 4 (fst st) (snd st) (vget (A:=FA) xc 0) (vget (A:=FA) xc 1) in
  ((idx1, snd st), r).
Example t_example3 :
  with_stable 100 [0; 0] (fun e =>
    match snd (bsearch
      (assess_bs oracle3 (fun g st => (fst st, g)) (stable_space FA) (opt 2000 1e-8))
      (narrow_num (A:=FA) 1e-8) (mid_num (A:=FA)) 2000 ((3%nat, -1e100), e) (-100) 100) with
    | Ok (_, n) => Some n | Err _ => None end) = Some 34%Z.
Proof. vm_compute. reflexivity. Qed.

(** tests/test_cutting_plane.py *)
Definition oracle_infeas (o : unit) (x : list float) : unit * res (option (cut FA)) :=
  (o, Ok (Some (cut1 [1; 1] 1))).
Example t_cp_infeas :
  with_ell 10 [0; 0] (fun e => niters_feas
    (cutting_plane_feas oracle_infeas (ell_space FA) (opt 200 1e-20) tt e)) = Some (false, 2%Z).
Proof. vm_compute. reflexivity. Qed.
Definition oracle_optim (o : unit) (xc : list float) (gamma : float)
  : unit * res (cut FA * option float) :=
  let x := vget (A:=FA) xc 0 in let y := vget (A:=FA) xc 1 in
  (o, Ok (
    if pos0 (x - 1) then (cut1 [1; 0] (x - 1), None)
    else if pos0 (y - 1) then (cut1 [0; 1] (y - 1), None)
    else if PrimFloat.ltb (x + y - gamma) 0 then (cut1 [-1; -1] (- (x + y - gamma)), None)
    else (cut1 [-1; -1] 0, Some (x + y)))).
Example t_cp_optim :
  with_ell 10 [0; 0] (fun e => niters_optim
    (cutting_plane_optim oracle_optim (ell_space FA) (opt 200 1e-20) tt e 0)) = Some (true, 145%Z).
Proof. vm_compute. reflexivity. Qed.
Example t_cp_optim_none :
  with_ell 10 [0; 0] (fun e => niters_optim
    (cutting_plane_optim oracle_optim (ell_space FA) (opt 4 1e-20) tt e 100)) = Some (false, 0%Z).
Proof. vm_compute. reflexivity. Qed.
(** np.round: adding and subtracting 2^52 rounds to nearest even *)
Definition fround (x : float) : float :=
  if PrimFloat.ltb x 0 then x - 0x1p52 + 0x1p52 else x + 0x1p52 - 0x1p52.
Definition oracle_optim_q (o : unit) (xc : list float) (gamma : float) (retry : bool)
  : unit * res (cut FA * list float * option float * bool) :=
  let x := vget (A:=FA) xc 0 in let y := vget (A:=FA) xc 1 in
  let xq := [fround x; fround y] in
  let x' := fround x in let y' := fround y in
  (o, Ok (
    if pos0 (x - 1) then (cut1 [1; 0] (x - 1), [], None, true)
    else if pos0 (y - 1) then (cut1 [0; 1] (y - 1), [], None, true)
    else if PrimFloat.ltb (x + y - gamma) 0
         then (cut1 [-1; -1] (- (x + y - gamma)), [], None, true)
    else if pos0 (x' - 1) then (cut1 [1; 0] (x' - 1), xq, None, negb retry)
    else if pos0 (y' - 1) then (cut1 [0; 1] (y' - 1), xq, None, negb retry)
    else if PrimFloat.ltb (x' + y' - gamma) 0
         then (cut1 [-1; -1] (- (x' + y' - gamma)), xq, None, negb retry)
    else (cut1 [-1; -1] 0, xq, Some (x + y), negb retry))).
Example t_cp_optim_q :
  with_stable 10 [0; 0] (fun e => niters_optim
    (cutting_plane_optim_q oracle_optim_q (stable_space FA) (opt 200 1e-20) tt e 0))
  = Some (true, 145%Z).
Proof. vm_compute. reflexivity. Qed.
Example t_bsearch :
  match snd (bsearch (fun (o : unit) g => (o, Ok (pos0 g)))
     (narrow_num (A:=FA) 1e-7) (mid_num (A:=FA)) 2000 tt (-100) 100) with
  | Ok (g, n) => pos0 g && PrimFloat.ltb g 2e-7 && Z.eqb n 30 | Err _ => false end = true.
Proof. vm_compute. reflexivity. Qed.
Example t_bsearch_none :
  snd (bsearch (fun (o : unit) g => (o, Ok (pos0 g)))
     (narrow_num (A:=FA) 1e-20) (mid_num (A:=FA)) 20 tt (-100) (-50)) = Ok (-50, 20%Z).
Proof. vm_compute. reflexivity. Qed.

(** tests/test_lmi.py: 281 iterations in all four combinations *)
Definition F1 : list (list (list float)) :=
  [[[-7; -11]; [-11; 3]]; [[7; -18]; [-18; 8]]; [[-2; -8]; [-8; 1]]].
Definition B1 : list (list float) := [[33; -9]; [-9; 26]].
Definition F2 : list (list (list float)) :=
  [[[-21; -11; 0]; [-11; 10; 8]; [0; 8; 5]];
   [[0; 10; 16]; [10; -10; -10]; [16; -10; 3]];
   [[-5; 2; -17]; [2; -6; 8]; [-17; 8; 6]]].
Definition B2 : list (list float) := [[14; 9; 40]; [9; 91; 10]; [40; 10; 15]].
Section LmiRun.
Variable assess : lmi FA -> vec FA -> lmi FA * res (option (cut FA)).
Fixpoint rr4 (k : nat) (st : nat * lmi FA * lmi FA) (xc : list float) (gamma : float)
  : (nat * lmi FA * lmi FA) * res (cut FA * option float) :=
  let c := [1; -1; 1] in
  match k with
  | O => (st, Ok (cut1 c 0, Some (vdot (A:=FA) c xc)))
  | S k' =>
      let '(idx, l1, l2) := st in
      let idx := if Nat.eqb idx 2 then 0%nat else Datatypes.S idx in
      match idx with
      | 0%nat =>
          let '(l1, r) := assess l1 xc in
          match r with
          | Ok None => rr4 k' (idx, l1, l2) xc gamma
          | Ok (Some ct) => ((idx, l1, l2), Ok (ct, None))
          | Err x => ((idx, l1, l2), Err x)
          end
      | 1%nat =>
          let '(l2, r) := assess l2 xc in
          match r with
          | Ok None => rr4 k' (idx, l1, l2) xc gamma
          | Ok (Some ct) => ((idx, l1, l2), Ok (ct, None))
          | Err x => ((idx, l1, l2), Err x)
          end
      | _ =>
          let fj := vdot (A:=FA) c xc - gamma in
          if pos0 fj then ((idx, l1, l2), Ok (cut1 c fj, None))
          else rr4 k' (idx, l1, l2) xc gamma
      end
  end.
Definition lmi_start : nat * lmi FA * lmi FA :=
  (2%nat, lmi_init (A:=FA) F1 B1, lmi_init (A:=FA) F2 B2).
End LmiRun.
Example t_lmi_ell :
  with_ell 10 [0; 0; 0] (fun e => niters_optim
    (cutting_plane_optim (rr4 lmi_assess_feas 3) (ell_space FA) dflt lmi_start e infinity))
  = Some (true, 281%Z).
Proof. vm_compute. reflexivity. Qed.
Example t_lmi_old_ell :
  with_ell 10 [0; 0; 0] (fun e => niters_optim
    (cutting_plane_optim (rr4 lmi_old_assess_feas 3) (ell_space FA) dflt lmi_start e infinity))
  = Some (true, 281%Z).
Proof. vm_compute. reflexivity. Qed.
Example t_lmi_stable :
  with_stable 10 [0; 0; 0] (fun e => niters_optim
    (cutting_plane_optim (rr4 lmi_assess_feas 3) (stable_space FA) dflt lmi_start e infinity))
  = Some (true, 281%Z).
Proof. vm_compute. reflexivity. Qed.
Example t_lmi_old_stable :
  with_stable 10 [0; 0; 0] (fun e => niters_optim
    (cutting_plane_optim (rr4 lmi_old_assess_feas 3) (stable_space FA) dflt lmi_start e infinity))
  = Some (true, 281%Z).
Proof. vm_compute. reflexivity. Qed.

(** tests/test_chol.py and the doctests of ldlt_mgr.py *)
Definition fz (n : nat) (a : list (list float)) := factorize (A:=FA) a (ldlt_init n).
Example t_chol1 :
  snd (fz 3 [[25; 15; -5]; [15; 18; 0]; [-5; 0; 11]]) = true.
Proof. vm_compute. reflexivity. Qed.
Example t_chol2 :
  let '(s, b) := fz 4 [[18; 22; 54; 42]; [22; -70; 86; 62]; [54; 86; -174; 134]; [42; 62; 134; -106]] in
  (b, pos s) = (false, (0, 2)%nat).
Proof. vm_compute. reflexivity. Qed.
Example t_chol3 :
  let '(s, b) := fz 3 [[0; 15; -5]; [15; 18; 0]; [-5; 0; 11]] in
  let '(s1, ep) := witness s in
  (b, pos s1, feq (vget (A:=FA) (wit s1) 0) 1,
   match ep with Ok e => feq e 0 | Err _ => false end)
  = (false, (0, 1)%nat, true, true).
Proof. vm_compute. reflexivity. Qed.
Example t_chol7 :
  let '(s, b) := factor_with_allow_semidefinite (A:=FA)
     (fun i j => mget (A:=FA) [[0; 15; -5]; [15; 18; 0]; [-5; 0; -20]] i j) (ldlt_init 3) in
  (b, match snd (witness s) with Ok e => feq e 20 | Err _ => false end) = (false, true).
Proof. vm_compute. reflexivity. Qed.
Example t_chol9 :
  snd (factor_with_allow_semidefinite (A:=FA)
     (fun i j => mget (A:=FA) [[0; 15; -5]; [15; 18; 0]; [-5; 0; 20]] i j) (ldlt_init 3)) = true.
Proof. vm_compute. reflexivity. Qed.
Definition spd3 : list (list float) := [[1; 0.5; 0.5]; [0.5; 1.25; 0.75]; [0.5; 0.75; 1.5]].
Example t_sqrt :
  ldlt_sqrt (fst (fz 3 spd3)) = Ok [[1; 0.5; 0.5]; [0; 1; 0.5]; [0; 0; 1]].
Proof. vm_compute. reflexivity. Qed.
(** ldlt_mgr.py:232-244 *)
Example t_symquad :
  let '(s, b) := fz 3 [[1; 2; 3]; [2; 3.5; 5]; [3; 5; 6]] in
  let '(s1, ep) := witness s in
  (b, pos s1, wit s1, ep, sym_quad s1 spd3)
  = (false, (0, 2)%nat, [-2; 1; 0], Ok 0.5, 3.25).
Proof. vm_compute. reflexivity. Qed.
