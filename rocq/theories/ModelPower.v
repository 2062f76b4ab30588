(** Model of [experiment/power_iteration.py]: the four power iterations. *)
From Coq Require Import List Arith ZArith Bool.
From Verif Require Import Arith Vec.
Import ListNotations.

Section Power.
Context {A : Arith}.
Local Open Scope num_scope.

(** [abs(x)] *)
Definition aabs (x : num A) : num A := if altb x azero then aneg x else x.

(** power_iteration.py:16-17 *)
Definition norm_l1 (x : vec A) : num A := vsum (map aabs x).

(** [np.sqrt(np.sum(x**2))] *)
Definition norm_l2 (x : vec A) : num A := asqrt (vsum (map (fun a => a * a) x)).

(** [x /= s] and [a / s].  numpy does not raise on a zero divisor but fills
    in NaN (or infinities) with a warning; the model stops there with
    ZeroDivision, so an [Err] means "the result is not a number". *)
Definition vdivs (x : vec A) (s : num A) : res (vec A) :=
  if aeqb s azero then Err ZeroDivision else Ok (map (fun a => a / s) x).
Definition sdivs (a s : num A) : res (num A) :=
  if aeqb s azero then Err ZeroDivision else Ok (a / s).

(** What the caller gets: the returned triple, and what the array passed in
    as [x] holds afterwards (the code works in place on it). *)
Record pow_result : Type := { p_vec : vec A; p_ld : num A; p_niter : Z; p_arg : vec A }.

(** [A @ x] raises ValueError unless the shapes fit.  A matrix that is not
    square is rejected here at once; numpy would notice at the next step. *)
Definition pow_guard (M : mat A) (x : vec A) : bool :=
  Nat.eqb (length M) (length x) && forallb (fun row => Nat.eqb (length row) (length x)) M.

(** power_iteration.py:38-44; [niter] counts up, [fuel] rounds are left. *)
Fixpoint pow1_loop (fuel : nat) (M : mat A) (tol : num A) (niter : Z) (maxit : Z) (arg x1 : vec A) : res pow_result :=
  match fuel with
  | O => Ok {| p_vec := x1; p_ld := vdot x1 (mvmul M x1); p_niter := maxit; p_arg := arg |}
  | S fuel' =>
      let* x := vdivs (mvmul M x1) (norm_l2 (mvmul M x1)) in
      if aleb (norm_l1 (vsub x x1)) tol || aleb (norm_l1 (vadd x x1)) tol
      then Ok {| p_vec := x; p_ld := vdot x (mvmul M x); p_niter := niter; p_arg := arg |}
      else pow1_loop fuel' M tol (niter + 1) maxit arg x
  end.

(** power_iteration.py:20-44 *)
Definition power_iteration (M : mat A) (x : vec A) (maxit : Z) (tol : num A) : res pow_result :=
  if pow_guard M x then
    let* x := vdivs x (norm_l2 x) in
    pow1_loop (Z.to_nat maxit) M tol 0 maxit x x
  else Err ValueError.

(** power_iteration.py:65-73.  [arg] is [None] as long as [x] is still the
    caller's array, which the last normalisation then overwrites. *)
Fixpoint pow4_loop (fuel : nat) (M : mat A) (tol : num A) (niter : Z) (maxit : Z) (arg : option (vec A)) (x1 : vec A) : res pow_result :=
  match fuel with
  | O =>
      let* y := vdivs x1 (norm_l2 x1) in
      Ok {| p_vec := y; p_ld := vdot y (mvmul M y); p_niter := maxit;
            p_arg := match arg with None => y | Some a => a end |}
  | S fuel' =>
      let arg := match arg with None => x1 | Some a => a end in
      let* x := vdivs (mvmul M x1) (norm_l1 (mvmul M x1)) in
      if aleb (norm_l1 (vsub x x1)) tol || aleb (norm_l1 (vadd x x1)) tol
      then
        let* y := vdivs x (norm_l2 x) in
        Ok {| p_vec := y; p_ld := vdot y (mvmul M y); p_niter := niter; p_arg := arg |}
      else pow4_loop fuel' M tol (niter + 1) maxit (Some arg) x
  end.

(** power_iteration.py:47-73 *)
Definition power_iteration4 (M : mat A) (x : vec A) (maxit : Z) (tol : num A) : res pow_result :=
  if pow_guard M x then
    let* x := vdivs x (norm_l1 x) in
    pow4_loop (Z.to_nat maxit) M tol 0 maxit None x
  else Err ValueError.

(** power_iteration.py:96-104; the caller's array is the returned one. *)
Fixpoint pow2_loop (fuel : nat) (M : mat A) (tol : num A) (niter : Z) (maxit : Z) (x new : vec A) (ld : num A) : res pow_result :=
  match fuel with
  | O => Ok {| p_vec := x; p_ld := ld; p_niter := maxit; p_arg := x |}
  | S fuel' =>
      let ld1 := ld in
      let* x := vdivs new (norm_l2 new) in
      let new := mvmul M x in
      let ld := vdot x new in
      if aleb (aabs (ld1 - ld)) tol
      then Ok {| p_vec := x; p_ld := ld; p_niter := niter; p_arg := x |}
      else pow2_loop fuel' M tol (niter + 1) maxit x new ld
  end.

(** power_iteration.py:76-104 *)
Definition power_iteration2 (M : mat A) (x : vec A) (maxit : Z) (tol : num A) : res pow_result :=
  if pow_guard M x then
    let* x := vdivs x (norm_l2 x) in
    let new := mvmul M x in
    pow2_loop (Z.to_nat maxit) M tol 0 maxit x new (vdot x new)
  else Err ValueError.

(** power_iteration.py:127-144.  [big] is the literal [1e150] of line 131;
    the theorems hold for every value of it. *)
Fixpoint pow3_loop (fuel : nat) (big : num A) (M : mat A) (tol : num A) (niter : Z) (maxit : Z) (x new : vec A) (ld : num A) : res pow_result :=
  match fuel with
  | O =>
      let* y := vdivs x (norm_l2 x) in
      Ok {| p_vec := y; p_ld := ld; p_niter := maxit; p_arg := y |}
  | S fuel' =>
      let ld1 := ld in
      let x := new in
      let dot := vdot x x in
      if aleb big dot then
        let* x := vdivs x (norm_l2 x) in
        let new := mvmul M x in
        let ld := vdot x new in
        if aleb (aabs (ld1 - ld)) tol
        then Ok {| p_vec := x; p_ld := ld; p_niter := niter; p_arg := x |}
        else pow3_loop fuel' big M tol (niter + 1) maxit x new ld
      else
        let new := mvmul M x in
        let* ld := sdivs (vdot x new) dot in
        if aleb (aabs (ld1 - ld)) tol
        then
          let* y := vdivs x (norm_l2 x) in
          Ok {| p_vec := y; p_ld := ld; p_niter := niter; p_arg := y |}
        else pow3_loop fuel' big M tol (niter + 1) maxit x new ld
  end.

(** power_iteration.py:107-144 *)
Definition power_iteration3 (big : num A) (M : mat A) (x : vec A) (maxit : Z) (tol : num A) : res pow_result :=
  if pow_guard M x then
    let new := mvmul M x in
    let* ld := sdivs (vdot x new) (vdot x x) in
    pow3_loop (Z.to_nat maxit) big M tol 0 maxit x new ld
  else Err ValueError.

End Power.
