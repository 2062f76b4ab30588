(** Model of [ell_stable.py]. *)
From Coq Require Import List Arith Bool.
From Verif Require Import Arith Vec ModelCalc ModelEll.
Import ListNotations.

Section Stable.
Context {A : Arith}.
Local Open Scope num_scope.

(** ell_stable.py:46-53, the attributes.  [s_mq] holds the (inverse) diagonal
    on the diagonal, the unit lower triangular factor strictly below it, and
    intermediate products of the last update strictly above it. *)
Record stable : Type := mkStable {
  s_no_defer_trick : bool;
  s_mq : mat A;
  s_xc : vec A;
  s_kappa : num A;
  s_tsq : num A;
  s_ndim : nat;
  s_helper : calc A
}.

(** ell_stable.py:55-79 *)
Definition stable_init (val : ellval A) (x_center : vec A) : res stable :=
  let ndim := length x_center in
  let* h := calc_init ndim in
  match val with
  | VScalar k => Ok (mkStable false (meye ndim) x_center k azero ndim h)
  | VDiag d => Ok (mkStable false (mdiag d) x_center aone azero ndim h)
  end.

(** ell_stable.py:88-95 *)
Definition stable_set_xc (e : stable) (x : vec A) : stable :=
  mkStable (s_no_defer_trick e) (s_mq e) x (s_kappa e) (s_tsq e) (s_ndim e) (s_helper e).

Definition stable_set_parallel (e : stable) (b : bool) : stable :=
  mkStable (s_no_defer_trick e) (s_mq e) (s_xc e) (s_kappa e) (s_tsq e) (s_ndim e)
        (mkCalc b (c_n_f (s_helper e)) (c_helper (s_helper e))).

(** ell_stable.py:198-204: forward substitution; the products are kept in the
    upper triangle. *)
Definition fwd_inner (j : nat) (st : mat A * vec A) (i : nat) : mat A * vec A :=
  let '(m, w) := st in
  let m := mset m j i (mget m i j * vget w j) in
  (m, vset w i (vget w i - mget m j i)).

Definition fwd_outer (n : nat) (st : mat A * vec A) (j : nat) : mat A * vec A :=
  fold_left (fwd_inner j) (seq (S j) (n - S j)) st.

Definition fwd_subst (n : nat) (m : mat A) (g : vec A) : mat A * vec A :=
  fold_left (fwd_outer n) (seq 0 (n - 1)) (m, g).

(** ell_stable.py:207-209 *)
Definition diag_scale (n : nat) (m : mat A) (w : vec A) : vec A :=
  fold_left (fun z i => vset z i (vget z i * mget m i i)) (seq 0 n) w.

(** ell_stable.py:226-229: backward substitution; [i] runs n-1, ..., 1 *)
Definition bwd_subst (n : nat) (m : mat A) (z : vec A) : vec A :=
  fold_left
    (fun q i =>
       fold_left
         (fun q j => vset q (i - 1) (vget q (i - 1) - mget m j (i - 1) * vget q j))
         (seq i (n - i)) q)
    (rev (seq 1 (n - 1))) z.

(** ell_stable.py:248-250 *)
Definition rank1_inner (j : nat) (beta2 : num A) (st : mat A * vec A) (k : nat)
  : mat A * vec A :=
  let '(m, v) := st in
  let v := vset v k (vget v k - mget m j k) in
  (mset m k j (mget m k j + beta2 * vget v k), v).

(** ell_stable.py:242-251; [newt] is a numpy scalar.  In the reals a zero [newt] is a
    division by zero in the middle of the loop; the partially updated matrix is
    returned in that case. *)
Fixpoint rank1_loop (n : nat) (z : vec A) (js : list nat)
    (m : mat A) (v : vec A) (oldt : num A) : mat A * res unit :=
  match js with
  | [] => (m, Ok tt)
  | j :: js' =>
      let p := vget v j in
      let temp := vget z j in
      let newt := oldt + p * temp in
      match ndiv temp newt with
      | Err x => (m, Err x)
      | Ok beta2 =>
          let m := mset m j j (mget m j j * (oldt / newt)) in
          let '(m, v) := fold_left (rank1_inner j beta2)
                                   (seq (S j) (n - S j)) (m, v) in
          rank1_loop n z js' m v newt
      end
  end.

(** ell_stable.py:199-203 when the gradient or the matrix is too short: the loop stops
    with an IndexError in the row [j = 0], at [i = length g] after the write of
    [mq[0, i]], or at [i = length mq] before it. *)
Definition short_writes (m : mat A) (g : vec A) : mat A :=
  fold_left (fun m i => mset m 0 i (mget m i 0 * vget g 0))
            (seq 1 (Nat.min (length g) (length m - 1))) m.

(** ell_stable.py:158-258, [_update_core].  There is no test of the shapes, none for a zero
    gradient and none for [omega = 0].  A gradient or a matrix shorter than [ndim] is an
    IndexError in the forward substitution.  Of a gradient longer than [ndim] the loops
    use the first [ndim] entries, the sum [omega] all; the subtraction from the centre
    raises ValueError unless the lengths agree.  [omega] is a numpy scalar, the division
    [rho / omega] as in [ndiv]; [sigma / (1 - sigma)] is checked, the centre is already
    updated when it fails. *)
Definition stable_update_core (strat : strategy A) (ct : cut A) (e : stable)
  : stable * res cut_status :=
  let '(g, beta) := ct in
  let n := s_ndim e in
  if Nat.ltb (length g) n || Nat.ltb (length (s_mq e)) n then
    (mkStable (s_no_defer_trick e) (short_writes (s_mq e) g) (s_xc e) (s_kappa e) (s_tsq e)
              (s_ndim e) (s_helper e), Err IndexError)
  else
    let '(m1, w) := fwd_subst n (s_mq e) g in
    let z := diag_scale n m1 w in
    let omega := vsum (map2 amul w z) in
    let tsq1 := s_kappa e * omega in
    let e1 := mkStable (s_no_defer_trick e) m1 (s_xc e) (s_kappa e) tsq1 n (s_helper e) in
    match strat (s_helper e) beta tsq1 with
    | Err x => (e1, Err x)
    | Ok (status, None) => (e1, Ok status)
    | Ok (status, Some (rho, sigma, delta)) =>
        let g_t := bwd_subst n m1 z in
        match ndiv rho omega with
        | Err x => (e1, Err x)
        | Ok ro =>
            if negb (Nat.eqb (length (s_xc e)) (length g_t)) then (e1, Err ValueError)
            else
            let xc1 := vsub (s_xc e) (vscale ro g_t) in
            let e2 := mkStable (s_no_defer_trick e) m1 xc1 (s_kappa e) tsq1 n (s_helper e) in
            match pdiv sigma (aone - sigma) with
            | Err x => (e2, Err x)
            | Ok mu =>
                if mu =? azero then (e2, Ok status)
                else
                  let '(m2, r) := rank1_loop n z (seq 0 n) m1 g (omega / mu) in
                  match r with
                  | Err x =>
                      (mkStable (s_no_defer_trick e) m2 xc1 (s_kappa e) tsq1 n (s_helper e),
                       Err x)
                  | Ok _ =>
                      let kappa1 := s_kappa e * delta in
                      if s_no_defer_trick e then
                        (mkStable (s_no_defer_trick e) (mscale kappa1 m2) xc1 aone tsq1 n
                                  (s_helper e), Ok status)
                      else
                        (mkStable (s_no_defer_trick e) m2 xc1 kappa1 tsq1 n (s_helper e),
                         Ok status)
                  end
            end
        end
    end.

(** ell_stable.py:104-119 *)
Definition stable_update_bias_cut (ct : cut A) (e : stable) :=
  stable_update_core calc_single_or_parallel ct e.

(** ell_stable.py:121-136 *)
Definition stable_update_central_cut (ct : cut A) (e : stable) :=
  stable_update_core calc_single_or_parallel_central_cut ct e.

(** ell_stable.py:138-154 *)
Definition stable_update_q (ct : cut A) (e : stable) :=
  stable_update_core calc_single_or_parallel_q ct e.

End Stable.

Arguments stable : clear implicits.
