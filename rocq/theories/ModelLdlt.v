(** Model of [oracles/ldlt_mgr.py]. *)
From Coq Require Import List Arith Bool.
From Verif Require Import Arith Vec.
Import ListNotations.

Section Ldlt.
Context {A : Arith}.
Local Open Scope num_scope.

(** ldlt_mgr.py:50-66, attributes and [__init__] *)
Record ldlt : Type := mkLdlt {
  pos : nat * nat;
  wit : vec A;
  l_ndim : nat;
  storage : mat A
}.

Definition ldlt_init (ndim : nat) : ldlt :=
  mkLdlt (0, 0) (vzeros ndim) ndim (mzeros ndim).

(** ldlt_mgr.py:116-118: [storage[i, start:stop].dot(storage[start:stop, stop])] *)
Definition row_dot (m : mat A) (i start stop : nat) : num A :=
  vsum (map (fun k => mget m i k * mget m k stop) (seq start (stop - start)%nat)).

(** ldlt_mgr.py:112-118 (and 153-159), body of the inner loop.  The divisor
    [storage[j, j]] is a stored positive pivot; plain division. *)
Definition factor_col (get_elem : nat -> nat -> num A) (start i : nat)
    (st : mat A * num A) (j : nat) : mat A * num A :=
  let '(m, diag) := st in
  let m := mset m j i diag in
  let m := mset m i j (diag / mget m j j) in
  let stop := S j in
  (m, get_elem i stop - row_dot m i start stop).

(** ldlt_mgr.py:111-119 (and 152-160), one row *)
Definition factor_row (get_elem : nat -> nat -> num A) (start i : nat) (m : mat A)
  : mat A * num A :=
  let '(m, diag) :=
    fold_left (factor_col get_elem start i) (seq start (i - start)%nat)
              (m, get_elem i start) in
  (mset m i i diag, diag).

(** ldlt_mgr.py:110-122, the outer loop; [start] stays 0 *)
Fixpoint factor_loop (get_elem : nat -> nat -> num A) (is : list nat)
    (m : mat A) : mat A * (nat * nat) :=
  match is with
  | [] => (m, (0, 0))
  | i :: is' =>
      let '(m, diag) := factor_row get_elem 0 i m in
      if diag <=? azero then (m, (0, S i))
      else factor_loop get_elem is' m
  end.

(** ldlt_mgr.py:168-186 *)
Definition is_spd (s : ldlt) : bool := Nat.eqb (snd (pos s)) 0.

(** ldlt_mgr.py:84-123 *)
Definition factor (get_elem : nat -> nat -> num A) (s : ldlt) : ldlt * bool :=
  let '(m, p) := factor_loop get_elem (seq 0 (l_ndim s)) (storage s) in
  let s1 := mkLdlt p (wit s) (l_ndim s) m in
  (s1, is_spd s1).

(** ldlt_mgr.py:68-82 *)
Definition factorize (a : mat A) (s : ldlt) : ldlt * bool :=
  factor (fun i j => mget a i j) s.

(** ldlt_mgr.py:149-165.  When the inner loop runs ([start <= j < i]) the
    stored pivots from [start] on are positive. *)
Fixpoint factor_semi_loop (get_elem : nat -> nat -> num A) (start : nat) (is : list nat)
    (m : mat A) : mat A * (nat * nat) :=
  match is with
  | [] => (m, (0, 0))
  | i :: is' =>
      let '(m, diag) := factor_row get_elem start i m in
      if diag <? azero then (m, (start, S i))
      else if diag =? azero then factor_semi_loop get_elem (S i) is' m
      else factor_semi_loop get_elem start is' m
  end.

(** ldlt_mgr.py:125-166 *)
Definition factor_with_allow_semidefinite (get_elem : nat -> nat -> num A) (s : ldlt)
  : ldlt * bool :=
  let '(m, p) := factor_semi_loop get_elem 0 (seq 0 (l_ndim s)) (storage s) in
  let s1 := mkLdlt p (wit s) (l_ndim s) m in
  (s1, is_spd s1).

(** ldlt_mgr.py:215: [-storage[i:pos, i-1].dot(wit[i:pos])] *)
Definition wit_dot (m : mat A) (w : vec A) (i p : nat) : num A :=
  vsum (map (fun k => mget m k (i - 1)%nat * vget w k) (seq i (p - i)%nat)).

(** ldlt_mgr.py:188-216; [i] runs m, ..., start+1 *)
Definition witness (s : ldlt) : ldlt * res (num A) :=
  if is_spd s then (s, Err AssertionError)
  else
    let '(start, p) := pos s in
    let m := (p - 1)%nat in
    let w0 := vset (wit s) m aone in
    let w := fold_left (fun w i => vset w (i - 1)%nat (- wit_dot (storage s) w i p))
                       (rev (seq (S start) (m - start)%nat)) w0 in
    (mkLdlt (pos s) w (l_ndim s) (storage s), Ok (- mget (storage s) m m)).

(** [v[a:b]] *)
Definition vslice (v : vec A) (a b : nat) : vec A := firstn (b - a)%nat (skipn a v).

(** ldlt_mgr.py:218-248 *)
Definition sym_quad (s : ldlt) (b : mat A) : num A :=
  let '(start, n) := pos s in
  let w := vslice (wit s) start n in
  vdot w (mvmul (map (fun row => vslice row start n)
                     (firstn (n - start)%nat (skipn start b))) w).

(** ldlt_mgr.py:275-280, body of the outer loop ([math.sqrt] of the pivots,
    which are positive when [is_spd]) *)
Definition sqrt_row (m : mat A) (n : nat) (r : mat A) (i : nat) : mat A :=
  let r := mset r i i (asqrt (mget m i i)) in
  fold_left (fun r j => mset r i j (mget m j i * mget r i i))
            (seq (S i) (n - S i)%nat) r.

(** ldlt_mgr.py:250-280 *)
Definition ldlt_sqrt (s : ldlt) : res (mat A) :=
  if negb (is_spd s) then Err AssertionError
  else Ok (fold_left (sqrt_row (storage s) (l_ndim s)) (seq 0 (l_ndim s))
                     (mzeros (l_ndim s))).

End Ldlt.

Arguments ldlt : clear implicits.
