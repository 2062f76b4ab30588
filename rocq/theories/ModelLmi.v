(** Model of [oracles/lmi_oracle.py], [oracles/lmi0_oracle.py] and
    [oracles/lmi_old_oracle.py]. *)
From Coq Require Import List Arith Bool.
From Verif Require Import Arith Vec ModelCalc ModelEll ModelLdlt.
Import ListNotations.

Section Lmi.
Context {A : Arith}.
Local Open Scope num_scope.

(** lmi_oracle.py:47-59, lmi_old_oracle.py:43-52: attributes and [__init__] *)
Record lmi : Type := mkLmi {
  mat_f : list (mat A);
  mat_f0 : mat A;
  ldlt_mgr : ldlt A
}.

Definition lmi_init (f : list (mat A)) (b : mat A) : lmi :=
  mkLmi f b (ldlt_init (length b)).

(** lmi_oracle.py:82-89: [get_elem]; [zip] stops at the shorter sequence *)
Definition lmi_elem (f : list (mat A)) (b : mat A) (x : vec A) (i j : nat) : num A :=
  mget b i j - vsum (map2 (fun fk xk => mget fk i j * xk) f x).

(** lmi_oracle.py:63-98: returns the cut (g, ep), or None if feasible *)
Definition lmi_assess_feas (o : lmi) (x : vec A) : lmi * res (option (cut A)) :=
  let '(m, ok) := factor (lmi_elem (mat_f o) (mat_f0 o) x) (ldlt_mgr o) in
  if ok then (mkLmi (mat_f o) (mat_f0 o) m, Ok None)
  else
    let '(m1, ep) := witness m in
    (mkLmi (mat_f o) (mat_f0 o) m1,
     let* ep := ep in
     Ok (Some (map (sym_quad m1) (mat_f o), CSingle ep))).

(** lmi_old_oracle.py:78-80: [A = B.copy(); A -= sum(F[k] * x[k])].  The
    builtin sum starts from the integer 0; with no variables [A -= 0]. *)
Definition madd (m k : mat A) : mat A := map2 vadd m k.
Definition msum_scaled (f : list (mat A)) (x : vec A) (n : nat) : option (mat A) :=
  fold_left
    (fun acc k =>
       let t := map (map (fun a => a * vget x k)) (nth k f []) in
       match acc with
       | None => Some (map (map (aadd azero)) t)
       | Some m => Some (madd m t)
       end) (seq 0 n) None.
Definition lmi_old_mat (f : list (mat A)) (b : mat A) (x : vec A) : mat A :=
  match msum_scaled f x (length x) with
  | None => map (map (fun a => a - azero)) b
  | Some s => msub b s
  end.

(** lmi_old_oracle.py:54-85; [self.mat_f[k]] raises IndexError when there are
    fewer matrices than variables *)
Definition lmi_old_assess_feas (o : lmi) (x : vec A) : lmi * res (option (cut A)) :=
  if Nat.ltb (length (mat_f o)) (length x) then (o, Err IndexError)
  else
  let '(m, ok) := factorize (lmi_old_mat (mat_f o) (mat_f0 o) x) (ldlt_mgr o) in
  if ok then (mkLmi (mat_f o) (mat_f0 o) m, Ok None)
  else
    let '(m1, ep) := witness m in
    (mkLmi (mat_f o) (mat_f0 o) m1,
     let* ep := ep in
     Ok (Some (map (fun i => sym_quad m1 (nth i (mat_f o) [])) (seq 0 (length x)),
               CSingle ep))).

(** lmi0_oracle.py:37-47 *)
Record lmi0 : Type := mkLmi0 {
  mat0_f : list (mat A);
  ldlt0_mgr : ldlt A
}.

(** [len(mat_f[0])] raises IndexError on an empty list *)
Definition lmi0_init (f : list (mat A)) : res lmi0 :=
  match f with
  | [] => Err IndexError
  | f0 :: _ => Ok (mkLmi0 f (ldlt_init (length f0)))
  end.

(** lmi0_oracle.py:68-75 *)
Definition lmi0_elem (f : list (mat A)) (x : vec A) (i j : nat) : num A :=
  vsum (map (fun k => mget (nth k f []) i j * vget x k) (seq 0 (length x))).

(** lmi0_oracle.py:49-84 *)
Definition lmi0_assess_feas (o : lmi0) (x : vec A) : lmi0 * res (option (cut A)) :=
  if Nat.ltb (length (mat0_f o)) (length x) && negb (Nat.eqb (l_ndim (ldlt0_mgr o)) 0)
  then (o, Err IndexError)
  else
  let '(m, ok) := factor (lmi0_elem (mat0_f o) x) (ldlt0_mgr o) in
  if ok then (mkLmi0 (mat0_f o) m, Ok None)
  else
    let '(m1, ep) := witness m in
    (mkLmi0 (mat0_f o) m1,
     let* ep := ep in
     Ok (Some (map (fun fk => - sym_quad m1 fk) (mat0_f o), CSingle ep))).

End Lmi.

Arguments lmi : clear implicits.
Arguments lmi0 : clear implicits.
