(** Model of the drafts kept beside the sources: [ell1d.tpy],
    [oracles/lmi2_oracle.tpy] and [oracles/lmi3_oracle.tpy].  Their missing
    imports ([chol_ext], [Optional]) are taken to be [ldlt_mgr] and typing. *)
From Coq Require Import List Arith Bool.
From Verif Require Import Arith Vec ModelCalc ModelEll ModelLdlt ModelLmi ModelPower.
Import ListNotations.

Section Draft.
Context {A : Arith}.
Local Open Scope num_scope.

(** ell1d.tpy:9 *)
Record ell1d : Type := mkEll1d { d_rd : num A; d_xc : num A; d_tsq : num A }.

(** ell1d.tpy:11-24 *)
Definition ell1d_init (l u : num A) : ell1d :=
  let rd := (u - l) / atwo in
  mkEll1d rd (l + rd) azero.

(** ell1d.tpy:42-51 *)
Definition ell1d_set_xc (x : num A) (e : ell1d) : ell1d := mkEll1d (d_rd e) x (d_tsq e).

(** ell1d.tpy:61-107 *)
Definition ell1d_update (grad beta : num A) (central_cut : bool) (e : ell1d) : ell1d * res cut_status :=
  let tau := aabs (d_rd e * grad) in
  let tsq := tau * tau in
  if central_cut || (beta =? azero) then
    let rd := d_rd e / atwo in
    (mkEll1d rd (d_xc e + (if azero <? grad then - rd else rd)) tsq, Ok Success)
  else
    let e := mkEll1d (d_rd e) (d_xc e) tsq in
    if tau <? beta then (e, Ok NoSoln)
    else if beta <? - tau then (e, Ok NoEffect)
    else if grad =? azero then (e, Err ZeroDivision)
    else
      let bound := d_xc e - beta / grad in
      let upper := if azero <? grad then bound else d_xc e + d_rd e in
      let lower := if azero <? grad then d_xc e - d_rd e else bound in
      let rd := (upper - lower) / atwo in
      (mkEll1d rd (lower + rd) tsq, Ok Success).

(** lmi2_oracle.tpy:15-20; the scratch arrays [A] and [S] are never read
    back.  The record of the LMI oracle is reused, [mat_f0] holding [U]. *)
Definition lmi2_init (f : list (mat A)) (u : mat A) : lmi A := mkLmi f u (ldlt_init (length u)).

(** lmi2_oracle.tpy:31-36 *)
Definition lmi2_elem (f : list (mat A)) (u : mat A) (x : vec A) (i j : nat) : num A :=
  mget u i j - lmi0_elem f x i j.

(** [np.array([sym_quad(mat_f[i]) for i in range(n)])] *)
Definition quad_grad (h : num A -> num A) (m : ldlt A) (f : list (mat A)) (n : nat) : vec A :=
  map (fun i => h (sym_quad m (nth i f []))) (seq 0 n).

(** lmi2_oracle.tpy:22-51; [mat_f[k]] raises IndexError when there are fewer
    matrices than variables *)
Definition lmi2_assess_feas (o : lmi A) (x : vec A) : lmi A * res (option (cut A)) :=
  if Nat.ltb (length (mat_f o)) (length x) && negb (Nat.eqb (l_ndim (ldlt_mgr o)) 0)
  then (o, Err IndexError)
  else
  let '(m, ok) := factor (lmi2_elem (mat_f o) (mat_f0 o) x) (ldlt_mgr o) in
  if negb ok then
    let '(m, f) := witness m in
    (mkLmi (mat_f o) (mat_f0 o) m,
     let* f := f in
     Ok (Some (quad_grad (fun a => a) m (mat_f o) (length x),
               CList [Some f; Some (f + sym_quad m (mat_f0 o))])))
  else
  let '(m, ok) := factor (lmi0_elem (mat_f o) x) m in
  if negb ok then
    let '(m, f) := witness m in
    (mkLmi (mat_f o) (mat_f0 o) m,
     let* f := f in
     Ok (Some (quad_grad aneg m (mat_f o) (length x),
               CList [Some f; Some (f + sym_quad m (mat_f0 o))])))
  else (mkLmi (mat_f o) (mat_f0 o) m, Ok None).

(** lmi3_oracle.tpy:15-19 *)
Definition lmi3_init (f : list (mat A)) (b : mat A) : lmi A :=
  mkLmi f (map (map aneg) b) (ldlt_init (length b)).

(** lmi3_oracle.tpy:25-29 *)
Definition lmi3_elem (f : list (mat A)) (f0 : mat A) (x : vec A) (i j : nat) : num A :=
  mget f0 i j + lmi0_elem f x i j.

(** lmi3_oracle.tpy:21-40 *)
Definition lmi3_assess_feas (o : lmi A) (x : vec A) : lmi A * res (option (cut A)) :=
  if Nat.ltb (length (mat_f o)) (length x) && negb (Nat.eqb (l_ndim (ldlt_mgr o)) 0)
  then (o, Err IndexError)
  else
  let '(m, ok) := factor (lmi3_elem (mat_f o) (mat_f0 o) x) (ldlt_mgr o) in
  if ok then (mkLmi (mat_f o) (mat_f0 o) m, Ok None)
  else
    let '(m, f) := witness m in
    (mkLmi (mat_f o) (mat_f0 o) m,
     let* f := f in
     Ok (Some (quad_grad aneg m (mat_f o) (length x), CSingle f))).

End Draft.

Arguments ell1d : clear implicits.
