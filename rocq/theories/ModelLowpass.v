(** Model of [oracles/lowpass_oracle.py]. *)
From Coq Require Import List Arith ZArith Bool Reals.
From Verif Require Import Arith Vec ModelCalc ModelEll.
Import ListNotations.

(** [np.cos], [np.pi], [math.floor], [np.log10] and [pow(10, .)] *)
Record Trig (A : Arith) : Type := mkTrig {
  gcos : num A -> num A;
  gpi : num A;
  gfloor : num A -> Z;
  glog10 : num A -> num A;
  gpow10 : num A -> num A
}.
Arguments gcos {A} _ _.
Arguments gpi {A} _.
Arguments gfloor {A} _ _.
Arguments glog10 {A} _ _.
Arguments gpow10 {A} _ _.

Definition RG : Trig RA :=
  mkTrig RA cos PI Int_part (fun x => (ln x / ln 10)%R) (fun x => Rpower 10 x).

Section Lowpass.
Context {A : Arith}.
Variable T : Trig A.
Local Open Scope num_scope.

(** The attributes.  [fmax] is [None] for minus infinity. *)
Record lowpass : Type := mkLowpass {
  lw_spectrum : mat A;
  lw_nwpass : Z;
  lw_nwstop : Z;
  lw_lp : num A;
  lw_up : num A;
  lw_sp : num A;
  lw_idx1 : Z;
  lw_idx2 : Z;
  lw_idx3 : Z;
  lw_fmax : option (num A);
  lw_kmax : Z
}.

Definition set_idx1 (o : lowpass) (i : Z) : lowpass :=
  mkLowpass (lw_spectrum o) (lw_nwpass o) (lw_nwstop o) (lw_lp o) (lw_up o) (lw_sp o)
            i (lw_idx2 o) (lw_idx3 o) (lw_fmax o) (lw_kmax o).
Definition set_idx2 (o : lowpass) (i : Z) : lowpass :=
  mkLowpass (lw_spectrum o) (lw_nwpass o) (lw_nwstop o) (lw_lp o) (lw_up o) (lw_sp o)
            (lw_idx1 o) i (lw_idx3 o) (lw_fmax o) (lw_kmax o).
Definition set_idx3 (o : lowpass) (i : Z) : lowpass :=
  mkLowpass (lw_spectrum o) (lw_nwpass o) (lw_nwstop o) (lw_lp o) (lw_up o) (lw_sp o)
            (lw_idx1 o) (lw_idx2 o) i (lw_fmax o) (lw_kmax o).
Definition set_max (o : lowpass) (f : option (num A)) (k : Z) : lowpass :=
  mkLowpass (lw_spectrum o) (lw_nwpass o) (lw_nwstop o) (lw_lp o) (lw_up o) (lw_sp o)
            (lw_idx1 o) (lw_idx2 o) (lw_idx3 o) f k.
Definition set_sp (o : lowpass) (g : num A) : lowpass :=
  mkLowpass (lw_spectrum o) (lw_nwpass o) (lw_nwstop o) (lw_lp o) (lw_up o) g
            (lw_idx1 o) (lw_idx2 o) (lw_idx3 o) (lw_fmax o) (lw_kmax o).

(** lowpass_oracle.py:101-111.  [np.linspace(0, pi, m)] is [i * (pi / (m - 1))];
    its last entry is set to [pi], which is the same number over the reals. *)
Definition spectrum_row (ndim : nat) (w : num A) : vec A :=
  aone :: map (fun k => (aone + aone) * gcos T (w * aofnat k)) (seq 1 (ndim - 1)).
Definition spectrum_of (ndim : nat) : mat A :=
  let mdim := (15 * ndim)%nat in
  map (fun i => spectrum_row ndim (aofnat i * (gpi T / aofnat (mdim - 1)%nat))) (seq 0 mdim).

(** lowpass_oracle.py:66-129, for [ndim >= 1] *)
Definition lowpass_init (ndim : nat) (wpass wstop lp_sq up_sq sp_sq : num A) : lowpass :=
  let mdim := (15 * ndim)%nat in
  let nwpass := (gfloor T (wpass * aofnat (mdim - 1)%nat)%num + 1)%Z in
  let nwstop := (gfloor T (wstop * aofnat (mdim - 1)%nat)%num + 1)%Z in
  mkLowpass (spectrum_of ndim) nwpass nwstop lp_sq up_sq sp_sq 0 nwpass nwstop None 0.

(** [spectrum[i, :]]: negative indices count from the end *)
Definition row_at (m : mat A) (i : Z) : res (vec A) :=
  let n := Z.of_nat (length m) in
  if (0 <=? i)%Z && (i <? n)%Z then Ok (nth (Z.to_nat i) m [])
  else if (- n <=? i)%Z && (i <? 0)%Z then Ok (nth (Z.to_nat (n + i)) m [])
  else Err IndexError.

(** [col_k.dot(x)] *)
Definition dot_checked (u v : vec A) : res (num A) :=
  if Nat.eqb (length u) (length v) then Ok (vdot u v) else Err ValueError.

Definition response_at (o : lowpass) (i : Z) (x : vec A) : res (vec A * num A) :=
  let* col_k := row_at (lw_spectrum o) i in
  let* v := dot_checked col_k x in
  Ok (col_k, v).

Definition vneg (v : vec A) : vec A := map aneg v.

(** A [for _ in range(...)] loop whose body may return a cut. *)
Fixpoint scan (fuel : nat) (body : lowpass -> lowpass * res (option (cut A))) (o : lowpass)
  : lowpass * res (option (cut A)) :=
  match fuel with
  | O => (o, Ok None)
  | S fuel' =>
      let '(o1, r) := body o in
      match r with
      | Ok None => scan fuel' body o1
      | _ => (o1, r)
      end
  end.

(** [idx += 1; if idx == last: idx = first] *)
Definition next_idx (first last i : Z) : Z := if (i + 1 =? last)%Z then first else (i + 1)%Z.

(** lowpass_oracle.py:158-174 *)
Definition pass_step (x : vec A) (o : lowpass) : lowpass * res (option (cut A)) :=
  let o := set_idx1 o (next_idx 0 (lw_nwpass o) (lw_idx1 o)) in
  match response_at o (lw_idx1 o) x with
  | Err e => (o, Err e)
  | Ok (col_k, v) =>
      if lw_up o <? v then (o, Ok (Some (col_k, CList [Some (v - lw_up o); Some (v - lw_lp o)])))
      else if v <? lw_lp o then
        (o, Ok (Some (vneg col_k, CList [Some (- v + lw_lp o); Some (- v + lw_up o)])))
      else (o, Ok None)
  end.

(** [v > self.fmax] *)
Definition exceeds (v : num A) (f : option (num A)) : bool :=
  match f with None => true | Some m => m <? v end.

(** lowpass_oracle.py:181-200 *)
Definition stop_step (x : vec A) (o : lowpass) : lowpass * res (option (cut A)) :=
  let mdim := Z.of_nat (length (lw_spectrum o)) in
  let o := set_idx3 o (next_idx (lw_nwstop o) mdim (lw_idx3 o)) in
  match response_at o (lw_idx3 o) x with
  | Err e => (o, Err e)
  | Ok (col_k, v) =>
      if lw_sp o <? v then (o, Ok (Some (col_k, CList [Some (v - lw_sp o); Some v])))
      else if v <? azero then
        (o, Ok (Some (vneg col_k, CList [Some (- v); Some (- v + lw_sp o)])))
      else if exceeds v (lw_fmax o) then (set_max o (Some v) (lw_idx3 o), Ok None)
      else (o, Ok None)
  end.

(** lowpass_oracle.py:204-214 *)
Definition trans_step (x : vec A) (o : lowpass) : lowpass * res (option (cut A)) :=
  let o := set_idx2 o (next_idx (lw_nwpass o) (lw_nwstop o) (lw_idx2 o)) in
  match response_at o (lw_idx2 o) x with
  | Err e => (o, Err e)
  | Ok (col_k, v) =>
      if v <? azero then (o, Ok (Some (vneg col_k, CSingle (- v)))) else (o, Ok None)
  end.

(** lowpass_oracle.py:216-220 *)
Definition first_coef (x : vec A) (o : lowpass) : lowpass * res (option (cut A)) :=
  let ndim := length (nth 0 (lw_spectrum o) []) in
  match x with
  | [] => (o, Err IndexError)
  | x0 :: _ =>
      if x0 <? azero then (o, Ok (Some (vset (vzeros ndim) 0 (- aone), CSingle (- x0))))
      else (o, Ok None)
  end.

(** [if r is not None: return r] between the four parts *)
Definition andthen (r : lowpass * res (option (cut A)))
    (k : lowpass -> lowpass * res (option (cut A))) : lowpass * res (option (cut A)) :=
  match r with
  | (o, Ok None) => k o
  | _ => r
  end.

(** lowpass_oracle.py:131-222 *)
Definition lowpass_assess_feas (o : lowpass) (x : vec A) : lowpass * res (option (cut A)) :=
  let mdim := Z.of_nat (length (lw_spectrum o)) in
  andthen (scan (Z.to_nat (lw_nwpass o)) (pass_step x) o) (fun o =>
  andthen (scan (Z.to_nat (mdim - lw_nwstop o)) (stop_step x) (set_max o None 0)) (fun o =>
  andthen (scan (Z.to_nat (lw_nwstop o - lw_nwpass o)) (trans_step x) o) (fun o =>
  first_coef x o))).

(** lowpass_oracle.py:224-251.  With an empty stop band [fmax] is minus
    infinity, which the code hands out as the value.  The reals have no such
    number and stop with an error instead. *)
Definition lowpass_assess_optim (o : lowpass) (xc : vec A) (gamma : num A)
  : lowpass * res (cut A * option (num A)) :=
  match lowpass_assess_feas (set_sp o gamma) xc with
  | (o, Err e) => (o, Err e)
  | (o, Ok (Some ct)) => (o, Ok (ct, None))
  | (o, Ok None) =>
      match row_at (lw_spectrum o) (lw_kmax o), lw_fmax o with
      | Ok row, Some fmax => (o, Ok ((row, CList [Some azero; Some fmax]), Some fmax))
      | Err e, _ => (o, Err e)
      | Ok row, None =>
          if adivz A
          then let ninf := aneg aone / azero in (o, Ok ((row, CList [Some azero; Some ninf]), Some ninf))
          else (o, Err ZeroDivision)
      end
  end.

(** lowpass_oracle.py:258-293 *)
Definition create_lowpass_case (ndim : nat) : lowpass :=
  let ratio a b := aofnat a / aofnat b in
  let twenty := aofnat 20 in
  let delta0_wpass := ratio 25%nat 1000%nat in
  let delta0_wstop := ratio 125%nat 1000%nat in
  let delta1 := twenty * glog10 T (aone + delta0_wpass) in
  let delta2 := twenty * glog10 T delta0_wstop in
  let low_pass := gpow10 T (- delta1 / twenty) in
  let up_pass := gpow10 T (delta1 / twenty) in
  let stop_pass := gpow10 T (delta2 / twenty) in
  lowpass_init ndim (ratio 12%nat 100%nat) (ratio 20%nat 100%nat)
    (low_pass * low_pass) (up_pass * up_pass) (stop_pass * stop_pass).

End Lowpass.

Arguments lowpass : clear implicits.
