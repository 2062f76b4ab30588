(** Model of [spectral_fact] in [oracles/spectral_fact.py] (lines 23-120).
    Simplifications: arrays hold finite numbers, so the [isfinite] test (lines
    55-56) never fires; the discrete Fourier transform is its defining sum. *)
From Coq Require Import Reals List Arith.
From Verif Require Import Arith Vec.
Import ListNotations.

Record Wave (A : Arith) : Type := mkWave {
  wpi : num A;
  wcos : num A -> num A;
  wsin : num A -> num A;
  wexp : num A -> num A;
  wlog : num A -> num A
}.
Arguments wpi {A} _.
Arguments wcos {A} _ _.
Arguments wsin {A} _ _.
Arguments wexp {A} _ _.
Arguments wlog {A} _ _.

Definition RW : Wave RA := mkWave RA PI cos sin exp ln.

Section Factor.
Context {A : Arith}.
Variable W : Wave A.
Local Open Scope num_scope.

(** Complex numbers *)
Definition cplx : Type := (num A * num A)%type.
Definition cadd (x y : cplx) : cplx := (fst x + fst y, snd x + snd y).
Definition cmul (x y : cplx) : cplx :=
  (fst x * fst y - snd x * snd y, fst x * snd y + snd x * fst y).
Definition cneg (x : cplx) : cplx := (- fst x, - snd x).
Definition cscale (c : num A) (x : cplx) : cplx := (c * fst x, c * snd x).
Definition creal (x : num A) : cplx := (x, azero).
Definition czero : cplx := (azero, azero).
Definition cj : cplx := (azero, aone).
Definition cis (t : num A) : cplx := (wcos W t, wsin W t).
Definition csum (l : list cplx) : cplx := fold_left cadd l czero.

(** [2 pi k t / m] *)
Definition angle (m k t : nat) : num A := atwo * wpi W * aofnat (k * t) / aofnat m.

(** [np.fft.fft(x)], [np.fft.ifft(x)] of a one-dimensional array *)
Definition fft (x : list cplx) : list cplx :=
  let m := length x in
  map (fun k => csum (map (fun t => cmul (nth t x czero) (cis (- angle m k t))) (seq 0 m))) (seq 0 m).
Definition ifft (x : list cplx) : list cplx :=
  let m := length x in
  map (fun t => cscale (aone / aofnat m)
                  (csum (map (fun k => cmul (nth k x czero) (cis (angle m k t))) (seq 0 m)))) (seq 0 m).

(** spectral_fact.py:62 *)
Definition mult_factor : nat := 100.

(** [-1e-4] and [1e-10] of spectral_fact.py:83-84 *)
Definition hundred : num A := aofnat 100.
Definition neg_tol : num A := - (aone / (hundred * hundred)).
Definition floor_val : num A := aone / (hundred * hundred * hundred * hundred * hundred).

(** spectral_fact.py:71-75: the response at [w_i = 2 pi i / m], [i < m] *)
Definition responses (m : nat) (r : vec A) : vec A :=
  let n := length r in
  let w := map (fun i => aofnat i * (atwo * wpi W / aofnat m)) (seq 0 m) in
  let Bn := outer w (map aofnat (seq 1 (n - 1))) in
  let An := map (map (fun x => atwo * wcos W x)) Bn in
  mvmul (map (cons aone) An) r.

(** [np.min] of a non-empty array, [np.maximum(R, c)], [np.abs] *)
Definition vmin (v : vec A) : num A :=
  match v with
  | [] => azero
  | x :: t => fold_left (fun a b => if b <? a then b else a) t x
  end.
Definition vmaximum (v : vec A) (c : num A) : vec A := map (fun x => if x <? c then c else x) v.
Definition aabs (x : num A) : num A := if x <? azero then - x else x.

(** spectral_fact.py:79-93: the check of the response and [alpha] *)
Definition clamped (R : vec A) : res (vec A) :=
  let lo := vmin R in
  if lo <=? azero then
    if neg_tol <? lo then Ok (vmaximum R floor_val) else Err RuntimeError
  else Ok R.
Definition half_log (R : vec A) : vec A := map (fun x => ahalf * wlog W (aabs x)) R.

(** spectral_fact.py:98-101: [alphatmp[ind:m] = -alphatmp[ind:m]],
    [alphatmp[0] = 0], [alphatmp[ind] = 0] *)
Definition flip {T : Type} (neg : T -> T) (zero : T) (ind : nat) (l : list T) : list T :=
  upd (upd (firstn ind l ++ map neg (skipn ind l)) 0 zero) ind zero.

(** spectral_fact.py:96-102 *)
Definition hilbert (alpha : vec A) : vec A :=
  let m := length alpha in
  let tmp := flip cneg czero (m / 2) (fft (map creal alpha)) in
  map fst (ifft (map (cmul cj) tmp)).

(** spectral_fact.py:106-108: every [mult_factor]-th entry *)
Definition resample (n : nat) (v : vec A) : vec A := map (fun i => vget v (i * mult_factor)) (seq 0 n).

(** [np.exp(a + 1j * p)] *)
Definition cexp (a p : num A) : cplx := cscale (wexp W a) (cis p).

(** spectral_fact.py:111 *)
Definition impulse (alpha1 phi1 : vec A) : vec A := map fst (ifft (map2 cexp alpha1 phi1)).

(** spectral_fact.py:23-120 for a one-dimensional [r] *)
Definition spectral_fact (r : vec A) : res (vec A) :=
  match r with
  | [] => Err ValueError
  | _ =>
      let n := length r in
      let m := (mult_factor * n)%nat in
      let* R := clamped (responses m r) in
      let alpha := half_log R in
      let phi := hilbert alpha in
      Ok (impulse (resample n alpha) (resample n phi))
  end.

(** spectral_fact.py:23-120 for an [r] of shape [(n, 1)], the "column vector" of
    the docstring (lines 31-33).  [R], [alpha], [phi] have shape [(m, 1)]; the
    transforms act on the last axis, so on rows of length one, and the last one
    pads each row with zeros to length [n]. *)
Definition spectral_fact_column (r : vec A) : res (mat A) :=
  match r with
  | [] => Err ValueError
  | _ =>
      let n := length r in
      let m := (mult_factor * n)%nat in
      let* R := clamped (responses m r) in
      let alpha := map (fun x => [x]) (half_log R) in
      let tmp := flip (map cneg) [czero] (m / 2) (map (fun row => fft (map creal row)) alpha) in
      let phi := map (fun row => map fst (ifft (map (cmul cj) row))) tmp in
      let pick := fun (v : mat A) => map (fun i => nth (i * mult_factor) v []) (seq 0 n) in
      let padded := fun row => row ++ repeat czero (n - length row) in
      Ok (map2 (fun a p => map fst (ifft (padded (map2 cexp a p)))) (pick alpha) (pick phi))
  end.

End Factor.
