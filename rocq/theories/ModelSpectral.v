(** Model of [inverse_spectral_fact] in [oracles/spectral_fact.py].
    [spectral_fact] is in [ModelFactor.v]. *)
From Coq Require Import List Arith.
From Verif Require Import Arith Vec.
Import ListNotations.

Section Spectral.
Context {A : Arith}.
Local Open Scope num_scope.

(** [np.convolve(a, v)] in its default "full" mode: entry [k] is the sum of
    [a[i] * v[k - i]] over the indices where both are defined; raises
    ValueError when either array is empty. *)
Definition convolve (a v : vec A) : res (vec A) :=
  match a, v with
  | [], _ | _, [] => Err ValueError
  | _, _ =>
      Ok (map (fun k =>
                 let lo := (k - (length v - 1))%nat in
                 let hi := Nat.min (S k) (length a) in
                 vsum (map (fun i => vget a i * vget v (k - i)) (seq lo (hi - lo))))
              (seq 0 (length a + length v - 1)))
  end.

(** spectral_fact.py:123-143 *)
Definition inverse_spectral_fact (h : vec A) : res (vec A) :=
  let* c := convolve h (rev h) in
  Ok (skipn (length h - 1) c).

End Spectral.
