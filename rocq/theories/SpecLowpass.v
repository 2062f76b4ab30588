(** The low-pass filter specification, on sampled frequencies. *)
From Coq Require Import Reals List ZArith.
From Verif Require Import Arith Vec ModelLowpass Spec SpecSpectral.
Local Open Scope R_scope.

(** Number of coefficients, normalised pass and stop band edges, pass band bounds. *)
Record filter : Type := mkFilter {
  f_n : nat;
  f_wp : R;
  f_ws : R;
  f_lo : R;
  f_up : R
}.

Definition freq (n i : nat) : R := INR i * (PI / INR (15 * n - 1)).
Definition sample (F : filter) (w : R) : Prop :=
  exists i, (i < 15 * f_n F)%nat /\ w = freq (f_n F) i.
Definition in_stop (F : filter) (w : R) : Prop := sample F w /\ f_ws F * PI < w.

(** [z] (autocorrelation coefficients) meets the specification with stop band
    bound [sp]. *)
Definition meets (F : filter) (sp : R) (z : nat -> R) : Prop :=
  (forall w, sample F w -> w <= f_wp F * PI -> f_lo F <= power_spectrum (f_n F) z w <= f_up F) /\
  (forall w, in_stop F w -> 0 <= power_spectrum (f_n F) z w <= sp) /\
  (forall w, sample F w -> f_wp F * PI < w <= f_ws F * PI -> 0 <= power_spectrum (f_n F) z w) /\
  0 <= z O.

(** [f] is the largest stop band response of [z]. *)
Definition stop_max (F : filter) (z : nat -> R) (f : R) : Prop :=
  (exists w, in_stop F w /\ power_spectrum (f_n F) z w = f) /\
  forall w, in_stop F w -> power_spectrum (f_n F) z w <= f.

(** The oracle's data is that of [F]; the round-robin positions are within
    their bands. *)
Definition describes_lp (F : filter) (o : lowpass RA) : Prop :=
  (1 <= f_n F)%nat /\ 0 <= f_wp F <= 1 /\ 0 <= f_ws F <= 1 /\
  length (lw_spectrum o) = (15 * f_n F)%nat /\
  (forall i, (i < 15 * f_n F)%nat ->
     length (nth i (lw_spectrum o) nil) = f_n F /\
     forall k, (k < f_n F)%nat -> fm (lw_spectrum o) i k =
       match k with O => 1 | S _ => 2 * cos (freq (f_n F) i * INR k) end) /\
  lw_nwpass o = (Int_part (f_wp F * INR (15 * f_n F - 1)) + 1)%Z /\
  lw_nwstop o = (Int_part (f_ws F * INR (15 * f_n F - 1)) + 1)%Z /\
  lw_lp o = f_lo F /\ lw_up o = f_up F /\
  (0 <= lw_idx1 o < lw_nwpass o)%Z /\
  ((lw_nwpass o < lw_nwstop o)%Z -> (lw_nwpass o <= lw_idx2 o < lw_nwstop o)%Z) /\
  ((lw_nwstop o < Z.of_nat (15 * f_n F))%Z ->
   (lw_nwstop o <= lw_idx3 o < Z.of_nat (15 * f_n F))%Z).

(** A history of calls, ignoring what they return. *)
Inductive lp_call : Type :=
  | CallFeas (x : vec RA)
  | CallOptim (x : vec RA) (g : num RA).
Fixpoint lp_calls (h : list lp_call) (o o' : lowpass RA) : Prop :=
  match h with
  | nil => o' = o
  | cons (CallFeas x) h => exists o1 r, lowpass_assess_feas o x = (o1, r) /\ lp_calls h o1 o'
  | cons (CallOptim x g) h => exists o1 r, lowpass_assess_optim o x g = (o1, r) /\ lp_calls h o1 o'
  end.
