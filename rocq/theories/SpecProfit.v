(** The profit maximisation problem: inputs [y], Cobb-Douglas revenue minus
    cost, with the first input limited; points are logarithms of inputs. *)
From Coq Require Import Reals List ZArith.
From Verif Require Import Arith Vec ModelProfit Spec.
Import ListNotations.
Local Open Scope R_scope.

Record market : Type := mkMarket {
  m_price : R;      (* p, price of the output *)
  m_scale : R;      (* A *)
  m_limit : R;      (* k *)
  m_alpha : R;
  m_beta : R;
  m_v1 : R;
  m_v2 : R
}.

Definition revenue (m : market) (y1 y2 : R) : R :=
  m_price m * m_scale m * Rpower y1 (m_alpha m) * Rpower y2 (m_beta m).
Definition cost (m : market) (y1 y2 : R) : R := m_v1 m * y1 + m_v2 m * y2.
Definition profit_of (m : market) (y1 y2 : R) : R := revenue m y1 y2 - cost m y1 y2.

(** at a point in log space *)
Definition cost_at (m : market) (x : nat -> R) : R := cost m (exp (x 0%nat)) (exp (x 1%nat)).
Definition profit_at (m : market) (x : nat -> R) : R := profit_of m (exp (x 0%nat)) (exp (x 1%nat)).
Definition in_limit (m : market) (x : nat -> R) : Prop := exp (x 0%nat) <= m_limit m.

(** The oracle's data is that of [m], and the round-robin index is one that
    occurs. *)
Definition describes (m : market) (o : profit RA) : Prop :=
  0 < m_price m * m_scale m /\ 0 < m_limit m /\
  p_logpa o = ln (m_price m * m_scale m) /\ p_logk o = ln (m_limit m) /\
  p_price o = [m_v1 m; m_v2 m] /\ p_elast o = [m_alpha m; m_beta m] /\
  (p_idx o = -1 \/ p_idx o = 0 \/ p_idx o = 1)%Z.

(** What a robust oracle knows: the nominal data and the five radii. *)
Record box : Type := mkBox { b_e1 : R; b_e2 : R; b_e3 : R; b_e4 : R; b_e5 : R }.

Definition realises (m : market) (b : box) (m' : market) : Prop :=
  Rabs (m_alpha m' - m_alpha m) <= b_e1 b /\ Rabs (m_beta m' - m_beta m) <= b_e2 b /\
  Rabs (m_price m' - m_price m) <= b_e3 b /\ Rabs (m_limit m' - m_limit m) <= b_e4 b /\
  Rabs (m_v1 m' - m_v1 m) <= b_e5 b /\ Rabs (m_v2 m' - m_v2 m) <= b_e5 b /\
  m_scale m' = m_scale m.

Definition radii_ok (b : box) : Prop :=
  0 <= b_e1 b /\ 0 <= b_e2 b /\ 0 <= b_e3 b /\ 0 <= b_e4 b /\ 0 <= b_e5 b.

Definition describes_rb (m : market) (b : box) (o : profit_rb RA) : Prop :=
  radii_ok b /\ 0 < m_scale m /\ 0 < m_price m - b_e3 b /\ 0 < m_limit m - b_e4 b /\
  rb_elast o = [m_alpha m; m_beta m] /\ rb_uie o = (b_e1 b, b_e2 b) /\
  p_logpa (rb_omega o) = ln ((m_price m - b_e3 b) * m_scale m) /\
  p_logk (rb_omega o) = ln (m_limit m - b_e4 b) /\
  p_price (rb_omega o) = [m_v1 m + b_e5 b; m_v2 m + b_e5 b] /\
  (p_idx (rb_omega o) = -1 \/ p_idx (rb_omega o) = 0 \/ p_idx (rb_omega o) = 1)%Z.

(** Points whose inputs are positive integers. *)
Definition integer_point (x : nat -> R) : Prop :=
  exists a b : Z, (0 < a)%Z /\ (0 < b)%Z /\ exp (x 0%nat) = IZR a /\ exp (x 1%nat) = IZR b.

Definition describes_q (m : market) (o : profit_disc RA) : Prop :=
  describes m (pq_omega o) /\ length (pq_xd o) = 2%nat /\ integer_point (fv (pq_xd o)).

(** Input prices are not negative. *)
Definition good_price (m : market) : Prop := 0 <= m_v1 m /\ 0 <= m_v2 m.

(** The points worth looking for: within the limit, profit above [g]; and the
    points that are within the limit with profit at least [g] whatever market of
    the box turns up. *)
Definition better (m : market) (g : R) (z : nat -> R) : Prop := in_limit m z /\ g < profit_at m z.
Definition robust_ge (m : market) (b : box) (g : R) (z : nat -> R) : Prop :=
  forall m', realises m b m' -> in_limit m' z /\ g <= profit_at m' z.

(** Better than [g] by a margin: with the revenue and the limit reduced by the
    factor [exp (- eps)] the point would still be within the limit and earn [g]. *)
Definition better_by (m : market) (eps g : R) (z : nat -> R) : Prop :=
  exp (z 0%nat) <= exp (- eps) * m_limit m /\
  g + cost_at m z <= exp (- eps) * revenue m (exp (z 0%nat)) (exp (z 1%nat)).
Definition robust_by (m : market) (b : box) (eps g : R) (z : nat -> R) : Prop :=
  forall m', realises m b m' -> better_by m' eps g z.

(** The marginal revenue of each input equals its price. *)
Definition stationary (m : market) (x : nat -> R) : Prop :=
  let rev := revenue m (exp (x 0%nat)) (exp (x 1%nat)) in
  m_alpha m * rev = m_v1 m * exp (x 0%nat) /\ m_beta m * rev = m_v2 m * exp (x 1%nat).

(** Two oracles that differ only in how the input prices are written: one
    number [v], or [v] once for every input. *)
Definition one_price {A : Arith} (v : num A) (o1 o2 : profit A) : Prop :=
  p_idx o1 = p_idx o2 /\ p_cobb o1 = p_cobb o2 /\ p_q o1 = p_q o2 /\ p_vy o1 = p_vy o2 /\
  p_logpa o1 = p_logpa o2 /\ p_logk o1 = p_logk o2 /\ p_elast o1 = p_elast o2 /\
  p_price o1 = [v] /\ p_price o2 = repeat v (length (p_elast o2)).
