(** Property C96: the drivers on mutable arrays. *)
From Coq Require Import List Arith ZArith.
From Verif Require Import Arith Vec ModelCalc ModelCut ModelHeap ModelEll ModelStable ModelSpaces ModelProfit ModelHeapQ SpecHeap Toy PHeap PHeap2 PHeapQ PHeapQEx.
Import ListNotations.

(** C96: with oracles that only read the array they are given, the drivers on
    references answer what the drivers on values answer.  The array the space
    was built from is the centre: it ends up holding the final centre, and no
    other array is touched. *)
Theorem C96_feas_same : forall (A : Arith) (St V C : Type) (dflt : V) (sp : space_ops A St V C) (opt : options A)
    (Orc : Type) (f : Orc -> V -> Orc * res (option C)) o s h o' s' h' r,
  xc_attribute sp -> (snd s < length h)%nat ->
  h_cutting_plane_feas dflt sp opt (reads dflt f) o s h = (o', s', h', r) ->
  cutting_plane_feas f sp opt o (value_of dflt sp h s) = (o', value_of dflt sp h' s', feas_res dflt h' r) /\
  only_centre_changed dflt sp s h s' h'.
Proof. exact @feas_same. Qed.
Print Assumptions C96_feas_same.

Theorem C96_optim_same : forall (A : Arith) (St V C : Type) (dflt : V) (sp : space_ops A St V C) (opt : options A)
    (Orc G : Type) (f : Orc -> V -> G -> Orc * res (C * option G)) o s h g o' s' h' r,
  xc_attribute sp -> (snd s < length h)%nat ->
  h_cutting_plane_optim dflt sp opt (reads_g dflt f) o s h g = (o', s', h', r) ->
  cutting_plane_optim f sp opt o (value_of dflt sp h s) g = (o', value_of dflt sp h' s', optim_res dflt h' r) /\
  only_centre_changed dflt sp s h s' h'.
Proof. exact @optim_same. Qed.
Print Assumptions C96_optim_same.

Theorem C96_optim_q_same : forall (A : Arith) (St V C : Type) (dflt : V) (sp : space_ops A St V C) (opt : options A)
    (Orc G : Type) (f : Orc -> V -> G -> bool -> Orc * res (C * V * option G * bool)) o s h g o' s' h' r,
  xc_attribute sp -> (snd s < length h)%nat ->
  h_cutting_plane_optim_q dflt sp opt (reads_q dflt f) o s h g = (o', s', h', r) ->
  cutting_plane_optim_q f sp opt o (value_of dflt sp h s) g = (o', value_of dflt sp h' s', optim_res dflt h' r) /\
  only_centre_changed dflt sp s h s' h'.
Proof. exact @optim_q_same. Qed.
Print Assumptions C96_optim_q_same.

(** The feasibility driver hands out the centre array itself, whatever the
    oracle does to memory. *)
Theorem C96_feas_answer_is_the_centre : forall (A : Arith) (St V C : Type) (dflt : V) (sp : space_ops A St V C) (opt : options A)
    (Orc : Type) (f : Orc -> addr -> list V -> Orc * list V * res (option C)) o s h o' s' h' x k,
  h_cutting_plane_feas dflt sp opt f o s h = (o', s', h', Ok (Some x, k)) ->
  x = h_xc s' /\ h_xc s' = h_xc s.
Proof. exact @h_feas_alias. Qed.
Print Assumptions C96_feas_answer_is_the_centre.

(** The adaptor works on copies: no array that existed before the call is
    touched, and after success its centre is a new array. *)
Theorem C96_adaptor_same : forall (A : Arith) (St V C : Type) (dflt : V) (sp : space_ops A St V C) (opt : options A)
    (Orc P : Type) (f : Orc -> V -> Orc * res (option C)) (update : P -> Orc -> Orc) o (s : hspace (St:=St)) gamma h o' s' h' r,
  xc_attribute sp -> (snd s < length h)%nat ->
  h_assess_bs dflt sp opt (reads dflt f) update (o, s) gamma h = ((o', s'), h', r) ->
  assess_bs f update sp opt (o, value_of dflt sp h s) gamma = ((o', value_of dflt sp h' s'), r) /\
  (snd s' < length h')%nat /\ (length h <= length h')%nat /\
  (forall b, (b < length h)%nat -> nth b h' dflt = nth b h dflt) /\
  (r = Ok true -> (length h <= snd s')%nat) /\ (r <> Ok true -> snd s' = snd s).
Proof. exact @adaptor_same. Qed.
Print Assumptions C96_adaptor_same.

Theorem C96_ell : forall A : Arith, xc_attribute (ell_space A).
Proof. exact ell_xc_attribute. Qed.
Print Assumptions C96_ell.

Theorem C96_stable : forall A : Arith, xc_attribute (stable_space A).
Proof. exact stable_xc_attribute. Qed.
Print Assumptions C96_stable.

(** The caller's starting point [10] has become [2]. *)
Example C96_case_feas :
  h_cutting_plane_feas 0%Z toy_space (toy_opt 100) (reads 0%Z toy_feas) 0%Z ((0, 1000)%Z, 1) [7%Z; 10%Z]
    = (5%Z, ((2, 62)%Z, 1), [7%Z; 2%Z], Ok (Some 1, 4%Z)).
Proof. vm_compute. reflexivity. Qed.

Example C96_case_toy : xc_attribute toy_space.
Proof. repeat split; intros []; reflexivity. Qed.

Example C96_case_optim : exists s h,
  h_cutting_plane_optim 0%Z toy_space (toy_opt 4) (reads_g 0%Z toy_optim) 0%Z ((10, 1000)%Z, 0) [10%Z] 8%Z
    = (4%Z, s, h, Ok (Some 3, 1%Z, 4%Z)) /\ h = [-2; 7; 4; 1]%Z.
Proof. eexists _, _. split; [vm_compute; reflexivity|vm_compute; reflexivity]. Qed.

(** Accepting: the new centre is cell 2, the old cells are as before. *)
Example C96_case_adaptor :
  h_assess_bs 0%Z toy_space (toy_opt 100) (reads 0%Z toy_gfeas) (fun g _ => g) (0%Z, ((0, 1000)%Z, 1)) 8%Z [7%Z; 10%Z]
    = ((8%Z, ((0, 1000)%Z, 2)), [7; 10; 8]%Z, Ok true).
Proof. vm_compute. reflexivity. Qed.

(** [ProfitQOracle] keeps its integer point between calls, hands that very array out with a value, and
    hands the centre array itself back with a feasibility cut.  All the same, with the integer point in an
    array of its own (as the constructor leaves it), [cutting_plane_optim_q] on references answers what it
    answers on values: the best point returned is not overwritten by later updates. *)
Theorem C96_profit_q : forall (A : Arith) (T : Trans A) (St : Type) (sp : space_ops A St (vec A) (cut A)) (opt : options A)
    o s h g o' s' h' r,
  xc_attribute sp -> (snd s < length h)%nat -> (snd o < length h)%nat -> snd o <> snd s ->
  h_cutting_plane_optim_q [] sp opt (hprofit_q_assess T) o s h g = (o', s', h', r) ->
  cutting_plane_optim_q (profit_assess_optim_q T) sp opt (mkProfitQ (fst o) (nth (snd o) h [])) (value_of [] sp h s) g =
    (mkProfitQ (fst o') (nth (snd o') h' []), value_of [] sp h' s', optim_res [] h' r) /\
  only_centre_changed [] sp s h s' h'.
Proof. exact @profit_q_same. Qed.
Print Assumptions C96_profit_q.

Theorem C96_profit_q_start : forall (A : Arith) (T : Trans A) params el pr h h1 o,
  hprofit_q_init T params el pr h = (h1, Ok o) ->
  snd o = length h /\ (snd o < length h1)%nat /\ (forall b, (b < length h)%nat -> nth b h1 [] = nth b h []) /\
  profit_q_init T params el pr = Ok (mkProfitQ (fst o) (nth (snd o) h1 [])).
Proof. exact @profit_q_start. Qed.
Print Assumptions C96_profit_q_start.

(** A run whose first answer is the centre array (cell 0) and whose best point is cell 2, still (10, 5)
    after the centre has moved on. *)
Example C96_case_profit_q : exists o o' s',
  hprofit_q_init toy_trans (1, 1, 10)%Z [2; 2]%Z [1; 1]%Z [[20; 5]%Z] = ([[20; 5]%Z; [0; 0]%Z], Ok o) /\
  xc_attribute toy_vspace /\
  snd (hprofit_q_assess toy_trans o 0 1%Z false [[20; 5]%Z; [0; 0]%Z]) = Ok (([1; 0]%Z, CSingle (A:=ZA) 10%Z), 0, None, true) /\
  h_cutting_plane_optim_q [] toy_vspace (toy_opt 3) (hprofit_q_assess toy_trans) o (([0; 0]%Z, 1000%Z), 0)
    [[20; 5]%Z; [0; 0]%Z] 1%Z
  = (o', s', [[20; 25]%Z; [0; 0]%Z; [10; 5]%Z], Ok (Some 2, 16%Z, 3%Z)).
Proof. exact toy_profit_q. Qed.
