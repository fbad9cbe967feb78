(** What it means for a class of states to come back from a checkpoint file. *)
From Coq Require Import String List ZArith Bool.
From Verif Require Import Base StateCk.
Import ListNotations.
Open Scope list_scope.

Section StateCkSpec.
Context {A : Type}.

(** the values held by a list of tensors, by a dictionary of tensors *)
Definition tensors (l : list (pyv A)) (ts : list (tens A)) : Prop := l = map PT ts.
Definition tensor_dict (s : pyv A) (d : list (pykey * tens A)) : Prop :=
  s = PDict (map (fun kt => (fst kt, PT (snd kt))) d).

(** two lists of parameters hold the same tensors in the same order, up to [requires_grad] *)
Definition same_parameters (p p' : res (list (pyv A))) : Prop :=
  exists l l' ts ts', p = Ok l /\ p' = Ok l' /\ tensors l ts /\ tensors l' ts' /\
    map t_val ts' = map t_val ts.

(** none of the parameters requires a gradient *)
Definition detached (p : res (list (pyv A))) : Prop :=
  exists l, p = Ok l /\ forall t, In (PT t) l -> t_grad t = false.

(** two dictionaries of on-site tensors hold the same tensors under the same keys *)
Definition same_sites (s s' : pyv A) : Prop :=
  exists d d', tensor_dict s d /\ tensor_dict s' d' /\
    map (fun kt => (fst kt, t_val (snd kt))) d' = map (fun kt => (fst kt, t_val (snd kt))) d.

(** a state of [made] stored in a file and loaded into any state [st0] that fits it *)
Definition restores {S : Type} (made : S -> Prop) (fits : S -> S -> Prop)
    (parameters : S -> res (list (pyv A))) (checkpoint : S -> pyv A)
    (load : S -> pyv A -> res S) (sites : S -> pyv A) : Prop :=
  forall st0 st epoch loss opt, made st -> fits st0 st ->
  exists st', load st0 (store_checkpoint epoch loss opt (checkpoint st)) = Ok st' /\
    same_parameters (parameters st) (parameters st') /\
    same_sites (sites st) (sites st').

Definition anywhere {S : Type} (_ _ : S) : Prop := True.

(** in addition the loaded parameters require no gradient *)
Definition restores_detached {S : Type} (made : S -> Prop) (fits : S -> S -> Prop)
    (parameters : S -> res (list (pyv A))) (checkpoint : S -> pyv A)
    (load : S -> pyv A -> res S) (sites : S -> pyv A) : Prop :=
  restores made fits parameters checkpoint load sites /\
  forall st0 st epoch loss opt st', made st -> fits st0 st ->
    load st0 (store_checkpoint epoch loss opt (checkpoint st)) = Ok st' -> detached (parameters st').

(** no state can be loaded back *)
Definition never_restores {S : Type} (made : S -> Prop) (fits : S -> S -> Prop)
    (checkpoint : S -> pyv A) (load : S -> pyv A -> res S) : Prop :=
  forall st0 st epoch loss opt, made st -> fits st0 st ->
  exists e, load st0 (store_checkpoint epoch loss opt (checkpoint st)) = Err e.

(** the dtype of a state agrees with its tensors *)
Definition dtype_agrees (cplx : A -> bool) (dtype_complex : bool) (sites : pyv A) : Prop :=
  forall d, tensor_dict sites d -> dtype_complex = existsb (fun kt => cplx (t_val (snd kt))) d.

End StateCkSpec.

(** states as their constructors make them *)
Section Made.
Context {A : Type}.
Variable cplx : A -> bool.
Variable numel : A -> Z.
Variable flip : A -> A.
Variable lincomb : list (bool * A) -> A -> res A.
Variable dress : A -> A -> res A.
Variable trgl : A -> A -> res A.
Variable ipess : A -> A -> A -> A -> A -> res A.

Definition ipeps_made (st : @StateCk.ipeps A) : Prop := exists d, tensor_dict (i_sites st) d.
Definition q_made (st : @ipeps_q A) : Prop :=
  (exists d, tensor_dict (q_sites st) d) /\ exists q, q_q st = PT q.
Definition d2_made (st : @d2 A) : Prop := exists c t, d2_new cplx flip c t = Ok st.
(** some coefficient vector has one entry for each elementary tensor *)
Definition lc_made (st : @lc A) : Prop :=
  exists elem coeffs l, lc_new lincomb elem coeffs = Ok st /\ py_iter elem = Ok l /\
  exists d k t, coeffs = PDict d /\ In (k, PT t) d /\ numel (t_val t) = Z.of_nat (length l).
Definition bp_made (st : @lc A) : Prop := exists elem coeffs, bp_new lincomb dress elem coeffs = Ok st.
Definition tri_made (st : @tri A) : Prop := exists c a p, tri_new cplx trgl c a p = Ok st.
(** every site has exactly the five tensors *)
Definition five_tensors (v : pyv A) : Prop :=
  exists d, tensor_dict v d /\ forall k, In k (map fst d) <-> In k five.
Definition kag_made (st : @kag A) : Prop :=
  exists ip, kag_new ipess ip = Ok st /\
  forall d k s, k_ipess st = PDict d -> In (k, s) d -> five_tensors s.
Definition kpg_made (st : @kpg A) : Prop :=
  exists symm ud bs tu bc td ba bb, kpg_new ipess symm ud bs tu bc td ba bb = Ok st.
Definition kpg_fits (st0 st : @kpg A) : Prop := p_ud st0 = p_ud st /\ p_bs st0 = p_bs st.
Definition klc_made (st : @klc A) : Prop :=
  exists ud bs pgs tu bc td ba bb, klc_new lincomb ipess ud bs pgs tu bc td ba bb = Ok st.
Definition klc_fits (st0 st : @klc A) : Prop :=
  c_ud st0 = c_ud st /\ c_bs st0 = c_bs st /\ c_pgs st0 = c_pgs st.
(** one trivalent tensor and one bond tensor *)
Definition klc_equal (st : @klc A) : Prop := c_ud st = true /\ c_bs st = true.
End Made.
