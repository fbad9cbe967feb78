(** C45: bond weights (IPEPS_WEIGHTED, ipeps/ipeps.py:543-670). *)
From Verif Require Import Base Lattice Tensor TensorLemmas CtmSpec Net Weights WeightsSpec WeightsProofs3.
From Coq Require Import Ring.
Open Scope Z_scope.
Open Scope list_scope.

(** When the dimensions of the two ends of every bond agree, every site of the unit cell has one
    weight in each of the four directions and there is no other weight; the weight seen from one
    end of a bond of the lattice is the weight seen from the other end, and it is the identity of
    the dimension of the bond. *)
Theorem C45_generated : forall (K : Type) (z o : K) (st : ipeps (tensor K)) sites f,
  is_state st sites f -> rank5 st -> bonds_match st ->
  exists ws, generate_weights z o st = Ok ws /\
    (forall k d, In (k, d) (dkeys ws) <-> In k (dkeys sites) /\ In d four) /\ NoDup (dkeys ws) /\
    forall v d, In d four -> exists W, weight st ws (v, d) = Ok W /\ weight st ws (cadd v d, cneg d) = Ok W /\
      forall A n, ipeps_site st v = Ok A -> nth_error (tdims A) (leg_of d) = Some n -> id_matrix z o n W.
Proof. exact @generate_ok. Qed.
Print Assumptions C45_generated.

Theorem C45_rejected : forall (K : Type) (z o : K) (st : ipeps (tensor K)) sites f,
  is_state st sites f -> rank5 st -> ~ bonds_match st -> generate_weights z o st = Err AssertionError.
Proof. exact @generate_rejects. Qed.
Print Assumptions C45_rejected.

(** Absorption: for diagonal weights that agree at the two ends of every bond, any finite set of
    vertices and any values of the indices, the product of the new site tensors is the product of
    the old ones, times the weight of every bond inside the set once, times the square root of the
    weight of every bond that leaves the set. *)
Theorem C45_absorbed : forall (K : Type) (z o : K) (add mul : K -> K -> K), semi_ring_theory z o add mul eq ->
  forall (st : ipeps (tensor K)) sites f ws sq w, is_state st sites f -> sq z = z -> rank5 st ->
  (forall v d A n, In d four -> ipeps_site st v = Ok A -> nth_error (tdims A) (leg_of d) = Some n ->
     exists W, weight st ws (v, d) = Ok W /\ is_diag z n (w v d) W) ->
  (forall v d i, In d four -> w (cadd v d) (cneg d) i = w v d i) -> (forall v d i, mul (sq (w v d i)) (sq (w v d i)) = w v d i) ->
  exists st', absorb_weights z o add mul sq st ws = Ok st' /\
    i_lX st' = i_lX st /\ i_lY st' = i_lY st /\ (forall v, i_v2s st' v = i_v2s st v) /\
    forall (As Ms : coord -> tensor K), (forall v, ipeps_site st v = Ok (As v)) -> (forall v, ipeps_site st' v = Ok (Ms v)) ->
    (forall v, twf (Ms v) /\ tdims (Ms v) = tdims (As v)) /\
    forall ps s p, NoDup ps -> (forall v, In v ps -> in_range (tdims (As v)) (index s p v)) ->
      times o mul (map (fun v => at_ z (Ms v) (index s p v)) ps)
      = mul (times o mul (map (fun v => at_ z (As v) (index s p v)) ps))
            (mul (times o mul (map (fun vd => w (fst vd) (snd vd) (s (bond_of (fst vd) (snd vd)))) (inner_bonds ps)))
                 (times o mul (map (fun vd => sq (w (fst vd) (snd vd) (s (bond_of (fst vd) (snd vd))))) (outer_bonds ps)))).
Proof. exact @absorb_patch. Qed.
Print Assumptions C45_absorbed.
