(** Property C67: the on-site tensors of states with a bond tensor. *)
From Coq Require Import Ring_theory.
From Verif Require Import Base Tensor TensorIO TensorIOSpec StateIO Lattice NetSpec LcIO LcIOSpec LcBondSpec LcIOProofs5
  LcIOExamples.
Open Scope nat_scope.
Open Scope list_scope.

(** the even places of the square lattice hold the combination of the site tensors, the odd places
    hold it with the combination of the bond tensors on each auxiliary index *)
Theorem C67_bond_sites {R : Type} (zero one : R) (add mul sub : R -> R -> R) (opp : R -> R) :
  ring_theory zero one add mul sub opp eq ->
  forall p a site bond n l m q st,
  (forall mt, In mt site -> square (snd mt) /\ ten_shape (snd mt) = [p; a; a; a; a]) ->
  (forall mt, In mt bond -> square2 (snd mt) /\ ten_shape (snd mt) = [a; a]) ->
  length l = length site -> length q = length bond ->
  bps_new zero one add mul sub site bond (TReal (mkT [n] l)) (TReal (mkT [m] q)) = Ok st ->
  exists A B b : tensor R, twf A /\ tdims A = [p; a; a; a; a] /\ twf b /\ tdims b = [a; a] /\
    (forall ix, addresses [p; a; a; a; a] ix -> tget A ix = Some (weighted zero add mul l (map snd site) ix)) /\
    (forall ix, addresses [a; a] ix -> tget b ix = Some (weighted zero add mul q (map snd bond) ix)) /\
    is_contraction (bD p a) zero one add mul (dressed b A) [V 0; V 1; V 2; V 3; V 4] B /\
    forall x y, ipeps_site (b_state st) (x, y) = Ok (TReal (if Z.even (x + y) then A else B)).
Proof. exact (bp_sites zero one add mul sub opp). Qed.
Print Assumptions C67_bond_sites.

Example C67_bond_sites_case : exists st A B, zbnew elem_r [(irr "B", b1)] (vec [3; -7]%Z) (vec [2%Z]) = Ok st /\
  ipeps_site (b_state st) (-3, 5)%Z = Ok (TReal A) /\ ipeps_site (b_state st) (-3, 4)%Z = Ok (TReal B) /\
  tget A [0; 0; 1; 0; 0] = Some 3%Z /\ tget A [0; 1; 1; 1; 1] = Some 14%Z /\
  tget B [0; 0; 1; 1; 1] = Some (-48)%Z /\ tget B [0; 0; 0; 0; 0] = Some 224%Z.
Proof. exact bp_sites_case. Qed.
