(** Property C33: cycle decomposition and parity of permutations. *)
From Verif Require Import Base BaseLemmas Tensor Perm PermSpec PermProofs PermProofs2.
From Coq Require Import Permutation.
Open Scope list_scope.
Open Scope nat_scope.

Theorem C33_cycles_and_parity :
  forall sigma, is_permutation sigma ->
  exists cycles, cycleDecomp sigma = Ok (cycles, sign_of (inversions sigma)) /\
    Forall (is_cycle sigma) cycles /\ Permutation (concat cycles) (seq 0 (length sigma)).
Proof. exact cycleDecomp_ok. Qed.
Print Assumptions C33_cycles_and_parity.

Theorem C33_other_input_rejected : forall sigma, ~ is_permutation sigma -> cycleDecomp sigma = Err ValueError.
Proof. exact cycleDecomp_err. Qed.
Print Assumptions C33_other_input_rejected.

Theorem C33_multiplicative :
  forall s t, is_permutation s -> is_permutation t -> length s = length t ->
  exists c1 c2 c3 p1 p2, cycleDecomp s = Ok (c1, p1) /\ cycleDecomp t = Ok (c2, p2) /\
    cycleDecomp (compose s t) = Ok (c3, (p1 * p2)%Z).
Proof. exact parity_compose. Qed.
Print Assumptions C33_multiplicative.

Example C33_example : cycleDecomp [2; 0; 1; 4; 3; 5] = Ok ([[0; 2; 1]; [3; 4]; [5]], (-1)%Z) /\
  inversions [2; 0; 1; 4; 3; 5] = 3 /\ cycleDecomp [0; 0; 1] = Err ValueError.
Proof. repeat split; vm_compute; reflexivity. Qed.
(** the completely antisymmetric tensor *)
Example C33_levi_civita : levi_civita_3D = Ok (mkT [3; 3; 3]
  [0; 0; 0; 0; 0; 1; 0; -1; 0;   0; 0; -1; 0; 0; 0; 1; 0; 0;   0; 1; 0; -1; 0; 0; 0; 0; 0]%Z).
Proof. vm_compute. reflexivity. Qed.
