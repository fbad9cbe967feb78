(** C31, C32: spin operators of groups/su2.py. *)
From Verif Require Import Base Tensor Su2 Su2Spec Su2Proofs.
From Coq Require Import Reals Lra.
Open Scope list_scope.

(** ** C31 *)
Theorem C31_spin_algebra : forall m, exists Sz Sp Sm,
  get_op m OpSz = Ok Sz /\ get_op m OpSp = Ok Sp /\ get_op m OpSm = Ok Sm /\
  tdims Sz = [m; m] /\ tdims Sp = [m; m] /\ tdims Sm = [m; m] /\ spin_algebra m (mel Sz) (mel Sp) (mel Sm).
Proof. exact su2_algebra. Qed.
Print Assumptions C31_spin_algebra.

Theorem C31_bipartite_rotation : forall m, exists Rm Sz Sp Sm,
  get_rot_op m = Ok Rm /\ get_op m OpSz = Ok Sz /\ get_op m OpSp = Ok Sp /\ get_op m OpSm = Ok Sm /\
  tdims Rm = [m; m] /\ bipartite_rotation m (mel Rm) (mel Sz) (mel Sp) (mel Sm).
Proof. exact su2_rotation. Qed.
Print Assumptions C31_bipartite_rotation.

(** the spin-1 operators are not zero: the element <0|S+|1> is sqrt 2 *)
Example C31_example : exists Sp, get_op 3 OpSp = Ok Sp /\ mel Sp 0 1 = sqrt 2 /\ mel Sp 1 0 = 0%R.
Proof. destruct (get_sp 3) as (t & E & _ & _ & G). exists t. split; [exact E|]. rewrite !G by auto with arith.
  split; [|reflexivity]. unfold Su2Proofs.up, cc. cbn [Nat.eqb]. f_equal. simpl. lra. Qed.

(** ** C32 *)
(** The exchange operator is the documented one, and hermitian, exactly when the x and y couplings agree. *)
Theorem C32_exchange_iff : forall m x y z, (2 <= m)%nat -> exists t Sz Sp Sm,
  SS m x y z = Ok t /\ get_op m OpSz = Ok Sz /\ get_op m OpSp = Ok Sp /\ get_op m OpSm = Ok Sm /\
  (meq4 m (mel4 t) (exchange x y z (mel Sz) (mel Sp) (mel Sm)) <-> y = z) /\ (hermitian4 m (mel4 t) <-> y = z).
Proof. exact SS_documented_iff. Qed.
Print Assumptions C32_exchange_iff.

Theorem C32_anisotropic_refuted : exists m x y z t, SS m x y z = Ok t /\ ~ hermitian4 m (mel4 t).
Proof. destruct (SS_documented_iff 2 1 1 0 ltac:(auto)) as (t & _ & _ & _ & E & _ & _ & _ & _ & H).
  exists 2%nat, 1%R, 1%R, 0%R, t. split; [exact E|]. intros C. apply H in C. lra. Qed.
Print Assumptions C32_anisotropic_refuted.
