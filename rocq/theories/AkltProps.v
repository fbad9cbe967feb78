(** C76: the operators of models/akltS2.py. *)
From Verif Require Import Base Tensor Su2 Su2Spec Aklt AkltSpec AkltProofs4.
From Coq Require Import Reals.
Open Scope list_scope.
Open Scope R_scope.

(** The bond operator h of AKLTS2 is the polynomial X/14 + X^2/20 + X^3/90 + X^4/1260 of X = S1.S2; it is symmetric, maps every
    state to one of total spin 4, and half of it is the projector on total spin 4.  Example: AkltProofs4.h_up, singlet_spin. *)
Theorem C76_operator_partial : exists h SS Sz Sp Sm, aklt_h 5 = Ok (h, SS) /\ get_op 5 OpSz = Ok Sz /\ get_op 5 OpSp = Ok Sp /\ get_op 5 OpSm = Ok Sm /\
  tdims h = [5; 5; 5; 5]%nat /\ tdims SS = [5; 5; 5; 5]%nat /\
  (forall v, seq2 5 (act 5 (mel4 SS) v) (dot_spins 5 (mel Sz) (mel Sp) (mel Sm) v)) /\
  (forall v, seq2 5 (act 5 (mel4 h) v) (quartic 5 (mel Sz) (mel Sp) (mel Sm) (1/14) (1/20) (1/90) (1/1260) v)) /\
  hermitian4 5 (mel4 h) /\ (forall v, has_spin 5 (mel Sz) (mel Sp) (mel Sm) 4 (act 5 (mel4 h) v)) /\
  projector 5 (mel Sz) (mel Sp) (mel Sm) 4 (fun v => sscale (1/2) (act 5 (mel4 h) v)).
Proof. exact aklt_ok. Qed.
Print Assumptions C76_operator_partial.

(** It is not the projector itself, ... *)
Theorem C76_projector_refuted : exists h SS Sz Sp Sm, aklt_h 5 = Ok (h, SS) /\ get_op 5 OpSz = Ok Sz /\ get_op 5 OpSp = Ok Sp /\ get_op 5 OpSm = Ok Sm /\
  ~ projector 5 (mel Sz) (mel Sp) (mel Sm) 4 (act 5 (mel4 h)).
Proof. exact not_projector. Qed.
Print Assumptions C76_projector_refuted.

(** ... and no multiple of the documented polynomial X/14 + 7/10 X^2 + 7/45 X^3 + X^4/90 is. *)
Theorem C76_documented_refuted : exists Sz Sp Sm, get_op 5 OpSz = Ok Sz /\ get_op 5 OpSp = Ok Sp /\ get_op 5 OpSm = Ok Sm /\
  forall c, ~ projector 5 (mel Sz) (mel Sp) (mel Sm) 4 (fun v => sscale c (quartic 5 (mel Sz) (mel Sp) (mel Sm) (1/14) (7/10) (7/45) (1/90) v)).
Proof. exact documented_not. Qed.
Print Assumptions C76_documented_refuted.

(** The operators of AKLTS2_C4V_BIPARTITE are those of AKLTS2 with the second spin rotated. *)
Theorem C76_rotated : exists h SS h_rot SS_rot r, aklt_h 5 = Ok (h, SS) /\ get_rot_op 5 = Ok r /\ aklt_c4v_h 5 = Ok (h_rot, SS, SS_rot) /\
  tdims h_rot = [5; 5; 5; 5]%nat /\ tdims SS_rot = [5; 5; 5; 5]%nat /\
  (forall v, seq2 5 (act 5 (mel4 h_rot) v) (on2 5 (mtrans (mel r)) (act 5 (mel4 h) (on2 5 (mel r) v)))) /\
  (forall v, seq2 5 (act 5 (mel4 SS_rot) v) (on2 5 (mtrans (mel r)) (act 5 (mel4 SS) (on2 5 (mel r) v)))).
Proof. exact aklt_c4v_ok. Qed.
Print Assumptions C76_rotated.
