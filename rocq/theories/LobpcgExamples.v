(** diag(-2, 1) is accepted, and the pair with eigenvalue 1 is returned. *)
Set Warnings "-notation-overridden,-ambiguous-paths".
From mathcomp Require Import all_ssreflect all_algebra.
Import GRing.Theory Num.Theory.
From Verif Require Import DecompGrad Lobpcg LobpcgProofs LobpcgProps.
Open Scope ring_scope.
Example ex_accepted (C : numClosedFieldType) : symlobpcg (@topm C) (diag_mx (Dm C)) = Some (@topm C (diag_mx (Dm C))).
Proof. apply: C86_symmetric_partial; [exact: tr_diag_mx|exact: Dm_max]. Qed.
Example ex_rejected (C : numClosedFieldType) : symlobpcg (@topm C) (Y C) = None.
Proof. by rewrite /symlobpcg Y_max Y_norm no_small andbF. Qed.
