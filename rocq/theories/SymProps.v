(** Property C85: decompositions of symmetric matrices, ordered by modulus. *)
Set Warnings "-notation-overridden,-ambiguous-paths".
From mathcomp Require Import all_ssreflect all_algebra all_fingroup.
Import GRing.Theory Num.Theory.
From Verif Require Import DecompGrad Rsvd RsvdSpec Sym SymSpec SymProofs.
Open Scope ring_scope.

Theorem C85_symeig : forall (C : numClosedFieldType) n k (eig : 'M[C]_n -> 'rV[C]_k * 'M[C]_(n, k)) order, sorts order ->
  forall A : 'M[C]_n, eigenpairs A (eig A).1 (eig A).2 -> let r := symeig eig order A in
  [/\ eigenpairs A r.1 r.2, by_modulus r.1 & same_pairs (eig A).1 r.1 (eig A).2 r.2].
Proof. exact symeig_ok. Qed.
Print Assumptions C85_symeig.

(** singular triples; the right vectors are orthonormal exactly when no eigenvalue vanishes *)
Theorem C85_svdsymeig_partial : forall (C : numClosedFieldType) n k (eig : 'M[C]_n -> 'rV[C]_k * 'M[C]_(n, k)) order, sorts order ->
  forall A : 'M[C]_n, eigenpairs A (eig A).1 (eig A).2 -> hermitian A -> let d := svdsymeig eig order A in
  [/\ rk d = k, ortho (uu d), descending (ss d), A *m vv d = uu d *m diag_mx (ss d) & ctr A *m uu d = vv d *m diag_mx (ss d)]
  /\ ((forall j, (eig A).1 0 j != 0) <-> ortho (vv d)).
Proof. exact svdsymeig_ok. Qed.
Print Assumptions C85_svdsymeig_partial.

Theorem C85_whole : forall (C : numClosedFieldType) n (eig : 'M[C]_n -> 'rV[C]_n * 'M[C]_(n, n)) order (A : 'M[C]_n), sorts order ->
  eigenpairs A (eig A).1 (eig A).2 -> hermitian A ->
  A = (symeig eig order A).2 *m diag_mx (symeig eig order A).1 *m ctr (symeig eig order A).2 /\
  let d := svdsymeig eig order A in A = uu d *m diag_mx (ss d) *m ctr (vv d).
Proof. exact whole_ok. Qed.
Print Assumptions C85_whole.

(** a singular symmetric matrix whose right vectors are not orthonormal *)
Theorem C85_right_vectors_refuted : forall C : numClosedFieldType, exists n (eig : 'M[C]_n -> 'rV[C]_n * 'M[C]_(n, n)) order (A : 'M[C]_n),
  [/\ sorts order, eigenpairs A (eig A).1 (eig A).2, hermitian A & ~ ortho (vv (svdsymeig eig order A))].
Proof. exact right_bad. Qed.
Print Assumptions C85_right_vectors_refuted.
