(** Property C84: randomised singular value decompositions. *)
Set Warnings "-notation-overridden,-ambiguous-paths".
From mathcomp Require Import all_ssreflect all_algebra.
Import GRing.Theory Num.Theory.
From Verif Require Import DecompGrad Rsvd RsvdSpec RsvdProofs.
Open Scope ring_scope.

(** for every sample: leading part of a singular value decomposition of the matrix projected on a subspace that contains (M M^dagger)^(q-1) M RN *)
Theorem C84_rsvd : forall (C : numClosedFieldType) (b : nat) qr svd, @qr_ok C b qr -> @svd_ok C b svd ->
  forall m n (M : 'M[C]_(m, n)), (m <= b)%N -> (n <= b)%N -> forall l (RN : 'M[C]_(n, l)) k q s vnum, (l <= b)%N -> ((vnum == 1) || (2 < vnum))%N ->
  exists c (Q : 'M[C]_(m, c)) (d : usv C m n), [/\ ortho Q, spans_columns Q (power M (q - 1) (M *m RN)), is_svd (Q *m ctr Q *m M) d, leading k d (rsvd qr svd M RN k q s vnum)
    & triples (Q *m ctr Q *m M) (rsvd qr svd M RN k q s vnum)].
Proof. exact rsvd_ok. Qed.
Print Assumptions C84_rsvd.

(** exact when the sampled vectors span the columns of the matrix, for all numbers of passes and of orthogonalisations *)
Theorem C84_rsvd_exact : forall (C : numClosedFieldType) (b : nat) qr svd, @qr_ok C b qr -> @svd_ok C b svd ->
  forall m n (M : 'M[C]_(m, n)), (m <= b)%N -> (n <= b)%N -> forall l (RN : 'M[C]_(n, l)) k q s vnum, (l <= b)%N -> ((vnum == 1) || (2 < vnum))%N ->
  spans_columns (M *m RN) M ->
  (exists d : usv C m n, is_svd M d /\ leading k d (rsvd qr svd M RN k q s vnum)) /\ triples M (rsvd qr svd M RN k q s vnum).
Proof. exact exact_ok. Qed.
Print Assumptions C84_rsvd_exact.

Theorem C84_truncated_svd_rsvd : forall (C : numClosedFieldType) (b : nat) qr svd, @qr_ok C b qr -> @svd_ok C b svd ->
  forall m n (M : 'M[C]_(m, n)), (m <= b)%N -> (n <= b)%N -> forall chi q (RN : 'M[C]_(n, chi.+1 + q)) niter s vnum, (chi.+1 + q <= b)%N ->
  ((vnum == 1) || (2 < vnum))%N -> spans_columns (M *m RN) M ->
  (exists d : usv C m n, is_svd M d /\ leading chi d (truncated_svd_rsvd qr svd M RN niter s vnum))
  /\ triples M (truncated_svd_rsvd qr svd M RN niter s vnum).
Proof. exact wrapper_ok. Qed.
Print Assumptions C84_truncated_svd_rsvd.

(** with vnum 0 or 2 no decomposition is made: zeros, and more columns than asked for *)
Theorem C84_vnum_refuted : forall (C : numClosedFieldType) qr svd m n (M : 'M[C]_(m, n)) l (RN : 'M[C]_(n, l)) k q s vnum, (vnum == 0)%N || (vnum == 2)%N ->
  let d := rsvd qr svd M RN k q s vnum in
  [/\ rk d = l, uu d = 0, ss d = 0, vv d = 0 & (0 < l)%N -> ~ ortho (uu d)].
Proof. exact vnum_bad. Qed.
Print Assumptions C84_vnum_refuted.

(** the condition: the sample keeps the rank of the matrix, which needs as many vectors *)
Theorem C84_sample : forall (C : numClosedFieldType) m n l (M : 'M[C]_(m, n)) (RN : 'M[C]_(n, l)),
  (spans_columns (M *m RN) M <-> \rank (M *m RN) = \rank M) /\ (spans_columns (M *m RN) M -> (\rank M <= l)%N).
Proof. exact rank_ok. Qed.
Print Assumptions C84_sample.
