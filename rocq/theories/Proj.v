(** Model of [ctm_get_projectors_from_matrices], ctm/generic/ctm_projectors.py:141-295.
    Scalars: any algebraically closed field with absolute value (complex numbers; real
    tensors are the case where conjugation is trivial on the entries).  The decomposition
    itself is given by its result (U, S, V); arithmetic is exact. *)
Set Warnings "-notation-overridden,-ambiguous-paths".
From mathcomp Require Import all_ssreflect all_algebra.
Import GRing.Theory Num.Theory.
Set Implicit Arguments.
Unset Strict Implicit.
Unset Printing Implicit Defensive.
Open Scope ring_scope.

Section Proj.
Variable C : numClosedFieldType.

Definition conjm a b (A : 'M[C]_(a, b)) : 'M[C]_(a, b) := map_mx (fun x => x^*) A.

(** [x*s[None,:]] *)
Definition scale a b (A : 'M[C]_(a, b)) (q : seq C) : 'M[C]_(a, b) := \matrix_(i, j) (A i j * nth 0 q j).
(** [A[:,:c]] *)
Definition cols a b (c : nat) (A : 'M[C]_(a, b)) : 'M[C]_(a, minn c b) :=
  \matrix_(i, j) A i (widen_ord (geq_minr c b) j).

Variables (n m k : nat).          (* dim0, dim1, and k.+1 singular values *)
Variable reltol : C.              (* projector_svd_reltol *)

(** the decomposed matrix, ctm_projectors.py:260-264 *)
Definition mat_M (R Rt : 'M[C]_(n, m)) : 'M[C]_(m, m) := R^T *m Rt.

Definition svals (S : 'rV[C]_k.+1) : seq C := [seq S 0 j | j <- enum 'I_k.+1].

(** ctm_projectors.py:266: [S/S[0] > reltol] *)
Definition nz_mask (S : 'rV[C]_k.+1) : seq bool := [seq reltol < s / S 0 0 | s <- svals S].
(** ctm_projectors.py:268: [S[nz_mask]] *)
Definition s_nz (S : 'rV[C]_k.+1) : seq C := mask (nz_mask S) (svals S).
(** ctm_projectors.py:267 *)
Definition nz_count (S : 'rV[C]_k.+1) : nat := count id (nz_mask S).
(** ctm_projectors.py:269-270: [S_sqrt= S*0; S_sqrt[:len]= rsqrt(S_nz)] *)
Definition s_sqrt (S : 'rV[C]_k.+1) : seq C :=
  [seq (sqrtC s)^-1 | s <- s_nz S] ++ nseq (k.+1 - size (s_nz S)) 0.

(** ctm_projectors.py:281-284, projector_full_matrices *)
Definition projs_full (R Rt : 'M[C]_(n, m)) (U : 'M[C]_(m, k.+1)) (S : 'rV[C]_k.+1) (V : 'M[C]_(m, k.+1)) :=
  (scale (R *m conjm U) (s_sqrt S), scale (Rt *m V) (s_sqrt S)).

(** ctm_projectors.py:286-288 *)
Definition projs_nz (R Rt : 'M[C]_(n, m)) (U : 'M[C]_(m, k.+1)) (S : 'rV[C]_k.+1) (V : 'M[C]_(m, k.+1)) :=
  (scale (R *m conjm (cols (nz_count S) U)) (take (nz_count S) (s_sqrt S)),
   scale (Rt *m cols (nz_count S) V) (take (nz_count S) (s_sqrt S))).
End Proj.
