(** Model of the gradients of the matrix decompositions: [SVDGESDD.backward]
    (linalg/svd_gesdd.py:209-328; the same text is SVDAF.backward, linalg/svd_af.py:154-273,
    and SVD_PROPACK.backward, linalg/svd_arnoldi.py:233-348), [SVDSYMEIG.backward]
    (linalg/svd_symeig.py:48-81) and [SYMEIG.backward] (linalg/eig_sym.py:55-79), and of the
    signs that [SVDGESDD.forward] gives to the singular vectors (linalg/svd_gesdd.py:18-26, 76-117).

    Scalars: any algebraically closed field with absolute value (the complex numbers); real
    tensors are those with real entries.  Arithmetic is exact.  Division by zero is 0 here, infinity
    or nan in torch: the statements exclude it.  The saved factors have k.+1 columns, which is what
    they have after the [narrow] of lines 262-269. *)
Set Warnings "-notation-overridden,-ambiguous-paths".
From mathcomp Require Import all_ssreflect all_algebra.
Import GRing.Theory Num.Theory.
Set Implicit Arguments.
Unset Strict Implicit.
Unset Printing Implicit Defensive.
Open Scope ring_scope.

(** what Python does: a value or an exception *)
Inductive exn := NameError | TypeError | RuntimeError.
Inductive out (T : Type) := Ret of T | Raise of exn.
Arguments Raise {T}.

Section Grad.
Variable C : numClosedFieldType.

(** [x.conj().transpose(-2,-1)] *)
Definition ctr a b (A : 'M[C]_(a, b)) : 'M[C]_(b, a) := (map_mx (fun x => x^*) A)^T.
(** [A * q.unsqueeze(-2)] and [q.unsqueeze(-1) * A] *)
Definition colscale a b (A : 'M[C]_(a, b)) (q : 'rV[C]_b) : 'M[C]_(a, b) := \matrix_(i, j) (A i j * q 0 j).
Definition rowscale a b (q : 'rV[C]_a) (A : 'M[C]_(a, b)) : 'M[C]_(a, b) := \matrix_(i, j) (q 0 i * A i j).
(** [A.mul(B)] *)
Definition had a b (A B : 'M[C]_(a, b)) : 'M[C]_(a, b) := \matrix_(i, j) (A i j * B i j).
(** [A * 0.5] *)
Definition half a b (A : 'M[C]_(a, b)) : 'M[C]_(a, b) := \matrix_(i, j) (A i j * 2%:R^-1).

(** linalg/svd_gesdd.py:11-12, linalg/eig_sym.py:4-5, linalg/svd_symeig.py:7-8 *)
Definition safe_inverse (eps x : C) : C := x / (x ^+ 2 + eps).
(** linalg/svd_gesdd.py:14-16: entries below [epsilon] become infinite, their inverse 0 *)
Definition safe_inverse_2 (eps x : C) : C := if `|x| < eps then 0 else x^-1.

Section Svd.
Variables (m n k : nat).

(** linalg/svd_gesdd.py:286-288: F, with the diagonal filled with 0 *)
Definition mat_F (e : C) (s : 'rV[C]_k.+1) : 'M[C]_k.+1 :=
  \matrix_(i, j) if i == j then 0 else safe_inverse e (s 0 j - s 0 i).
(** linalg/svd_gesdd.py:290-292 *)
Definition mat_G (e : C) (s : 'rV[C]_k.+1) : 'M[C]_k.+1 :=
  \matrix_(i, j) if i == j then 0 else safe_inverse e (s 0 j + s 0 i).
(** linalg/svd_gesdd.py:284 *)
Definition mat_sinv (e : C) (s : 'rV[C]_k.+1) : 'rV[C]_k.+1 := \row_j safe_inverse_2 e (s 0 j).

(** linalg/svd_gesdd.py:295-303 *)
Definition u_term (e : C) (u : 'M[C]_(m, k.+1)) (s : 'rV[C]_k.+1) (v : 'M[C]_(n, k.+1)) (gu : 'M[C]_(m, k.+1)) : 'M[C]_(m, n) :=
  let uh := ctr u in let guh := ctr gu in
  let t := half (u *m had (mat_F e s + mat_G e s) (uh *m gu - guh *m u)) in
  let t := if (k.+1 < m)%N then t + (- u *m uh + 1%:M) *m colscale gu (mat_sinv e s) else t in
  t *m ctr v.

(** linalg/svd_gesdd.py:307-316 *)
Definition v_term (e : C) (u : 'M[C]_(m, k.+1)) (s : 'rV[C]_k.+1) (v : 'M[C]_(n, k.+1)) (gv : 'M[C]_(n, k.+1)) : 'M[C]_(m, n) :=
  let vh := ctr v in let gvh := ctr gv in
  let t := half (had (mat_F e s - mat_G e s) (vh *m gv - gvh *m v) *m vh) in
  let t := if (k.+1 < n)%N then t + rowscale (mat_sinv e s) (gvh *m (- v *m vh + 1%:M)) else t in
  u *m t.

(** linalg/svd_gesdd.py:322-327: the imaginary part of the diagonal of [uh @ gu], divided by sigma *)
Definition imag_term (e : C) (u : 'M[C]_(m, k.+1)) (s : 'rV[C]_k.+1) (v : 'M[C]_(n, k.+1)) (gu : 'M[C]_(m, k.+1)) : 'M[C]_(m, n) :=
  let L : 'rV[C]_k.+1 := \row_j ('i * ('Im ((ctr u *m gu) j j) * mat_sinv e s 0 j)) in
  colscale u L *m ctr v.

(** linalg/svd_gesdd.py:209-328.  [cplx]: u or v is complex; [diag]: diagnostics is not None;
    a gradient that autograd does not pass is None. *)
Definition svd_backward (cplx diag : bool) (u : 'M[C]_(m, k.+1)) (s : 'rV[C]_k.+1) (v : 'M[C]_(n, k.+1)) (eps : C)
  (gu : option 'M[C]_(m, k.+1)) (gs : option 'rV[C]_k.+1) (gv : option 'M[C]_(n, k.+1)) : out 'M[C]_(m, n) :=
  let e := s 0 0 * eps in
  let sigma_term := if gs is Some gs then colscale u gs *m ctr v else 0 in
  (* svd_gesdd.py:279: (gv is None) and (gv is None) *)
  if ~~ isSome gv && ~~ isSome gv then (if diag then Raise NameError else Ret sigma_term)
  else
    let ut := if gu is Some gu then u_term e u s v gu else 0 in
    let vt := if gv is Some gv then v_term e u s v gv else 0 in
    let dA := ut + sigma_term + vt in
    if cplx then (if gu is Some gu then Ret (dA + imag_term e u s v gu) else Raise TypeError)
    else Ret dA.
End Svd.

(** linalg/svd_symeig.py:48-81, for the square factors that [forward] saves; [e] is the default
    1.0e-12 of [safe_inverse].  [V.t()], [U.t()]: no conjugation. *)
Definition svdsymeig_backward k (e : C) (U : 'M[C]_k.+1) (S : 'rV[C]_k.+1) (V dU : 'M[C]_k.+1) (dS : 'rV[C]_k.+1) (dV : 'M[C]_k.+1) : 'M[C]_k.+1 :=
  let F := mat_F e S in
  let G := mat_G e S in
  let UdU := U^T *m dU in
  let VdV := V^T *m dV in
  let Su := half (had (F + G) (UdU - UdU^T)) in
  let Sv := half (had (F - G) (VdV - VdV^T)) in
  U *m (Su + Sv + diag_mx dS) *m V^T.

(** linalg/eig_sym.py:55-79 *)
Definition symeig_backward k (eps : C) (D : 'rV[C]_k.+1) (U : 'M[C]_k.+1) (gD : 'rV[C]_k.+1) (gU : 'M[C]_k.+1) : 'M[C]_k.+1 :=
  let F := mat_F eps D in
  U *m (diag_mx gD + had F (ctr U *m gU)) *m ctr U.

Section Signs.
(** [x.to(dtype=torch.int64)] of a non-negative number *)
Variable trunc : C -> nat.
Variables (m : nat).

(** linalg/svd_gesdd.py:19: [(U.abs() * (2**40)).to(int64)] *)
Definition amp (x : C) : nat := trunc (`|x| * 2%:R ^+ 40).
(** linalg/svd_gesdd.py:20, one column: position of the first largest entry *)
Fixpoint argmax (l : seq nat) : nat :=
  match l with
  | [::] => 0%N
  | [:: x] => 0%N
  | x :: t => let i := argmax t in if (nth 0%N t i <= x)%N then 0%N else i.+1
  end.
(** linalg/svd_gesdd.py:20-21: the entry of column [j] with the largest amplitude *)
Definition pivot k (U : 'M[C]_(m.+1, k)) (j : 'I_k) : C :=
  nth 0 [seq U i j | i <- enum 'I_m.+1] (argmax [seq amp (U i j) | i <- enum 'I_m.+1]).
(** linalg/svd_gesdd.py:22 *)
Definition phase k (U : 'M[C]_(m.+1, k)) : 'rV[C]_k := \row_j (pivot U j / `|pivot U j|).
(** linalg/svd_gesdd.py:23-25 for as many columns of V as of U *)
Definition fix_svd_signs n k (U : 'M[C]_(m.+1, k)) (V : 'M[C]_(n, k)) : 'M[C]_(m.+1, k) * 'M[C]_(n, k) :=
  (colscale U (map_mx (fun x => x^*) (phase U)), colscale V (map_mx (fun x => x^*) (phase U))).
End Signs.
End Grad.

(** broadcasting of the last dimensions of two tensors *)
Definition broadcast (a b : nat) : out nat :=
  if a == b then Ret a else if a == 1%N then Ret b else if b == 1%N then Ret a else Raise RuntimeError.
(** columns of the U and V that [SVDGESDD.forward] (torch >= 1.8.1) returns for an m x n matrix:
    [torch.linalg.svd] gives all m left and all n right singular vectors, and line 25 multiplies V by
    the phases of the columns of U *)
Definition forward_cols (m n : nat) : out (nat * nat) :=
  match broadcast n m with Ret c => Ret (m, c) | Raise e => Raise e end.
