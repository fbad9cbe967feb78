(** Model of the symmetrization and normalization of reduced density matrices:
    ctm/generic/rdm.py:26-69 (_cast_to_real, _sym_pos_def_matrix, _sym_pos_def_rdm) and
    ctm/generic_abelian/rdm.py:11-45.  A tensor of the latter is represented by its dense image.

    Oracle: torch.linalg.eigh.  Left out: logging, devices, the dead computation of rdm_asym (its
    shape errors are those of rdm + rdm^+).  A division by zero, which fills the matrix with
    infinities or not-a-numbers, is the error ZeroDivisionError here. *)
From Verif Require Import Base Tensor Net NetSpec Extend C4v Corners CtmC4v.
Open Scope list_scope.
Open Scope nat_scope.
Open Scope res_scope.

Section RdmPost.
Context {K : Type} (z o half : K) (add mul div : K -> K -> K) (cj : K -> K) (is0 : K -> bool).
Notation ten := (tensor K).
Notation contract := (tensordot z o add mul).

(** [M.conj().t()]; [t] raises for more than two dimensions *)
Definition dagger (M : ten) : res ten := permute z (conj cj M) [1;0].
(** [t.real] *)
Definition re (x : K) : K := mul half (add x (cj x)).
(** rdm.py:26-35; [imag_big x]: abs(x.imag)/(abs(x.real)+1.0e-8) > imag_eps *)
Variable imag_big : K -> bool.
Definition cast_to_real (fail_on_check : bool) (x : K) : res K :=
  if imag_big x && fail_on_check then Err RuntimeError else Ok (re x).
(** [rdm.diagonal().sum()] *)
Definition trace (M : ten) : K := sum_list z add (map (fun i => tval z M [i; i]) (seq 0 (Nat.min (size M 0) (size M 1)))).

(** [lt0 x]: x < 0; [eigh M]: eigenvalues and eigenvectors *)
Variables (lt0 : K -> bool) (eigh : ten -> res (list K * ten)).
(** [torch.clamp(D, min=0)] *)
Definition clamp (x : K) : K := if lt0 x then z else x.
(** [U @ torch.diag(D) @ U.conj().t()]; [cplx]: U is complex.  D is real and matmul refuses operands
    of different dtypes *)
Definition rebuild (cplx : bool) (D : list K) (U : ten) : res ten :=
  if cplx then Err RuntimeError else
  x <- contract U (tdiag z D) [1] [0] ;;
  Ud <- dagger U ;;
  contract x Ud [1] [0].
Definition dims_eqb (a b : list nat) : bool := if list_eq_dec Nat.eq_dec a b then true else false.
(** rdm.py:38-56 *)
Definition sym_pos_def_matrix (fail_on_check cplx sym_pos_def : bool) (rdm : ten) : res ten :=
  p <- dagger rdm ;;
  s <- tbin z add rdm p ;;
  let rdm := tmap (mul half) s in
  rdm <- (if sym_pos_def then
            DU <- eigh rdm ;;
            if length (fst DU) =? 0 then Err RuntimeError
            else if existsb lt0 (fst DU) then
              r <- rebuild cplx (map clamp (fst DU)) (snd DU) ;;
              if dims_eqb (tdims r) (tdims rdm) then Ok r else Err RuntimeError
            else Ok rdm
          else Ok rdm) ;;
  norm <- cast_to_real fail_on_check (trace rdm) ;;
  tdiv div is0 rdm norm.
(** generic_abelian/rdm.py:20-35: [sym_pos_def] is not used *)
Definition sym_pos_def_matrix_abelian (fail_on_check sym_pos_def : bool) (rdm : ten) : res ten :=
  p <- dagger rdm ;;
  s <- tbin z add rdm p ;;
  let rdm := tmap (mul half) s in
  norm <- cast_to_real fail_on_check (trace rdm) ;;
  tdiv div is0 rdm norm.

(** rdm.py:59-69; the keyword arguments are not passed on.  [torch.prod] of no dimensions is a float *)
Definition as_matrix (post : ten -> res ten) (rdm : ten) : res ten :=
  let r := length (tdims rdm) in
  if negb (r mod 2 =? 0) then Err AssertionError
  else if r =? 0 then Err TypeError
  else
    let n := prod_dims (firstn (r / 2) (tdims rdm)) in
    if n =? 0 then Err RuntimeError
    else
      m <- view rdm [n; length (tdata rdm) / n] ;;
      m <- post m ;;
      view m (tdims rdm).
Definition sym_pos_def_rdm (cplx sym_pos_def : bool) (rdm : ten) : res ten :=
  as_matrix (sym_pos_def_matrix false cplx sym_pos_def) rdm.
(** generic_abelian/rdm.py:37-45 *)
Definition sym_pos_def_rdm_abelian (fail_on_check sym_pos_def : bool) (rdm : ten) : res ten :=
  as_matrix (sym_pos_def_matrix_abelian fail_on_check sym_pos_def) rdm.
End RdmPost.

(** What the functions for density matrices return: _sym_pos_def_rdm applied to the contraction (Rdm.v) *)
From Verif Require Import Lattice.
From Verif Require Ctm Rdm.
Section Returned.
Context {K : Type} (z o half : K) (add mul div : K -> K -> K) (cj : K -> K) (is0 imag_big lt0 : K -> bool) (eigh : tensor K -> res (list K * tensor K)).
Variables (cplx sym_pos_def : bool) (st : ipeps (tensor K)) (e : Ctm.envt (tensor K)) (c : coord).
Definition returned (r : res (tensor K)) : res (tensor K) := R <- r ;; sym_pos_def_rdm z o half add mul div cj is0 imag_big lt0 eigh cplx sym_pos_def R.
(** rdm.py:71-112, 114-257, 260-300; without an operator *)
Definition rdm1x1 (sl : bool) : res (tensor K) :=
  returned (if sl then Rdm.rdm1x1_sl z o add mul cj st e c None else Rdm.rdm1x1_dl z o add mul cj st e c None).
(** rdm.py:304-350, 352-500, 548-568 *)
Definition rdm2x1 (sl : bool) : res (tensor K) :=
  returned (if sl then Rdm.rdm2x1_sl z o add mul cj st e c else Rdm.rdm2x1_dl z o add mul cj st e c).
(** rdm.py:622-670, 672-826, 881-901 *)
Definition rdm1x2 (sl : bool) : res (tensor K) :=
  returned (if sl then Rdm.rdm1x2_sl z o add mul cj st e c else Rdm.rdm1x2_dl z o add mul cj st e c).
(** rdm.py:962-1048 *)
Definition rdm2x2_NNN_11 : res (tensor K) := returned (Rdm.rdm2x2_NNN_11 z o add mul cj st e c).
(** rdm.py:1051-1099, 1101-1152, 1215-1240 *)
Definition rdm2x2_NNN_1n1 (oe : bool) : res (tensor K) :=
  returned (if oe then Rdm.rdm2x2_NNN_1n1_oe z o add mul cj st e c else Rdm.rdm2x2_NNN_1n1_legacy z o add mul cj st e c).
(** rdm.py:1362-1592 *)
Definition rdm2x2_legacy : res (tensor K) := returned (Rdm.rdm2x2_legacy z o add mul cj st e c).
(** rdm.py:1594-1675 *)
Definition rdm2x2_oe (open_sites : list nat) : res (tensor K) := returned (Rdm.rdm2x2_oe z o add mul cj st e c open_sites).
End Returned.
