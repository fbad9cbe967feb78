(** Model of models/spin_half_kagome.py (S_HALF_KAGOME.__init__ 60-122, bond operators of eval_obs 330-353; S1_KAGOME is the case phys_dim=3)
    with SU2.S and SU2.SS (groups/su2.py 81-109).

    Scalars are an abstract ring with the numbers 1/2 and i; the matrices I, S^z, S^+, S^- of the irrep are arguments of dimensions m x m (those of
    groups/su2.py: C31).  [isz x] is [x == 0], [cj] is complex conjugation, [cplx]: the dtype is complex.  Left out: devices, j2 and j2sq, which
    the class stores without using them. *)
From Verif Require Import Base Tensor Net Plaq.
Open Scope list_scope.
Open Scope nat_scope.
Open Scope res_scope.

Section Kag.
Context {K : Type} (k0 k1 : K) (kadd kmul ksub : K -> K -> K) (kopp : K -> K) (half im : K) (cj : K -> K) (isz : K -> bool).
Notation ten := (tensor K).
Notation "a +t b" := (tadd kadd a b) (at level 50, left associativity).
Notation "a -t b" := (tsub ksub a b) (at level 50, left associativity).
Notation "c *t a" := (tscl kmul c a) (at level 40, left associativity).
Notation einsum := (einsum k0 k1 kadd kmul).
Notation el := (el k0).
Notation permute := (permute k0).
Variables (m : nat) (Id1 Sz Sp Sm : ten) (cplx : bool).

(** SU2.S *)
Definition Svec : ten :=
  let sx := half *t (Sp +t Sm) in let sy := kopp (kmul half im) *t (Sp -t Sm) in
  tbuild [3; m; m] (fun ix => match ix with [k; i; j] =>
    match k with 0 => el Sz [i; j] | 1 => el sx [i; j] | _ => if cplx then el sy [i; j] else k0 end | _ => k0 end).
(** SU2.SS *)
Definition kron (A B : ten) : res ten := einsum [(A, [0; 1]); (B, [2; 3])] [0; 2; 1; 3].
Definition SSxyz (x y z : K) : res ten :=
  zz <- kron Sz Sz ;; pm <- kron Sp Sm ;; mp <- kron Sm Sp ;;
  Ok (x *t zz +t kmul half y *t pm +t kmul half z *t mp).
(** A + A.permute(1,2,0, 4,5,3) + A.permute(2,0,1, 5,3,4) *)
Definition around (A : ten) : res ten :=
  a <- permute A [1; 2; 0; 4; 5; 3] ;; b <- permute A [2; 0; 1; 5; 3; 4] ;; Ok (A +t a +t b).
(** einsum('ijkl,ab->ijaklb',A,Id1); i,j,k,l,a,b = 0..5 *)
Definition with_id (A : ten) : res ten := einsum [(A, [0; 1; 2; 3]); (Id1, [4; 5])] [0; 1; 4; 2; 3; 5].
(** einsum('ij,kl,ab->ikajlb',A,Id1,Id1); i,j,k,l,a,b = 0..5 *)
Definition one_site (A : ten) : res ten := einsum [(A, [0; 1]); (Id1, [2; 3]); (Id1, [4; 5])] [0; 2; 4; 1; 3; 5].
Definition levi : ten :=
  tbuild [3; 3; 3] (fun ix => if existsb (eqb ix) [[0; 1; 2]; [1; 2; 0]; [2; 0; 1]] then k1
    else if existsb (eqb ix) [[0; 2; 1]; [2; 1; 0]; [1; 0; 2]] then kopp k1 else k0).
(** [for i: for j: for k: t[g(i,j,k)] = 1.] *)
Definition ijk : list (nat * (nat * nat)) := list_prod (seq 0 m) (list_prod (seq 0 m) (seq 0 m)).
Definition fill (g : nat -> nat -> nat -> list nat) : res ten :=
  foldM (fun t q => let '(i, (j, k)) := q in tupdate t (map Z.of_nat (g i j k)) (fun _ => k1)) ijk (tzeros k0 [m; m; m; m; m; m]).
Definition P_triangle := fill (fun i j k => [i; j; k; j; k; i]).
Definition P_triangle_inv := fill (fun i j k => [i; j; k; k; i; j]).

Record kag := mkKagome { SSnnId : ten; h_triangle : ten; P_tri : ten; P_tri_inv : ten }.
Definition SS_JD (j1 JD : K) : res ten :=
  if isz JD then ss <- SSxyz k1 k1 k1 ;; Ok (j1 *t ss)
  else SSxyz j1 (kadd j1 (kmul im JD)) (ksub j1 (kmul im JD)).
Definition s_half_kagome (j1 JD j1sq jtrip jperm h : K) : res kag :=
  SS <- SSxyz k1 k1 k1 ;;
  ssj <- SS_JD j1 JD ;;
  nn <- with_id ssj ;; SSnn_t <- around nn ;;
  ss2 <- einsum [(SS, [0; 1; 2; 3]); (SS, [2; 3; 4; 5])] [0; 1; 4; 5] ;;
  nn2 <- with_id ss2 ;; SS2nn_t <- around nn2 ;;
  f <- one_site Sz ;; mag_field <- around f ;;
  if negb (isz jtrip) && negb cplx then Err AssertionError else
  SxSS_t <- einsum [(levi, [0; 1; 2]); (Svec, [1; 3; 4]); (Svec, [2; 5; 6]); (Svec, [0; 7; 8])] [3; 5; 7; 4; 6; 8] ;;
  P <- P_triangle ;; Pi <- P_triangle_inv ;;
  Ok (mkKagome nn (SSnn_t +t j1sq *t SS2nn_t +t jtrip *t SxSS_t +t jperm *t P +t cj jperm *t Pi +t h *t mag_field) P Pi).
(** obs_ops: the operator A of the sites 0, 1 and 2 *)
Definition obs_op (A : ten) : res (ten * ten * ten) :=
  a <- one_site A ;; b <- permute a [2; 0; 1; 5; 3; 4] ;; c <- permute a [1; 2; 0; 4; 5; 3] ;; Ok (a, b, c).
(** the operators of SS_dn_01, SS_dn_12 and SS_dn_02, and of SS_up_* *)
Definition bond_ops (o : kag) : res (ten * ten * ten) :=
  b <- permute (SSnnId o) [2; 1; 0; 5; 4; 3] ;; c <- permute (SSnnId o) [0; 2; 1; 3; 5; 4] ;; Ok (SSnnId o, b, c).
End Kag.
