(** C74: spectra of boundary operators *)
From Coq Require Import Reals.
From Verif Require Import Base Lattice Tensor Net NetSpec CornersSpec CornersExamples RdmSpec CorrSpec Transfer TransferSpec TransferExamples EhSpec EhProofs EhProofs2 EhExamples.
From Coq Require Import Field.
Open Scope list_scope.
Open Scope nat_scope.

(** get_EH_spec_Ttensor of a C4v state computes eigenvalues of the ring of L tensors T *)
Theorem C74_c4v {K} (z o : K) add mul (SR : semi_ring_theory z o add mul eq) T a chi ad L :
  twf T -> tdims T = [chi; chi; ad * ad] -> nth 4 (tdims a) 0 = ad -> 2 <= L -> exists m mv,
  (forall D, (forall k, k < L -> D (bnd 0 k) = chi /\ D (ext 0 k) = ad /\ D (ext 1 k) = ad) ->
    m = prod_dims (map (ldim D) (rim_of 0 L)) /\ applies D z o add mul mv (rim_of 0 L) (ring_c4v T L) (rim_of 1 L)) /\
  forall W (eigs : eigen_solver K W) n,
  (forall err, eigs false m mv n = Err err -> get_EH_spec_c4v z o add mul eigs chi T a n L = Err err) /\
  (forall vals vecs, eigs false m mv n = Ok (vals, vecs) -> n <> 0 -> length vals = n ->
    exists S, get_EH_spec_c4v z o add mul eigs chi T a n L = Ok S /\ S = map (over (modulus (last vals (0, 0)%R))) (rev vals) /\
    (ascending vals -> modulus (last vals (0, 0)%R) <> 0%R -> exists top, leading top vals /\ sorted_values top vals S)).
Proof. exact (EH_c4v_ok z o add mul SR T a chi ad L). Qed.
Print Assumptions C74_c4v.
Example C74_c4v_case : get_EH_spec_c4v 0%Z 1%Z Z.add Z.mul (probe 4 [0; 1; 0; 0]%Z [2; 6; 0; 0]%Z) 1 (zt [1; 1; 4] [2; 1; 0; 3]%Z) (A1 (0, 0)%Z) 2 2 = Err RuntimeError.
Proof. exact case_c4v. Qed.

(** get_EH_spec_Ttensor of a state with one site: the rings on both sides *)
Theorem C74_generic {K} (z o : K) add mul (SR : semi_ring_theory z o add mul eq) st e As Cs Ts (HS : sees st e As Cs Ts) (H1 : one_site st) c d chi ad L :
  i_lX st = 1%Z -> i_lY st = 1%Z -> (forall v d, nth (leg_index d) (tdims (As v)) 0 = ad) -> 2 <= L -> exists m mv,
  (forall D, (forall k, k < L -> D (bnd 0 k) = chi /\ D (bnd 1 k) = chi /\ D (ext 0 k) = ad /\ D (ext 1 k) = ad /\ D (ext 2 k) = ad) ->
    fits D (ring Ts d c 0 L ++ ring Ts (dopp d) c 1 L) ->
    m = prod_dims (map (ldim D) (rim_of 0 L)) /\ applies D z o add mul mv (rim_of 0 L) (ring Ts d c 0 L ++ ring Ts (dopp d) c 1 L) (rim_of 2 L)) /\
  forall W (eigs : eigen_solver K W) n,
  (m <= n -> get_EH_spec z o add mul eigs st e chi n L c (dvec d) = Ok None) /\
  (n < m -> forall err, eigs false m mv n = Err err -> get_EH_spec z o add mul eigs st e chi n L c (dvec d) = Err err) /\
  (n < m -> forall vals vecs, eigs false m mv n = Ok (vals, vecs) -> n <> 0 -> length vals = n ->
    exists S, get_EH_spec z o add mul eigs st e chi n L c (dvec d) = Ok (Some S) /\ S = map (over (modulus (last vals (0, 0)%R))) (rev vals) /\
    (ascending vals -> modulus (last vals (0, 0)%R) <> 0%R -> exists top, leading top vals /\ sorted_values top vals S)).
Proof. exact (EH_ok z o add mul SR st e As Cs Ts HS H1 c d chi ad L). Qed.
Print Assumptions C74_generic.
Example C74_generic_case : one_site st1 /\ i_lX st1 = 1%Z /\ i_lY st1 = 1%Z /\
  (forall k, k < 2 -> D1 (bnd 0 k) = 1 /\ D1 (bnd 1 k) = 1 /\ D1 (ext 0 k) = 2 /\ D1 (ext 1 k) = 2 /\ D1 (ext 2 k) = 2) /\
  fits D1 (ring (fun v => T1 (f1 v)) Right (0, 0)%Z 0 2 ++ ring (fun v => T1 (f1 v)) Left (0, 0)%Z 1 2) /\
  get_EH_spec 0%Z 1%Z Z.add Z.mul (probe 4 [0; 1; 0; 0]%Z [7; 21; 15; 45]%Z) st1 env1 1 2 2 (0, 0)%Z (1, 0)%Z = Err RuntimeError.
Proof. exact case1. Qed.

(** get_full_EH_spec_Ttensor diagonalizes the product of the two rings, to the right, up and for states with one site *)
Theorem C74_full {K} (z o : K) add mul (SR : semi_ring_theory z o add mul eq) st e As Cs Ts c d D chi ad L : sees st e As Cs Ts -> reduces st ->
  (d = Right \/ d = Up \/ one_site st) -> (forall v d, nth (leg_index d) (tdims (As v)) 0 = ad) -> 1 <= L ->
  (forall k, k < L -> D (bnd 0 k) = chi /\ D (bnd 1 k) = chi /\ D (ext 0 k) = ad /\ D (ext 1 k) = ad /\ D (ext 2 k) = ad) ->
  fits D (ring Ts d c 1 L ++ ring Ts (dopp d) c 0 L) ->
  exists M, is_contraction D z o add mul (ring Ts d c 1 L ++ ring Ts (dopp d) c 0 L) [side 2 L; side 0 L] M /\
  forall eig sort_desc,
  (forall err, eig M = Err err -> get_full_EH_spec z o add mul st e chi eig sort_desc L c (dvec d) = Err err) /\
  (forall vals top, eig M = Ok vals -> is_sort_desc sort_desc -> leading top vals -> top <> 0%R ->
    exists S, get_full_EH_spec z o add mul st e chi eig sort_desc L c (dvec d) = Ok S /\ sorted_values top vals S /\ modulus (nth 0 S (0, 0)%R) = 1%R).
Proof. exact (full_EH_ok z o add mul SR st e As Cs Ts c d D chi ad L). Qed.
Print Assumptions C74_full.
Example C74_full_case : fits D1 (ring (fun v => T1 (f1 v)) Right (0, 0)%Z 1 1 ++ ring (fun v => T1 (f1 v)) Left (0, 0)%Z 0 1) /\
  get_full_EH_spec 0%Z 1%Z Z.add Z.mul st1 env1 1 (fails_at (zt [2; 2] [2; 1; 10; 8]%Z)) (fun l => seq 0 (length l)) 1 (0, 0)%Z (1, 0)%Z = Err RuntimeError /\
  get_full_EH_spec 0%Z 1%Z Z.add Z.mul st1 env1 1 (fails_at (zt [4; 4] [4;2;2;1; 20;16;10;8; 20;10;16;8; 100;80;80;64]%Z)) (fun l => seq 0 (length l)) 2 (0, 0)%Z (1, 0)%Z = Err RuntimeError.
Proof. exact case_full. Qed.

(** down: three different sites are joined in reversed order *)
Theorem C74_order_refuted : exists st e As Cs Ts c D chi ad L M m, sees st e As Cs Ts /\ reduces st /\ (forall v d, nth (leg_index d) (tdims (As v)) 0 = ad) /\ 1 <= L /\
  (forall k, k < L -> D (bnd 0 k) = chi /\ D (bnd 1 k) = chi /\ D (ext 0 k) = ad /\ D (ext 1 k) = ad /\ D (ext 2 k) = ad) /\
  fits D (ring Ts Down c 1 L ++ ring Ts Up c 0 L) /\
  is_contraction D 0%Z 1%Z Z.add Z.mul (ring Ts Down c 1 L ++ ring Ts Up c 0 L) [side 2 L; side 0 L] M /\
  (forall eig sort_desc err, eig m = Err err -> get_full_EH_spec 0%Z 1%Z Z.add Z.mul st e chi eig sort_desc L c (dvec Down) = Err err) /\
  tdata M = [2%Z] /\ tdata m = [0%Z].
Proof. exact order_refuted. Qed.
Print Assumptions C74_order_refuted.

(** rows of sites with different bonds: an error *)
Theorem C74_sizes_refuted : exists st e As Cs Ts c D chi L, sees st e As Cs Ts /\ reduces st /\ 1 <= L /\
  (forall k, k < L -> D (bnd 0 k) = chi /\ D (bnd 1 k) = chi /\ forall s, s < 3 ->
    D (ext s k) = nth (leg_index Right) (tdims (As (along c Down k))) 0 /\ D (ext s k) = nth (leg_index Left) (tdims (As (along c Down k))) 0) /\
  fits D (ring Ts Right c 1 L ++ ring Ts Left c 0 L) /\
  forall eig sort_desc, get_full_EH_spec 0%Z 1%Z Z.add Z.mul st e chi eig sort_desc L c (dvec Right) = Err RuntimeError.
Proof. exact sizes_refuted. Qed.
Print Assumptions C74_sizes_refuted.

(** complex states: the product is not that with the eigenvalues of the density matrix, one factor is transposed *)
Theorem C74_transposed_refuted : exists st e As Cs Ts c D (L R M rho : tensor gi), sees st e As Cs Ts /\ one_site st /\
  is_contraction D g0 g1 gadd gmul [(L, [V 0; V 2]); (tmap gconj L, [V 1; V 2])] (open_legs Left 3 4 0 1) (Ts c (dvec Left)) /\
  is_contraction D g0 g1 gadd gmul [(R, [V 0; V 2]); (tmap gconj R, [V 1; V 2])] (open_legs Right 3 4 0 1) (Ts c (dvec Right)) /\
  is_contraction D g0 g1 gadd gmul [(L, [V 0; V 2]); (R, [V 0; V 5]); (tmap gconj L, [V 1; V 6]); (tmap gconj R, [V 1; V 5])] [V 2; V 6] rho /\
  (forall eig sort_desc err, eig M = Err err -> get_full_EH_spec g0 g1 gadd gmul st e 1 eig sort_desc 1 c (dvec Right) = Err err) /\
  is_eigen M (9, 0)%Z [(1, 0); (0, -1)]%Z /\ is_eigen rho (3, 0)%Z [(1, 0); (1, 0); (0, 0)]%Z /\
  forall x, length x = 3 -> is_eigen rho (9, 0)%Z x -> x = repeat g0 3.
Proof. exact transposed_refuted. Qed.
Print Assumptions C74_transposed_refuted.
