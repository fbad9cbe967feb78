(** C78: SU(3) generators, Casimir operators and triangle Hamiltonians. *)
From Verif Require Import Base BaseLemmas Tensor TensorLemmas Net Plaq Su3 Su3Spec Su3Proofs5 Su3Examples.
From Coq Require Import Ring.
Open Scope list_scope.
Open Scope nat_scope.

Section S.
Context {K : Type} (k0 k1 : K) (kadd kmul ksub : K -> K -> K) (kopp : K -> K) (half third im s3 : K).
Notation "a + b" := (kadd a b).
Notation "a * b" := (kmul a b).
Notation "a - b" := (ksub a b).
Notation dir := (dirac k0 k1).
Notation mv := (moves k0 k1).
Hypothesis Kr : ring_theory k0 k1 kadd kmul ksub kopp (@eq K).
Hypothesis Hhalf : kadd k1 k1 * half = k1.
Hypothesis Hthird : (k1 + (k1 + k1)) * third = k1.
Hypothesis Him : im * im = kopp k1.
Hypothesis Hs3 : s3 * s3 = k1 + (k1 + k1).
Variables (cj re : K -> K).
Hypotheses (cj_add : forall x y, cj (x + y) = cj x + cj y) (cj_mul : forall x y, cj (x * y) = cj x * cj y) (cj_1 : cj k1 = k1)
  (cj_im : cj im = kopp im) (cj_s3 : cj s3 = s3) (re_half : forall x, re x = half * (x + cj x)).
Notation gm := (gell_mann k0 k1 kadd kmul ksub kopp half third im s3 re).
Notation cw := (cartan_weyl k0 k1 kadd kopp half third re).
Notation bonds := (bonds3 k0 k1 kadd).
Notation H_tri := (H_triangle k0 k1 kadd kmul ksub im).

(** J_Gell_Mann() with complex dtype *)
Theorem C78_gell_mann : tdims (gm true) = [8; 3; 3] /\ is_su3 k0 k1 kadd kmul ksub kopp half im s3 cj (fun a i j => el k0 (gm true) [a; i; j]).
Proof. exact (su3_final k0 k1 kadd kmul ksub kopp half third im s3 Kr Hhalf Hthird Him Hs3 cj re cj_add cj_mul cj_1 cj_im cj_s3 re_half). Qed.
(** with a real dtype lambda_2, lambda_5 and lambda_7 are stored as zero matrices *)
Theorem C78_gell_mann_real_refuted : k1 <> k0 ->
  (forall k i j, In k [1; 4; 6] -> i < 3 -> j < 3 -> el k0 (gm false) [k; i; j] = k0) /\
  ~ is_su3 k0 k1 kadd kmul ksub kopp half im s3 cj (fun a i j => el k0 (gm false) [a; i; j]).
Proof. intros H. split; [exact (proj2 (real_final k0 k1 kadd kmul ksub kopp half third im s3 Kr Hhalf Hthird Him Hs3 cj re cj_add cj_mul cj_1 cj_im cj_s3 re_half))|].
  exact (real_refuted k0 k1 kadd kmul ksub kopp half third im s3 Kr Hhalf Hthird Him Hs3 cj re cj_add cj_mul cj_1 cj_im cj_s3 re_half H). Qed.
(** Cartan_Weyl(): T+ T- Tz V+ V- U+ U- Y *)
Theorem C78_cartan_weyl : tdims (cw true) = [8; 3; 3] /\ forall i j, i < 3 -> j < 3 ->
  let J k := el k0 (cw true) [k; i; j] in let l k := el k0 (gm true) [k; i; j] in
  J 0 = half * (l 0 + im * l 1) /\ J 1 = half * (l 0 - im * l 1) /\ J 2 = half * l 2 /\
  J 3 = half * (l 3 + im * l 4) /\ J 4 = half * (l 3 - im * l 4) /\
  J 5 = half * (l 5 + im * l 6) /\ J 6 = half * (l 5 - im * l 6) /\ J 7 = third * s3 * l 7.
Proof. exact (cw_final k0 k1 kadd kmul ksub kopp half third im s3 Kr Hhalf Hthird Him Hs3 cj re cj_add cj_mul cj_1 cj_im cj_s3 re_half). Qed.
(** C1() is the sum of products of generators and acts as half of the exchange minus one sixth *)
Theorem C78_c1 : exists t, c1 k0 k1 kadd kmul kopp half third = Ok t /\ tdims t = [3; 3; 3; 3] /\ forall i j a b, i < 3 -> j < 3 -> a < 3 -> b < 3 ->
  el k0 t [i; j; a; b] = half * (dir ((i =? b) && (j =? a)) - third * dir ((i =? a) && (j =? b))) /\
  el k0 t [i; j; a; b] = total k0 kadd 8 (fun k => half * el k0 (gm true) [k; i; a] * (half * el k0 (gm true) [k; j; b])).
Proof. destruct (c1_final k0 k1 kadd kmul ksub kopp half third im s3 Kr Hhalf Hthird Him Hs3) as (t & H & D & E). exists t. split; [exact H|]. split; [exact D|].
  intros i j a b Hi Hj Ha Hb. rewrite (E i j a b Hi Hj Ha Hb). split; [reflexivity|].
  exact (c1_sum k0 k1 kadd kmul ksub kopp half third im s3 Kr Hhalf Hthird Him Hs3 cj re cj_add cj_mul cj_1 cj_im cj_s3 re_half i j a b Hi Hj Ha Hb). Qed.
(** C2() on three spins, complex dtype *)
Theorem C78_c2 : (exists t, c2 k0 k1 kadd kmul ksub kopp half third im s3 true = Ok t /\ tdims t = [3; 3; 3; 3; 3; 3] /\ forall i a, state3 3 i -> state3 3 a ->
  el k0 t (i ++ a) = half * half * (mv cyc i a + mv cyc' i a) - half * third * bonds i a + third * third * mv (fun a => a) i a) /\
  c2 k0 k1 kadd kmul ksub kopp half third im s3 false = Err RuntimeError.
Proof. split; [exact (c2_final k0 k1 kadd kmul ksub kopp half third im s3 Kr Hhalf Hthird Him Hs3)|reflexivity]. Qed.
(** KAGOME_SU3.get_h *)
Theorem C78_kagome j k h : exists o, kagome_h k0 k1 kadd kmul ksub kopp half third im j k h = Ok o /\
  Forall (fun t => tdims t = [3; 3; 3; 3; 3; 3]) [h_tri o; h2_tri o; h3_tri o; perm2_tri o; perm3_l o; perm3_r o; chirality kmul ksub im o] /\
  forall i a, state3 3 i -> state3 3 a ->
    el k0 (perm2_tri o) (i ++ a) = bonds i a /\ el k0 (perm3_l o) (i ++ a) = mv cyc i a /\ el k0 (perm3_r o) (i ++ a) = mv cyc' i a /\
    el k0 (h_tri o) (i ++ a) = H_tri j k h i a /\
    el k0 (h2_tri o) (i ++ a) + el k0 (h3_tri o) (i ++ a) = el k0 (h_tri o) (i ++ a) /\ el k0 (h2_tri o) (i ++ a) = j * bonds i a /\
    el k0 (chirality kmul ksub im o) (i ++ a) = im * (mv cyc i a - mv cyc' i a).
Proof. exact (kagome_final k0 k1 kadd kmul ksub kopp half third im s3 Kr Hhalf Hthird Him Hs3 j k h). Qed.
Theorem C78_hermitian j k h i a : cj j = j -> cj k = k -> cj h = h -> state3 3 i -> state3 3 a -> H_tri j k h i a = cj (H_tri j k h a i).
Proof. exact (tri_hermitian k0 k1 kadd kmul ksub kopp im Kr cj cj_add cj_mul cj_1 cj_im j k h i a). Qed.
(** models/SU3_chiral.py: the bond operator counts a product of three equal states once instead of three times *)
Theorem C78_chiral kr ki j1 : exists t, chiral_h k0 k1 kadd kmul ksub im kr ki j1 = Ok t /\ tdims t = [3; 3; 3; 3; 3; 3] /\
  forall i a, state3 3 i -> state3 3 a ->
    el k0 t (i ++ a) + j1 * ((k1 + k1) * dir (equal3 i && eqb i a)) = H_tri j1 kr ki i a.
Proof. exact (chiral_final k0 k1 kadd kmul ksub kopp im Kr kr ki j1). Qed.
Theorem C78_chiral_ops : (exists t, exchange_bond k0 k1 = Ok t /\ forall i j a b, i < 3 -> j < 3 -> a < 3 -> b < 3 -> el k0 t [i; j; a; b] = dir ((i =? b) && (j =? a))) /\
  (exists t, permute_triangle k0 k1 = Ok t /\ forall i a, state3 3 i -> state3 3 a -> el k0 t (i ++ a) = mv cyc i a) /\
  (exists t, permute_triangle_inv k0 k1 = Ok t /\ forall i a, state3 3 i -> state3 3 a -> el k0 t (i ++ a) = mv cyc' i a) /\
  length (su3_gens k0 k1 kadd kmul kopp third im s3) = 8 /\
  forall k i j, k < 8 -> i < 3 -> j < 3 -> el k0 (nth k (su3_gens k0 k1 kadd kmul kopp third im s3) (tzeros k0 [])) [i; j] = el k0 (gm true) [k; i; j].
Proof. split; [exact (bond_final k0 k1)|]. split; [exact (tri_final k0 k1)|]. split; [exact (tri'_final k0 k1)|].
  exact (gens_final k0 k1 kadd kmul ksub kopp half third im s3 Kr Hhalf Hthird Him Hs3 cj re cj_add cj_mul cj_1 cj_im cj_s3 re_half). Qed.
(** fmap, fmap_inv and the matrices of models/SU3_AKLT.py *)
Theorem C78_fmap : (forall x y w, state3 3 [x; y; w] -> fmap x y w < 27 /\ fmap_inv (fmap x y w) = (x, y, w)) /\
  (forall s, s < 27 -> let '(x, y, w) := fmap_inv s in state3 3 [x; y; w] /\ fmap x y w = s).
Proof. split; [|exact inv_fmap_ok]. intros x y w H. split; [exact (fmap_lt [x; y; w] H)|exact (fmap_inv_ok [x; y; w] H)]. Qed.
Theorem C78_aklt : forall P p, In (P, p) [(matP_12 k0 k1, sw01); (matP_23 k0 k1, sw12); (matP_31 k0 k1, sw02); (matP_t k0 k1, cyc); (matP_t2 k0 k1, cyc')] ->
  exists t, P = Ok t /\ tdims t = [27; 27] /\ forall x y w x' y' w', state3 3 [x; y; w] -> state3 3 [x'; y'; w'] ->
    el k0 t [fmap x y w; fmap x' y' w'] = mv p [x; y; w] [x'; y'; w'].
Proof. exact (aklt_final k0 k1). Qed.
Theorem C78_aklt_diagonal lam site x y w x' y' w' : site < 3 -> state3 3 [x; y; w] -> state3 3 [x'; y'; w'] ->
  el k0 (diag27 k0 lam site) [fmap x y w; fmap x' y' w']
  = if eqb [x; y; w] [x'; y'; w'] then el k0 lam [nth site [x; y; w] 0; nth site [x; y; w] 0] else k0.
Proof. exact (diag_ok k0 lam site [x; y; w] [x'; y'; w']). Qed.
End S.
Print Assumptions C78_gell_mann.
Print Assumptions C78_gell_mann_real_refuted.
Print Assumptions C78_cartan_weyl.
Print Assumptions C78_c1.
Print Assumptions C78_c2.
Print Assumptions C78_kagome.
Print Assumptions C78_hermitian.
Print Assumptions C78_chiral.
Print Assumptions C78_chiral_ops.
Print Assumptions C78_fmap.
Print Assumptions C78_aklt.
Print Assumptions C78_aklt_diagonal.
(** h_triangle of SU3_CHIRAL is not J1 times the sum of exchanges, on complex numbers *)
Theorem C78_chiral_refuted : exists j1 t, chiral_h cx0 cx1 cxadd cxmul cxsub cxi cx0 cx0 j1 = Ok t /\
  el cx0 t [0; 0; 0; 0; 0; 0] <> H_triangle cx0 cx1 cxadd cxmul cxsub cxi j1 cx0 cx0 [0; 0; 0] [0; 0; 0].
Proof. exact chiral_refuted. Qed.
Print Assumptions C78_chiral_refuted.
