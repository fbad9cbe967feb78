(** Density matrix of an up triangle and expectation values on a down triangle: given tensors. *)
From Verif Require Import Base BaseLemmas Lattice Tensor TensorLemmas Net NetSpec NetProofs NetProofs2 NetProofs3 Corners CornersSpec CornersProofs Rdm RdmSpec RdmProofs RdmKag RdmKagSpec RdmKagProofs RdmKagProofs2 RdmKagProofs3 RdmKagProofs4.
From Coq Require Import Ring ArithRing Permutation.
Open Scope list_scope.
Open Scope nat_scope.
Open Scope res_scope.

Section R.
Context {K : Type} (z o : K) (add mul : K -> K -> K) (cj : K -> K) (d : nat).
Hypothesis SR : semi_ring_theory z o add mul eq.
Variable D : nat -> nat.
Hypothesis HP : forall k, D k <> 0.
Notation ten := (tensor K).
Notation isc := (is_contraction D z o add mul).
Variables (A : nat -> nat -> ten) (C1 C2 C3 C4 : ten) (Tu Tr Td Tl : nat -> ten).
Notation patch w h l := (kpatch_net w h l cj A C1 C2 C3 C4 Tu Tr Td Tl).
Notation t22 := (t22 cj A C1 C2 C3 C4 Tu Tr Td Tl).
Ltac lf := match goal with HF : fits _ _ |- _ => refine (leaf_at _ _ _ _ SR _ _ _ _ _ HF _); reflexivity end.
Definition up_open : list (nat * nat * nat) := [(1, 0, 1); (0, 1, 2); (1, 1, 0)].
Lemma up_triangle : spins D d 2 2 -> fits D (patch 2 2 up_open) ->
  exists lu ru rd ld M, corner_LU z o add mul cj d C1 (Tu 0) (Tl 0) (A 0 0) [] = Ok lu /\ corner_RU z o add mul cj d C2 (Tr 0) (Tu 1) (A 1 0) [1] = Ok ru /\
    corner_RD z o add mul cj d C3 (Td 1) (Tr 1) (A 1 1) [0] = Ok rd /\ corner_LD z o add mul cj d C4 (Tl 1) (Td 0) (A 0 1) [2] = Ok ld /\
    up_triangle_c z o add mul d lu ru rd ld = Ok M /\ isc (patch 2 2 up_open) (kpatch_out 2 2 up_open) M.
Proof. intros HD HF. change up_open with (l22 [] [1] [2] [0]) in *. rewrite net22 in *.
  pose (env := env_of (combine t22 (map snd (fac22 [] [1] [2] [0])))).
  destruct (corner_LU_22 z o add mul cj d SR D HP env [] C1 (Tu 0) (Tl 0) (A 0 0)) as (lu & E0 & R0); [cbn; auto 10|exact HD|lf..|].
  destruct (corner_RU_22 z o add mul cj d SR D HP env [1] C2 (Tr 0) (Tu 1) (A 1 0)) as (ru & E1 & R1); [cbn; auto 10|exact HD|lf..|].
  destruct (corner_RD_22 z o add mul cj d SR D HP env [0] C3 (Td 1) (Tr 1) (A 1 1)) as (rd & E3 & R3); [cbn; auto 10|exact HD|lf..|].
  destruct (corner_LD_22 z o add mul cj d SR D HP env [2] C4 (Tl 1) (Td 0) (A 0 1)) as (ld & E2 & R2); [cbn; auto 10|exact HD|lf..|].
  exists lu, ru, rd, ld.
  assert (HR : exists M, up_triangle_c z o add mul d lu ru rd ld = Ok M /\ rep z o add mul D env (canon (fac22 [] [1] [2] [0]) (kpatch_out 2 2 (l22 [] [1] [2] [0]))) M).
  { leaf_in R0. leaf_in R1. leaf_in R2. leaf_in R3. spin_dims HD. eapply (res_canon z o add mul SR).
    - unfold up_triangle_c. step ltac:(cdot SR). step ltac:(cdot SR). step cperm. step ltac:(cdot SR). step ksplit. cperm.
    - check. }
  destruct HR as (M & EM & RM). exists M. repeat (split; [assumption|]).
  refine (rep_contraction z o add mul SR D _ _ (fac22 [] [1] [2] [0]) _ _ RM _). check. Qed.

Notation fopd six := (fac22 [0; 1; 2] [] [] [] ++ [(20, op_legs 2 2 six)]).
Lemma net_op six Op : patch 2 2 down ++ op_net 2 2 six Op = combine (t22 ++ [Op]) (map snd (fopd six)).
Proof. change down with (l22 [0; 1; 2] [] [] []). rewrite net22. reflexivity. Qed.
Lemma dn_op six Op : spins D d 2 2 -> fits D (patch 2 2 down ++ op_net 2 2 six Op) ->
  exists Om a lu ru rd ld M, op_matrix Op = Ok Om /\ layer_op z o add mul cj (A 0 0) Om = Ok a /\ dn_LU z o add mul C1 (Tu 0) (Tl 0) a = Ok lu /\
    corner_RU z o add mul cj d C2 (Tr 0) (Tu 1) (A 1 0) [] = Ok ru /\
    corner_RD z o add mul cj d C3 (Td 1) (Tr 1) (A 1 1) [] = Ok rd /\ corner_LD z o add mul cj d C4 (Tl 1) (Td 0) (A 0 1) [] = Ok ld /\
    dn_close z o add mul lu ru rd ld = Ok M /\ isc (patch 2 2 down ++ op_net 2 2 six Op) [] M.
Proof. intros HD HF. rewrite net_op in *.
  pose (env := env_of (combine (t22 ++ [Op]) (map snd (fopd six)))).
  destruct (corner_RU_22 z o add mul cj d SR D HP env [] C2 (Tr 0) (Tu 1) (A 1 0)) as (ru & E1 & R1); [cbn; auto 10|exact HD|lf..|].
  destruct (corner_RD_22 z o add mul cj d SR D HP env [] C3 (Td 1) (Tr 1) (A 1 1)) as (rd & E3 & R3); [cbn; auto 10|exact HD|lf..|].
  destruct (corner_LD_22 z o add mul cj d SR D HP env [] C4 (Tl 1) (Td 0) (A 0 1)) as (ld & E2 & R2); [cbn; auto 10|exact HD|lf..|].
  assert (RA : rep z o add mul D env (leafS (kA 2 0 0) (ketL 2 2 0 0)) (A 0 0)) by lf.
  assert (RB : rep z o add mul D env (leafS (S (kA 2 0 0)) (braL 2 2 [0; 1; 2] 0 0)) (tmap cj (A 0 0))) by lf.
  assert (RT1 : rep z o add mul D env (leafS (kTu 2 2 0) (lTu 2 2 0)) (Tu 0)) by lf.
  assert (RT2 : rep z o add mul D env (leafS (kTl 2 2 0) (lTl 2 2 0)) (Tl 0)) by lf.
  assert (RC : rep z o add mul D env (leafS (kC 2 2 0) (lC 2 2 0)) C1) by lf.
  assert (RO' : rep z o add mul D env (leafS 20 (op_legs 2 2 six)) Op) by lf.
  spin_dims HD.
  assert (HO : Forall (fun s => D (sket 2 2 s 0 0) = d /\ D (sbra 2 2 s 0 0) = d) [0; 1; 2]) by (repeat constructor; assumption).
  destruct (op_ok z o add mul d D 2 2 20 six Op env HO RO') as (Om & EO & RO). clear RO'. exists Om.
  leaf_in RA; leaf_in RB; leaf_in RT1; leaf_in RT2; leaf_in RC; leaf_in R1; leaf_in R2; leaf_in R3.
  pose proof (ket_bra _ _ _ _ _ _ _ _ _ _ _ _ RA RB) as EQ; cbn [map ldim tl] in EQ; injection EQ; clear EQ; intros.
  assert (HA : exists a, layer_op z o add mul cj (A 0 0) Om = Ok a /\ rep z o add mul D env (canon (cellF 2 2 [0; 1; 2] 0 0 ++ [(20, op_legs 2 2 six)]) (dbl4 2 2 0 0)) a).
  { destruct six; leaf_in RO; (eapply (res_canon z o add mul SR); [unfold layer_op; step ltac:(cein SR); kview (dbl4 2 2 0 0)|check]). }
  destruct HA as (a & EA & RA'). exists a.
  assert (HM : exists lu M, dn_LU z o add mul C1 (Tu 0) (Tl 0) a = Ok lu /\ dn_close z o add mul lu ru rd ld = Ok M /\ rep z o add mul D env (canon (fopd six) []) M).
  { clear EA EO RO. assert (HL : exists lu, dn_LU z o add mul C1 (Tu 0) (Tl 0) a = Ok lu /\ rep z o add mul D env (canon (f_LU 2 2 [0; 1; 2] ++ [(20, op_legs 2 2 six)]) (o_LU 2 2 [])) lu).
    { destruct six; leaf_in RA'; (eapply (res_canon z o add mul SR); [unfold dn_LU; do 3 step ltac:(cdot SR); step cperm; kview (o_LU 2 2 [])|check]). }
    destruct HL as (lu & EL & RL). exists lu.
    assert (HC : exists M, dn_close z o add mul lu ru rd ld = Ok M /\ rep z o add mul D env (canon (fopd six) []) M).
    { destruct six; leaf_in RL; (eapply (res_canon z o add mul SR); [unfold dn_close; do 2 step ltac:(cdot SR); cdot SR|check]). }
    destruct HC as (M & EC & RM). exists M. split; [exact EL|split; [exact EC|exact RM]]. }
  destruct HM as (lu & M & EL & EM & RM). exists lu, ru, rd, ld, M. repeat (split; [assumption|]).
  assert (SI : sym_is (canon (fopd six) []) (fopd six) [] = true) by (destruct six; check).
  assert (RR := rep_contraction z o add mul SR D _ _ _ _ _ RM SI).
  replace (combine (t22 ++ [Op]) (map snd (fopd six))) with (map (fun f : nat * list leg => (env (fst f), snd f)) (fopd six)); [exact RR|].
  destruct six; reflexivity. Qed.
Lemma dn_id : spins D d 2 2 -> fits D (patch 2 2 []) ->
  exists a lu ru rd ld M, layer_id z o add mul cj (A 0 0) = Ok a /\ dn_LU z o add mul C1 (Tu 0) (Tl 0) a = Ok lu /\
    corner_RU z o add mul cj d C2 (Tr 0) (Tu 1) (A 1 0) [] = Ok ru /\
    corner_RD z o add mul cj d C3 (Td 1) (Tr 1) (A 1 1) [] = Ok rd /\ corner_LD z o add mul cj d C4 (Tl 1) (Td 0) (A 0 1) [] = Ok ld /\
    dn_close z o add mul lu ru rd ld = Ok M /\ isc (patch 2 2 []) [] M.
Proof. intros HD HF. change (@nil (nat * nat * nat)) with (l22 [] [] [] []) in *. rewrite net22 in *.
  pose (env := env_of (combine t22 (map snd (fac22 [] [] [] [])))).
  destruct (corner_RU_22 z o add mul cj d SR D HP env [] C2 (Tr 0) (Tu 1) (A 1 0)) as (ru & E1 & R1); [cbn; auto 10|exact HD|lf..|].
  destruct (corner_RD_22 z o add mul cj d SR D HP env [] C3 (Td 1) (Tr 1) (A 1 1)) as (rd & E3 & R3); [cbn; auto 10|exact HD|lf..|].
  destruct (corner_LD_22 z o add mul cj d SR D HP env [] C4 (Tl 1) (Td 0) (A 0 1)) as (ld & E2 & R2); [cbn; auto 10|exact HD|lf..|].
  assert (RA : rep z o add mul D env (leafS (kA 2 0 0) (ketL 2 2 0 0)) (A 0 0)) by lf.
  assert (RB : rep z o add mul D env (leafS (S (kA 2 0 0)) (braL 2 2 [] 0 0)) (tmap cj (A 0 0))) by lf.
  assert (RT1 : rep z o add mul D env (leafS (kTu 2 2 0) (lTu 2 2 0)) (Tu 0)) by lf.
  assert (RT2 : rep z o add mul D env (leafS (kTl 2 2 0) (lTl 2 2 0)) (Tl 0)) by lf.
  assert (RC : rep z o add mul D env (leafS (kC 2 2 0) (lC 2 2 0)) C1) by lf.
  spin_dims HD.
  leaf_in RA; leaf_in RB; leaf_in RT1; leaf_in RT2; leaf_in RC; leaf_in R1; leaf_in R2; leaf_in R3.
  pose proof (ket_bra _ _ _ _ _ _ _ _ _ _ _ _ RA RB) as EQ; cbn [map ldim tl] in EQ; injection EQ; clear EQ; intros.
  assert (HA : exists a, layer_id z o add mul cj (A 0 0) = Ok a /\ rep z o add mul D env (canon (cellF 2 2 [] 0 0) (dbl4 2 2 0 0)) a).
  { eapply (res_canon z o add mul SR); [unfold layer_id; step ltac:(cein SR); kview (dbl4 2 2 0 0)|check]. }
  destruct HA as (a & EA & RA'). exists a. leaf_in RA'.
  assert (HL : exists lu, dn_LU z o add mul C1 (Tu 0) (Tl 0) a = Ok lu /\ rep z o add mul D env (canon (f_LU 2 2 []) (o_LU 2 2 [])) lu).
  { eapply (res_canon z o add mul SR); [unfold dn_LU; do 3 step ltac:(cdot SR); step cperm; kview (o_LU 2 2 [])|check]. }
  destruct HL as (lu & EL & RL). exists lu, ru, rd, ld. leaf_in RL.
  assert (HC : exists M, dn_close z o add mul lu ru rd ld = Ok M /\ rep z o add mul D env (canon (fac22 [] [] [] []) []) M).
  { eapply (res_canon z o add mul SR); [unfold dn_close; do 2 step ltac:(cdot SR); cdot SR|check]. }
  destruct HC as (M & EM & RM). exists M. repeat (split; [assumption|]).
  refine (rep_contraction z o add mul SR D _ _ (fac22 [] [] [] []) [] _ RM _). check. Qed.
End R.
