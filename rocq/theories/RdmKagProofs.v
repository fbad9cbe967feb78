(** Density matrices of the kagome lattice contract the network of the patch: given tensors. *)
From Verif Require Import Base BaseLemmas Lattice Tensor TensorLemmas Net NetSpec NetProofs NetProofs2 NetProofs3 Corners CornersSpec CornersProofs Rdm RdmSpec RdmProofs RdmKag RdmKagSpec.
From Coq Require Import Ring ArithRing Permutation.
Open Scope list_scope.
Open Scope nat_scope.
Open Scope res_scope.

Lemma tdims_rep {K} (z o : K) add mul D env S M : rep z o add mul D env S M -> tdims M = map (ldim D) (s_out S).
Proof. intros (_ & E & _). exact E. Qed.
(** sizes and dimensions of the tensors at hand *)
Ltac rsz := repeat match goal with
  | |- context [size ?X ?k] => match goal with H : rep _ _ _ _ _ _ _ X |- _ => rewrite (size_rep _ _ _ _ _ _ _ _ H k) end
  | |- context [tdims ?X] => match goal with H : rep _ _ _ _ _ _ _ X |- _ => rewrite (tdims_rep _ _ _ _ _ _ _ _ H) end end.
Ltac kdims := rsz; cbn [nth map ldim s_out Nat.pow FF tl repeat app length Nat.add Nat.mul prod_dims fold_right];
  repeat apply cons_eq; try reflexivity; try assumption; try (symmetry; assumption);
  repeat match goal with H : rep _ _ _ _ _ _ _ _ |- _ => clear H | H : fits _ _ |- _ => clear H end;
  repeat match goal with E : ?D _ = _ |- _ => rewrite E; clear E end; try ring.
Ltac kview l := let l' := eval vm_compute in l in eapply (rep_view _ _ _ _ _ _ _ l'); [eassumption|calc_some|kdims].
Ltac spin_dims HD := cbv [spins flat_map seq app sket sbra bond_id Nat.add Nat.mul] in HD;
  repeat match type of HD with Forall _ (_ :: _) => let H := fresh "Hs" in pose proof (Forall_inv HD) as H; apply Forall_inv_tail in HD end; clear HD.

Section R.
Context {K : Type} (z o : K) (add mul : K -> K -> K) (cj : K -> K) (d : nat).
Hypothesis SR : semi_ring_theory z o add mul eq.
Variable D : nat -> nat.
Notation ten := (tensor K).
Notation isc := (is_contraction D z o add mul).
Variables (A : nat -> nat -> ten) (C1 C2 C3 C4 : ten) (Tu Tr Td Tl : nat -> ten).
Notation patch w h l := (kpatch_net w h l cj A C1 C2 C3 C4 Tu Tr Td Tl).

Lemma op_ok w h k six Op env : Forall (fun s => D (sket w h s 0 0) = d /\ D (sbra w h s 0 0) = d) [0; 1; 2] ->
  rep z o add mul D env (mkS (op_legs w h six) [] [(k, op_legs w h six)]) Op ->
  exists M, op_matrix Op = Ok M /\ rep z o add mul D env (mkS [three (fun s => sbra w h s 0 0); three (fun s => sket w h s 0 0)] [] [(k, op_legs w h six)]) M.
Proof. intros HS HR. inversion_clear HS as [|? ? [Ka Kb] HS']. inversion_clear HS' as [|? ? [Kc Kd] HS]. inversion_clear HS as [|? ? [Ke Kf] _].
  destruct six; unfold op_legs in *; unfold op_matrix; rewrite (tdims_rep _ _ _ _ _ _ _ _ HR); cbn [s_out map app ldim three].
  - rewrite Ka, Kb, Kc, Kd, Ke, Kf. cbn [forallb]. rewrite Nat.eqb_refl. cbn [andb].
    eapply (rep_view z o add mul D env _ [three (fun s => sbra w h s 0 0); three (fun s => sket w h s 0 0)]); [exact HR| |].
    + unfold sym_view, ovars. cbn. rewrite !Nat.eqb_refl. reflexivity.
    + cbn [map ldim three]. rewrite Ka, Kb, Kc, Kd, Ke, Kf. cbn [Nat.pow]. repeat apply cons_eq; try reflexivity; ring.
  - exists Op. split; [reflexivity|exact HR]. Qed.
Ltac t_op Op HO n six w h := match goal with Q : rep ?z ?o ?add ?mul ?D _ _ Op |- _ => destruct (op_ok w h n six Op _ HO Q) as (Om & EO & RO);
    rewrite EO; cbn [bind];
    match type of RO with rep _ _ _ _ _ ?e ?S' _ => let x := eval vm_compute in S' in change (rep z o add mul D e x Om) in RO end end.
Ltac t_trace SR Op HO n six :=
  unfold trace1x1_c; t_op Op HO n six 1 1;
  do 3 step ltac:(cdot SR);
    step ltac:(unfold layer_op; step ltac:(cein SR); kview (firstn 4 (dbl 1 1 0 0)));
    do 4 step ltac:(cdot SR); cdot SR.
Lemma trace_mat six Op : spins D d 1 1 -> fits D (patch 1 1 (down) ++ op_net 1 1 six Op) ->
  exists M, trace1x1_c z o add mul cj C1 C4 C3 C2 (Tl 0) (Td 0) (Tr 0) (Tu 0) (A 0 0) Op = Ok M
    /\ isc (patch 1 1 down ++ op_net 1 1 six Op) [] M.
Proof. intros HD HF. pose proof HD as HD'. spin_dims HD.
  assert (HO : Forall (fun s => D (sket 1 1 s 0 0) = d /\ D (sbra 1 1 s 0 0) = d) [0; 1; 2]) by (repeat constructor; assumption).
  destruct six; start SR HF cj; singleE SR; [t_trace SR Op HO 10 true| | |t_trace SR Op HO 10 false| |]; try reflexivity; check. Qed.
End R.
