(** Reduced density matrices of a state and an environment. *)
From Verif Require Import Base BaseLemmas Lattice Tensor TensorLemmas Net NetSpec NetProofs NetProofs2 NetProofs3 Corners CornersSpec CornersProofs Rdm RdmSpec RdmProofs RdmProofs2 RdmProofs3 RdmProofs4 RdmProofs5.
From Verif Require Ctm.
From Coq Require Import Ring ArithRing Permutation.
Open Scope list_scope.
Open Scope nat_scope.
Open Scope res_scope.

Section S.
Context {K : Type} (z o : K) (add mul : K -> K -> K) (cj : K -> K).
Hypothesis SR : semi_ring_theory z o add mul eq.
Variable D : nat -> nat.
Notation ten := (tensor K).
Notation isc := (is_contraction D z o add mul).
Variables (st : ipeps ten) (e : Ctm.envt ten) (As : coord -> ten) (Cs Ts : coord -> coord -> ten).
Hypothesis HS : sees st e As Cs Ts.
Notation patch w h l c := (patch_at cj As Cs Ts w h l c).

Definition isC d := In d [(-1, -1); (1, -1); (1, 1); (-1, 1)]%Z.
Definition isT d := In d [(0, -1); (1, 0); (0, 1); (-1, 0)]%Z.
Lemma gA_eq v v' : v = v' -> gA st v = Ok (As v').
Proof. intros ->. destruct (HS v') as (k & E1 & E2 & E3 & E4 & E5). exact E3. Qed.
Lemma gC_eq v v' d : v = v' -> isC d -> gC st e v d = Ok (Cs v' d).
Proof. intros -> Hd. destruct (HS v') as (k & E1 & E2 & E3 & E4 & E5). unfold gC. rewrite E1. cbn. now apply E4. Qed.
Lemma gT_eq v v' d : v = v' -> isT d -> gT st e v d = Ok (Ts v' d).
Proof. intros -> Hd. destruct (HS v') as (k & E1 & E2 & E3 & E4 & E5). unfold gT. rewrite E1. cbn. now apply E5. Qed.
Definition holds k v' := gA st k = Ok (As v') /\ (forall d, isC d -> Ctm.getC ten e k d = Ok (Cs v' d)) /\ (forall d, isT d -> Ctm.getT ten e k d = Ok (Ts v' d)).
Lemma v2s_eq v v' : v = v' -> exists k, i_v2s st v = Ok k /\ i_v2s st k = Ok k /\ holds k v'.
Proof. intros ->. destruct (HS v') as (k & E1 & E2 & E3 & E4 & E5). exists k. split; [exact E1|]. split; [exact E2|]. split; [|split; assumption].
  unfold gA, ipeps_site in *. destruct (i_sites st); [|discriminate]. rewrite E1 in E3. rewrite E2. exact E3. Qed.
Lemma c2x2_eq dC d1 d2 v v' : v = v' \/ i_v2s st v = Ok v /\ holds v v' -> isC dC -> isT d1 -> isT d2 ->
  Ctm.c2x2_t ten dC d1 d2 st e v = Ok [Cs v' dC; Ts v' d1; Ts v' d2; As v'].
Proof. intros HE HC H1 H2. unfold Ctm.c2x2_t. destruct HE as [->|(E & HA & HC' & HT')].
  - destruct (HS v') as (k & E1 & E2 & E3 & E4 & E5). rewrite E1. cbn [bind]. rewrite (E4 _ HC), (E5 _ H1), (E5 _ H2). cbn [bind]. now rewrite E3.
  - rewrite E. cbn [bind]. rewrite (HC' _ HC), (HT' _ H1), (HT' _ H2). cbn [bind]. unfold gA in HA. now rewrite HA. Qed.

Variable c : coord.
Ltac veq := destruct c; unfold vtx, cadd; cbn; f_equal; lia.
Ltac at_vertex v v' := let E := fresh "EV" in assert (E : v = v') by veq;
  repeat match goal with
  | |- context [gA st v] => rewrite (gA_eq v v' E)
  | |- context [gC st e v ?d] => rewrite (gC_eq v v' d E ltac:(cbn; auto 6))
  | |- context [gT st e v ?d] => rewrite (gT_eq v v' d E ltac:(cbn; auto 6)) end; cbn [bind].
Ltac at_shift v v' := let E := fresh "EV" in assert (E : v = v') by veq;
  let k := fresh "k" in let E1 := fresh "EK" in let E2 := fresh "EI" in let HA := fresh "HA" in let HC := fresh "HC" in let HT := fresh "HT" in
  destruct (v2s_eq v v' E) as (k & E1 & E2 & HA & HC & HT); rewrite E1; cbn [bind];
  repeat match goal with
  | |- context [gA st k] => rewrite HA
  | |- context [Ctm.getC ten e k ?d] => rewrite (HC d ltac:(cbn; auto 6))
  | |- context [Ctm.getT ten e k ?d] => rewrite (HT d ltac:(cbn; auto 6)) end; cbn [bind].

Notation Af := (fun i j => As (vtx c i j)).
Lemma rdm1x1_ok : fits D (patch 1 1 [(0, 0)] c) ->
  exists M, rdm1x1_sl z o add mul cj st e c None = Ok M
    /\ (i_v2s st c = Ok c -> rdm1x1_dl z o add mul cj st e c None = Ok M)
    /\ isc (patch 1 1 [(0, 0)] c) (patch_out 1 1 [(0, 0)]) M.
Proof. intros HF. destruct (one_site z o add mul cj SR D _ _ _ _ _ _ _ _ _ HF) as (M & E1 & E2 & I). exists M.
  split; [|split; [|exact I]].
  - unfold rdm1x1_sl. at_vertex c (vtx c 0 0). exact E1.
  - intros HR. unfold rdm1x1_dl. at_vertex c (vtx c 0 0).
    destruct (v2s_eq c (vtx c 0 0) EV) as (k & EK & _ & HA & HC & HT). rewrite HR in EK. injection EK as <-.
    rewrite !HC, !HT by (cbn; auto 6). cbn [bind]. exact E2. Qed.
Lemma rdm1x1_op_ok Op : fits D (patch 1 1 [(0, 0)] c ++ [(Op, [V (pbra 1 1 0 0); V (pket 1 1 0 0)])]) ->
  exists M, rdm1x1_sl z o add mul cj st e c (Some Op) = Ok M
    /\ (i_v2s st c = Ok c -> rdm1x1_dl z o add mul cj st e c (Some Op) = Ok M)
    /\ isc (patch 1 1 [(0, 0)] c ++ [(Op, [V (pbra 1 1 0 0); V (pket 1 1 0 0)])]) [] M.
Proof. intros HF. destruct (one_site_op z o add mul cj SR D _ _ _ _ _ _ _ _ _ Op HF) as (M & E1 & E2 & I). exists M.
  split; [|split; [|exact I]].
  - unfold rdm1x1_sl. at_vertex c (vtx c 0 0). exact E1.
  - intros HR. unfold rdm1x1_dl. at_vertex c (vtx c 0 0).
    destruct (v2s_eq c (vtx c 0 0) EV) as (k & EK & _ & HA & HC & HT). rewrite HR in EK. injection EK as <-.
    rewrite !HC, !HT by (cbn; auto 6). cbn [bind]. exact E2. Qed.
Lemma rdm2x1_ok : fits D (patch 2 1 [(0, 0); (1, 0)] c) ->
  exists M, rdm2x1_sl z o add mul cj st e c = Ok M /\ rdm2x1_dl z o add mul cj st e c = Ok M
    /\ isc (patch 2 1 [(0, 0); (1, 0)] c) (patch_out 2 1 [(0, 0); (1, 0)]) M.
Proof. intros HF. destruct (two_sites_h z o add mul cj SR D _ _ _ _ _ _ _ _ _ HF) as (M & E1 & E2 & I). exists M.
  split; [|split; [|exact I]].
  - unfold rdm2x1_sl, tn2x1_at. at_vertex c (vtx c 0 0). at_vertex (cadd c (1, 0)%Z) (vtx c 1 0). exact E1.
  - unfold rdm2x1_dl. at_vertex c (vtx c 0 0). at_shift (cadd c (1, 0)%Z) (vtx c 1 0). exact E2. Qed.
Lemma rdm1x2_ok : fits D (patch 1 2 [(0, 0); (0, 1)] c) ->
  exists M, rdm1x2_sl z o add mul cj st e c = Ok M /\ rdm1x2_dl z o add mul cj st e c = Ok M
    /\ isc (patch 1 2 [(0, 0); (0, 1)] c) (patch_out 1 2 [(0, 0); (0, 1)]) M.
Proof. intros HF. destruct (two_sites_v z o add mul cj SR D _ _ _ _ _ _ _ _ _ HF) as (M & E1 & E2 & I). exists M.
  split; [|split; [|exact I]].
  - unfold rdm1x2_sl, tn1x2_at. at_vertex c (vtx c 0 0). at_vertex (cadd c (0, 1)%Z) (vtx c 0 1). exact E1.
  - unfold rdm1x2_dl. at_vertex c (vtx c 0 0). at_shift (cadd c (0, 1)%Z) (vtx c 0 1). exact E2. Qed.
Ltac corner f ct v v' open := let E := fresh "EV" in assert (E : v = v') by veq;
  unfold f, c2x2_at; unfold ct; rewrite (c2x2_eq _ _ _ v v' (or_introl E)) by (cbn; auto 6).
Lemma LU_at open v v' : v = v' \/ i_v2s st v = Ok v /\ holds v v' ->
  LU_sl z o add mul cj open st e v = c2x2_LU_sl_c z o add mul cj (Cs v' (-1, -1)%Z) (Ts v' (0, -1)%Z) (Ts v' (-1, 0)%Z) (As v') open.
Proof. intros HE. unfold LU_sl, c2x2_at, Ctm.c2x2_LU_t. rewrite (c2x2_eq _ _ _ v v' HE) by (cbn; auto 6). reflexivity. Qed.
Lemma RU_at open v v' : v = v' \/ i_v2s st v = Ok v /\ holds v v' ->
  RU_sl z o add mul cj open st e v = c2x2_RU_sl_c z o add mul cj (Cs v' (1, -1)%Z) (Ts v' (1, 0)%Z) (Ts v' (0, -1)%Z) (As v') open.
Proof. intros HE. unfold RU_sl, c2x2_at, Ctm.c2x2_RU_t. rewrite (c2x2_eq _ _ _ v v' HE) by (cbn; auto 6). reflexivity. Qed.
Lemma RD_at open v v' : v = v' \/ i_v2s st v = Ok v /\ holds v v' ->
  RD_sl z o add mul cj open st e v = c2x2_RD_sl_c z o add mul cj (Cs v' (1, 1)%Z) (Ts v' (0, 1)%Z) (Ts v' (1, 0)%Z) (As v') open.
Proof. intros HE. unfold RD_sl, c2x2_at, Ctm.c2x2_RD_t. rewrite (c2x2_eq _ _ _ v v' HE) by (cbn; auto 6). reflexivity. Qed.
Lemma LD_at open v v' : v = v' \/ i_v2s st v = Ok v /\ holds v v' ->
  LD_sl z o add mul cj open st e v = c2x2_LD_sl_c z o add mul cj (Cs v' (-1, 1)%Z) (Ts v' (-1, 0)%Z) (Ts v' (0, 1)%Z) (As v') open.
Proof. intros HE. unfold LD_sl, c2x2_at, Ctm.c2x2_LD_t. rewrite (c2x2_eq _ _ _ v v' HE) by (cbn; auto 6). reflexivity. Qed.
Ltac shifted L v v' := let E := fresh "EV" in assert (E : v = v') by veq;
  let k := fresh "k" in let E1 := fresh "EK" in let E2 := fresh "EI" in let HH := fresh "HH" in
  destruct (v2s_eq v v' E) as (k & E1 & E2 & HH); rewrite E1; cbn [bind]; rewrite (L _ k v' (or_intror (Logic.conj E2 HH))).
Lemma nnn11_ok : fits D (patch 2 2 [(0, 0); (1, 1)] c) ->
  exists M, rdm2x2_NNN_11 z o add mul cj st e c = Ok M
    /\ isc (patch 2 2 [(0, 0); (1, 1)] c) (patch_out 2 2 [(0, 0); (1, 1)]) M.
Proof. intros HF. destruct (nnn11 z o add mul cj SR D _ _ _ _ _ _ _ _ _ HF) as (M & E1 & I). exists M.
  split; [|exact I]. unfold rdm2x2_NNN_11.
  rewrite (LU_at _ c (vtx c 0 0)) by (left; veq).
  shifted RU_at (cadd c (1, 0)%Z) (vtx c 1 0). shifted RD_at (cadd c (1, 1)%Z) (vtx c 1 1). shifted LD_at (cadd c (0, 1)%Z) (vtx c 0 1). exact E1. Qed.
Lemma nnn1n1_ok : let c0 := cadd c (0, -1)%Z in fits D (patch 2 2 [(0, 1); (1, 0)] c0) ->
  exists M, rdm2x2_NNN_1n1_oe z o add mul cj st e c = Ok M /\ rdm2x2_NNN_1n1_legacy z o add mul cj st e c = Ok M
    /\ isc (patch 2 2 [(0, 1); (1, 0)] c0) (patch_out 2 2 [(0, 1); (1, 0)]) M.
Proof. intros c0 HF. destruct (nnn1n1 z o add mul cj SR D _ _ _ _ _ _ _ _ _ HF) as (M & E1 & E2 & I). exists M.
  split; [|split; [|exact I]]; unfold c0 in *.
  - unfold rdm2x2_NNN_1n1_oe, nnn1n1_oe_c, tn2x2_at.
    at_vertex c (vtx (cadd c (0, -1)%Z) 0 1). at_vertex (cadd c (0, -1)%Z) (vtx (cadd c (0, -1)%Z) 0 0).
    at_vertex (cadd c (1, -1)%Z) (vtx (cadd c (0, -1)%Z) 1 0). at_vertex (cadd c (1, 0)%Z) (vtx (cadd c (0, -1)%Z) 1 1). exact E1.
  - unfold rdm2x2_NNN_1n1_legacy. shifted LU_at (cadd c (0, -1)%Z) (vtx (cadd c (0, -1)%Z) 0 0).
    shifted RU_at (cadd c (1, -1)%Z) (vtx (cadd c (0, -1)%Z) 1 0). shifted RD_at (cadd c (1, 0)%Z) (vtx (cadd c (0, -1)%Z) 1 1).
    rewrite (LD_at _ c (vtx (cadd c (0, -1)%Z) 0 1)) by (left; veq). exact E2. Qed.
Lemma rdm2x2_ok : let l := [(0, 0); (1, 0); (0, 1); (1, 1)] in fits D (patch 2 2 l c) ->
  exists M, rdm2x2_oe z o add mul cj st e c [0; 1; 2; 3] = Ok M /\ rdm2x2_legacy z o add mul cj st e c = Ok M
    /\ isc (patch 2 2 l c) (patch_out 2 2 l) M.
Proof. intros l HF. destruct (four_sites z o add mul cj SR D _ _ _ _ _ _ _ _ _ HF) as (M & E1 & E2 & I). exists M.
  split; [|split; [|exact I]].
  - unfold rdm2x2_oe, rdm2x2_oe_c. cbn [nodupb memb existsb Nat.eqb negb andb orb forallb Nat.ltb Nat.leb]. unfold tn2x2_at.
    at_vertex c (vtx c 0 0). at_vertex (cadd c (1, 0)%Z) (vtx c 1 0). at_vertex (cadd c (0, 1)%Z) (vtx c 0 1). at_vertex (cadd c (1, 1)%Z) (vtx c 1 1). exact E1.
  - cbn [Nat.sub] in E2. unfold rdm2x2_legacy. at_vertex c (vtx c 0 0).
    destruct (lu_dl _ _ _ _ _ _ _ _ _) as [lu|?] eqn:EL in E2; [cbn [bind] in E2|discriminate E2]. rewrite EL. cbn [bind].
    at_shift (cadd c (1, 0)%Z) (vtx c 1 0).
    destruct (ru_dl _ _ _ _ _ _ _ _ _) as [ru|?] eqn:ER in E2; [cbn [bind] in E2|discriminate E2]. rewrite ER. cbn [bind].
    at_shift (cadd c (1, 1)%Z) (vtx c 1 1).
    destruct (rd_dl _ _ _ _ _ _ _ _ _) as [rd|?] eqn:ER' in E2; [cbn [bind] in E2|discriminate E2]. rewrite ER'. cbn [bind].
    at_shift (cadd c (0, 1)%Z) (vtx c 0 1). exact E2. Qed.

Lemma oe_named open : NoDup open -> Forall (fun k => k < 4) open ->
  fits D (patch 2 2 (named_sites open) c) ->
  exists M, rdm2x2_oe z o add mul cj st e c open = Ok M
    /\ isc (patch 2 2 (named_sites open) c) (patch_out 2 2 (named_sites open)) M.
Proof. intros ND HL HF.
  assert (EN : named_sites open = osites (memb 0 open) (memb 1 open) (memb 2 open) (memb 3 open)).
  { unfold named_sites, memb. cbn [filter]. destruct (existsb (Nat.eqb 0) open), (existsb (Nat.eqb 1) open), (existsb (Nat.eqb 2) open), (existsb (Nat.eqb 3) open); reflexivity. }
  rewrite EN in *.
  destruct (oe_open z o add mul cj SR D _ _ _ _ _ _ _ _ _ _ _ _ _ HF) as (M & E1 & I). exists M. split; [|exact I].
  unfold rdm2x2_oe, rdm2x2_oe_c.
  assert (EB : nodupb open && forallb (fun x => x <? 4) open = true).
  { apply andb_true_intro. split.
    - clear - ND. induction ND as [|k open N ND IH]; [reflexivity|]. cbn. rewrite IH, andb_true_r. apply negb_true_iff.
      apply not_true_is_false. intros B. apply N. apply existsb_exists in B. destruct B as (x & Hx & B). apply Nat.eqb_eq in B. now subst x.
    - apply forallb_forall. intros k Hk. apply Nat.ltb_lt. rewrite Forall_forall in HL. now apply HL. }
  rewrite EB. unfold tn2x2_at.
  at_vertex c (vtx c 0 0). at_vertex (cadd c (1, 0)%Z) (vtx c 1 0). at_vertex (cadd c (0, 1)%Z) (vtx c 0 1). at_vertex (cadd c (1, 1)%Z) (vtx c 1 1).
  assert (EO : open_out open = oout (memb 0 open) (memb 1 open) (memb 2 open) (memb 3 open)).
  { unfold open_out. cbn [filter]. destruct (memb 0 open), (memb 1 open), (memb 2 open), (memb 3 open); reflexivity. }
  rewrite EO. unfold tn2x2 in *.
  assert (EL : forall k, k < 8 -> open_label open k = olabel (memb 0 open) (memb 1 open) (memb 2 open) (memb 3 open) k).
  { intros k Hk. unfold open_label, olabel. do 8 (destruct k as [|k]; [reflexivity|]). lia. }
  rewrite (EL 0), (EL 1), (EL 2), (EL 3), (EL 4), (EL 5), (EL 6), (EL 7) by lia. exact E1. Qed.
Lemma oe_bad open : ~ NoDup open \/ ~ Forall (fun k => k < 4) open -> rdm2x2_oe z o add mul cj st e c open = Err AssertionError.
Proof. intros H. unfold rdm2x2_oe, rdm2x2_oe_c. destruct (nodupb open && forallb (fun x => x <? 4) open) eqn:EB; [|reflexivity].
  exfalso. apply andb_prop in EB. destruct EB as [B1 B2]. destruct H as [H|H]; apply H.
  - clear - B1. induction open as [|k open IH]; [constructor|]. cbn in B1. apply andb_prop in B1. destruct B1 as [B B1]. constructor; [|auto].
    apply negb_true_iff in B. intros Hk. assert (E : memb k open = true) by (apply existsb_exists; exists k; split; [exact Hk|apply Nat.eqb_refl]). congruence.
  - apply Forall_forall. intros k Hk. apply Nat.ltb_lt. now apply (proj1 (forallb_forall _ _) B2). Qed.
Lemma mpo2x2_ok m0 m1 m2 m3 : let l := [(0, 0); (1, 0); (0, 1); (1, 1)] in let net := patch 2 2 l c ++ mpo_net 2 2 l [m0; m1; m2; m3] in
  fits D net -> exists M, mpo2x2 z o add mul cj st e c [m0; m1; m2; m3] = Ok M /\ isc net [] M.
Proof. intros l net HF. destruct (mpo_2x2 z o add mul cj SR D _ _ _ _ _ _ _ _ _ _ _ _ _ HF) as (M & E1 & I). exists M. split; [|exact I].
  unfold mpo2x2, tn2x2_at, mpo2x2_c.
  at_vertex c (vtx c 0 0). at_vertex (cadd c (1, 0)%Z) (vtx c 1 0). at_vertex (cadd c (0, 1)%Z) (vtx c 0 1). at_vertex (cadd c (1, 1)%Z) (vtx c 1 1). exact E1. Qed.
Lemma mpo3x1_ok m0 m1 m2 : let l := [(0, 0); (0, 1); (0, 2)] in let net := patch 1 3 l c ++ mpo_net 1 3 l [m0; m1; m2] in
  fits D net -> D (hket 1 3 1 1) = D (hket 1 3 1 2) ->
  exists M, mpo3x1 z o add mul cj st e c [m0; m1; m2] = Ok M /\ isc net [] M.
Proof. intros l net HF HE. destruct (mpo_3x1 z o add mul cj SR D _ _ _ _ _ _ _ _ _ _ _ _ HF HE) as (M & E1 & I). exists M. split; [|exact I].
  unfold mpo3x1. at_vertex c (vtx c 0 0). at_vertex (cadd c (0, 1)%Z) (vtx c 0 1). at_vertex (cadd c (0, 2)%Z) (vtx c 0 2). exact E1. Qed.
Lemma eval_2x1_ok m0 m1 m2 m3 : let l := [(0, 0); (1, 0)] in
  fits D (patch 2 1 l c ++ mps_net 2 1 l (drop_first m0) m1 m2 (drop_last m3)) -> size m0 0 = 1 -> last (tdims m3) 0 = 1 ->
  exists R I, eval_mpo_rdm2x1 z o add mul cj st e c [m0; m1; m2; m3] = Ok (R, I)
    /\ isc (patch 2 1 l c ++ mps_net 2 1 l (drop_first m0) m1 m2 (drop_last m3)) [] R /\ isc (patch 2 1 [] c) [] I.
Proof. intros l HF H0 H3. destruct (mps_h z o add mul cj SR D _ _ _ _ _ _ _ _ _ _ _ _ _ HF H0 H3) as (R & I & E1 & HR & HI).
  exists R, I. split; [|exact (Logic.conj HR HI)].
  unfold eval_mpo_rdm2x1, tn2x1_at. at_vertex c (vtx c 0 0). at_vertex (cadd c (1, 0)%Z) (vtx c 1 0). exact E1. Qed.
Lemma eval_1x2_ok m0 m1 m2 m3 : let l := [(0, 0); (0, 1)] in
  fits D (patch 1 2 l c ++ mps_net 1 2 l (drop_first m0) m1 m2 (drop_last m3)) -> size m0 0 = 1 -> last (tdims m3) 0 = 1 ->
  exists R I, eval_mpo_rdm1x2 z o add mul cj st e c [m0; m1; m2; m3] = Ok (R, I)
    /\ isc (patch 1 2 l c ++ mps_net 1 2 l (drop_first m0) m1 m2 (drop_last m3)) [] R /\ isc (patch 1 2 [] c) [] I.
Proof. intros l HF H0 H3. destruct (mps_v z o add mul cj SR D _ _ _ _ _ _ _ _ _ _ _ _ _ HF H0 H3) as (R & I & E1 & HR & HI).
  exists R, I. split; [|exact (Logic.conj HR HI)].
  unfold eval_mpo_rdm1x2, tn1x2_at. at_vertex c (vtx c 0 0). at_vertex (cadd c (0, 1)%Z) (vtx c 0 1). exact E1. Qed.
Lemma eval_diag_ok m0 m1 m2 m3 : let l := [(0, 1); (1, 0)] in let c0 := cadd c (0, -1)%Z in
  fits D (patch 2 2 l c0 ++ mps_net 2 2 l (drop_first m0) m1 m2 (drop_last m3)) -> size m0 0 = 1 -> last (tdims m3) 0 = 1 ->
  exists R I, eval_mpo_rdm2x2_NNN_1n1 z o add mul cj st e c [m0; m1; m2; m3] = Ok (R, I)
    /\ isc (patch 2 2 l c0 ++ mps_net 2 2 l (drop_first m0) m1 m2 (drop_last m3)) [] R /\ isc (patch 2 2 [] c0) [] I.
Proof. intros l c0 HF H0 H3. destruct (mps_diag z o add mul cj SR D _ _ _ _ _ _ _ _ _ _ _ _ _ HF H0 H3) as (R & I & E1 & HR & HI).
  exists R, I. split; [|exact (Logic.conj HR HI)]. unfold c0 in *.
  unfold eval_mpo_rdm2x2_NNN_1n1, tn2x2_at.
  at_vertex c (vtx (cadd c (0, -1)%Z) 0 1). at_vertex (cadd c (0, -1)%Z) (vtx (cadd c (0, -1)%Z) 0 0).
  at_vertex (cadd c (1, -1)%Z) (vtx (cadd c (0, -1)%Z) 1 0). at_vertex (cadd c (1, 0)%Z) (vtx (cadd c (0, -1)%Z) 1 1). exact E1. Qed.
End S.
