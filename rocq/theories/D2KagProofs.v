From Verif Require Import Base BaseLemmas Text Tensor TensorLemmas TensorIO TensorIOProofs Lattice LatticeProofs StateIO StateIOSpec StateIOProofs StateIOProofs2
  Extend ExtendSpec ExtendProofs C4v C4vProofs D2Kag D2KagSpec.
Open Scope list_scope.
Open Scope nat_scope.

Ltac inr := repeat (constructor; try lia).
Lemma in_range5 p u l d r ix : in_range [p; u; l; d; r] ix -> exists s i j k m, ix = [s; i; j; k; m] /\ s < p /\ i < u /\ j < l /\ k < d /\ m < r.
Proof. intros H. inv H. inv H4. inv H5. inv H6. inv H7. inv H8. eauto 15. Qed.

Section Any.
Context {T DT DV : Type} `{EqDec DT} `{EqDec DV} (dtype_of : T -> DT) (device_of : T -> DV) (flip : T -> res T).
Notation init := (d2_init dtype_of device_of flip).

Lemma d2_init_eq (A B : T) : flip A = Ok B -> uniform dtype_of device_of [((0, 0)%Z, A); ((0, 1)%Z, B)] = true ->
  init (Some A) = Ok (mkD2 (Some A) (mk_ipeps (Some [((0, 0)%Z, A); ((0, 1)%Z, B)]) 1 2 (pbc 1 2))).
Proof. intros E U. unfold d2_init, build_onsite_tensors. rewrite E. cbn [bind]. unfold ipeps_init. cbn [sites_truthy]. rewrite U. reflexivity. Qed.
Lemma d2_empty : init None = Ok (mkD2 None (mk_ipeps None 1 2 (pbc 1 2))).
Proof. reflexivity. Qed.
Lemma d2_site (A B : T) v : ipeps_site (mk_ipeps (Some [((0, 0)%Z, A); ((0, 1)%Z, B)]) 1 2 (pbc 1 2)) v = Ok (if Z.even (snd v) then A else B).
Proof. unfold ipeps_site. cbn [i_sites i_v2s]. rewrite pbc_ok by lia. cbn [bind]. rewrite Z.mod_1_r, Zmod_even. destruct (Z.even (snd v)); reflexivity. Qed.
Lemma d2_regular (A B : T) : uniform dtype_of device_of [((0, 0)%Z, A); ((0, 1)%Z, B)] = true ->
  regular (mk_ipeps (Some [((0, 0)%Z, A); ((0, 1)%Z, B)]) 1 2 (pbc 1 2)) [((0, 0)%Z, A); ((0, 1)%Z, B)].
Proof. intros U. apply (regular_pbc (L := Z) dtype_of device_of _ (Some 1%Z) (Some 2%Z)); cbn [i_lX i_lY]; try lia.
  - discriminate.
  - cbn. repeat constructor; cbn; intuition discriminate.
  - unfold ipeps_init. cbn [sites_truthy]. rewrite U. reflexivity.
  - intros [x y]. cbn. split; [intros [E|[E|[]]]; inv E; lia|]. intros [Hx Hy]. assert (x = 0%Z) by lia. subst x.
    assert (y = 0%Z \/ y = 1%Z) as [-> | ->] by lia; auto. Qed.
End Any.

Section Tens.
Context {K : Type} (zero one half : K) (add mul sub : K -> K -> K) (opp : K -> K) (div : K -> K -> K) (amax : list K -> K).
Notation flip := (flip_t zero).
Notation new := (d2_new zero).

Lemma flip_ok A : rank5 A -> exists B, flip A = Ok B /\ mirrored A B.
Proof. intros [W L]. destruct A as [[|p [|u [|l [|d [|r [|]]]]]] v]; cbn in L; try discriminate.
  set (A := mkT _ _) in *. unfold flip_t. destruct (tpermute zero A [0; 3; 2; 1; 4]) as [B|e] eqn:E; [|discriminate E].
  exists B. split; [reflexivity|]. destruct (tpermute_spec _ _ _ _ W E) as (_ & WB & DB & G). split; [exact WB|].
  exists p, u, l, d, r. split; [reflexivity|]. split; [exact DB|]. intros s i j k m Hs Hi Hj Hk Hm. apply G; [cbn; inr|reflexivity|].
  cbn [length]. intros n Hn. do 5 (destruct n as [|n]; [reflexivity|]). lia. Qed.
Lemma mirrored_rank5 (A B : tensor K) : mirrored A B -> rank5 B.
Proof. intros (W & p & u & l & d & r & _ & E & _). split; [exact W|now rewrite E]. Qed.
Lemma mirrored_sym (A B : tensor K) : twf A -> mirrored A B -> mirrored B A.
Proof. intros WA (W & p & u & l & d & r & EA & EB & G). split; [exact WA|]. exists p, d, l, u, r. repeat split; auto. intros. symmetry. now apply G. Qed.
Lemma mirrored_fun (A B C : tensor K) : mirrored A B -> mirrored A C -> B = C.
Proof. intros (WB & p & u & l & d & r & EA & EB & GB) (WC & p' & u' & l' & d' & r' & EA' & EC & GC). rewrite EA in EA'. inv EA'.
  apply tensor_ext; auto; [congruence|]. rewrite EB. intros ix Hix. apply in_range5 in Hix as (s & k & j & i & m & -> & ? & ? & ? & ? & ?). rewrite GB, GC; auto. Qed.

Lemma d2_state A : rank5 A -> exists B s, mirrored A B /\ flip A = Ok B /\ new (Some A) = Ok s /\ parent s = Some A /\
  base s = mk_ipeps (Some [((0, 0)%Z, A); ((0, 1)%Z, B)]) 1 2 (pbc 1 2).
Proof. intros HA. destruct (flip_ok A HA) as (B & E & M). exists B. unfold d2_new. rewrite (d2_init_eq _ _ _ A B E) by reflexivity. eauto 6. Qed.

Lemma state_ok A : rank5 A -> exists s, new (Some A) = Ok s /\ parent s = Some A /\ i_lX (base s) = 1%Z /\ i_lY (base s) = 2%Z /\
  d2_get_aux_bond_dims s = Ok [leg A 1; leg A 2; leg A 3; leg A 4] /\
  (forall v, exists t, ipeps_site (base s) v = Ok t /\ on_ladder A v t) /\
  (forall x y t t', ipeps_site (base s) (x, y) = Ok t -> ipeps_site (base s) (x, 1 - y)%Z = Ok t' -> mirrored t t') /\
  (forall x y t t', ipeps_site (base s) (x, y) = Ok t -> ipeps_site (base s) (x, y + 1)%Z = Ok t' -> leg t 3 = leg t' 1) /\
  (lr_symmetric A -> forall v t, ipeps_site (base s) v = Ok t -> lr_symmetric t).
Proof. intros HA. destruct (d2_state A HA) as (B & s & M & _ & E & P & Eb). exists s. rewrite Eb. split; [exact E|]. split; [exact P|]. do 2 (split; [reflexivity|]).
  pose proof M as M'. destruct M' as (WB & p & u & l & d & r & EA & EB & G).
  split; [unfold d2_get_aux_bond_dims, d2_get_checkpoint, leg; rewrite P; cbn [bind]; now rewrite EA|]. split; [|split; [|split]].
  - intros v. rewrite d2_site. eexists. split; [reflexivity|]. unfold on_ladder. destruct (Z.even (snd v)); auto.
  - intros x y t t'. rewrite !d2_site. cbn [snd]. rewrite Z.even_sub. change (Z.even 1) with false.
    destruct (Z.even y); cbn [Bool.eqb]; intros E1 E2; inv E1; inv E2; auto. apply mirrored_sym; [apply HA|exact M].
  - intros x y t t'. rewrite !d2_site. cbn [snd]. rewrite Z.even_add. change (Z.even 1) with false. unfold leg.
    destruct (Z.even y); cbn [Bool.eqb]; intros E1 E2; inv E1; inv E2; rewrite EA, EB; reflexivity.
  - intros (p' & u' & l' & d' & EA' & S) v t. rewrite d2_site. destruct (Z.even (snd v)); intros E1; inv E1.
    + exists p', u', l', d'. auto.
    + rewrite EA in EA'. inv EA'. exists p', d', l', u'. split; [exact EB|]. intros s0 k j i m Hs Hk Hj Hi Hm. rewrite !G by auto. now apply S. Qed.

(** noise *)
Lemma tbin5 f (A B : tensor K) d : twf A -> twf B -> tdims A = d -> tdims B = d -> exists C, tbin zero f A B = Ok C /\ twf C /\ tdims C = d /\
  forall ix a b, in_range d ix -> tget A ix = Some a -> tget B ix = Some b -> tget C ix = Some (f a b).
Proof. intros WA WB DA DB. unfold C4v.tbin. rewrite DA, DB, bdims_same. cbn [bind]. eexists. split; [reflexivity|]. split; [apply twf_tbuild|]. split; [reflexivity|].
  intros ix a b Hr Ea Eb. rewrite tget_tbuild by exact Hr. rewrite !bcast_same by exact Hr. unfold tval. now rewrite Ea, Eb. Qed.

Lemma symm_ok A p u l d : twf A -> tdims A = [p; u; l; d; l] -> exists C, make_d2_symm zero half add mul A = Ok C /\ twf C /\ tdims C = [p; u; l; d; l] /\
  forall s i j k m a b, s < p -> i < u -> j < l -> k < d -> m < l -> tget A [s; i; j; k; m] = Some a -> tget A [s; i; m; k; j] = Some b ->
    tget C [s; i; j; k; m] = Some (mul half (add a b)).
Proof. intros W D. unfold make_d2_symm, symm_step.
  destruct (tpermute zero A [0; 1; 4; 3; 2]) as [B|e] eqn:E; [|unfold tpermute in E; rewrite D in E; discriminate E].
  destruct (tpermute_spec _ _ _ _ W E) as (_ & WB & DB & G). rewrite D in DB. cbn in DB. cbn [bind].
  destruct (tbin5 add A B _ W WB D DB) as (C & EC & WC & DC & GC). rewrite EC. cbn [bind]. eexists. split; [reflexivity|].
  split; [now apply twf_tmap|]. split; [exact DC|]. intros s i j k m a b Hs Hi Hj Hk Hm Ea Eb. rewrite tget_tmap.
  rewrite (GC [s; i; j; k; m] a b); [reflexivity|inr|exact Ea|]. rewrite <- Eb. apply G; [rewrite D; inr|reflexivity|].
  cbn [length]. intros n Hn. do 5 (destruct n as [|n]; [reflexivity|]). lia. Qed.

Hypothesis addC : forall a b, add a b = add b a.
Lemma noise_ok A s noise rnd p u l d : twf A -> twf rnd -> tdims A = [p; u; l; d; l] -> tdims rnd = tdims A -> 0 < p * u * l * d ->
  new (Some A) = Ok s -> exists S s', d2_add_noise zero half add mul div amax s noise rnd = Ok s' /\
  twf S /\ tdims S = tdims A /\
  (forall a i j k m x y r r', a < p -> i < u -> j < l -> k < d -> m < l ->
    tget A [a; i; j; k; m] = Some x -> tget A [a; i; m; k; j] = Some y -> tget rnd [a; i; j; k; m] = Some r -> tget rnd [a; i; m; k; j] = Some r' ->
    tget S [a; i; j; k; m] = Some (mul half (add (add x (mul noise r)) (add y (mul noise r'))))) /\
  parent s' = Some (tmap (fun x => div x (amax (tdata S))) S) /\ new (parent s') = Ok s' /\
  (forall v t, ipeps_site (base s') v = Ok t -> lr_symmetric t).
Proof. intros WA WR DA DR Hpos Es. destruct (d2_state A) as (B & s0 & M & _ & E & P & Eb); [split; [exact WA|now rewrite DA]|]. rewrite E in Es. inv Es.
  unfold d2_add_noise, d2_get_checkpoint. rewrite P. cbn [bind].
  destruct (tbin5 add A (tmap (mul noise) rnd) [p; u; l; d; l] WA) as (C & EC & WC & DC & GC); [now apply twf_tmap|exact DA|cbn; congruence|]. rewrite EC. cbn [bind].
  destruct (symm_ok C p u l d WC DC) as (S & ES & WS & DS & GS). rewrite ES. cbn [bind].
  destruct (tdata S) as [|h q] eqn:ED. { exfalso. unfold twf in WS. rewrite ED, DS in WS. unfold prod_dims in WS; cbn [fold_right fold_left length] in WS. symmetry in WS. repeat (apply Nat.eq_mul_0 in WS as [WS|WS]); subst; try discriminate; lia. }
  rewrite <- ED. clear h q ED. set (A' := tmap (fun x => div x (amax (tdata S))) S).
  assert (HA' : rank5 A') by (split; [now apply twf_tmap|cbn; now rewrite DS]).
  assert (GC' : forall a i j k m x r, a < p -> i < u -> j < l -> k < d -> m < l -> tget A [a; i; j; k; m] = Some x -> tget rnd [a; i; j; k; m] = Some r ->
    tget C [a; i; j; k; m] = Some (add x (mul noise r))).
  { intros a i j k m x r Ha Hi Hj Hk Hm Ex Er. apply GC; [inr|exact Ex|]. rewrite tget_tmap, Er. reflexivity. }
  assert (SY : lr_symmetric A').
  { exists p, u, l, d. split; [exact DS|]. intros a i j k m Ha Hi Hj Hk Hm.
    destruct (tget_Some C [a; i; j; k; m] WC ltac:(rewrite DC; inr)) as [x Ex]. destruct (tget_Some C [a; i; m; k; j] WC ltac:(rewrite DC; inr)) as [y Ey].
    unfold A'. rewrite !tget_tmap. rewrite (GS a i j k m x y), (GS a i m k j y x) by auto. now rewrite (addC x y). }
  destruct (d2_state A' HA') as (B' & s' & M' & EB' & E' & P' & Eb'). exists S, s'. destruct (state_ok A' HA') as (s'' & E'' & _ & _ & _ & _ & _ & _ & _ & L'). rewrite E' in E''. inv E''.
  split; [|split; [exact WS|split; [congruence|split; [|split; [exact P'|split; [rewrite P'; exact E'|exact (L' SY)]]]]]].
  - unfold set_parent, build_onsite_tensors. rewrite EB'. cbn [bind]. rewrite Eb. cbn [i_lX i_lY i_v2s]. destruct s'' as [pa ba]. cbn in P', Eb'. now subst.
  - intros a i j k m x y r r' Ha Hi Hj Hk Hm Ex Ey Er Er'. apply GS; auto. Qed.

Lemma extend_ok A s D : rank5 A -> new (Some A) = Ok s ->
  (aux_le D A -> exists A' s', d2_extend zero s D = Ok s' /\ padded zero A (new_dims D A) A' /\ parent s' = Some A' /\ new (Some A') = Ok s' /\
    (lr_symmetric A -> lr_symmetric A')) /\
  (~ aux_le D A -> d2_extend zero s D = Err ValueError).
Proof. intros HA Es. destruct (d2_state A HA) as (B & s0 & M & _ & E & P & Eb). rewrite E in Es. inv Es. unfold d2_extend, d2_get_checkpoint. rewrite P. cbn [bind]. split.
  - intros HD. destruct (extend_site_ok' zero (fun x => x) Cplx D A HA HD) as (A' & EA' & HP). rewrite EA'. cbn [bind].
    assert (HP' : padded zero A (new_dims D A) A').
    { destruct HP as (W & DD & G). split; [exact W|]. split; [exact DD|]. intros ix Hix. rewrite (G ix Hix), tget_tmap. now destruct (tget A ix). }
    assert (HA' : rank5 A') by (destruct HP' as (W & DD & _); split; [exact W|now rewrite DD]).
    destruct (d2_state A' HA') as (B' & s' & _ & _ & E' & P' & _). exists A', s'. do 4 (split; [assumption|]).
    intros (p & u & l & d & DA & SY). destruct HP' as (W & DD & G). unfold new_dims in *. rewrite DA in *. cbn [hd] in *. exists p, D, D, D. split; [exact DD|].
    intros a i j k m Ha Hi Hj Hk Hm. rewrite !G by inr. f_equal.
    destruct (Nat.lt_ge_cases i u), (Nat.lt_ge_cases j l), (Nat.lt_ge_cases k d), (Nat.lt_ge_cases m l); try (now rewrite SY by auto);
      rewrite !(tget_None A) by (try apply HA; rewrite DA; intros R; apply in_range5 in R as (?&?&?&?&?&EE&?&?&?&?&?); inv EE; lia); reflexivity.
  - intros HD. rewrite extend_site_small; [reflexivity|]. destruct (aux_le_dec D A) as [|X]; [contradiction|exact X]. Qed.

Lemma checkpoint_ok A s0 : rank5 A -> new None = Ok s0 -> forall s, new (Some A) = Ok s -> d2_load_checkpoint (flip_t zero) s0 A = Ok s /\ d2_get_checkpoint s = Ok A /\
  (forall A' s', rank5 A' -> new (Some A') = Ok s' -> d2_load_checkpoint (flip_t zero) s' A = Ok s).
Proof. intros HA E0 s Es. destruct (d2_state A HA) as (B & s1 & M & EB & E & P & Eb). rewrite E in Es. inv Es. inv E0. destruct s as [pa ba]. cbn in P, Eb. subst.
  unfold d2_load_checkpoint, set_parent, build_onsite_tensors. rewrite EB. cbn [bind]. do 2 (split; [reflexivity|]).
  intros A' s' HA' Es'. destruct (d2_state A' HA') as (B' & s1 & _ & _ & E' & _ & Eb'). rewrite E' in Es'. inv Es'. rewrite Eb'. reflexivity. Qed.
End Tens.
