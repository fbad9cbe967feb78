(** Symmetries of the tensors; concrete environments. *)
From Verif Require Import Base BaseLemmas Tensor TensorLemmas Net NetSpec NetProofs NetTrace Corners CornersSpec CornersExamples Rdm RdmSpec CtmC4vSpec RdmC4v RdmC4vSpec RdmC4vProofs RdmC4vProofs2 RdmC4vProofs3.
From Coq Require Import Ring.
Open Scope list_scope.
Open Scope nat_scope.
Open Scope res_scope.

Section Sym.
Context {K : Type} (z : K) (cj : K -> K).
Lemma c4v_turn d D a : (forall x, cj (cj x) = x) -> c4v_site z cj d D a -> turn_invariant z d D a.
Proof. intros Hc [_ H] s u l w r H1 H2 H3 H4 H5. destruct (H s u l w r H1 H2 H3 H4 H5) as [E1 _].
  destruct (H s l u r w H1 H3 H2 H5 H4) as [_ E2]. rewrite E1, E2. apply Hc. Qed.
Lemma c4v_flip d D a : (forall x, cj x = x) -> c4v_site z cj d D a -> flip_invariant z d D a.
Proof. intros Hc [_ H] s u l w r H1 H2 H3 H4 H5. destruct (H s u l w r H1 H2 H3 H4 H5) as [_ E]. rewrite E at 1. apply Hc. Qed.
Lemma row_real n m T : (forall x, cj x = x) -> row_hermitian z cj n m T -> row_symmetric z n m T.
Proof. intros Hc [_ H] i j k H1 H2 H3. rewrite (H i j k H1 H2 H3) at 1. apply Hc. Qed.
Lemma diag_symmetric n C : diagonal z n C -> symmetric z n C.
Proof. intros H i j Hi Hj. destruct (Nat.eq_dec i j) as [->|N]; [reflexivity|]. rewrite !H; auto. Qed.
End Sym.

(** ** bonds that must be zero *)
Section Fix.
Context {K : Type} (z o : K) (add mul : K -> K -> K).
Hypothesis SR : semi_ring_theory z o add mul eq.
Add Ring KR : SR.
Variable D : nat -> nat.
Variable fx : nat -> bool.
Fixpoint sum_fix (ls : list nat) (G : (nat -> nat) -> K) (s : nat -> nat) : K :=
  match ls with
  | [] => G s
  | l :: ls' => if fx l then sum_fix ls' G (upd s l 0) else sum_list z add (map (fun i => sum_fix ls' G (upd s l i)) (seq 0 (D l)))
  end.
Lemma so_zero ls : forall s, sum_over D z add ls (fun _ => z) s = z.
Proof. induction ls as [|l ls IH]; intros s; cbn [sum_over]; [reflexivity|]. rewrite (sl_ext z add _ (fun _ => z)) by (intros i _; apply IH). apply (sl_zero z o add mul SR). Qed.
Lemma sum_fix_ok G : (forall s l, fx l = true -> s l <> 0 -> G s = z) -> forall ls, NoDup ls -> (forall l, In l ls -> 0 < D l) ->
  forall s, sum_over D z add ls G s = sum_fix ls G s.
Proof. intros HG. induction ls as [|l ls IH]; intros ND HD s; [reflexivity|]. inversion ND as [|x y Nl ND']; subst x y.
  cbn [sum_over sum_fix]. destruct (fx l) eqn:E.
  - rewrite <- IH by (try assumption; intros k Hk; apply HD; now right).
    destruct (D l) as [|n] eqn:En; [exfalso; specialize (HD l (or_introl eq_refl)); lia|]. cbn [seq map].
    change (sum_list z add (?x :: ?y)) with (add x (sum_list z add y)).
    rewrite (sl_ext z add _ (fun _ => z)).
    + rewrite (sl_zero z o add mul SR). ring.
    + intros i Hi. apply in_seq in Hi. transitivity (sum_over D z add ls (fun _ => z) (upd s l i)); [|apply so_zero]. apply so_ext.
      intros s' [A _]. apply (HG s' l E). rewrite (A l Nl), upd_same. lia.
  - apply sl_ext. intros i _. apply IH; [exact ND'|]. intros k Hk. apply HD. now right. Qed.
Lemma prod_zero l : In z l -> prod_list o mul l = z.
Proof. induction l as [|x l IH]; intros H; [destruct H|]. change (mul x (prod_list o mul l) = z). destruct H as [->|H]; [ring|]. rewrite IH by exact H. ring. Qed.
End Fix.

(** ** the top row tensor enters rdm1x1_sl reversed *)
Definition g_ (n : Z) : gi := (n, 0%Z).
Definition xa : tensor gi := mkT [2;2;2;2;2] (map g_ [1;0;0;0; 0;0;0;0; 0;0;0;0; 0;0;0;0;  0;1;1;0; 1;0;0;0; 1;0;0;0; 0;0;0;0]%Z).
Definition xC : tensor gi := mkT [2;2] [g_ 2; g_ 0; g_ 0; g_ 1].
Definition xT : tensor gi := mkT [2;2;4] [g_ 1; g_ 0; g_ 0; g_ 1;  g_ 1; (0, 1)%Z; (0, 1)%Z; g_ 0;  g_ 1; (0, -1)%Z; (0, -1)%Z; g_ 0;  g_ 1; g_ 0; g_ 0; g_ 0].
Ltac cases2 H := repeat (destruct H as [|H]; [lia|]); lia.
Ltac small n := first [destruct n as [|n]|idtac]; [|first [destruct n as [|n]|idtac]; [|first [lia|destruct n as [|n]; [|first [lia|destruct n as [|n]; [|lia]]]]]].
Lemma x_site : c4v_site g0 gconj 2 2 xa.
Proof. split; [split; reflexivity|]. intros s u l w r H1 H2 H3 H4 H5.
  small s; small u; small l; small w; small r; split; vm_compute; reflexivity. Qed.
Lemma x_env : symmetric_env g0 gconj 2 2 (xC, xT) /\ diagonal g0 2 xC.
Proof. split; [split; (split; [split; reflexivity|])|].
  - intros i j H1 H2. small i; small j; vm_compute; reflexivity.
  - intros i j k H1 H2 H3. cbn in H3. small i; small j; small k; vm_compute; reflexivity.
  - intros i j H1 H2. small i; small j; intros N; try (exfalso; apply N; reflexivity); vm_compute; reflexivity. Qed.
Definition xM : tensor gi := mkT [2;2] [g_ 81; g_ 0; g_ 0; g_ 288].
Definition xM' : tensor gi := mkT [2;2] [g_ 81; g_ 0; g_ 0; g_ 144].
Lemma x_values : rdm1x1_sl_fixed g0 g1 gadd gmul gconj xC xT xa = Ok xM /\ rdm1x1_sl g0 g1 gadd gmul gconj xC xT xa = Ok xM'.
Proof. split; vm_compute; reflexivity. Qed.
Lemma x_rdm : rdm1x1 g0 g1 gadd gmul gconj xC xT xa = Ok xM /\
  is_contraction (dims_patch 1 1 2 2 2) g0 g1 gadd gmul (patch gconj 1 1 [(0, 0)] xC xT xa) (patch_out 1 1 [(0, 0)]) xM.
Proof. destruct x_env as [E1 E2]. assert (S := diag_symmetric _ _ _ E2).
  destruct (rdm1x1_ok g0 g1 gadd gmul gconj gi_ring 2 2 2 xC xT xa (proj1 (proj1 E1)) (proj1 (proj2 E1)) (proj1 x_site) S) as (M & E & H).
  destruct (rdm1x1_sl_fixed_ok g0 g1 gadd gmul gconj gi_ring 2 2 2 xC xT xa (proj1 (proj1 E1)) (proj1 (proj2 E1)) (proj1 x_site) S) as (M' & E' & H').
  rewrite (proj1 x_values) in E'. injection E' as <-. split; [|exact H']. rewrite E. f_equal. revert H H'. apply contraction_unique.
  repeat constructor; cbn; intuition discriminate. Qed.

(** ** order of the open indices *)
Definition yC : tensor Z := mkT [2;2] [1;0;0;0]%Z.
Definition yT : tensor Z := mkT [2;2;4] [1;0;0;0; 0;1;0;0; 0;1;0;0; 1;0;0;0]%Z.
Definition ya : tensor Z := mkT [1;2;2;2;2] [1;1;1;0; 1;0;0;0; 1;0;0;0; 0;0;0;0]%Z.
Definition bra1 (bs : list nat) : nat -> nat := fun k => if in_dec Nat.eq_dec k bs then 1 else 0.
Definition idZ (x : Z) : Z := x.
Lemma bra1_range D bs l : (forall k, In k l -> D k = 2) -> forall k, In k l -> bra1 bs k < D k.
Proof. intros H k Hk. rewrite (H k Hk). unfold bra1. destruct in_dec; lia. Qed.
Lemma Z_ring : semi_ring_theory 0%Z 1%Z Z.add Z.mul eq.
Proof. constructor; intros; ring. Qed.
Lemma y_site : c4v_site 0%Z idZ 1 2 ya.
Proof. split; [split; reflexivity|]. intros s u l w r H1 H2 H3 H4 H5. assert (s = 0) by lia. subst s.
  small u; small l; small w; small r; split; vm_compute; reflexivity. Qed.
Lemma y_env : symmetric_env 0%Z idZ 2 2 (yC, yT) /\ diagonal 0%Z 2 yC.
Proof. split; [split; (split; [split; reflexivity|])|].
  - intros i j H1 H2. small i; small j; vm_compute; reflexivity.
  - intros i j k H1 H2 H3. cbn in H3. small i; small j; small k; vm_compute; reflexivity.
  - intros i j H1 H2. small i; small j; intros N; try (exfalso; apply N; reflexivity); vm_compute; reflexivity. Qed.
Lemma yC_zero i j : i <> 0 \/ j <> 0 -> entry 0%Z yC [i; j] = 0%Z.
Proof. intros H. destruct i as [|[|i]]; destruct j as [|[|j]]; try reflexivity. exfalso; destruct H as [H|H]; now apply H. Qed.

Definition actual4 := [(true, 0, 0); (false, 0, 0); (true, 1, 0); (false, 2, 0); (true, 0, 2); (false, 0, 1); (true, 1, 2); (false, 2, 1)].
Definition drawn4 := [(true, 0, 0); (false, 0, 0); (false, 0, 1); (true, 0, 2); (true, 1, 2); (false, 2, 1); (false, 2, 0); (true, 1, 0)].
Definition yD := dims_patch 2 2 2 1 2.
Definition cbonds := [lefb 2 2 0; topb 2 2 0; topb 2 2 2; rigb 2 2 0; rigb 2 2 2; botb 2 2 2; botb 2 2 0; lefb 2 2 2].
Definition fx4 (l : nat) : bool := existsb (Nat.eqb l) cbonds.
Lemma y_product s l : fx4 l = true -> s l <> 0 -> product yD 0%Z 1%Z Z.mul (frame 2 2 yC yT) s = 0%Z.
Proof. intros Hl Hs. apply (prod_zero 0%Z 1%Z Z.add Z.mul Z_ring).
  apply existsb_exists in Hl. destruct Hl as (l' & Hl & E). apply Nat.eqb_eq in E. subst l'.
  apply in_map_iff. cbn [cbonds In] in Hl.
  assert (H : exists x y, In (yC, [V x; V y]) (frame 2 2 yC yT) /\ (x = l \/ y = l)).
  { assert (Q : forall x y, In (yC, [V x; V y]) (skipn 8 (frame 2 2 yC yT)) -> In (yC, [V x; V y]) (frame 2 2 yC yT)).
    { intros x y H. rewrite <- (firstn_skipn 8). apply in_or_app. now right. }
    repeat (destruct Hl as [<-|Hl]; [first
      [exists (lefb 2 2 0), (topb 2 2 0); split; [apply Q; cbn; tauto|solve [auto]]|exists (topb 2 2 2), (rigb 2 2 0); split; [apply Q; cbn; tauto|solve [auto]]
      |exists (rigb 2 2 2), (botb 2 2 2); split; [apply Q; cbn; tauto|solve [auto]]|exists (botb 2 2 0), (lefb 2 2 2); split; [apply Q; cbn; tauto|solve [auto]]]|]). destruct Hl. }
  destruct H as (x & y & Hin & Hxy). exists (yC, [V x; V y]). split; [|exact Hin]. cbn [fst snd map lval]. apply yC_zero.
  destruct Hxy as [->| ->]; auto. Qed.
Lemma y_value bs s : NoDup (inner (frame 2 2 yC yT) (bonds_out 2 2 bs)) -> forallb (fun l => yD l =? 2) (inner (frame 2 2 yC yT) (bonds_out 2 2 bs)) = true ->
  sum_over yD 0%Z Z.add (inner (frame 2 2 yC yT) (bonds_out 2 2 bs)) (product yD 0%Z 1%Z Z.mul (frame 2 2 yC yT)) s
  = sum_fix 0%Z Z.add yD fx4 (inner (frame 2 2 yC yT) (bonds_out 2 2 bs)) (product yD 0%Z 1%Z Z.mul (frame 2 2 yC yT)) s.
Proof. intros ND H2. apply (sum_fix_ok 0%Z 1%Z Z.add Z.mul Z_ring); [exact y_product|exact ND|].
  intros l Hl. rewrite forallb_forall in H2. apply H2, Nat.eqb_eq in Hl. lia. Qed.
Lemma nodup_dec (l : list nat) : (length (nodup Nat.eq_dec l) =? length l) = true -> NoDup l.
Proof. intros H. apply Nat.eqb_eq in H. induction l as [|x l IH]; [constructor|]. cbn in H. destruct (in_dec Nat.eq_dec x l) as [Hx|Hx].
  - exfalso. assert (Q := NoDup_incl_length (NoDup_nodup Nat.eq_dec l) (fun y Hy => proj1 (nodup_In Nat.eq_dec l y) Hy)). lia.
  - constructor; [exact Hx|]. apply IH. cbn in H. lia. Qed.
Lemma aux_order : exists M, aux_rdm2x2 0%Z 1%Z Z.add Z.mul yC yT ya = Ok M /\
  ~ is_contraction yD 0%Z 1%Z Z.add Z.mul (frame 2 2 yC yT) (bonds_out 2 2 drawn4) M.
Proof. destruct (aux2_ok 0%Z 1%Z Z.add Z.mul Z_ring 2 1 2 yC yT ya) as (M & E & (_ & _ & H)); try (split; reflexivity).
  exists M. split; [exact E|]. intros (_ & _ & H').
  specialize (H (bra1 [vbra 2 2 0 0; vbra 2 2 1 0])). specialize (H' (bra1 [vbra 2 2 0 0; hbra 2 2 0 1])).
  rewrite (y_value actual4) in H by (first [apply nodup_dec; vm_compute; reflexivity|vm_compute; reflexivity]).
  rewrite (y_value drawn4) in H' by (first [apply nodup_dec; vm_compute; reflexivity|vm_compute; reflexivity]).
  assert (E1 : map (lval yD (bra1 [vbra 2 2 0 0; vbra 2 2 1 0])) (bonds_out 2 2 actual4) =
               map (lval yD (bra1 [vbra 2 2 0 0; hbra 2 2 0 1])) (bonds_out 2 2 drawn4)) by (vm_compute; reflexivity).
  unfold yD in *. change (bonds_out 2 2 [_; _; _; _; _; _; _; _]) with (bonds_out 2 2 actual4) in H. rewrite E1 in H.
  rewrite H in H'.
  2: apply bra1_range; intros k Hk; revert k Hk; apply Forall_forall; vm_compute; repeat constructor.
  specialize (H' ltac:(apply bra1_range; intros k Hk; revert k Hk; apply Forall_forall; vm_compute; repeat constructor)).
  vm_compute in H'. discriminate H'. Qed.

(** the same with two sites *)
Definition wC : tensor Z := mkT [1;1] [1]%Z.
Definition wT : tensor Z := mkT [1;1;4] [1;0;0;0]%Z.
Definition wD := dims_patch 2 2 1 1 2.
Definition wnet := patch_of idZ 2 2 [(0, 1); (1, 1)] [] wC wT ya.
Definition actual2 := [(true, 0, 0); (false, 0, 0); (true, 0, 1); (true, 1, 0); (true, 1, 1); (false, 2, 0)].
Definition drawn2 := [(true, 0, 0); (false, 0, 0); (true, 0, 1); (true, 1, 1); (false, 2, 0); (true, 1, 0)].
Lemma w_env : symmetric_env 0%Z idZ 1 2 (wC, wT) /\ diagonal 0%Z 1 wC.
Proof. split; [split; (split; [split; reflexivity|])|].
  - intros i j H1 H2. assert (i = 0) by lia. assert (j = 0) by lia. subst. reflexivity.
  - intros i j k H1 H2 H3. assert (i = 0) by lia. assert (j = 0) by lia. subst. reflexivity.
  - intros i j H1 H2 N. exfalso. apply N. lia. Qed.
Lemma wT_zero i j k : k <> 0 -> entry 0%Z wT [i; j; k] = 0%Z.
Proof. intros H. destruct i as [|i]; [|reflexivity]. destruct j as [|j]; [|reflexivity]. destruct k as [|[|[|[|k]]]]; try reflexivity. now contradiction H. Qed.
Definition tbonds := [(hket 2 2 0 1, hbra 2 2 0 1); (hket 2 2 2 1, hbra 2 2 2 1); (vket 2 2 0 2, vbra 2 2 0 2); (vket 2 2 1 2, vbra 2 2 1 2)].
Definition fx2 (l : nat) : bool := existsb (fun p => (l =? fst p) || (l =? snd p)) tbonds.
Lemma w_product s l : fx2 l = true -> s l <> 0 -> product wD 0%Z 1%Z Z.mul wnet s = 0%Z.
Proof. intros Hl Hs. apply (prod_zero 0%Z 1%Z Z.add Z.mul Z_ring).
  apply existsb_exists in Hl. destruct Hl as ([k b] & Hl & E). apply orb_prop in E. cbn [fst snd] in E. rewrite !Nat.eqb_eq in E.
  assert (H : wD b = 2 /\ exists x y, In (wT, [V x; V y; F (V k) (V b)]) wnet).
  { cbn [tbonds In] in Hl.
    assert (Q : forall x y l, In (wT, [V x; V y; l]) (skipn 4 wnet) -> In (wT, [V x; V y; l]) wnet).
    { intros x y m H. rewrite <- (firstn_skipn 4). apply in_or_app. now right. }
    destruct Hl as [X|[X|[X|[X|[]]]]]; injection X as <- <-; (split; [reflexivity|]).
    - exists (lefb 2 2 1), (lefb 2 2 2). apply Q. cbn. tauto.
    - exists (rigb 2 2 2), (rigb 2 2 1). apply Q. cbn. tauto.
    - exists (botb 2 2 0), (botb 2 2 1). apply Q. cbn. tauto.
    - exists (botb 2 2 1), (botb 2 2 2). apply Q. cbn. tauto. }
  destruct H as (Hb & x & y & H). apply in_map_iff. exists (wT, [V x; V y; F (V k) (V b)]). split; [|exact H].
  cbn [fst snd map lval ldim]. apply wT_zero. rewrite Hb. destruct E as [<-|<-]; lia. Qed.
Lemma w_value bs s : NoDup (inner wnet (bonds_out 2 2 bs)) -> forallb (fun l => 1 <=? wD l) (inner wnet (bonds_out 2 2 bs)) = true ->
  sum_over wD 0%Z Z.add (inner wnet (bonds_out 2 2 bs)) (product wD 0%Z 1%Z Z.mul wnet) s
  = sum_fix 0%Z Z.add wD fx2 (inner wnet (bonds_out 2 2 bs)) (product wD 0%Z 1%Z Z.mul wnet) s.
Proof. intros ND H2. apply (sum_fix_ok 0%Z 1%Z Z.add Z.mul Z_ring); [exact w_product|exact ND|].
  intros l Hl. rewrite forallb_forall in H2. apply H2, Nat.leb_le in Hl. lia. Qed.
Lemma aux_NN_order : exists M, aux_rdm2x2_NN 0%Z 1%Z Z.add Z.mul idZ wC wT ya = Ok M /\
  ~ is_contraction wD 0%Z 1%Z Z.add Z.mul wnet (bonds_out 2 2 drawn2) M.
Proof. destruct (aux_NN_ok 0%Z 1%Z Z.add Z.mul idZ Z_ring 1 1 2 wC wT ya) as (M & E & (_ & _ & H)); try (split; reflexivity).
  { apply (c4v_turn 0%Z idZ); [reflexivity|exact y_site]. }
  exists M. split; [exact E|]. intros (_ & _ & H').
  specialize (H (bra1 [vket 2 2 1 0])). specialize (H' (bra1 [vket 2 2 1 1])).
  change (patch_of idZ 2 2 [(0, 1); (1, 1)] [] wC wT ya) with wnet in H. change (dims_patch 2 2 1 1 2) with wD in H.
  change (bonds_out 2 2 [_; _; _; _; _; _]) with (bonds_out 2 2 actual2) in H.
  rewrite (w_value actual2) in H by (first [apply nodup_dec; vm_compute; reflexivity|vm_compute; reflexivity]).
  rewrite (w_value drawn2) in H' by (first [apply nodup_dec; vm_compute; reflexivity|vm_compute; reflexivity]).
  assert (E1 : map (lval wD (bra1 [vket 2 2 1 0])) (bonds_out 2 2 actual2) = map (lval wD (bra1 [vket 2 2 1 1])) (bonds_out 2 2 drawn2)) by (vm_compute; reflexivity).
  rewrite E1 in H. rewrite H in H'.
  2: apply bra1_range; intros k Hk; revert k Hk; apply Forall_forall; vm_compute; repeat constructor.
  specialize (H' ltac:(apply bra1_range; intros k Hk; revert k Hk; apply Forall_forall; vm_compute; repeat constructor)).
  vm_compute in H'. discriminate H'. Qed.

Lemma all_symmetries {K : Type} (z : K) (cj : K -> K) chi d D C T a : (forall x, cj (cj x) = x) ->
  c4v_site z cj d D a -> symmetric_env z cj chi D (C, T) -> diagonal z chi C ->
  shaped [chi; chi] C /\ shaped [chi; chi; D * D] T /\ shaped [d; D; D; D; D] a /\ symmetric z chi C /\ turn_invariant z d D a /\
  ((forall x, cj x = x) -> row_symmetric z chi (D * D) T /\ flip_invariant z d D a).
Proof. intros Hc Ha [[HC _] HT] HD. split; [exact HC|]. split; [exact (proj1 HT)|]. split; [exact (proj1 Ha)|]. split; [now apply diag_symmetric|].
  split; [now apply (c4v_turn z cj)|]. intros Hr. split; [now apply (row_real z cj)|now apply (c4v_flip z cj)]. Qed.
Lemma rdm1x1_sl_wrong : exists C T a M M', c4v_site g0 gconj 2 2 a /\ symmetric_env g0 gconj 2 2 (C, T) /\ diagonal g0 2 C /\
  is_contraction (dims_patch 1 1 2 2 2) g0 g1 gadd gmul (patch gconj 1 1 [(0, 0)] C T a) (patch_out 1 1 [(0, 0)]) M /\
  rdm1x1_sl g0 g1 gadd gmul gconj C T a = Ok M' /\
  gmul (entry g0 M [0; 0]) (entry g0 M' [1; 1]) <> gmul (entry g0 M [1; 1]) (entry g0 M' [0; 0]).
Proof. destruct x_env as [E1 E2]. exists xC, xT, xa, xM, xM'.
  split; [exact x_site|]. split; [exact E1|]. split; [exact E2|]. split; [exact (proj2 x_rdm)|]. split; [exact (proj2 x_values)|]. vm_compute. discriminate. Qed.
Lemma aux_order_ex : exists (C T a M : tensor Z), c4v_site 0%Z idZ 1 2 a /\ symmetric_env 0%Z idZ 2 2 (C, T) /\ diagonal 0%Z 2 C /\
  aux_rdm2x2 0%Z 1%Z Z.add Z.mul C T a = Ok M /\ ~ is_contraction yD 0%Z 1%Z Z.add Z.mul (frame 2 2 C T) (bonds_out 2 2 drawn4) M.
Proof. destruct aux_order as (M & E & N). exists yC, yT, ya, M. split; [exact y_site|]. split; [exact (proj1 y_env)|]. split; [exact (proj2 y_env)|]. now split. Qed.
Lemma aux_NN_order_ex : exists (C T a M : tensor Z), c4v_site 0%Z idZ 1 2 a /\ symmetric_env 0%Z idZ 1 2 (C, T) /\ diagonal 0%Z 1 C /\
  aux_rdm2x2_NN 0%Z 1%Z Z.add Z.mul idZ C T a = Ok M /\
  ~ is_contraction wD 0%Z 1%Z Z.add Z.mul (patch_of idZ 2 2 [(0, 1); (1, 1)] [] C T a) (bonds_out 2 2 drawn2) M.
Proof. destruct aux_NN_order as (M & E & N). exists wC, wT, ya, M. split; [exact y_site|]. split; [exact (proj1 w_env)|]. split; [exact (proj2 w_env)|]. now split. Qed.
Lemma x_case : c4v_site g0 gconj 2 2 xa /\ symmetric_env g0 gconj 2 2 (xC, xT) /\ diagonal g0 2 xC /\
  rdm1x1 g0 g1 gadd gmul gconj xC xT xa = Ok (mkT [2; 2] [g_ 81; g_ 0; g_ 0; g_ 288]).
Proof. split; [exact x_site|]. split; [exact (proj1 x_env)|]. split; [exact (proj2 x_env)|]. exact (proj1 x_rdm). Qed.
