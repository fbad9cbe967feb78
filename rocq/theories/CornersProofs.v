(** Proof tools: following a contraction step by step, keeping track of the network. *)
From Verif Require Import Base BaseLemmas Tensor TensorLemmas Net NetSpec NetProofs NetProofs2 NetProofs3 Corners CornersSpec.
From Coq Require Import Ring ArithRing Permutation.
Open Scope list_scope.
Open Scope nat_scope.
Open Scope res_scope.

Section Tools.
Context {K : Type} (z o : K) (add mul : K -> K -> K).
Hypothesis SR : semi_ring_theory z o add mul eq.
Variable D : nat -> nat.
Definition env_of (net : @network K) (k : nat) : tensor K := nth k (map fst net) (mkT [] []).
Lemma fits_leaf net k : fits D net -> k < length net ->
  rep z o add mul D (env_of net) (mkS (nth k (map snd net) []) [] [(k, nth k (map snd net) [])]) (nth k (map fst net) (mkT [] [])).
Proof. intros HF Hk. unfold fits in HF. rewrite Forall_forall in HF.
  assert (HI := nth_In net (mkT [] [], []) Hk). destruct (HF _ HI) as [W E].
  apply (rep_leaf z o add mul SR); [reflexivity| |].
  - rewrite (nth_map_lt fst net k _ (mkT [] [], [])) by exact Hk. exact W.
  - rewrite (nth_map_lt fst net k _ (mkT [] [], [])) by exact Hk. rewrite (nth_map_lt snd net k _ (mkT [] [], [])) by exact Hk. exact E. Qed.
Lemma bind_rep env S (m : res (tensor K)) {B} (k : tensor K -> res B) (Q : B -> Prop) :
  (exists M, m = Ok M /\ rep z o add mul D env S M) ->
  (forall M, rep z o add mul D env S M -> exists N, k M = Ok N /\ Q N) ->
  exists N, bind m k = Ok N /\ Q N.
Proof. intros (M & -> & HR) H. cbn. apply H, HR. Qed.
Lemma size_rep env S M : rep z o add mul D env S M -> forall k, size M k = nth k (map (ldim D) (s_out S)) 0.
Proof. intros (_ & E & _) k. unfold size. now rewrite E. Qed.
Lemma cons_eq {A} (a b : A) l l' : a = b -> l = l' -> a :: l = b :: l'.
Proof. now intros -> ->. Qed.
Lemma conj_dims cj (A : tensor K) net k ts ts' : fits D net -> nth k net (mkT [] [], []) = (A, ts) -> k < length net ->
  forall k', nth k' net (mkT [] [], []) = (conj cj A, ts') -> k' < length net -> map (ldim D) ts = map (ldim D) ts'.
Proof. intros HF E L k' E' L'. unfold fits in HF. rewrite Forall_forall in HF.
  assert (H1 := HF _ (nth_In net (mkT [] [], []) L)). assert (H2 := HF _ (nth_In net (mkT [] [], []) L')).
  rewrite E in H1. rewrite E' in H2. cbn in H1, H2. destruct H1 as [_ <-], H2 as [_ <-]. reflexivity. Qed.
Lemma rep_of_contraction net env fac out M :
  is_contraction D z o add mul net out M -> net = map (fun f => (env (fst f), snd f)) fac ->
  rep z o add mul D env (mkS out (to_sum fac out) fac) M.
Proof. intros (W & Hd & HV) ->. split; [exact W|]. split; [exact Hd|]. split.
  - intros k Hk. cbn [s_out s_bnd s_fac] in *. unfold ovars, to_sum. cbn [s_out].
    destruct (in_dec Nat.eq_dec k (flat_map bonds out)) as [Hi|Hi]; apply in_app_iff; [now left|right].
    apply filter_In. split; [now apply nodup_In|]. destruct (in_dec _ _ _); [contradiction|reflexivity].
  - intros s Hs. cbn [s_out s_bnd s_fac] in *. unfold ovars in Hs. cbn [s_out] in Hs. rewrite HV by exact Hs. f_equal.
    replace (inner (map (fun f => (env (fst f), snd f)) fac) out) with (to_sum fac out).
    2:{ unfold to_sum, inner, net_bonds. f_equal. f_equal. unfold fvars. rewrite !flat_map_concat_map, map_map. reflexivity. }
    apply so_ext. intros s' _. unfold fprod, product. rewrite map_map. reflexivity. Qed.
Lemma two_reps net fac out S1 S2 (m1 m2 : res (tensor K)) :
  (exists M, m1 = Ok M /\ rep z o add mul D (env_of net) S1 M) ->
  (exists M, m2 = Ok M /\ rep z o add mul D (env_of net) S2 M) ->
  sym_is S1 fac out = true -> legs_eqb (s_out S1) (s_out S2) && nodupb (ovars S1) && permb Nat.eqb (s_bnd S1) (s_bnd S2) && permb fac_eqb (s_fac S1) (s_fac S2) = true ->
  net = map (fun f => (env_of net (fst f), snd f)) fac ->
  exists M, m1 = Ok M /\ m2 = Ok M /\ is_contraction D z o add mul net out M.
Proof. intros (M1 & E1 & H1) (M2 & E2 & H2) HI HE HN. rewrite !andb_true_iff in HE. destruct HE as [[[HE1 HE2] HE3] HE4].
  assert (M1 = M2) by (now apply (rep_eq z o add mul SR D (env_of net) S1 S2)). subst M2.
  exists M1. split; [exact E1|]. split; [exact E2|].
  assert (H := rep_contraction z o add mul SR D _ _ _ _ _ H1 HI). rewrite <- HN in H. exact H. Qed.
Lemma one_rep net fac out S1 (m1 : res (tensor K)) :
  (exists M, m1 = Ok M /\ rep z o add mul D (env_of net) S1 M) -> sym_is S1 fac out = true ->
  net = map (fun f => (env_of net (fst f), snd f)) fac ->
  exists M, m1 = Ok M /\ is_contraction D z o add mul net out M.
Proof. intros (M1 & E1 & H1) HI HN. exists M1. split; [exact E1|].
  assert (H := rep_contraction z o add mul SR D _ _ _ _ _ H1 HI). rewrite <- HN in H. exact H. Qed.
Lemma bind_layer {B} (m : res (tensor K)) (g : tensor K -> corner K) (k : corner K -> res B) (Q : B -> Prop) :
  (exists N, bind m (fun a => k (g a)) = Ok N /\ Q N) -> exists N, bind (bind m (fun a => Ok (g a))) k = Ok N /\ Q N.
Proof. destruct m; cbn; auto. Qed.
End Tools.

Ltac calc_some := match goal with |- ?l = Some ?r => let v := eval vm_compute in l in transitivity v; [vm_compute; reflexivity|reflexivity] end.
Ltac rdims := repeat match goal with
  | |- context [size ?X ?k] => match goal with H : rep _ _ _ _ _ _ _ X |- _ => rewrite (size_rep _ _ _ _ _ _ _ _ H k) end end;
  cbn [nth map ldim s_out Nat.pow FF];
  repeat apply cons_eq; try reflexivity; try assumption; try (symmetry; assumption);
  repeat match goal with H : rep _ _ _ _ _ _ _ _ |- _ => clear H | H : fits _ _ |- _ => clear H end; try congruence;
  repeat match goal with E : ?d _ = ?d _ |- _ => rewrite E; clear E end; try ring.
Ltac cdot SR := eapply (rep_dot _ _ _ _ SR); [eassumption|eassumption|calc_some].
Ltac cein SR := eapply (rep_einsum _ _ _ _ SR); [repeat (apply Forall2_cons; [cbn [fst]; eassumption|]); apply Forall2_nil|cbn [map snd]; calc_some].
Ltac cperm := eapply rep_perm; [eassumption|calc_some].
Ltac cview o_ := eapply (rep_view _ _ _ _ _ _ _ o_); [eassumption|calc_some|rdims].
Ltac step t := eapply bind_rep; [t|intros ? ?].

Ltac net_delta n := eval cbv beta delta [net_LU net_RU net_RD net_LD net_T_UP net_T_LEFT net_T_DOWN net_T_RIGHT
    net_C_UP1 net_C_UP2 net_C_LEFT1 net_C_LEFT2 net_C_DOWN1 net_C_DOWN2 net_C_RIGHT1 net_C_RIGHT2 half_net corner_net k_C k_T1 k_T2 k_A app] in n.
Ltac fac_of n := let r := net_delta n in
  let l := eval vm_compute in (combine (seq 0 (length r)) (map snd r)) in l.
Ltac leaf SR HF k := let R := fresh "R" in match type of HF with fits ?D ?n =>
  let r := net_delta n in
  let ts := eval vm_compute in (nth k (map snd r) []) in
  let M := eval cbn [nth map fst] in (nth k (map fst r) (mkT [] [])) in
  match type of SR with semi_ring_theory ?z ?o ?add ?mul _ =>
  assert (R : rep z o add mul D (env_of n) (mkS ts [] [(k, ts)]) M) by exact (fits_leaf _ _ _ _ SR D n k HF ltac:(cbn; lia)) end end.
Ltac conj_eqs HF cj A k k' := match type of HF with fits ?D ?n =>
  let EQ := fresh "EQ" in pose proof (conj_dims D cj A n k _ _ HF eq_refl ltac:(cbn; lia) k' eq_refl ltac:(cbn; lia)) as EQ;
  cbv [map ldim idb FF glue Nat.eqb Nat.add fst snd] in EQ; injection EQ; clear EQ; intros end.
Ltac both SR := match goal with |- exists M, _ = Ok M /\ _ = Ok M /\ is_contraction ?D _ _ _ _ ?n ?out M =>
  let f := fac_of n in eapply (two_reps _ _ _ _ SR D n f out) end.
(** the double-layer tensor, given by its network: factors 3 (ket) and 4 (bra) *)
Ltac dleaf Ha env := let R := fresh "R" in match type of Ha with is_contraction ?D ?z ?o ?add ?mul ?n ?out ?a =>
  let r := net_delta n in
  let r := eval cbn [skipn] in r in
  let fac := eval vm_compute in (combine [3; 4] (map snd r)) in
  let o' := eval vm_compute in out in
  let bn := eval vm_compute in (to_sum fac o') in
  assert (R : rep z o add mul D env (mkS o' bn fac) a) by exact (rep_of_contraction z o add mul D n env fac out a Ha eq_refl) end.
Ltac check := vm_compute; reflexivity.
Fixpoint ren (b : nat -> nat) (t : leg) : leg := match t with V l => V (b l) | F x y => F (ren b x) (ren b y) end.
Ltac rview b l := let l' := eval vm_compute in (map (ren b) l) in cview l'.
Definition v_std := [V 2; V 3; V 4; V 5; V 6; V 7].
Definition v_LD := [V 5; V 2; V 3; V 6; V 7; V 4].
Definition v_out := [F (V 5) (FF 9 11); F (V 4) (FF 10 12)].
Definition d_LU := [FF 2 3; FF 6 7; FF 9 11; FF 10 12].
Definition d_RU := [FF 6 7; FF 9 11; FF 10 12; FF 2 3].
Definition d_RD := [FF 9 11; FF 10 12; FF 2 3; FF 6 7].
Definition d_LD := [FF 9 11; FF 2 3; FF 6 7; FF 10 12].
Ltac t_sl SR b v := cbn [negb]; step ltac:(cdot SR); step ltac:(cdot SR); step ltac:(rview b v);
    step ltac:(cdot SR); step ltac:(cdot SR); step cperm; rview b v_out.
Ltac t_dl SR b := cbn [negb]; step ltac:(cdot SR); step ltac:(cdot SR); step ltac:(cdot SR); step cperm; rview b v_out.
Ltac t_layer SR b d := unfold double_layer; step ltac:(cein SR); rview b d.
Ltac single SR := match goal with |- exists M, _ = Ok M /\ is_contraction ?D _ _ _ _ ?n ?out M =>
  let f := fac_of n in eapply (one_rep _ _ _ _ SR D n f out) end.
(** the first two steps of the goal are those of E *)
Ltac glue_binds E := match type of E with bind ?m ?k = Ok _ =>
  let x := fresh "x" in let Ex := fresh "Ex" in destruct m as [x|?] eqn:Ex in E; [|discriminate E]; cbn [bind] in E; rewrite Ex; cbn [bind]; rewrite E; cbn [bind] end.
