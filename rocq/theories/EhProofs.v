(** The operators of get_EH_spec_Ttensor. *)
From Coq Require Import Reals.
From Verif Require Import Base BaseLemmas Lattice Tensor TensorLemmas Net NetSpec NetProofs NetProofs2 NetProofs3 CornersSpec Corners RdmSpec CorrSpec Corr CorrProofs NetDot NetDot2 Transfer TransferSpec TransferProofs TransferProofs2 TransferProofs3 ChainProofs EhSpec.
From Coq Require Import Ring Permutation.
Open Scope list_scope.
Open Scope nat_scope.
Open Scope res_scope.

Lemma prod_repeat ad m : prod_dims (repeat ad m) = ad ^ m.
Proof. induction m as [|m IH]; [reflexivity|]. cbn [repeat Nat.pow]. rewrite <- IH. reflexivity. Qed.
Lemma rim_dims D s L ad : (forall k, k < L -> D (ext s k) = ad) -> map (ldim D) (rim_of s L) = repeat ad L.
Proof. intros H. unfold rim_of. rewrite !map_map. cbn [ldim]. rewrite <- (seq_length L 0) at 2. assert (X : forall k, In k (seq 0 L) -> D (ext s k) = ad) by (intros k Hk; apply in_seq in Hk; apply H; lia).
  clear H. induction (seq 0 L) as [|k r IH]; [reflexivity|]. cbn [map length repeat]. rewrite X by now left. f_equal. apply IH. intros j Hj. apply X. now right. Qed.
Lemma open_vars {K} d b b' o i (T : tensor K) l : In l (nvars [(T, open_legs d b b' o i)]) <-> In l [b; b'; o; i].
Proof. unfold nvars. destruct d; cbn; tauto. Qed.
Lemma ring_vars {K} (f : nat -> tensor K) d s L l : In l (nvars (map (fun k => (f k, open_legs d (bnd s k) (bnd s (S k mod L)) (ext (S s) k) (ext s k))) (seq 0 L))) ->
  exists k, k < L /\ (l = bnd s k \/ l = ext (S s) k \/ l = ext s k).
Proof. intros H. unfold nvars in H. apply in_flat_map in H. destruct H as (f0 & Hf & Hl). apply in_map_iff in Hf. destruct Hf as (k & <- & Hk). apply in_seq in Hk. cbn [snd] in Hl.
  assert (X := proj1 (open_vars d (bnd s k) (bnd s (S k mod L)) (ext (S s) k) (ext s k) (f k) l)). unfold nvars in X. cbn [flat_map snd] in X. rewrite app_nil_r in X. specialize (X Hl). cbn [In] in X.
  destruct X as [<-|[<-|[<-|[<-|[]]]]].
  - exists k. split; [lia|tauto].
  - exists (S k mod L). split; [apply Nat.mod_upper_bound; lia|tauto].
  - exists k. split; [lia|tauto].
  - exists k. split; [lia|tauto]. Qed.
Lemma ring_flat {K} (f : nat -> tensor K * list leg) l : flat_map (fun k => [f k]) l = map f l.
Proof. induction l as [|k l IH]; [reflexivity|]. cbn. now rewrite IH. Qed.

Section P.
Context {K : Type} (z o : K) (add mul : K -> K -> K).
Hypothesis SR : semi_ring_theory z o add mul eq.
Notation ten := (tensor K).
Notation network := (@network K).
Section AtD.
Variable D : nat -> nat.
Notation isc := (is_contraction D z o add mul).

(** the layer s acting on a tensor *)
Lemma layer_ok {A} s L (f : nat -> ten) d (t : nat -> ten) (tensor_at : A -> res ten) next cs N0 E0 : s < 2 -> 2 <= L ->
  (forall k, k < L -> isc [(f k, open_legs d (bnd s k) (bnd s (S k mod L)) (ext (S s) k) (ext s k))] (map V [bnd s k; bnd s (S k mod L); ext (S s) k; ext s k]) (t k)) ->
  (forall k, k < L -> tensor_at (cs k) = Ok (t k)) -> (forall k, S k < L -> next (cs k) = Ok (cs (S k))) ->
  isc N0 (rim_of s L) E0 -> incl (map (ext s) (seq 0 L)) (nvars N0) ->
  (forall l k, In l (inner N0 (rim_of s L)) -> l <> bnd s k /\ l <> ext (S s) k /\ l <> ext s k) ->
  exists R, chain_mv z o add mul tensor_at next L (cs 0) E0 = Ok R /\
  isc (map (fun k => (f k, open_legs d (bnd s k) (bnd s (S k mod L)) (ext (S s) k) (ext s k))) (seq 0 L) ++ N0) (rim_of (S s) L) R.
Proof. intros Hs HL Ht Hat Hnext H0 I0 X0.
  destruct (chain_mv_ok z o add mul SR D (3 + s) (S s) s ltac:(lia) ltac:(lia) ltac:(lia) ltac:(lia) ltac:(lia) ltac:(lia) L HL
    (fun k => [(f k, open_legs d (bnd s k) (bnd s (S k mod L)) (ext (S s) k) (ext s k))]) t Ht (fun k l Hk => open_vars d _ _ _ _ (f k) l) tensor_at next cs Hat Hnext N0 E0 H0 I0 X0) as (R & E1 & E2).
  exists R. split; [exact E1|]. rewrite ring_flat in E2. exact E2. Qed.
(** the entries of a vector as a tensor *)
Lemma vec_leaf ts v : length v = prod_dims (map (ldim D) ts) -> isc [(mkT (map (ldim D) ts) v, ts)] ts (mkT (map (ldim D) ts) v).
Proof. intros H. apply (isc_leaf z o add mul SR D); [exact H|reflexivity]. Qed.
Lemma inner_leaf (M : ten) ts : inner [(M, ts)] ts = [].
Proof. destruct (inner [(M, ts)] ts) as [|l r] eqn:E; [reflexivity|]. exfalso. assert (X : In l (l :: r)) by now left. rewrite <- E in X. apply In_inner in X. unfold nvars in X. cbn in X. rewrite app_nil_r in X. tauto. Qed.
Lemma leaf_vars (M : ten) s L : incl (map (ext s) (seq 0 L)) (nvars [(M, rim_of s L)]).
Proof. unfold nvars, rim_of. cbn [flat_map snd]. rewrite app_nil_r, fbonds_V. apply incl_refl. Qed.

(** opening the double bond *)
Lemma open_ok d b b' o1 i1 (T : ten) chi ad : twf T -> tdims T = map (ldim D) (open_legs d b b' o1 i1) -> D b = chi -> D b' = chi -> D o1 = ad -> D i1 = ad ->
  exists t T4, (match d with Left => Ok T | Right | Up => permute z T [0;2;1] | Down => permute z T [1;2;0] end) = Ok t /\ view t [chi; chi; ad; ad] = Ok T4 /\
  isc [(T, open_legs d b b' o1 i1)] (map V [b; b'; o1; i1]) T4.
Proof. intros W Hd H1 H2 H3 H4. assert (HT := isc_leaf z o add mul SR D T _ W Hd).
  assert (X : exists t, (match d with Left => Ok T | Right | Up => permute z T [0;2;1] | Down => permute z T [1;2;0] end) = Ok t /\ isc [(T, open_legs d b b' o1 i1)] [V b; V b'; FF o1 i1] t).
  { destruct d; cbn [open_legs] in *.
    - destruct (isc_permute z o add mul SR D _ _ T [0;2;1] HT) as (t & E & Ht); [apply is_permb_spec; reflexivity|]. exists t. now split.
    - exists T. now split.
    - destruct (isc_permute z o add mul SR D _ _ T [1;2;0] HT) as (t & E & Ht); [apply is_permb_spec; reflexivity|]. exists t. now split.
    - destruct (isc_permute z o add mul SR D _ _ T [0;2;1] HT) as (t & E & Ht); [apply is_permb_spec; reflexivity|]. exists t. now split. }
  destruct X as (t & E & Ht). destruct (isc_view z o add mul D _ _ t (map V [b; b'; o1; i1]) Ht eq_refl) as (T4 & E4 & _ & H5).
  exists t, T4. split; [exact E|]. split; [|exact H5]. cbn [map ldim] in E4. now rewrite H1, H2, H3, H4 in E4. Qed.
End AtD.

(** ** the C4v state *)
Lemma EH_c4v_ok (T a : ten) chi ad L : twf T -> tdims T = [chi; chi; ad * ad] -> nth 4 (tdims a) 0 = ad -> 2 <= L -> exists m mv,
  (forall D, (forall k, k < L -> D (bnd 0 k) = chi /\ D (ext 0 k) = ad /\ D (ext 1 k) = ad) ->
    m = prod_dims (map (ldim D) (rim_of 0 L)) /\ applies D z o add mul mv (rim_of 0 L) (ring_c4v T L) (rim_of 1 L)) /\
  forall W (eigs : eigen_solver K W) n,
  (forall err, eigs false m mv n = Err err -> get_EH_spec_c4v z o add mul eigs chi T a n L = Err err) /\
  (forall vals vecs, eigs false m mv n = Ok (vals, vecs) -> n <> 0 -> length vals = n ->
    exists S, get_EH_spec_c4v z o add mul eigs chi T a n L = Ok S /\ S = map (over (modulus (last vals (0, 0)%R))) (rev vals) /\
    (ascending vals -> modulus (last vals (0, 0)%R) <> 0%R -> exists top, leading top vals /\ sorted_values top vals S)).
Proof. intros W Hd Ha HL.
  assert (EV : exists T4, view T [chi; chi; ad; ad] = Ok T4).
  { unfold view, treshape. unfold twf in W. rewrite W, Hd. cbn [prod_dims fold_right]. rewrite !Nat.mul_1_r. replace (chi * (chi * (ad * ad)) =? chi * (chi * (ad * ad))) with true by (symmetry; apply Nat.eqb_refl). eexists. reflexivity. }
  destruct EV as (T4 & EV). set (mv := matvec (repeat ad L) (chain_mv z o add mul (fun _ : unit => Ok T4) (fun u => Ok u) L tt)). exists (ad ^ L), mv. split.
  - intros D HD. assert (HR0 := rim_dims D 0 L ad (fun k Hk => proj1 (proj2 (HD k Hk)))). assert (HR1 := rim_dims D 1 L ad (fun k Hk => proj2 (proj2 (HD k Hk)))).
    split; [now rewrite HR0, prod_repeat|]. intros v Hv.
    destruct (layer_ok D 0 L (fun _ => T) Left (fun _ => T4) (fun _ : unit => Ok T4) (fun u => Ok u) (fun _ => tt) [(mkT (map (ldim D) (rim_of 0 L)) v, rim_of 0 L)] (mkT (map (ldim D) (rim_of 0 L)) v) ltac:(lia) HL) as (R & E1 & E2).
    + intros k Hk. assert (Hk' : S k mod L < L) by (apply Nat.mod_upper_bound; lia). destruct (HD k Hk) as (B1 & B2 & B3). destruct (HD _ Hk') as (B4 & _).
      destruct (open_ok D Left (bnd 0 k) (bnd 0 (S k mod L)) (ext 1 k) (ext 0 k) T chi ad W) as (t & T4' & F1 & F2 & F3); [rewrite Hd; cbn [open_legs map ldim FF]; now rewrite B1, B2, B3, B4|assumption..|].
      injection F1 as <-. rewrite EV in F2. injection F2 as <-. exact F3.
    + reflexivity.
    + intros k _. reflexivity.
    + now apply vec_leaf.
    + apply leaf_vars.
    + intros l k Hl. rewrite (inner_leaf D) in Hl. destruct Hl.
    + exists R. destruct (isc_fits z o add mul D _ _ _ E2) as [WR DR]. split.
      * unfold mv. apply (matvec_of (repeat ad L) _ (mkT (map (ldim D) (rim_of 0 L)) v) R); [exact Hv|exact HR0|exact E1|exact WR|now rewrite DR].
      * revert E2. apply (isc_perm z o add mul SR D). symmetry. apply Permutation_cons_append.
  - intros X eigs n.
    assert (EE : get_EH_spec_c4v z o add mul eigs chi T a n L = (r <- eigs false (ad ^ L) mv n ;; reversed_spec n r)).
    { unfold get_EH_spec_c4v, py_assert. replace (1 <? L) with true by (symmetry; apply Nat.ltb_lt; lia). cbn [bind]. unfold size. rewrite Ha, EV. reflexivity. }
    rewrite EE. split; [intros err ->; reflexivity|]. intros vals vecs -> H0 Hl. cbn [bind]. eexists. split; [now apply reversed_ok|]. split; [reflexivity|].
    intros HA Hm. exists (modulus (last vals (0, 0)%R)). apply reversed_sorted; [|exact HA|exact Hm]. destruct vals; [cbn in Hl; congruence|discriminate]. Qed.

(** ** any state *)
Section Generic.
Variables (st : ipeps ten) (e : Ctm.envt ten) (As : coord -> ten) (Cs Ts : coord -> coord -> ten).
Hypothesis HS : sees st e As Cs Ts.
Definition site_of (v : coord) : coord := match i_v2s st v with Ok k => k | Err _ => v end.
Lemma site_of_ok v : i_v2s st v = Ok (site_of v) /\ i_v2s st (site_of v) = Ok (site_of v).
Proof. destruct (HS v) as (k & E1 & E2 & _). unfold site_of. rewrite E1. now split. Qed.
Lemma getT_of v d : In d [(0, -1); (1, 0); (0, 1); (-1, 0)]%Z -> Ctm.getT ten e (site_of v) d = Ok (Ts v d).
Proof. intros H. destruct (HS v) as (k & E1 & _ & _ & _ & HT). unfold site_of. rewrite E1. now apply HT. Qed.
Lemma site_As v : exists A, ipeps_site st (site_of v) = Ok A /\ ipeps_site st (site_of v) = Ok (As (site_of v)).
Proof. destruct (HS (site_of v)) as (k & _ & _ & E & _). eexists. split; exact E. Qed.
Lemma dvec_in d : In (dvec d) [(0, -1); (1, 0); (0, 1); (-1, 0)]%Z.
Proof. destruct d; cbn; tauto. Qed.
Lemma dir_to_ind_ok d : dir_to_ind (dvec d) = Ok (leg_index d).
Proof. destruct d; reflexivity. Qed.
Definition code_grow (d : dir) : dir := match d with Up => Right | Left => Up | Down => Left | Right => Down end.
Lemma d_grow_ok d : d_grow (dvec d) = Ok (dvec (code_grow d)).
Proof. destruct d; reflexivity. Qed.

Section AtD.
Variables (D : nat -> nat) (chi ad : nat).
Notation isc := (is_contraction D z o add mul).
Hypothesis HA : forall v d, nth (leg_index d) (tdims (As v)) 0 = ad.
Lemma transform_ok d v b b' o1 i1 : twf (Ts v (dvec d)) -> tdims (Ts v (dvec d)) = map (ldim D) (open_legs d b b' o1 i1) -> D b = chi -> D b' = chi -> D o1 = ad -> D i1 = ad ->
  exists T4, transform_T z st e chi (dvec d) (site_of v) = Ok T4 /\ isc [(Ts v (dvec d), open_legs d b b' o1 i1)] (map V [b; b'; o1; i1]) T4.
Proof. intros W Hd H1 H2 H3 H4. destruct (open_ok D d b b' o1 i1 _ chi ad W Hd H1 H2 H3 H4) as (t & T4 & E1 & E2 & E3). exists T4. split; [|exact E3].
  unfold transform_T. rewrite (getT_of v _ (dvec_in d)). cbn [bind]. rewrite dir_to_ind_ok. destruct (site_As v) as (A & _ & EA). rewrite EA. cbn [bind]. unfold size. rewrite (HA (site_of v) d).
  destruct d; cbn [dvec] in *; [change (eqb (0, -1)%Z d_up) with true|change (eqb (-1, 0)%Z d_up) with false; change (eqb (-1, 0)%Z d_left) with true|
    change (eqb (0, 1)%Z d_up) with false; change (eqb (0, 1)%Z d_left) with false; change (eqb (0, 1)%Z d_down) with true|
    change (eqb (1, 0)%Z d_up) with false; change (eqb (1, 0)%Z d_left) with false; change (eqb (1, 0)%Z d_down) with false; change (eqb (1, 0)%Z d_right) with true]; cbn iota.
  all: try (injection E1 as <-; exact E2). all: rewrite E1; cbn [bind]; exact E2. Qed.
(** one layer of the cylinder; the row of sites follows g *)
Variable c : coord.
Let cs (g : dir) (k : nat) : coord := site_of (along c g k).
Lemma next_ok g k : reduces st -> next_site st (dvec g) (cs g k) = Ok (cs g (S k)).
Proof. intros HR. unfold next_site, cs. cbn [along]. destruct (site_of_ok (along c g k)) as [E _]. rewrite (HR _ _ _ E). apply site_of_ok. Qed.
Definition ring_along (d g : dir) (s L : nat) : network :=
  map (fun k => (Ts (along c g k) (dvec d), open_legs d (bnd s k) (bnd s (S k mod L)) (ext (S s) k) (ext s k))) (seq 0 L).
Section Layer.
Variables (d g : dir) (s L : nat).
Hypothesis HR : reduces st.
Hypothesis Hs : s < 2.
Hypothesis HD : forall k, k < L -> D (bnd s k) = chi /\ D (ext s k) = ad /\ D (ext (S s) k) = ad.
Hypothesis HF : fits D (ring_along d g s L).
Let t (k : nat) : ten := match transform_T z st e chi (dvec d) (cs g k) with Ok T => T | Err _ => mkT [] [] end.
Lemma ring_tensor k : k < L -> transform_T z st e chi (dvec d) (cs g k) = Ok (t k) /\
  isc [(Ts (along c g k) (dvec d), open_legs d (bnd s k) (bnd s (S k mod L)) (ext (S s) k) (ext s k))] (map V [bnd s k; bnd s (S k mod L); ext (S s) k; ext s k]) (t k).
Proof. intros Hk. assert (Hk' : S k mod L < L) by (apply Nat.mod_upper_bound; lia). destruct (HD k Hk) as (B1 & B2 & B3). destruct (HD _ Hk') as (B4 & _).
  unfold ring_along, fits in HF. rewrite Forall_forall in HF. destruct (HF (Ts (along c g k) (dvec d), open_legs d (bnd s k) (bnd s (S k mod L)) (ext (S s) k) (ext s k))) as [W Hd].
  { apply in_map_iff. exists k. split; [reflexivity|apply in_seq; lia]. }
  destruct (transform_ok d (along c g k) _ _ _ _ W Hd B1 B4 B3 B2) as (T4 & E1 & E2). unfold t. unfold cs at 1 2. rewrite E1. split; [reflexivity|]. unfold cs. rewrite E1. exact E2. Qed.
Lemma ring_act N0 E0 : 2 <= L -> isc N0 (rim_of s L) E0 -> incl (map (ext s) (seq 0 L)) (nvars N0) ->
  (forall l k, In l (inner N0 (rim_of s L)) -> l <> bnd s k /\ l <> ext (S s) k /\ l <> ext s k) ->
  exists R, chain_mv z o add mul (transform_T z st e chi (dvec d)) (next_site st (dvec g)) L (site_of c) E0 = Ok R /\ isc (ring_along d g s L ++ N0) (rim_of (S s) L) R.
Proof. intros HL H0 I0 X0. apply (layer_ok D s L (fun k => Ts (along c g k) (dvec d)) d t (transform_T z st e chi (dvec d)) (next_site st (dvec g)) (cs g) N0 E0 Hs HL); [intros k Hk; now apply ring_tensor|intros k Hk; now apply ring_tensor|intros k _; now apply next_ok|exact H0|exact I0|exact X0]. Qed.
Lemma ring_sigma : 2 <= L -> exists R, get_sigma z o add mul (transform_T z st e chi (dvec d)) (next_site st (dvec g)) L (site_of c) = Ok (mkT [ad ^ L; ad ^ L] (tdata R)) /\
  isc (ring_along d g s L) (map V (rev (map (ext (S s)) (seq 0 L)) ++ rev (map (ext s) (seq 0 L)))) R.
Proof. intros HL.
  destruct (get_sigma_ok z o add mul SR D (3 + s) (S s) s ltac:(lia) ltac:(lia) ltac:(lia) ltac:(lia) ltac:(lia) ltac:(lia) L HL
    (fun k => [(Ts (along c g k) (dvec d), open_legs d (bnd s k) (bnd s (S k mod L)) (ext (S s) k) (ext s k))]) t (fun k Hk => proj2 (ring_tensor k Hk)) (fun k l Hk => open_vars d _ _ _ _ _ l)
    (transform_T z st e chi (dvec d)) (next_site st (dvec g)) (cs g) (fun k Hk => proj1 (ring_tensor k Hk)) (fun k _ => next_ok g k HR) ad) as (R & E1 & E2).
  { intros k Hk. destruct (HD k Hk) as (_ & B2 & B3). split; [exact B3|exact B2]. }
  exists R. split; [exact E1|]. rewrite ring_flat in E2. exact E2. Qed.
End Layer.
(** two layers *)
Lemma rings_act d d' g L v : reduces st -> 2 <= L -> (forall k, k < L -> D (bnd 0 k) = chi /\ D (bnd 1 k) = chi /\ D (ext 0 k) = ad /\ D (ext 1 k) = ad /\ D (ext 2 k) = ad) ->
  fits D (ring_along d g 0 L ++ ring_along d' g 1 L) -> length v = prod_dims (map (ldim D) (rim_of 0 L)) ->
  exists R, (V <- chain_mv z o add mul (transform_T z st e chi (dvec d)) (next_site st (dvec g)) L (site_of c) (mkT (map (ldim D) (rim_of 0 L)) v) ;;
             chain_mv z o add mul (transform_T z st e chi (dvec d')) (next_site st (dvec g)) L (site_of c) V) = Ok R /\
  isc ((mkT (map (ldim D) (rim_of 0 L)) v, rim_of 0 L) :: ring_along d g 0 L ++ ring_along d' g 1 L) (rim_of 2 L) R.
Proof. intros HR HL HD HF Hv. apply fits_app in HF. destruct HF as [HF0 HF1].
  assert (HD0 : forall k, k < L -> D (bnd 0 k) = chi /\ D (ext 0 k) = ad /\ D (ext 1 k) = ad) by (intros k Hk; destruct (HD k Hk) as (B1 & B2 & B3 & B4 & B5); tauto).
  assert (HD1 : forall k, k < L -> D (bnd 1 k) = chi /\ D (ext 1 k) = ad /\ D (ext 2 k) = ad) by (intros k Hk; destruct (HD k Hk) as (B1 & B2 & B3 & B4 & B5); tauto).
  set (leaf := (mkT (map (ldim D) (rim_of 0 L)) v, rim_of 0 L)).
  destruct (ring_act d g 0 L HR ltac:(lia) HD0 HF0 [leaf] (mkT (map (ldim D) (rim_of 0 L)) v) HL (vec_leaf D _ v Hv) (leaf_vars _ 0 L)) as (R0 & E0 & I0).
  { intros l k Hl. unfold leaf in Hl. rewrite (inner_leaf D) in Hl. destruct Hl. }
  rewrite E0. cbn [bind].
  assert (HV : forall l, In l (nvars (ring_along d g 0 L ++ [leaf])) -> exists k, k < L /\ (l = bnd 0 k \/ l = ext 1 k \/ l = ext 0 k)).
  { intros l Hl. rewrite nvars_app, in_app_iff in Hl. destruct Hl as [Hl|Hl]; [exact (ring_vars (fun k => Ts (along c g k) (dvec d)) d 0 L l Hl)|]. unfold nvars, leaf in Hl. cbn [flat_map snd] in Hl. rewrite app_nil_r in Hl. unfold rim_of in Hl. rewrite fbonds_V in Hl.
    apply in_map_iff in Hl. destruct Hl as (k & <- & Hk). apply in_seq in Hk. exists k. split; [lia|tauto]. }
  destruct (ring_act d' g 1 L HR ltac:(lia) HD1 HF1 (ring_along d g 0 L ++ [leaf]) R0 HL I0) as (R1 & E1 & I1).
  { intros l Hl. apply in_map_iff in Hl. destruct Hl as (k & <- & Hk). apply in_seq in Hk. rewrite nvars_app, in_app_iff. left. unfold nvars. apply in_flat_map.
    exists (Ts (along c g k) (dvec d), open_legs d (bnd 0 k) (bnd 0 (S k mod L)) (ext 1 k) (ext 0 k)). split; [apply in_map_iff; exists k; split; [reflexivity|apply in_seq; lia]|]. destruct d; cbn; tauto. }
  { intros l k Hl. apply In_inner in Hl. destruct Hl as [Hl Hl']. apply HV in Hl. destruct Hl as (j & Hj & Hl). unfold rim_of in Hl'. rewrite fbonds_V in Hl'. destruct Hl as [->|[->| ->]].
    - unfold bnd, ext. lia.
    - exfalso. apply Hl'. apply in_map, in_seq. lia.
    - unfold bnd, ext. lia. }
  exists R1. split; [exact E1|]. revert I1. apply (isc_perm z o add mul SR D). etransitivity; [apply Permutation_app_comm|]. rewrite <- app_assoc. cbn [app]. symmetry. etransitivity; [apply Permutation_middle|]. reflexivity. Qed.
End AtD.

(** get_EH_spec *)
Hypothesis H1 : one_site st.
Lemma one_reduces : reduces st.
Proof. destruct H1 as (s & E). intros v k d _. now rewrite !E. Qed.
Lemma one_T v v' d : Ts v (dvec d) = Ts v' (dvec d).
Proof. destruct H1 as (s & E). assert (X : Ok (Ts v (dvec d)) = Ok (Ts v' (dvec d))).
  { rewrite <- (getT_of v _ (dvec_in d)), <- (getT_of v' _ (dvec_in d)). f_equal. unfold site_of. now rewrite !E. }
  now injection X. Qed.
Lemma one_ring c d g s L : ring_along c d g s L = ring Ts d c s L.
Proof. apply map_ext. intros k. f_equal. apply one_T. Qed.
Lemma EH_ok c d chi ad L : i_lX st = 1%Z -> i_lY st = 1%Z -> (forall v d, nth (leg_index d) (tdims (As v)) 0 = ad) -> 2 <= L -> exists m mv,
  (forall D, (forall k, k < L -> D (bnd 0 k) = chi /\ D (bnd 1 k) = chi /\ D (ext 0 k) = ad /\ D (ext 1 k) = ad /\ D (ext 2 k) = ad) ->
    fits D (ring Ts d c 0 L ++ ring Ts (dopp d) c 1 L) ->
    m = prod_dims (map (ldim D) (rim_of 0 L)) /\ applies D z o add mul mv (rim_of 0 L) (ring Ts d c 0 L ++ ring Ts (dopp d) c 1 L) (rim_of 2 L)) /\
  forall W (eigs : eigen_solver K W) n,
  (m <= n -> get_EH_spec z o add mul eigs st e chi n L c (dvec d) = Ok None) /\
  (n < m -> forall err, eigs false m mv n = Err err -> get_EH_spec z o add mul eigs st e chi n L c (dvec d) = Err err) /\
  (n < m -> forall vals vecs, eigs false m mv n = Ok (vals, vecs) -> n <> 0 -> length vals = n ->
    exists S, get_EH_spec z o add mul eigs st e chi n L c (dvec d) = Ok (Some S) /\ S = map (over (modulus (last vals (0, 0)%R))) (rev vals) /\
    (ascending vals -> modulus (last vals (0, 0)%R) <> 0%R -> exists top, leading top vals /\ sorted_values top vals S)).
Proof. intros HX HY HA HL.
  set (mv := matvec (repeat ad L) (fun V => V <- chain_mv z o add mul (transform_T z st e chi (dvec d)) (next_site st (dvec (code_grow d))) L (site_of c) V ;;
                                            chain_mv z o add mul (transform_T z st e chi (dvec (dopp d))) (next_site st (dvec (code_grow d))) L (site_of c) V)).
  exists (ad ^ L), mv. split.
  - intros D HD HF. assert (HR0 := rim_dims D 0 L ad (fun k Hk => proj1 (proj2 (proj2 (HD k Hk))))). assert (HR2 := rim_dims D 2 L ad (fun k Hk => proj2 (proj2 (proj2 (proj2 (HD k Hk)))))).
    split; [now rewrite HR0, prod_repeat|]. intros v Hv.
    rewrite <- (one_ring c d (code_grow d)), <- (one_ring c (dopp d) (code_grow d)) in HF. destruct (rings_act D chi ad HA c d (dopp d) (code_grow d) L v one_reduces HL HD HF Hv) as (R & E1 & E2).
    exists R. destruct (isc_fits z o add mul D _ _ _ E2) as [WR DR]. split.
    + unfold mv. apply (matvec_of (repeat ad L) _ (mkT (map (ldim D) (rim_of 0 L)) v) R); [exact Hv|exact HR0|exact E1|exact WR|now rewrite DR].
    + rewrite !one_ring in E2. exact E2.
  - intros W eigs n.
    assert (EE : get_EH_spec z o add mul eigs st e chi n L c (dvec d) = if ad ^ L <=? n then Ok None else (r <- eigs false (ad ^ L) mv n ;; S <- reversed_spec n r ;; Ok (Some S))).
    { unfold get_EH_spec, py_assert. replace (1 <? L) with true by (symmetry; apply Nat.ltb_lt; lia). rewrite HX, HY. cbn [Z.eqb Pos.eqb andb bind]. rewrite d_grow_ok. cbn [bind].
      assert (EM : forall l, mapM (fun i => a <- ipeps_site st (cadd c (cmul (Z.of_nat i) (dvec (code_grow d)))) ;; k <- dir_to_ind (dvec d) ;; Ok (size a k)) l = Ok (repeat ad (length l))).
      { induction l as [|i l IH]; [reflexivity|]. cbn [mapM length repeat]. rewrite IH. destruct (HS (cadd c (cmul (Z.of_nat i) (dvec (code_grow d))))) as (k & _ & _ & EA & _). rewrite EA. cbn [bind]. rewrite dir_to_ind_ok. cbn [bind]. unfold size. now rewrite HA. }
      rewrite EM, seq_length. cbn [bind]. rewrite prod_repeat. destruct (ad ^ L <=? n); [reflexivity|]. rewrite (proj1 (site_of_ok c)). cbn [bind].
      replace (cneg (dvec d)) with (dvec (dopp d)) by (destruct d; reflexivity). reflexivity. }
    rewrite EE. split; [intros H; apply Nat.leb_le in H; now rewrite H|]. split; intros H; replace (ad ^ L <=? n) with false by (symmetry; apply Nat.leb_gt; exact H).
    + intros err ->. reflexivity.
    + intros vals vecs -> H0 Hl. cbn [bind]. eexists. split; [exact (f_equal (fun r => S0 <- r ;; Ok (Some S0)) (reversed_ok vals vecs n H0 Hl))|]. split; [reflexivity|].
      intros HAs Hm. exists (modulus (last vals (0, 0)%R)). apply reversed_sorted; [|exact HAs|exact Hm]. destruct vals; [cbn in Hl; congruence|discriminate]. Qed.
End Generic.
End P.
