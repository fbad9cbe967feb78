(** The product of get_full_EH_spec_Ttensor. *)
From Coq Require Import Reals.
From Verif Require Import Base BaseLemmas Lattice Tensor TensorLemmas Net NetSpec NetProofs NetProofs2 NetProofs3 CornersSpec Corners CornersProofs RdmSpec CorrSpec Corr CorrProofs NetDot NetDot2 Transfer TransferSpec TransferProofs TransferProofs2 TransferProofs3 ChainProofs EhSpec EhProofs.
From Coq Require Import Ring Permutation.
Open Scope list_scope.
Open Scope nat_scope.
Open Scope res_scope.

Lemma fuse_bonds l ls : bonds (fuse l ls) = l :: ls.
Proof. revert l. induction ls as [|m r IH]; intros l; [reflexivity|]. cbn [fuse bonds app]. now rewrite IH. Qed.
Lemma side_bonds s L : 1 <= L -> bonds (side s L) = rev (map (ext s) (seq 0 L)).
Proof. intros H. unfold side. destruct (rev (map (ext s) (seq 0 L))) as [|l ls] eqn:E; [|apply fuse_bonds].
  apply (f_equal (@length nat)) in E. rewrite rev_length, map_length, seq_length in E. cbn in E. lia. Qed.
Lemma fuse_dim D ad l ls : (forall k, In k (l :: ls) -> D k = ad) -> ldim D (fuse l ls) = ad ^ S (length ls).
Proof. revert l. induction ls as [|m r IH]; intros l H; cbn [fuse ldim length Nat.pow].
  - rewrite (H l) by now left. lia.
  - rewrite (H l) by now left. rewrite IH by (intros k Hk; apply H; now right). reflexivity. Qed.
Lemma side_dim D ad s L : 1 <= L -> (forall k, k < L -> D (ext s k) = ad) -> ldim D (side s L) = ad ^ L.
Proof. intros H HD. unfold side. destruct (rev (map (ext s) (seq 0 L))) as [|l ls] eqn:E.
  - apply (f_equal (@length nat)) in E. rewrite rev_length, map_length, seq_length in E. cbn in E. lia.
  - assert (EL : S (length ls) = L) by (change (length (l :: ls) = L); rewrite <- E, rev_length, map_length; apply seq_length). rewrite <- EL. apply fuse_dim. rewrite <- E. intros k Hk. apply in_rev, in_map_iff in Hk.
    destruct Hk as (j & <- & Hj). apply in_seq in Hj. apply HD. lia. Qed.
Lemma in_side s L l : 1 <= L -> In l (bonds (side s L)) <-> exists k, k < L /\ l = ext s k.
Proof. intros H. rewrite side_bonds by exact H. rewrite <- in_rev, in_map_iff. split; [intros (k & <- & Hk); apply in_seq in Hk; exists k; split; [lia|reflexivity]|intros (k & Hk & ->); exists k; split; [reflexivity|apply in_seq; lia]]. Qed.
Lemma NoDup_side s s' L : s < 3 -> s' < 3 -> s <> s' -> 1 <= L -> NoDup (bonds (side s L) ++ bonds (side s' L)).
Proof. intros H1 H2 H3 HL. assert (X : forall u, NoDup (bonds (side u L))).
  { intros u. rewrite side_bonds by exact HL. apply NoDup_rev, FinFun.Injective_map_NoDup; [|apply seq_NoDup]. intros a b. unfold ext. lia. }
  apply BaseLemmas.NoDup_app_intro; [apply X|apply X|]. intros l Ha Hb. apply in_side in Ha, Hb; [|exact HL..]. destruct Ha as (k & _ & ->). destruct Hb as (j & _ & Hb). unfold ext in Hb. lia. Qed.

(** the values, sorted *)
Lemma sorted_full (sort_desc : list R -> list nat) vals top : is_sort_desc sort_desc -> vals <> [] -> leading top vals -> top <> 0%R ->
  exists S, (D' <- pick vals (sort_desc (map cabs vals)) ;; v0 <- at_index D' 0 ;; Ok (map (cscale (1 / cabs v0)%R) D')) = Ok S /\
  sorted_values top vals S /\ modulus (nth 0 S (0, 0)%R) = 1%R.
Proof. intros HSD HN Htop H0.
  assert (HAS : is_argsort (fun l => rev (sort_desc l))).
  { intros l. destruct (HSD l) as [P Q]. split; [now rewrite <- Permutation_rev|]. intros i j Hij. assert (LL := Permutation_length P). rewrite seq_length in LL. rewrite !rev_nth by lia. apply Q. lia. }
  destruct (sorted_spec_ok (W := unit) (fun l => rev (sort_desc l)) HAS vals [] (length vals) top eq_refl Htop H0 true false) as (S & X & E & HS' & _ & H1); [destruct vals; [congruence|discriminate]|discriminate|].
  exists S. split; [|split; [exact HS'|now apply H1]]. unfold sorted_spec in E. cbn [fst snd] in E. rewrite rev_involutive in E.
  destruct (HSD (map cabs vals)) as [P _]. rewrite map_length in P. assert (LL := Permutation_length P). rewrite seq_length in LL.
  rewrite (pick_ok (0, 0)%R) in E |- * by (intros i Hi; apply (Permutation_in _ P), in_seq in Hi; cbn in Hi; exact (proj2 Hi)). cbn [bind] in E |- *. unfold to_rows in E.
  destruct (at_index _ 0) as [v0|] eqn:E0; [|discriminate]. cbn [bind] in E |- *. rewrite !map_length, LL, Nat.eqb_refl in E. cbn [bind] in E. now injection E as -> _. Qed.

Section P.
Context {K : Type} (z o : K) (add mul : K -> K -> K).
Hypothesis SR : semi_ring_theory z o add mul eq.
Notation ten := (tensor K).
Notation network := (@network K).

(** the trace of a width of one site *)
Lemma trace_ok D (T : ten) (b o1 i1 : nat) : b <> o1 -> b <> i1 -> o1 <> i1 -> twf T -> tdims T = map (ldim D) (map V [b; b; o1; i1]) ->
  exists R, einsum z o add mul [(T, [0;0;1;2])] [1;2] = Ok R /\ is_contraction D z o add mul [(T, map V [b; b; o1; i1])] (map V [o1; i1]) R.
Proof. intros N1 N2 N3 W Hd. set (f := fun k => match k with 0 => b | 1 => o1 | 2 => i1 | S (S (S k)) => S (S (S k)) + b + o1 + i1 end).
  assert (Q := rep_leaf z o add mul SR (fun k => D (f k)) (fun _ => T) 0 (map V [0;0;1;2]) T eq_refl W Hd).
  destruct (rep_einsum z o add mul SR (fun k => D (f k)) (fun _ => T) [(T, [0;0;1;2])] [mkS (map V [0;0;1;2]) [] [(0, map V [0;0;1;2])]] [1;2] (mkS [V 1; V 2] [0] [(0, map V [0;0;1;2])])) as (R & E1 & E2); [apply Forall2_cons; [exact Q|apply Forall2_nil]|reflexivity|].
  exists R. split; [exact E1|].
  assert (E3 := rep_contraction z o add mul SR _ _ _ [(0, map V [0;0;1;2])] [V 1; V 2] R E2 eq_refl). cbn [map fst snd] in E3.
  assert (FI : forall a c, f a = f c -> a = c) by (intros [|[|[|a]]] [|[|[|c]]]; unfold f; lia).
  exact (isc_ren z o add mul SR D f FI _ _ _ E3). Qed.

Section Generic.
Variables (st : ipeps ten) (e : Ctm.envt ten) (As : coord -> ten) (Cs Ts : coord -> coord -> ten).
Hypothesis HS : sees st e As Cs Ts.
Variables (D : nat -> nat) (chi ad : nat).
Notation isc := (is_contraction D z o add mul).
Hypothesis HA : forall v d, nth (leg_index d) (tdims (As v)) 0 = ad.
Hypothesis HR : reduces st.
Variables (c : coord) (g : dir) (L : nat).
Hypothesis HL : 1 <= L.
Definition sigma_of (d : dir) : res ten :=
  if L =? 1 then (T <- transform_T z st e chi (dvec d) (site_of st c) ;; einsum z o add mul [(T, [0;0;1;2])] [1;2])
  else get_sigma z o add mul (transform_T z st e chi (dvec d)) (next_site st (dvec g)) L (site_of st c).
Lemma sigma_ok d s : s < 2 -> (forall k, k < L -> D (bnd s k) = chi /\ D (ext s k) = ad /\ D (ext (S s) k) = ad) -> fits D (ring_along Ts c d g s L) ->
  exists M, sigma_of d = Ok M /\ isc (ring_along Ts c d g s L) [side (S s) L; side s L] M.
Proof. intros Hs HD HF. unfold sigma_of. destruct (Nat.eqb_spec L 1) as [E|E].
  - subst L. unfold ring_along in HF |- *. cbn [seq map Nat.modulo Nat.divmod fst snd Nat.sub] in HF |- *. unfold fits in HF. rewrite Forall_forall in HF. destruct (HF _ (or_introl eq_refl)) as [W Hd]. cbn [fst snd] in W, Hd. destruct (HD 0 ltac:(lia)) as (B1 & B2 & B3).
    destruct (transform_ok z o add mul SR st e As Cs Ts HS D chi ad HA d (along c g 0) (bnd s 0) (bnd s 0) (ext (S s) 0) (ext s 0) W Hd B1 B1 B3 B2) as (T4 & E1 & E2).
    change (along c g 0) with c in E1. rewrite E1. cbn [bind]. destruct (isc_fits z o add mul D _ _ _ E2) as [W4 D4].
    destruct (trace_ok D T4 (bnd s 0) (ext (S s) 0) (ext s 0)) as (R & E3 & E4); [unfold bnd, ext; lia..|exact W4|exact D4|]. exists R. split; [exact E3|]. unfold side. cbn [seq map rev app fuse].
    assert (E5 := isc_sub z o add mul SR D _ [] _ _ _ _ E2 E4). cbn [app] in E5. apply E5.
    + intros l Hl. apply open_vars. exact Hl.
    + intros l Hl. apply In_inner in Hl. destruct Hl as [Hl Hn]. exfalso. apply Hn. apply open_vars in Hl. exact Hl.
  - destruct (ring_sigma z o add mul SR st e As Cs Ts HS D chi ad HA c d g s L HR Hs HD HF ltac:(lia)) as (R & E1 & E2).
    destruct (isc_view z o add mul D _ _ R [side (S s) L; side s L] E2) as (M & E3 & E4 & E5).
    { rewrite fbonds_V. cbn [flat_map]. rewrite app_nil_r. now rewrite !side_bonds by lia. }
    exists M. split; [|exact E5]. rewrite E1. f_equal. destruct (isc_fits z o add mul D _ _ _ E5) as [_ DM]. cbn [map] in DM. rewrite (side_dim D ad), (side_dim D ad) in DM by (first [lia|intros k Hk; destruct (HD k Hk) as (? & ? & ?); assumption]).
    destruct M as [dm tm]. cbn in *. now subst. Qed.
Lemma full_product d : (forall k, k < L -> D (bnd 0 k) = chi /\ D (bnd 1 k) = chi /\ D (ext 0 k) = ad /\ D (ext 1 k) = ad /\ D (ext 2 k) = ad) ->
  fits D (ring_along Ts c d g 1 L ++ ring_along Ts c (dopp d) g 0 L) ->
  exists M, (s0 <- sigma_of d ;; s1 <- sigma_of (dopp d) ;; tensordot z o add mul s0 s1 [1] [0]) = Ok M /\
  isc (ring_along Ts c d g 1 L ++ ring_along Ts c (dopp d) g 0 L) [side 2 L; side 0 L] M.
Proof. intros HD HF. apply fits_app in HF. destruct HF as [HF1 HF0].
  destruct (sigma_ok d 1 ltac:(lia)) as (M1 & E1 & I1); [intros k Hk; destruct (HD k Hk) as (B1 & B2 & B3 & B4 & B5); tauto|exact HF1|].
  destruct (sigma_ok (dopp d) 0 ltac:(lia)) as (M0 & E0 & I0); [intros k Hk; destruct (HD k Hk) as (B1 & B2 & B3 & B4 & B5); tauto|exact HF0|].
  rewrite E1, E0. cbn [bind].
  assert (V1 := ring_vars (fun k => Ts (along c g k) (dvec d)) d 1 L). assert (V0 := ring_vars (fun k => Ts (along c g k) (dvec (dopp d))) (dopp d) 0 L).
  assert (IN : forall (f : nat -> ten) d s l, In l (flat_map bonds [side (S s) L; side s L]) -> In l (nvars (map (fun k => (f k, open_legs d (bnd s k) (bnd s (S k mod L)) (ext (S s) k) (ext s k))) (seq 0 L)))).
  { intros f d' s l Hl. cbn [flat_map] in Hl. rewrite app_nil_r, in_app_iff, !in_side in Hl by exact HL. unfold nvars.
    assert (X : exists k, k < L /\ (l = ext (S s) k \/ l = ext s k)) by (destruct Hl as [(k & Hk & ->)|(k & Hk & ->)]; exists k; tauto). destruct X as (k & Hk & Hl').
    apply in_flat_map. exists (f k, open_legs d' (bnd s k) (bnd s (S k mod L)) (ext (S s) k) (ext s k)). split; [apply in_map_iff; exists k; split; [reflexivity|apply in_seq; lia]|]. destruct d'; cbn; destruct Hl' as [->| ->]; tauto. }
  destruct (isc_join z o add mul SR D _ [side 2 L; side 1 L] M1 _ [side 1 L; side 0 L] M0 [1] [0] I1 I0) as (M & E2 & E3).
  - repeat constructor; auto.
  - repeat constructor; auto.
  - reflexivity.
  - intros k [<-|[]]. cbn. lia.
  - intros k [<-|[]]. cbn. lia.
  - reflexivity.
  - replace (flat_map bonds ([side 2 L; side 1 L] ++ rest [side 1 L; side 0 L] [0])) with (bonds (side 2 L) ++ bonds (side 1 L) ++ bonds (side 0 L)) by (cbn; now rewrite app_nil_r).
    apply BaseLemmas.NoDup_app_intro; [apply (NoDup_app_inv _ (bonds (side 0 L))); apply NoDup_side; lia|apply NoDup_side; lia|]. intros l Ha Hb. apply in_side in Ha; [|exact HL]. destruct Ha as (k & _ & ->). apply in_app_iff in Hb. destruct Hb as [Hb|Hb]; apply in_side in Hb; try exact HL; destruct Hb as (j & _ & Hb); unfold ext in Hb; lia.
  - intros l Hl. exact (IN _ d 1 l Hl).
  - intros l Hl. exact (IN _ (dopp d) 0 l Hl).
  - intros l Hl Hl'. apply In_inner in Hl. destruct Hl as [Hl Hn]. apply V1 in Hl. apply V0 in Hl'. destruct Hl as (k & Hk & Hl). destruct Hl' as (j & Hj & Hl'). apply Hn. cbn [flat_map]. rewrite app_nil_r, in_app_iff, !in_side by exact HL.
    destruct Hl as [->|[->| ->]]; [exfalso; unfold bnd, ext in Hl'; lia|left; exists k; tauto|right; exists k; tauto].
  - intros l Hl Hl'. apply In_inner in Hl. destruct Hl as [Hl Hn]. apply V0 in Hl. apply V1 in Hl'. destruct Hl as (k & Hk & Hl). destruct Hl' as (j & Hj & Hl'). apply Hn. cbn [flat_map]. rewrite app_nil_r, in_app_iff, !in_side by exact HL.
    destruct Hl as [->|[->| ->]]; [exfalso; unfold bnd, ext in Hl'; lia|left; exists k; tauto|right; exists k; tauto].
  - exists M. split; [exact E2|exact E3]. Qed.

End Generic.

(** get_full_EH_spec *)
Lemma full_eq st e As Cs Ts c d chi L eig sort_desc : sees st e As Cs Ts ->
  get_full_EH_spec z o add mul st e chi eig sort_desc L c (dvec d) =
  (M <- (s0 <- sigma_of st e chi c (code_grow d) L d ;; s1 <- sigma_of st e chi c (code_grow d) L (dopp d) ;; tensordot z o add mul s0 s1 [1] [0]) ;;
   D <- eig M ;; D' <- pick D (sort_desc (map cabs D)) ;; v0 <- at_index D' 0 ;; Ok (map (cscale (1 / cabs v0)%R) D')).
Proof. intros HS. unfold get_full_EH_spec. rewrite d_grow_ok. cbn [bind]. rewrite (proj1 (site_of_ok st e As Cs Ts HS c)). cbn [bind].
  replace (cneg (dvec d)) with (dvec (dopp d)) by (destruct d; reflexivity). unfold sigma_of.
  destruct (L =? 1).
  - destruct (transform_T z st e chi (dvec d) (site_of st c)) as [T|]; [|reflexivity]. cbn [bind]. destruct (einsum _ _ _ _ [(T, _)] _) as [s0|]; [|reflexivity]. cbn [bind].
    destruct (transform_T z st e chi (dvec (dopp d)) (site_of st c)) as [T'|]; [|reflexivity]. cbn [bind]. destruct (einsum _ _ _ _ [(T', _)] _) as [s1|]; reflexivity.
  - destruct (get_sigma _ _ _ _ (transform_T z st e chi (dvec d)) _ _ _) as [s0|]; [|reflexivity]. cbn [bind]. destruct (get_sigma _ _ _ _ (transform_T z st e chi (dvec (dopp d))) _ _ _) as [s1|]; reflexivity. Qed.
Lemma full_ok st e As Cs Ts c d D chi ad L : sees st e As Cs Ts -> reduces st -> (forall v d, nth (leg_index d) (tdims (As v)) 0 = ad) -> 1 <= L ->
  (forall k, k < L -> D (bnd 0 k) = chi /\ D (bnd 1 k) = chi /\ D (ext 0 k) = ad /\ D (ext 1 k) = ad /\ D (ext 2 k) = ad) ->
  fits D (ring_along Ts c d (code_grow d) 1 L ++ ring_along Ts c (dopp d) (code_grow d) 0 L) ->
  exists M, is_contraction D z o add mul (ring_along Ts c d (code_grow d) 1 L ++ ring_along Ts c (dopp d) (code_grow d) 0 L) [side 2 L; side 0 L] M /\
  forall eig sort_desc, get_full_EH_spec z o add mul st e chi eig sort_desc L c (dvec d) = (D <- eig M ;; D' <- pick D (sort_desc (map cabs D)) ;; v0 <- at_index D' 0 ;; Ok (map (cscale (1 / cabs v0)%R) D')).
Proof. intros HS HR HA HL HD HF. destruct (full_product st e As Cs Ts HS D chi ad HA HR c (code_grow d) L HL d HD HF) as (M & E & HM). exists M. split; [exact HM|].
  intros eig sort_desc. rewrite (full_eq _ _ _ _ _ _ _ _ _ _ _ HS), E. reflexivity. Qed.
Lemma ring_grow (Ts : coord -> coord -> ten) c d s L : ring Ts d c s L = ring_along Ts c d (grow d) s L.
Proof. reflexivity. Qed.
Lemma full_EH_ok st e As Cs Ts c d D chi ad L : sees st e As Cs Ts -> reduces st -> (d = Right \/ d = Up \/ one_site st) -> (forall v d, nth (leg_index d) (tdims (As v)) 0 = ad) -> 1 <= L ->
  (forall k, k < L -> D (bnd 0 k) = chi /\ D (bnd 1 k) = chi /\ D (ext 0 k) = ad /\ D (ext 1 k) = ad /\ D (ext 2 k) = ad) ->
  fits D (ring Ts d c 1 L ++ ring Ts (dopp d) c 0 L) ->
  exists M, is_contraction D z o add mul (ring Ts d c 1 L ++ ring Ts (dopp d) c 0 L) [side 2 L; side 0 L] M /\
  forall eig sort_desc,
  (forall err, eig M = Err err -> get_full_EH_spec z o add mul st e chi eig sort_desc L c (dvec d) = Err err) /\
  (forall vals top, eig M = Ok vals -> is_sort_desc sort_desc -> leading top vals -> top <> 0%R ->
    exists S, get_full_EH_spec z o add mul st e chi eig sort_desc L c (dvec d) = Ok S /\ sorted_values top vals S /\ modulus (nth 0 S (0, 0)%R) = 1%R).
Proof. intros HS HR Hd HA HL HD HF.
  assert (EQ : forall d' s, (d' = d \/ d' = dopp d) -> ring Ts d' c s L = ring_along Ts c d' (code_grow d) s L).
  { intros d' s Hd'. destruct Hd as [->|[->|H1]]; [destruct Hd' as [->| ->]; reflexivity..|]. symmetry. exact (one_ring st e As Cs Ts HS H1 c d' (code_grow d) s L). }
  rewrite (EQ d 1), (EQ (dopp d) 0) in HF |- * by tauto. destruct (full_ok st e As Cs Ts c d D chi ad L HS HR HA HL HD HF) as (M & HM & HE). exists M. split; [exact HM|].
  intros eig sort_desc. rewrite HE. split; [intros err ->; reflexivity|]. intros vals top -> HSD Ht H0. cbn [bind]. apply sorted_full; [exact HSD| |exact Ht|exact H0]. destruct Ht as [(v & Hv & _) _]. destruct vals; [destruct Hv|discriminate]. Qed.
End P.
