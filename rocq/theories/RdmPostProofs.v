(** The symmetrized and normalized matrix is hermitian, of trace one and positive. *)
From Verif Require Import Base BaseLemmas Tensor TensorLemmas Net NetSpec NetProofs NetProofs2 NetProofs3 Corners CornersSpec CornersProofs NetSym Extend C4v C4vProofs CtmC4v CtmC4vSpec CtmC4vProofs2 CtmC4vProofs3 RdmProofs4 RdmPost RdmPostSpec.
From Coq Require Import Ring ArithRing Field_theory Field.
Open Scope list_scope.
Open Scope nat_scope.
Open Scope res_scope.

Lemma indices_flat ds : map (flat ds) (indices ds) = seq 0 (prod_dims ds).
Proof. apply nth_ext with 0 0.
  - now rewrite map_length, length_indices, seq_length.
  - rewrite map_length, length_indices. intros k Hk. rewrite seq_nth by exact Hk.
    rewrite (nth_map_lt _ _ _ _ []) by now rewrite length_indices.
    assert (HI : In (nth k (indices ds) []) (indices ds)) by (apply nth_In; now rewrite length_indices).
    assert (E := nth_indices ds (nth k (indices ds) []) (proj1 (In_indices _ _) HI)).
    apply (proj1 (NoDup_nth_error (indices ds)) (NoDup_indices ds)).
    + rewrite length_indices. apply flat_lt, In_indices, HI.
    + rewrite E. symmetry. apply nth_error_nth'. now rewrite length_indices. Qed.
Lemma in_range_app d1 i1 d2 i2 : in_range d1 i1 -> in_range d2 i2 -> in_range (d1 ++ d2) (i1 ++ i2).
Proof. intros H1 H2. induction H1; cbn; [exact H2|]. constructor; assumption. Qed.
Lemma prod_dims_app d1 d2 : prod_dims (d1 ++ d2) = prod_dims d1 * prod_dims d2.
Proof. induction d1 as [|x d1 IH]; [cbn [app]; change (prod_dims []) with 1; ring|]. cbn. change (fold_right Nat.mul 1 (d1 ++ d2)) with (prod_dims (d1 ++ d2)). rewrite IH. unfold prod_dims. ring. Qed.

Section P.
Context {K : Type} (z o half : K) (add mul sub : K -> K -> K) (opp : K -> K) (div : K -> K -> K) (inv : K -> K)
  (cj : K -> K) (is0 lt0 imag_big : K -> bool) (nonneg : K -> Prop).
Hypothesis L : order_laws z o half add mul sub opp div inv cj is0 lt0 nonneg.
Hypothesis imag_real : forall x, cj x = x -> imag_big x = false.
Notation ten := (tensor K).
Notation entry := (entry z).
Notation sum f l := (total z add f l).
Add Field KF : (ol_field _ _ _ _ _ _ _ _ _ _ _ _ _ L).
Notation cjadd := (ol_cj_add _ _ _ _ _ _ _ _ _ _ _ _ _ L).
Notation cjmul := (ol_cj_mul _ _ _ _ _ _ _ _ _ _ _ _ _ L).
Notation cjcj := (ol_cj_cj _ _ _ _ _ _ _ _ _ _ _ _ _ L).
Lemma SRO : semi_ring_theory z o add mul eq.
Proof. constructor; intros; ring. Qed.
(** the laws of the moves of CtmC4v with a trivial magnitude and norm *)
Lemma LO : scalar_laws z o half add mul sub opp div inv cj (fun _ => o) is0 (fun _ _ => o).
Proof. assert (cjo : cj o = o).
  { rewrite <- (cjcj o) at 2. transitivity (mul o (cj o)); [ring|]. rewrite <- (cjcj (mul o (cj o))). f_equal. rewrite cjmul, cjcj. ring. }
  constructor; try (intros; reflexivity); try (intros; exact cjo).
  - exact (ol_field _ _ _ _ _ _ _ _ _ _ _ _ _ L). - exact (ol_half _ _ _ _ _ _ _ _ _ _ _ _ _ L). - exact (ol_is0 _ _ _ _ _ _ _ _ _ _ _ _ _ L).
  - exact cjadd. - exact cjmul. - exact cjcj. Qed.
Let cjz := cjz _ _ _ _ _ _ _ _ _ _ _ _ _ LO.
Let cjo := cjo _ _ _ _ _ _ _ _ _ _ _ _ _ LO.
Let cjhalf := cjhalf _ _ _ _ _ _ _ _ _ _ _ _ _ LO.

(** ** sums *)
Lemma sum_ext {A} (f g : A -> K) l : (forall a, In a l -> f a = g a) -> sum f l = sum g l.
Proof. apply (sl_ext z add). Qed.
Lemma sum_add {A} (f g : A -> K) l : sum (fun a => add (f a) (g a)) l = add (sum f l) (sum g l).
Proof. apply (sl_add z o add mul SRO). Qed.
Lemma sum_mul {A} c (f : A -> K) l : mul c (sum f l) = sum (fun a => mul c (f a)) l.
Proof. unfold total. rewrite (sl_mul z o add mul SRO), map_map. reflexivity. Qed.
Lemma sum_cj {A} (f : A -> K) l : cj (sum f l) = sum (fun a => cj (f a)) l.
Proof. unfold total. rewrite (cj_sum z add cj cjz cjadd), map_map. reflexivity. Qed.
Lemma sum_swap {A B} (f : A -> B -> K) la lb : sum (fun a => sum (f a) lb) la = sum (fun b => sum (fun a => f a b) la) lb.
Proof. apply (sl_swap z o add mul SRO). Qed.
Lemma sum_map {A B} (f : B -> K) (g : A -> B) l : sum f (map g l) = sum (fun a => f (g a)) l.
Proof. unfold total. now rewrite map_map. Qed.
Lemma nn_z : nonneg z.
Proof. replace z with (mul z (cj z)) by ring. apply (ol_sq _ _ _ _ _ _ _ _ _ _ _ _ _ L). Qed.
Lemma nn_sum {A} (f : A -> K) l : (forall a, In a l -> nonneg (f a)) -> nonneg (sum f l).
Proof. induction l as [|a l IH]; intros H; cbn; [exact nn_z|]. apply (ol_add _ _ _ _ _ _ _ _ _ _ _ _ _ L); [apply H; now left|apply IH; intros b Hb; apply H; now right]. Qed.
Lemma nn_div x s : nonneg x -> nonneg s -> s <> z -> nonneg (div x s).
Proof. intros Hx Hs N. replace (div x s) with (mul x (mul s (mul (inv s) (cj (inv s))))).
  - apply (ol_mul _ _ _ _ _ _ _ _ _ _ _ _ _ L); [exact Hx|]. apply (ol_mul _ _ _ _ _ _ _ _ _ _ _ _ _ L); [exact Hs|apply (ol_sq _ _ _ _ _ _ _ _ _ _ _ _ _ L)].
  - assert (E : cj (inv s) = inv s).
    { assert (X : mul s (cj (inv s)) = o). { rewrite <- (ol_real _ _ _ _ _ _ _ _ _ _ _ _ _ L s Hs) at 1. rewrite <- cjmul. replace (mul s (inv s)) with o by (field; exact N). exact cjo. }
      transitivity (mul (inv s) (mul s (cj (inv s)))); [field; exact N|]. rewrite X. field. exact N. }
    rewrite E. field. exact N. Qed.

(** ** matrices *)
Notation mherm := (hermitian z cj).
Definition mtrace (n : nat) (M : ten) : K := sum (fun i => entry M [i; i]) (seq 0 n).
Definition mpos (n : nat) (M : ten) : Prop := forall v : nat -> K,
  nonneg (sum (fun i => sum (fun j => mul (cj (v i)) (mul (entry M [i; j]) (v j))) (seq 0 n)) (seq 0 n)).
Lemma trace_eq n M : shaped [n; n] M -> trace z add M = mtrace n M.
Proof. intros [_ E]. unfold trace, size, mtrace, total. rewrite E. cbn [nth]. now rewrite Nat.min_id. Qed.
Definition herm_part (M H : ten) (n : nat) : Prop := shaped [n; n] H /\
  forall i j, i < n -> j < n -> entry H [i; j] = mul half (add (entry M [i; j]) (cj (entry M [j; i]))).
Lemma herm_part_ok n M : shaped [n; n] M ->
  exists H, (p <- dagger z cj M ;; s <- tbin z add M p ;; Ok (tmap (mul half) s)) = Ok H /\ herm_part M H n /\ mherm n H.
Proof. intros HM. destruct (permute2 z (conj cj M) n) as (p & EP & [WP DP] & GP). { split; [apply twf_tmap, HM|exact (proj2 HM)]. }
  unfold dagger. rewrite EP. cbn [bind]. unfold tbin. rewrite (proj2 HM), DP, bdims_same. cbn [bind]. eexists. split; [reflexivity|].
  assert (X : herm_part M (tmap (mul half) (tbuild [n; n] (fun ix => add (tval z M (bcast [n; n] ix)) (tval z p (bcast [n; n] ix))))) n).
  { split; [split; [apply twf_tmap, twf_tbuild|reflexivity]|]. intros i j Hi Hj.
    rewrite (entry_tmap z) by ring. rewrite (entry_tbuild z) by (apply in_range2; auto). rewrite !bcast_same by (apply in_range2; auto).
    rewrite !entry_tval, GP, (entry_conj z cj cjz) by assumption. reflexivity. }
  split; [exact X|]. destruct X as [S X]. split; [exact S|]. intros i j Hi Hj. rewrite !X by assumption. rewrite cjmul, cjadd, cjhalf, cjcj. ring. Qed.
Lemma mtrace_herm n M : mherm n M -> cj (mtrace n M) = mtrace n M.
Proof. intros [_ H]. unfold mtrace. rewrite sum_cj. apply sum_ext. intros i Hi. apply in_seq in Hi. symmetry. apply H; lia. Qed.
Lemma re_real x : cj x = x -> re half add mul cj x = x.
Proof. intros E. unfold re. rewrite E. transitivity (mul (add half half) x); [ring|]. rewrite (ol_half _ _ _ _ _ _ _ _ _ _ _ _ _ L). ring. Qed.
Lemma cast_real f x : cj x = x -> cast_to_real half add mul cj imag_big f x = Ok x.
Proof. intros E. unfold cast_to_real. rewrite imag_real by exact E. cbn. now rewrite re_real. Qed.

(** ** U diag(D) U^+ *)
Lemma matmul n m l A B : shaped [n; m] A -> shaped [m; l] B -> exists C, tensordot z o add mul A B [1] [0] = Ok C /\ shaped [n; l] C /\
  forall i j, i < n -> j < l -> entry C [i; j] = sum (fun k => mul (entry A [i; k]) (entry B [k; j])) (seq 0 m).
Proof. intros [WA EA] [WB EB]. pose (D := fun k => match k with 0 => n | 1 => m | _ => l end).
  pose (net := [(A, [V 0; V 1]); (B, [V 1; V 2])]).
  assert (HF : fits D net). { repeat (apply Forall_cons; [cbn [fst snd]; split; assumption|]). apply Forall_nil. }
  assert (R0 := fits_leaf z o add mul SRO D net 0 HF ltac:(cbn; lia)). assert (R1 := fits_leaf z o add mul SRO D net 1 HF ltac:(cbn; lia)). cbn [nth map fst snd net] in R0, R1.
  assert (X : exists y, tensordot z o add mul A B [1] [0] = Ok y /\ is_contraction D z o add mul net [V 0; V 2] y).
  { eapply (one_rep z o add mul SRO D net [(0, [V 0; V 1]); (1, [V 1; V 2])] [V 0; V 2]); [eapply (rep_dot _ _ _ _ SRO); [exact R0|exact R1|calc_some]|check|reflexivity]. }
  destruct X as (C & E & W & Hd & HV). exists C. split; [exact E|]. split; [split; [exact W|exact Hd]|]. intros i j Hi Hj.
  assert (Y := HV (fun k => match k with 0 => i | 2 => j | _ => 0 end)). cbn [flat_map bonds app map lval] in Y.
  unfold NetSpec.entry at 1. rewrite Y by (intros k [<-|[<-|[]]]; assumption).
  change (inner net [V 0; V 2]) with [1]. cbn [sum_over D]. unfold total. apply (sl_ext z add). intros k _. unfold product. cbn. ring. Qed.
Lemma rebuild_ok n D U : length D = n -> shaped [n; n] U -> exists R, rebuild z o add mul cj false D U = Ok R /\ shaped [n; n] R /\
  forall i j, i < n -> j < n -> entry R [i; j] = sum (fun k => mul (entry U [i; k]) (mul (nth k D z) (cj (entry U [j; k])))) (seq 0 n).
Proof. intros HD HU. unfold rebuild. rewrite (tdiag_diag z).
  assert (HG := diag_shape z D). rewrite HD in HG.
  destruct (matmul n n n U (diag z D) HU HG) as (X & EX & HX & GX). rewrite EX. cbn [bind].
  destruct (permute2 z (conj cj U) n) as (p & EP & HP & GP). { split; [apply twf_tmap, HU|exact (proj2 HU)]. }
  unfold dagger. rewrite EP. cbn [bind]. destruct (matmul n n n X p HX HP) as (R & ER & HR & GR). rewrite ER. exists R. split; [reflexivity|]. split; [exact HR|].
  intros i j Hi Hj. rewrite GR by assumption. apply sum_ext. intros k Hk. apply in_seq in Hk. rewrite GX, GP by lia. rewrite (entry_conj z cj cjz).
  replace (sum (fun k0 => mul (entry U [i; k0]) (entry (diag z D) [k0; k])) (seq 0 n)) with (mul (entry U [i; k]) (nth k D z)); [ring|].
  transitivity (sum (fun k0 => mul (mul (entry U [i; k0]) (nth k0 D z)) (if k =? k0 then o else z)) (seq 0 n)).
  - symmetry. unfold total. rewrite (sum_delta z o add mul SRO (fun k0 => mul (entry U [i; k0]) (nth k0 D z)) n k) by lia. reflexivity.
  - apply sum_ext. intros k0 H0. apply in_seq in H0. rewrite (diag_entry z) by lia. rewrite (Nat.eqb_sym k0 k). destruct (k =? k0); ring. Qed.
Lemma spectral_pos n M D U : spectral z add mul cj n M D U -> Forall nonneg D -> mpos n M.
Proof. intros (HD & _ & _ & _ & HM) HN v.
  replace (sum _ (seq 0 n)) with (sum (fun k => mul (nth k D z) (mul (sum (fun i => mul (cj (v i)) (entry U [i; k])) (seq 0 n)) (cj (sum (fun i => mul (cj (v i)) (entry U [i; k])) (seq 0 n))))) (seq 0 n)).
  - apply nn_sum. intros k Hk. apply in_seq in Hk. apply (ol_mul _ _ _ _ _ _ _ _ _ _ _ _ _ L); [|apply (ol_sq _ _ _ _ _ _ _ _ _ _ _ _ _ L)].
    rewrite Forall_forall in HN. apply HN, nth_In. lia.
  - transitivity (sum (fun k => sum (fun i => sum (fun j => mul (cj (v i)) (mul (mul (entry U [i; k]) (mul (nth k D z) (cj (entry U [j; k])))) (v j))) (seq 0 n)) (seq 0 n)) (seq 0 n)).
    + apply sum_ext. intros k _. rewrite sum_cj.
      transitivity (sum (fun i => mul (mul (nth k D z) (sum (fun j => cj (mul (cj (v j)) (entry U [j; k]))) (seq 0 n))) (mul (cj (v i)) (entry U [i; k]))) (seq 0 n)).
      { rewrite <- sum_mul. ring. }
      apply sum_ext. intros i _.
      transitivity (mul (mul (nth k D z) (mul (cj (v i)) (entry U [i; k]))) (sum (fun j => cj (mul (cj (v j)) (entry U [j; k]))) (seq 0 n))); [ring|].
      rewrite sum_mul. apply sum_ext. intros j _. rewrite cjmul, cjcj. ring.
    + rewrite sum_swap. apply sum_ext. intros i Hi. rewrite sum_swap. apply sum_ext. intros j Hj. apply in_seq in Hi, Hj.
      rewrite (HM i j) by lia.
      transitivity (mul (mul (cj (v i)) (v j)) (sum (fun k => mul (entry U [i; k]) (mul (nth k D z) (cj (entry U [j; k])))) (seq 0 n))); [|ring].
      rewrite sum_mul. apply sum_ext. intros k _. ring. Qed.
Lemma spectral_herm n M D U : shaped [n; n] M -> spectral z add mul cj n M D U -> mherm n M.
Proof. intros S (HD & HR & _ & _ & HM). split; [exact S|]. intros i j Hi Hj. rewrite !HM by assumption. rewrite sum_cj. apply sum_ext. intros k Hk. apply in_seq in Hk.
  rewrite !cjmul, cjcj. rewrite Forall_forall in HR. rewrite (HR (nth k D z)) by (apply nth_In; lia). ring. Qed.

(** ** the matrix *)
Variable eigh : ten -> res (list K * ten).
Notation spdm f c s := (sym_pos_def_matrix z o half add mul div cj is0 imag_big lt0 eigh f c s).
Notation spdr c s := (sym_pos_def_rdm z o half add mul div cj is0 imag_big lt0 eigh c s).
Lemma clamp_props D : Forall (fun x => cj x = x) D -> Forall nonneg (map (clamp z lt0) D) /\ Forall (fun x => cj x = x) (map (clamp z lt0) D).
Proof. intros H. assert (X : Forall nonneg (map (clamp z lt0) D)).
  { apply Forall_map. eapply Forall_impl; [|exact H]. cbn. intros x Hx. unfold clamp. destruct (lt0 x) eqn:E; [exact nn_z|]. now apply (ol_lt0 _ _ _ _ _ _ _ _ _ _ _ _ _ L). }
  split; [exact X|]. eapply Forall_impl; [|exact X]. exact (ol_real _ _ _ _ _ _ _ _ _ _ _ _ _ L). Qed.
(** the matrix before its normalization *)
Definition prep (c s : bool) (rdm : ten) : res ten :=
  if s then
    DU <- eigh rdm ;;
    if length (fst DU) =? 0 then Err RuntimeError
    else if existsb lt0 (fst DU) then
      r <- rebuild z o add mul cj c (map (clamp z lt0) (fst DU)) (snd DU) ;;
      if dims_eqb (tdims r) (tdims rdm) then Ok r else Err RuntimeError
    else Ok rdm
  else Ok rdm.
Lemma prep_ok c s n H G : good_eigh z add mul cj eigh -> mherm n H -> prep c s H = Ok G ->
  mherm n G /\ (s = false -> G = H) /\ (s = true -> mpos n G /\ exists D U, eigh H = Ok (D, U) /\ spectral z add mul cj n H D U /\ spectral z add mul cj n G (map (clamp z lt0) D) U).
Proof. intros HE HHm EG. unfold prep in EG.
  destruct s; [|injection EG as <-; split; [exact HHm|split; [reflexivity|discriminate]]].
    apply bind_ok in EG. destruct EG as ([D U] & EE & EG). cbn [fst snd] in EG. assert (SP := HE n H D U HHm EE). assert (SP' := SP).
    destruct SP' as (HD & HR & WU & DU & _). destruct (clamp_props D HR) as [CN CR].
    destruct (length D =? 0); [discriminate|]. destruct (existsb lt0 D) eqn:EX.
    - apply bind_ok in EG. destruct EG as (r & ER & EG). destruct c; [discriminate ER|].
      destruct (rebuild_ok n (map (clamp z lt0) D) U) as (r' & ER' & SR & GR); [now rewrite map_length|split; assumption|]. rewrite ER in ER'. injection ER' as <-.
      destruct (dims_eqb (tdims r) (tdims H)); [|discriminate]. injection EG as <-.
      assert (SG : spectral z add mul cj n r (map (clamp z lt0) D) U) by (split; [now rewrite map_length|split; [exact CR|split; [exact WU|split; [exact DU|exact GR]]]]).
      split; [exact (spectral_herm n r _ U SR SG)|]. split; [discriminate|]. intros _. split; [exact (spectral_pos n r _ U SG CN)|]. exists D, U. auto.
    - injection EG as <-. split; [exact HHm|]. split; [discriminate|]. intros _.
      assert (EC : map (clamp z lt0) D = D). { rewrite <- (map_id D) at 2. apply map_ext_in. intros x Hx. unfold clamp. destruct (lt0 x) eqn:E0; [|reflexivity].
        exfalso. assert (true = false); [|discriminate]. rewrite <- EX. symmetry. apply existsb_exists. now exists x. }
      split; [apply (spectral_pos n H D U SP); rewrite <- EC; exact CN|]. exists D, U. rewrite EC. auto. Qed.
Definition normalized (f : bool) (G : ten) : res ten := norm <- cast_to_real half add mul cj imag_big f (trace z add G) ;; tdiv div is0 G norm.
Lemma spdm_eq f c s n M : shaped [n; n] M -> exists H, herm_part M H n /\ mherm n H /\ spdm f c s M = (G <- prep c s H ;; normalized f G).
Proof. intros HM. destruct (herm_part_ok n M HM) as (H & E1 & HP & HHm). exists H. split; [exact HP|]. split; [exact HHm|].
  unfold sym_pos_def_matrix. destruct (dagger z cj M) as [p|]; cbn [bind] in *; [|discriminate]. destruct (tbin z add M p) as [s0|]; cbn [bind] in *; [|discriminate].
  injection E1 as ->. reflexivity. Qed.
Lemma normalized_eq f n G : mherm n G -> normalized f G = (if is0 (mtrace n G) then Err ZeroDivisionError else Ok (tmap (fun x => div x (mtrace n G)) G)).
Proof. intros HG. unfold normalized. rewrite (trace_eq n G (proj1 HG)), (cast_real f _ (mtrace_herm n G HG)). reflexivity. Qed.
Lemma is0_false' x : is0 x = false -> x <> z.
Proof. intros H E. apply (ol_is0 _ _ _ _ _ _ _ _ _ _ _ _ _ L) in E. congruence. Qed.
Lemma spdm_inv f c s n M R : good_eigh z add mul cj eigh -> shaped [n; n] M -> spdm f c s M = Ok R ->
  exists H G, herm_part M H n /\ mherm n H /\ mherm n G /\ mtrace n G <> z /\ R = tmap (fun x => div x (mtrace n G)) G /\
   (s = false -> G = H) /\
   (s = true -> mpos n G /\ exists D U, eigh H = Ok (D, U) /\ spectral z add mul cj n H D U /\ spectral z add mul cj n G (map (clamp z lt0) D) U).
Proof. intros HE HM HH. destruct (spdm_eq f c s n M HM) as (H & HP & HHm & EQ). rewrite EQ in HH. apply bind_ok in HH. destruct HH as (G & EG & HH).
  destruct (prep_ok c s n H G HE HHm EG) as (HG & X1 & X2). rewrite (normalized_eq f n G HG) in HH. destruct (is0 (mtrace n G)) eqn:E0; [discriminate|]. injection HH as <-.
  exists H, G. split; [exact HP|]. split; [exact HHm|]. split; [exact HG|]. split; [now apply is0_false'|]. auto. Qed.
(** the check of the imaginary part never raises *)
Lemma spdm_fail c s n M : good_eigh z add mul cj eigh -> shaped [n; n] M -> spdm true c s M = spdm false c s M.
Proof. intros HE HM. destruct (spdm_eq true c s n M HM) as (H & HP & HHm & ->). destruct (spdm_eq false c s n M HM) as (H' & HP' & HHm' & ->).
  assert (H' = H). { apply (entry_ext z _ _ [n; n]); [apply HP'|apply HP|]. intros ix R. apply range2_inv in R. destruct R as (i & j & -> & Hi & Hj).
    rewrite (proj2 HP i j), (proj2 HP' i j) by assumption. reflexivity. }
  subst H'. destruct (prep c s H) as [G|] eqn:EG; cbn [bind]; [|reflexivity]. destruct (prep_ok c s n H G HE HHm EG) as (HG & _).
  now rewrite !(normalized_eq _ n G HG). Qed.

Lemma scaled_trace n G s : s <> z -> mtrace n (tmap (fun x => div x s) G) = div (mtrace n G) s.
Proof. intros N. unfold mtrace. transitivity (sum (fun i => mul (inv s) (entry G [i; i])) (seq 0 n)).
  - apply sum_ext. intros i _. rewrite (entry_tmap z) by (field; exact N). field. exact N.
  - rewrite <- sum_mul. field. exact N. Qed.
Lemma scaled_pos n G s : s <> z -> nonneg s -> mpos n G -> mpos n (tmap (fun x => div x s) G).
Proof. intros N Hs HP v. replace (sum _ (seq 0 n)) with (div (sum (fun i => sum (fun j => mul (cj (v i)) (mul (entry G [i; j]) (v j))) (seq 0 n)) (seq 0 n)) s).
  - apply nn_div; [apply HP|exact Hs|exact N].
  - transitivity (mul (inv s) (sum (fun i => sum (fun j => mul (cj (v i)) (mul (entry G [i; j]) (v j))) (seq 0 n)) (seq 0 n))); [field; exact N|].
    rewrite sum_mul. apply sum_ext. intros i _. rewrite sum_mul. apply sum_ext. intros j _. rewrite (entry_tmap z) by (field; exact N). field. exact N. Qed.
Lemma pos_diag n G i : mpos n G -> i < n -> nonneg (entry G [i; i]).
Proof. intros HP Hi. assert (H := HP (fun k => if i =? k then o else z)).
  replace (entry G [i; i]) with (sum (fun a => sum (fun b => mul (cj (if i =? a then o else z)) (mul (entry G [a; b]) (if i =? b then o else z))) (seq 0 n)) (seq 0 n)); [exact H|].
  transitivity (sum (fun a => mul (entry G [a; i]) (if i =? a then o else z)) (seq 0 n)).
  - apply sum_ext. intros a _. transitivity (mul (if i =? a then o else z) (sum (fun b => mul (entry G [a; b]) (if i =? b then o else z)) (seq 0 n))).
    + rewrite sum_mul. apply sum_ext. intros b _. destruct (i =? a); [rewrite cjo|rewrite cjz]; ring.
    + unfold total. rewrite (sum_delta z o add mul SRO (fun b => entry G [a; b]) n i Hi). ring.
  - unfold total. now rewrite (sum_delta z o add mul SRO (fun b => entry G [b; i]) n i Hi). Qed.
Lemma pos_trace n G : mpos n G -> nonneg (mtrace n G).
Proof. intros HP. apply nn_sum. intros i Hi. apply in_seq in Hi. apply (pos_diag n); [exact HP|lia]. Qed.
Lemma spdm_result f c s n M R : good_eigh z add mul cj eigh -> shaped [n; n] M -> spdm f c s M = Ok R ->
  mherm n R /\ mtrace n R = o /\ (s = true -> mpos n R).
Proof. intros HE HM HH. destruct (spdm_inv f c s n M R HE HM HH) as (H & G & _ & _ & HG & N & -> & _ & HP).
  split; [apply (tdiv_herm z o half add mul sub opp div inv cj (fun _ => o) is0 (fun _ _ => o) LO); [exact N|exact (mtrace_herm n G HG)|exact HG]|].
  split; [rewrite scaled_trace by exact N; field; exact N|]. intros Hs. destruct (HP Hs) as [PG _]. apply scaled_pos; [exact N|now apply pos_trace|exact PG]. Qed.
Lemma spdm_plain f c n M : shaped [n; n] M -> exists H, herm_part M H n /\ mherm n H /\
  spdm f c false M = (if is0 (mtrace n H) then Err ZeroDivisionError else Ok (tmap (fun x => div x (mtrace n H)) H)).
Proof. intros HM. destruct (spdm_eq f c false n M HM) as (H & HP & HHm & EQ). exists H. split; [exact HP|]. split; [exact HHm|].
  rewrite EQ. cbn [prep bind]. now apply normalized_eq. Qed.
Lemma part_trace n M H : herm_part M H n -> mtrace n H = re half add mul cj (mtrace n M).
Proof. intros [_ HP]. unfold mtrace, re. rewrite sum_cj, <- sum_add, sum_mul. apply sum_ext. intros i Hi. apply in_seq in Hi. apply HP; lia. Qed.

(** ** tensors and matrices *)
Lemma flat2 (ds : list nat) (R : ten) ix iy : square ds R -> in_range ds ix -> in_range ds iy ->
  entry (mkT [prod_dims ds; prod_dims ds] (tdata R)) [flat ds ix; flat ds iy] = entry R (ix ++ iy).
Proof. intros [W E] Hx Hy. unfold NetSpec.entry. rewrite !tget_flat.
  - cbn [tdims tdata]. rewrite E, flat_app by (assert (X := in_range_length _ _ Hx); lia).
    replace (flat [prod_dims ds; prod_dims ds] [flat ds ix; flat ds iy]) with (flat ds ix * prod_dims ds + flat ds iy); [reflexivity|]. unfold flat at 3. cbn [fst snd prod_dims fold_right]. fold (prod_dims ds). ring.
  - exact W.
  - rewrite E. now apply in_range_app.
  - unfold twf in *. cbn [tdims tdata]. rewrite W, E, prod_dims_app. cbn. lia.
  - cbn [tdims]. apply in_range2. split; now apply flat_lt. Qed.
Definition unfold2 (ds : list nat) (R : ten) : ten := mkT [prod_dims ds; prod_dims ds] (tdata R).
Lemma square_matrix ds R : square ds R -> shaped [prod_dims ds; prod_dims ds] (unfold2 ds R).
Proof. intros [W E]. split; [|reflexivity]. unfold twf in *. cbn [tdims tdata unfold2]. rewrite W, E, prod_dims_app. cbn. lia. Qed.
Lemma op_herm ds R : square ds R -> mherm (prod_dims ds) (unfold2 ds R) <-> hermitian_op z cj ds R.
Proof. intros S. split.
  - intros [_ H]. split; [exact S|]. intros ix iy Hx Hy. rewrite <- !(flat2 ds R) by assumption. apply H; now apply flat_lt.
  - intros [_ H]. split; [now apply square_matrix|]. intros i j Hi Hj.
    assert (Xi : In i (map (flat ds) (indices ds))) by (rewrite indices_flat; apply in_seq; lia). apply in_map_iff in Xi. destruct Xi as (ix & <- & Hx). apply In_indices in Hx.
    assert (Xj : In j (map (flat ds) (indices ds))) by (rewrite indices_flat; apply in_seq; lia). apply in_map_iff in Xj. destruct Xj as (iy & <- & Hy). apply In_indices in Hy.
    unfold unfold2. rewrite !(flat2 ds R) by assumption. now apply H. Qed.
Lemma op_sum ds (f : nat -> K) : sum f (seq 0 (prod_dims ds)) = sum (fun ix => f (flat ds ix)) (indices ds).
Proof. rewrite <- indices_flat. apply sum_map. Qed.
Lemma op_trace ds R : square ds R -> mtrace (prod_dims ds) (unfold2 ds R) = trace_op z add ds R.
Proof. intros S. unfold mtrace, trace_op. rewrite op_sum. apply sum_ext. intros ix Hx. apply In_indices in Hx. now apply flat2. Qed.
Lemma op_pos ds R : square ds R -> mpos (prod_dims ds) (unfold2 ds R) -> positive_op z add mul cj nonneg ds R.
Proof. intros S HP v. assert (H := HP (fun k => v (nth k (indices ds) []))). rewrite op_sum in H.
  replace (sum _ (indices ds)) with (sum (fun ix => sum (fun j => mul (cj (v (nth (flat ds ix) (indices ds) []))) (mul (entry (unfold2 ds R) [flat ds ix; j]) (v (nth j (indices ds) [])))) (seq 0 (prod_dims ds))) (indices ds)); [exact H|].
  assert (N : forall ix, in_range ds ix -> nth (flat ds ix) (indices ds) [] = ix) by (intros ix Hx; apply nth_error_nth, nth_indices, Hx).
  apply sum_ext. intros ix Hx. apply In_indices in Hx. rewrite op_sum. apply sum_ext. intros iy Hy. apply In_indices in Hy.
  rewrite !N by assumption. unfold unfold2. now rewrite (flat2 ds R). Qed.

Lemma as_matrix_eq post ds R : square ds R -> ds <> [] -> prod_dims ds <> 0 ->
  as_matrix post R = (m <- post (unfold2 ds R) ;; view m (ds ++ ds)).
Proof. intros [W E] N1 N0. unfold as_matrix. rewrite E, app_length.
  assert (L0 : length ds <> 0) by (destruct ds; [congruence|discriminate]).
  replace (length ds + length ds) with (length ds * 2) by lia. rewrite Nat.mod_mul, Nat.div_mul by discriminate. cbn [Nat.eqb negb].
  destruct (Nat.eqb_spec (length ds * 2) 0) as [X|_]; [lia|]. rewrite firstn_app, Nat.sub_diag, firstn_all, app_nil_r.
  destruct (Nat.eqb_spec (prod_dims ds) 0) as [X|_]; [congruence|].
  assert (EL : length (tdata R) = prod_dims ds * prod_dims ds) by (unfold twf in W; rewrite W, E; apply prod_dims_app).
  rewrite EL, Nat.div_mul by exact N0. unfold view at 1, treshape. rewrite EL. cbn [prod_dims fold_right]. rewrite Nat.mul_1_r, Nat.eqb_refl. reflexivity. Qed.
Lemma view_back ds M : shaped [prod_dims ds; prod_dims ds] M -> exists R, view M (ds ++ ds) = Ok R /\ square ds R /\ unfold2 ds R = M.
Proof. intros [W E]. unfold view, treshape. unfold twf in W. rewrite W, E, prod_dims_app. cbn [prod_dims fold_right]. rewrite Nat.mul_1_r, Nat.eqb_refl.
  exists (mkT (ds ++ ds) (tdata M)). split; [reflexivity|]. split.
  - split; [|reflexivity]. unfold twf. cbn [tdata tdims]. rewrite W, E, prod_dims_app. cbn. lia.
  - unfold unfold2. cbn [tdata]. destruct M as [dm l]. cbn in *. now subst. Qed.
Lemma zero_dims (post : ten -> res ten) ds (R R' : ten) : square ds R -> ds <> [] -> prod_dims ds = 0 -> as_matrix post R <> Ok R'.
Proof. intros [W E] N1 N0. unfold as_matrix. rewrite E, app_length.
  replace (length ds + length ds) with (length ds * 2) by lia. rewrite Nat.mod_mul, Nat.div_mul by discriminate. cbn [Nat.eqb negb].
  destruct (_ =? 0); [discriminate|]. rewrite firstn_app, Nat.sub_diag, firstn_all, app_nil_r, N0. discriminate. Qed.

Lemma rdm_inv c s ds R R' : square ds R -> spdr c s R = Ok R' -> ds <> [] -> exists M, spdm false c s (unfold2 ds R) = Ok M /\ (shaped [prod_dims ds; prod_dims ds] M -> square ds R' /\ unfold2 ds R' = M).
Proof. intros S H N1. unfold sym_pos_def_rdm in H. destruct (Nat.eq_dec (prod_dims ds) 0) as [E0|N0].
  { exfalso. exact (zero_dims _ ds R R' S N1 E0 H). }
  rewrite (as_matrix_eq _ ds R S N1 N0) in H. apply bind_ok in H. destruct H as (M & EM & H). exists M. split; [exact EM|]. intros SM.
  destruct (view_back ds M SM) as (R2 & E2 & S2 & U2). rewrite E2 in H. injection H as <-. auto. Qed.
Lemma rdm_nonempty c s R R' : spdr c s R = Ok R' -> tdims R <> [].
Proof. intros H E. unfold sym_pos_def_rdm, as_matrix in H. rewrite E in H. discriminate. Qed.

Theorem rdm_result c s ds R R' : good_eigh z add mul cj eigh -> square ds R -> spdr c s R = Ok R' ->
  hermitian_op z cj ds R' /\ trace_op z add ds R' = o /\ (s = true -> positive_op z add mul cj nonneg ds R').
Proof. intros HE S H. assert (N1 : ds <> []) by (intros ->; apply (rdm_nonempty _ _ _ _ H); exact (proj2 S)).
  destruct (rdm_inv c s ds R R' S H N1) as (M & EM & HM). destruct (spdm_result _ _ _ _ _ _ HE (square_matrix ds R S) EM) as (A & B & C).
  destruct (HM (proj1 A)) as (S' & <-). split; [now apply (op_herm ds R' S')|]. split; [rewrite <- B; symmetry; now apply op_trace|]. intros Hs. apply op_pos; [exact S'|now apply C]. Qed.

(** ** the value *)
Lemma rdm_value c ds R : square ds R -> ds <> [] -> prod_dims ds <> 0 ->
  if is0 (re half add mul cj (trace_op z add ds R)) then spdr c false R = Err ZeroDivisionError
  else exists R', spdr c false R = Ok R' /\ square ds R' /\ forall ix iy, in_range ds ix -> in_range ds iy ->
    entry R' (ix ++ iy) = div (mul half (add (entry R (ix ++ iy)) (cj (entry R (iy ++ ix))))) (re half add mul cj (trace_op z add ds R)).
Proof. intros S N1 N0. unfold sym_pos_def_rdm. rewrite (as_matrix_eq _ ds R S N1 N0).
  destruct (spdm_plain false c (prod_dims ds) (unfold2 ds R) (square_matrix ds R S)) as (H & HP & HH & ->).
  rewrite (part_trace _ _ _ HP), (op_trace ds R S). set (t := re half add mul cj (trace_op z add ds R)).
  destruct (is0 t) eqn:E0; [reflexivity|]. apply is0_false' in E0. cbn [bind].
  destruct (view_back ds (tmap (fun x => div x t) H)) as (R' & -> & S' & U'); [apply tdiv_shape; exact (proj1 HH)|]. exists R'. split; [reflexivity|]. split; [exact S'|].
  intros ix iy Hx Hy. rewrite <- !(flat2 ds R) by assumption. rewrite <- (flat2 ds R') by assumption. change (mkT [prod_dims ds; prod_dims ds] (tdata R')) with (unfold2 ds R').
  rewrite U', (entry_tmap z) by (field; exact E0). f_equal. apply HP; now apply flat_lt. Qed.
Lemma op_ext ds R R' : square ds R -> square ds R' -> (forall ix iy, in_range ds ix -> in_range ds iy -> entry R (ix ++ iy) = entry R' (ix ++ iy)) -> R = R'.
Proof. intros S S' H. apply (entry_ext z _ _ (ds ++ ds)); [exact S|exact S'|]. intros ix Hx.
  apply Forall2_app_inv_l in Hx. destruct Hx as (i1 & i2 & H1 & H2 & ->). apply H; assumption. Qed.
Lemma rdm_unchanged c ds R : hermitian_op z cj ds R -> trace_op z add ds R = o -> ds <> [] -> prod_dims ds <> 0 -> spdr c false R = Ok R.
Proof. intros [S H] HT N1 N0. assert (X := rdm_value c ds R S N1 N0). rewrite HT, (re_real o cjo) in X.
  destruct (is0 o) eqn:E0. { apply (ol_is0 _ _ _ _ _ _ _ _ _ _ _ _ _ L) in E0. exfalso. exact (F_1_neq_0 (ol_field _ _ _ _ _ _ _ _ _ _ _ _ _ L) E0). }
  destruct X as (R' & E & S' & HV). rewrite E. f_equal. apply (op_ext ds R' R S' S). intros ix iy Hx Hy. rewrite HV by assumption.
  rewrite <- H by assumption. transitivity (mul (add half half) (entry R (ix ++ iy))); [field; exact (F_1_neq_0 (ol_field _ _ _ _ _ _ _ _ _ _ _ _ _ L))|].
  rewrite (ol_half _ _ _ _ _ _ _ _ _ _ _ _ _ L). ring. Qed.
(** a positive matrix of trace one is returned unchanged with positivity enforced *)
Lemma rdm_unchanged_pos c ds R D U : hermitian_op z cj ds R -> trace_op z add ds R = o -> ds <> [] -> prod_dims ds <> 0 ->
  eigh (unfold2 ds R) = Ok (D, U) -> length D = prod_dims ds -> Forall (fun x => lt0 x = false) D -> spdr c true R = Ok R.
Proof. intros HH HT N1 N0 EE HD HL. assert (S := proj1 HH). rewrite <- (rdm_unchanged c ds R HH HT N1 N0). unfold sym_pos_def_rdm. rewrite !(as_matrix_eq _ ds R S N1 N0).
  f_equal. destruct (spdm_eq false c true (prod_dims ds) (unfold2 ds R) (square_matrix ds R S)) as (H & HP & HHm & ->).
  destruct (spdm_eq false c false (prod_dims ds) (unfold2 ds R) (square_matrix ds R S)) as (H' & HP' & HHm' & ->).
  assert (E1 : forall X, herm_part (unfold2 ds R) X (prod_dims ds) -> X = unfold2 ds R).
  { intros X [SX GX]. apply (entry_ext z _ _ [prod_dims ds; prod_dims ds]); [exact SX|now apply square_matrix|]. intros ix Rg. apply range2_inv in Rg. destruct Rg as (i & j & -> & Hi & Hj).
    rewrite GX by assumption. apply (op_herm ds R S) in HH. rewrite <- (proj2 HH i j Hi Hj).
    transitivity (mul (add half half) (entry (unfold2 ds R) [i; j])); [ring|]. rewrite (ol_half _ _ _ _ _ _ _ _ _ _ _ _ _ L). ring. }
  rewrite (E1 H HP), (E1 H' HP'). f_equal. unfold prep. rewrite EE. cbn [bind fst snd]. destruct (Nat.eqb_spec (length D) 0) as [X|_]; [congruence|].
  replace (existsb lt0 D) with false; [reflexivity|]. symmetry. apply not_true_is_false. intros X. apply existsb_exists in X. destruct X as (x & Hx & Hl).
  rewrite Forall_forall in HL. rewrite (HL x Hx) in Hl. discriminate. Qed.
(** with positivity enforced: the positive part of the hermitian part, divided by its trace *)
Lemma rdm_positive_part c ds R R' : good_eigh z add mul cj eigh -> square ds R -> spdr c true R = Ok R' ->
  exists H D U t, herm_part (unfold2 ds R) H (prod_dims ds) /\ eigh H = Ok (D, U) /\ t <> z /\ t = sum (fun i => sum (fun k => mul (entry U [i; k]) (mul (clamp z lt0 (nth k D z)) (cj (entry U [i; k])))) (seq 0 (prod_dims ds))) (seq 0 (prod_dims ds)) /\
  forall ix iy, in_range ds ix -> in_range ds iy ->
    entry R' (ix ++ iy) = div (sum (fun k => mul (entry U [flat ds ix; k]) (mul (clamp z lt0 (nth k D z)) (cj (entry U [flat ds iy; k])))) (seq 0 (prod_dims ds))) t.
Proof. intros HE S H0. assert (N1 : ds <> []) by (intros ->; apply (rdm_nonempty _ _ _ _ H0); exact (proj2 S)).
  destruct (rdm_inv c true ds R R' S H0 N1) as (M & EM & HM).
  destruct (spdm_inv _ _ _ _ _ _ HE (square_matrix ds R S) EM) as (H & G & HP & HH & HG & N & E & _ & X). destruct (X eq_refl) as (_ & D & U & EE & (LD & _) & (_ & _ & _ & _ & GG)).
  assert (SM : shaped [prod_dims ds; prod_dims ds] M) by (rewrite E; apply tdiv_shape; exact (proj1 HG)). destruct (HM SM) as (S' & U').
  assert (CL : forall k, k < prod_dims ds -> nth k (map (clamp z lt0) D) z = clamp z lt0 (nth k D z)) by (intros k Hk; rewrite (nth_map_lt _ _ _ _ z) by lia; reflexivity).
  exists H, D, U, (mtrace (prod_dims ds) G). split; [exact HP|]. split; [exact EE|]. split; [exact N|]. split.
  - unfold mtrace. apply sum_ext. intros i Hi. apply in_seq in Hi. rewrite GG by lia. apply sum_ext. intros k Hk. apply in_seq in Hk. rewrite CL by lia. reflexivity.
  - intros ix iy Hx Hy. rewrite <- (flat2 ds R') by assumption. change (mkT [prod_dims ds; prod_dims ds] (tdata R')) with (unfold2 ds R'). rewrite U', E, (entry_tmap z) by (field; exact N).
    rewrite GG by now apply flat_lt. f_equal. apply sum_ext. intros k Hk. apply in_seq in Hk. rewrite CL by lia. reflexivity. Qed.

(** ** expectation values *)
Lemma expectation_real ds R O : hermitian_op z cj ds R -> hermitian_op z cj ds O ->
  cj (expectation z add mul ds R O) = expectation z add mul ds R O /\ cj (expectation_t z add mul ds R O) = expectation_t z add mul ds R O.
Proof. intros [_ HR] [_ HO]. split.
  - unfold expectation. rewrite sum_cj. rewrite sum_swap. apply sum_ext. intros ix Hx. rewrite sum_cj. apply sum_ext. intros iy Hy. apply In_indices in Hx, Hy.
    rewrite cjmul, <- (HR iy ix), <- (HO ix iy) by assumption. reflexivity.
  - unfold expectation_t. rewrite sum_cj. rewrite (sum_swap (fun ix iy => mul (entry R (ix ++ iy)) (entry O (ix ++ iy)))). apply sum_ext. intros ix Hx. rewrite sum_cj. apply sum_ext. intros iy Hy. apply In_indices in Hx, Hy.
    rewrite cjmul, <- (HR iy ix), <- (HO iy ix) by assumption. reflexivity. Qed.
End P.
