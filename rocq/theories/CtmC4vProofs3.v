(** A move of the C4v algorithm. *)
From Verif Require Import Base BaseLemmas Tensor TensorLemmas Net NetSpec NetProofs NetProofs2 NetProofs3 Corners CornersSpec CornersProofs NetSym Extend C4v C4vProofs CtmC4v CtmC4vSpec CtmC4vProofs CtmC4vProofs2.
From Coq Require Import Ring ArithRing Field_theory Field.
Open Scope list_scope.
Open Scope nat_scope.
Open Scope res_scope.

Section M.
Context {K : Type} (z o half : K) (add mul sub : K -> K -> K) (opp : K -> K) (div : K -> K -> K) (inv : K -> K)
  (cj vabs : K -> K) (is0 : K -> bool) (vnorm : bool -> list K -> K).
Hypothesis L : scalar_laws z o half add mul sub opp div inv cj vabs is0 vnorm.
Notation ten := (tensor K).
Notation entry := (entry z).
Add Field KF : (sl_field _ _ _ _ _ _ _ _ _ _ _ _ _ L).
Lemma SRL : semi_ring_theory z o add mul eq.
Proof. constructor; intros; ring. Qed.
Lemma cjz : cj z = z.
Proof. assert (H : add (cj z) (cj z) = cj z). { rewrite <- (sl_cj_add _ _ _ _ _ _ _ _ _ _ _ _ _ L). f_equal. ring. }
  transitivity (sub (add (cj z) (cj z)) (cj z)); [ring|]. rewrite H. ring. Qed.
Lemma cjo : cj o = o.
Proof. rewrite <- (sl_cj_cj _ _ _ _ _ _ _ _ _ _ _ _ _ L o) at 2.
  transitivity (mul o (cj o)); [ring|]. rewrite <- (sl_cj_cj _ _ _ _ _ _ _ _ _ _ _ _ _ L (mul o (cj o))).
  f_equal. rewrite (sl_cj_mul _ _ _ _ _ _ _ _ _ _ _ _ _ L), (sl_cj_cj _ _ _ _ _ _ _ _ _ _ _ _ _ L). ring. Qed.
Lemma cjhalf : cj half = half.
Proof. assert (H := sl_half _ _ _ _ _ _ _ _ _ _ _ _ _ L).
  assert (H' := f_equal cj H). rewrite (sl_cj_add _ _ _ _ _ _ _ _ _ _ _ _ _ L), cjo in H'.
  transitivity (mul (add (cj half) (cj half)) half); [|rewrite H'; ring].
  transitivity (mul (add half half) (cj half)); [rewrite H; ring|ring]. Qed.
Lemma cjdiv x s : s <> z -> cj s = s -> cj (div x s) = div (cj x) s.
Proof. intros Hs Hr. transitivity (div (mul (cj (div x s)) (cj s)) s); [rewrite Hr; field; exact Hs|].
  rewrite <- (sl_cj_mul _ _ _ _ _ _ _ _ _ _ _ _ _ L). f_equal. f_equal. field. exact Hs. Qed.
Lemma is0_false s : is0 s = false -> s <> z.
Proof. intros H E. apply (sl_is0 _ _ _ _ _ _ _ _ _ _ _ _ _ L) in E. congruence. Qed.
Notation cjadd := (sl_cj_add _ _ _ _ _ _ _ _ _ _ _ _ _ L).
Notation cjmul := (sl_cj_mul _ _ _ _ _ _ _ _ _ _ _ _ _ L).
Notation cjcj := (sl_cj_cj _ _ _ _ _ _ _ _ _ _ _ _ _ L).

Lemma entry_tmap f (t : ten) ix : f z = z -> entry (tmap f t) ix = f (entry t ix).
Proof. intros Hf. unfold NetSpec.entry. rewrite tget_tmap. destruct (tget t ix); cbn; [reflexivity|now rewrite Hf]. Qed.
Lemma entry_tbuild dims f ix : in_range dims ix -> entry (tbuild dims f) ix = f ix.
Proof. intros R. unfold NetSpec.entry. now rewrite tget_tbuild. Qed.
Lemma entry_tval (t : ten) ix : tval z t ix = entry t ix.
Proof. reflexivity. Qed.
Lemma entry_ext (t1 t2 : ten) dims : shaped dims t1 -> shaped dims t2 -> (forall ix, in_range dims ix -> entry t1 ix = entry t2 ix) -> t1 = t2.
Proof. intros [W1 E1] [W2 E2] H. apply tensor_ext; [exact W1|exact W2|congruence|]. intros ix R.
  destruct (tget_Some t1 ix W1 R) as [v Hv]. assert (R2 : in_range (tdims t2) ix) by (rewrite E2, <- E1; exact R).
  destruct (tget_Some t2 ix W2 R2) as [w Hw]. rewrite E1 in R. specialize (H ix R). unfold NetSpec.entry in H. rewrite Hv, Hw in *. congruence. Qed.
Lemma range3_inv n m l ix : in_range [n; m; l] ix -> exists i j k, ix = [i; j; k] /\ i < n /\ j < m /\ k < l.
Proof. intros R. assert (E := in_range_length _ _ R). destruct ix as [|i [|j [|k [|]]]]; try discriminate E. exists i, j, k. split; [reflexivity|]. now apply in_range3. Qed.
Lemma range2_inv n m ix : in_range [n; m] ix -> exists i j, ix = [i; j] /\ i < n /\ j < m.
Proof. intros R. assert (E := in_range_length _ _ R). destruct ix as [|i [|j [|]]]; try discriminate E. exists i, j. split; [reflexivity|]. now apply in_range2. Qed.

Lemma permute3 (t : ten) n m : shaped [n; n; m] t -> exists p, permute z t [1; 0; 2] = Ok p /\ shaped [n; n; m] p /\
  forall i j k, i < n -> j < n -> k < m -> entry p [i; j; k] = entry t [j; i; k].
Proof. intros [W E]. unfold permute, tpermute. rewrite E. cbn [length is_permb Nat.eqb forallb seq existsb andb orb nth map].
  eexists. split; [reflexivity|]. split; [split; [apply twf_tbuild|reflexivity]|].
  intros i j k Hi Hj Hk. rewrite entry_tbuild by (apply in_range3; auto). reflexivity. Qed.

Notation sym := (symmetrize z half add mul cj).
Lemma symmetrize_ok t n m : shaped [n; n; m] t -> exists t', sym t = Ok t' /\ row_hermitian z cj n m t' /\
  (row_hermitian z cj n m t -> t' = t).
Proof. intros HT. destruct (permute3 t n m HT) as (p & EP & [WP DP] & GP). unfold symmetrize. rewrite EP. cbn [bind].
  unfold tbin. cbn [tdims conj tmap]. rewrite (proj2 HT), DP, bdims_same. cbn [bind]. eexists. split; [reflexivity|].
  assert (G : forall i j k, i < n -> j < n -> k < m ->
    entry (tmap (mul half) (tbuild [n; n; m] (fun ix => add (tval z t (bcast [n; n; m] ix)) (tval z (conj cj p) (bcast [n; n; m] ix))))) [i; j; k]
    = mul half (add (entry t [i; j; k]) (cj (entry t [j; i; k])))).
  { intros i j k Hi Hj Hk. assert (R : in_range [n; n; m] [i; j; k]) by (apply in_range3; auto).
    rewrite entry_tmap by ring. rewrite entry_tbuild by exact R. rewrite !bcast_same by exact R. rewrite !entry_tval.
    rewrite (entry_conj z cj cjz), GP by assumption. reflexivity. }
  assert (S : shaped [n; n; m] (tmap (mul half) (tbuild [n; n; m] (fun ix => add (tval z t (bcast [n; n; m] ix)) (tval z (conj cj p) (bcast [n; n; m] ix)))))).
  { split; [apply twf_tmap, twf_tbuild|reflexivity]. }
  split.
  - split; [exact S|]. intros i j k Hi Hj Hk. rewrite !G by assumption. rewrite cjmul, cjadd, cjhalf, cjcj. ring.
  - intros [_ H]. apply (entry_ext _ _ _ S HT). intros ix R. apply range3_inv in R. destruct R as (i & j & k & -> & Hi & Hj & Hk).
    rewrite G by assumption. rewrite <- H by assumption.
    transitivity (mul (add half half) (entry t [i; j; k])); [ring|]. rewrite (sl_half _ _ _ _ _ _ _ _ _ _ _ _ _ L). ring. Qed.

Lemma permute2 (t : ten) n : shaped [n; n] t -> exists p, permute z t [1; 0] = Ok p /\ shaped [n; n] p /\
  forall i j, i < n -> j < n -> entry p [i; j] = entry t [j; i].
Proof. intros [W E]. unfold permute, tpermute. rewrite E. cbn [length is_permb Nat.eqb forallb seq existsb andb orb nth map].
  eexists. split; [reflexivity|]. split; [split; [apply twf_tbuild|reflexivity]|].
  intros i j Hi Hj. rewrite entry_tbuild by (apply in_range2; auto). reflexivity. Qed.
Lemma init_random_ok n rC rT : shaped [n; n] rC -> exists C, init_random z half add mul cj rC rT = Ok (C, rT) /\ hermitian z cj n C.
Proof. intros [W E]. destruct (permute2 (conj cj rC) n) as (p & EP & [WP DP] & GP); [split; [now apply twf_tmap|exact E]|].
  unfold init_random. rewrite EP. cbn [bind]. unfold tbin. rewrite E, DP, bdims_same. cbn [bind]. eexists. split; [reflexivity|].
  split; [split; [apply twf_tmap, twf_tbuild|reflexivity]|]. intros i j Hi Hj.
  rewrite !entry_tmap by ring. rewrite !entry_tbuild by (apply in_range2; auto). rewrite !bcast_same by (apply in_range2; auto).
  rewrite !entry_tval, !GP, !(entry_conj z cj cjz) by assumption. rewrite cjmul, cjadd, cjhalf, cjcj. unfold tval. fold (entry rC [j; i]). ring. Qed.

Lemma tdiag_diag l : tdiag z l = diag z l.
Proof. unfold tdiag, diag, tbuild. f_equal. apply map_ext_in. intros ix H. apply In_indices in H. apply range2_inv in H.
  destruct H as (i & j & -> & _). reflexivity. Qed.
Lemma diag_shape l : shaped [length l; length l] (diag z l).
Proof. split; [apply twf_tbuild|reflexivity]. Qed.
Lemma diag_entry l i j : i < length l -> j < length l -> entry (diag z l) [i; j] = if i =? j then nth i l z else z.
Proof. intros Hi Hj. unfold diag. rewrite entry_tbuild by (apply in_range2; auto). reflexivity. Qed.
Lemma diag_herm n l : real_values cj n l -> hermitian z cj n (diag z l) /\ diagonal z n (diag z l).
Proof. intros [<- H]. split.
  - split; [apply diag_shape|]. intros i j Hi Hj. rewrite !diag_entry by assumption. rewrite (Nat.eqb_sym j i).
    destruct (Nat.eqb_spec i j) as [->|]; [|now rewrite cjz]. rewrite Forall_forall in H. symmetry. apply H, nth_In, Hj.
  - intros i j Hi Hj N. rewrite diag_entry by assumption. apply Nat.eqb_neq in N. now rewrite N. Qed.

Notation tdiv := (tdiv div is0).
Lemma tdiv_inv t s t' : tdiv t s = Ok t' -> s <> z /\ t' = tmap (fun x => div x s) t.
Proof. unfold CtmC4v.tdiv. destruct (is0 s) eqn:E; [discriminate|]. intros H. injection H as <-. split; [now apply is0_false|reflexivity]. Qed.
Lemma divz s : s <> z -> div z s = z.
Proof. intros H. field. exact H. Qed.
Lemma tdiv_shape dims t s : shaped dims t -> shaped dims (tmap (fun x => div x s) t).
Proof. intros [W E]. split; [now apply twf_tmap|exact E]. Qed.
Lemma tdiv_herm n t s : s <> z -> cj s = s -> hermitian z cj n t -> hermitian z cj n (tmap (fun x => div x s) t).
Proof. intros Hs Hr [S H]. split; [now apply tdiv_shape|]. intros i j Hi Hj. rewrite !entry_tmap by now apply divz.
  rewrite cjdiv by assumption. f_equal. now apply H. Qed.
Lemma tdiv_row n m t s : s <> z -> cj s = s -> row_hermitian z cj n m t -> row_hermitian z cj n m (tmap (fun x => div x s) t).
Proof. intros Hs Hr [S H]. split; [now apply tdiv_shape|]. intros i j k Hi Hj Hk. rewrite !entry_tmap by now apply divz.
  rewrite cjdiv by assumption. f_equal. now apply H. Qed.

Notation normalize := (move_normalize div vabs is0 vnorm).
Lemma normalize_inv inf nC nT e' : normalize inf nC nT = Ok e' ->
  vabs (entry nC [0; 0]) <> z /\ vnorm inf (tdata nT) <> z /\
  e' = (tmap (fun x => div x (vabs (entry nC [0; 0]))) nC, tmap (fun x => div x (vnorm inf (tdata nT))) nT).
Proof. unfold move_normalize. unfold NetSpec.entry. destruct (tget nC [0; 0]) as [c|]; [|discriminate]. intros H.
  apply bind_ok in H. destruct H as (C' & HC & H). apply bind_ok in H. destruct H as (T' & HT & H). injection H as <-.
  apply tdiv_inv in HC. apply tdiv_inv in HT. destruct HC as [N1 ->], HT as [N2 ->]. auto. Qed.

Lemma normalized_sym inf n m nC nT e' : hermitian z cj n nC -> row_hermitian z cj n m nT -> normalize inf nC nT = Ok e' ->
  hermitian z cj n (fst e') /\ row_hermitian z cj n m (snd e') /\ (diagonal z n nC -> diagonal z n (fst e')) /\ vabs (entry (fst e') [0; 0]) = o.
Proof. intros HC HT H. apply normalize_inv in H. destruct H as (N1 & N2 & ->). cbn [fst snd].
  split; [|split; [|split]].
  - apply tdiv_herm; [exact N1|apply (sl_abs_real _ _ _ _ _ _ _ _ _ _ _ _ _ L)|exact HC].
  - apply tdiv_row; [exact N2|apply (sl_norm_real _ _ _ _ _ _ _ _ _ _ _ _ _ L)|exact HT].
  - intros HD i j Hi Hj N. rewrite entry_tmap by now apply divz. rewrite HD by assumption. now apply divz.
  - rewrite entry_tmap by now apply divz. now apply (sl_abs_unit _ _ _ _ _ _ _ _ _ _ _ _ _ L). Qed.

Notation abs_sl := (absorb_sl z o add mul cj).
Notation abs_dl := (absorb_dl z o add mul cj).
Notation dlayer := (double_layer z o add mul cj).
Lemma view_data {X} (t t' : tensor X) dims : tdata t = tdata t' -> view t dims = view t' dims.
Proof. intros E. unfold view, treshape. now rewrite E. Qed.
Lemma absorb_any chi d Dn a T P M : shaped [d; Dn; Dn; Dn; Dn] a -> shaped [chi; chi; Dn * Dn] T ->
  abs_sl chi a T P = Ok M \/ (A <- dlayer a ;; abs_dl chi A T P) = Ok M -> 
  abs_sl chi a T P = Ok M /\ (A <- dlayer a ;; abs_dl chi A T P) = Ok M /\
  is_contraction (dims_row chi d Dn) z o add mul (net_row cj T a (mkT [chi * (Dn * Dn); chi] (tdata P))) out_row M.
Proof. intros Ha HT H. set (P2 := mkT [chi * (Dn * Dn); chi] (tdata P)).
  assert (HS : size T 2 = Dn * Dn) by (unfold size; now rewrite (proj2 HT)).
  assert (E1 : abs_sl chi a T P = abs_sl chi a T P2) by reflexivity.
  assert (E2 : (A <- dlayer a ;; abs_dl chi A T P) = (A <- dlayer a ;; abs_dl chi A T P2)) by reflexivity.
  rewrite E1, E2 in *.
  assert (HP : shaped [chi * (Dn * Dn); chi] P2).
  { split; [|reflexivity]. unfold twf. cbn [tdata tdims P2].
    assert (X : exists v, view P [chi; size T 2; chi] = Ok v).
    { destruct (view P [chi; size T 2; chi]) as [v|e] eqn:EV; [now exists v|]. exfalso.
      destruct H as [H|H].
      - unfold absorb_sl in H. rewrite (view_data P2 P) in H by reflexivity. rewrite EV in H. discriminate.
      - apply bind_ok in H. destruct H as (A & _ & H). unfold absorb_dl in H. rewrite (view_data P2 P) in H by reflexivity. rewrite EV in H. discriminate. }
    destruct X as (v & EV). unfold view, treshape in EV. destruct (Nat.eqb_spec (length (tdata P)) (prod_dims [chi; size T 2; chi])) as [E|]; [|discriminate].
    rewrite E, HS. cbn. lia. }
  destruct (row_ok z o add mul cj SRL chi d Dn T a P2 HT Ha HP) as (M' & A1 & A2 & A3).
  rewrite A1, A2 in H. assert (M' = M) by (destruct H as [H|H]; congruence). subst M'. auto. Qed.

Definition good_decomp (chi : nat) (decomp : ten -> nat -> res (list K * ten)) : Prop :=
  forall M l P, decomp M chi = Ok (l, P) -> real_values cj chi l.
Notation move_sl := (ctm_MOVE_sl z o half add mul div cj vabs is0 vnorm).
Notation move_dl := (ctm_MOVE_dl z o half add mul div cj vabs is0 vnorm).

Lemma row_shape chi d Dn net M : is_contraction (dims_row chi d Dn) z o add mul net out_row M -> shaped [chi; chi; Dn * Dn] M.
Proof. intros (W & E & _). split; [exact W|exact E]. Qed.

Lemma tail_sym chi Dn inf l nT e' : real_values cj chi l -> shaped [chi; chi; Dn * Dn] nT ->
  (t <- sym nT ;; normalize inf (tdiag z l) t) = Ok e' ->
  symmetric_env z cj chi Dn e' /\ diagonal z chi (fst e') /\ vabs (entry (fst e') [0; 0]) = o.
Proof. intros Hl HT H. destruct (symmetrize_ok nT chi (Dn * Dn) HT) as (t & ES & HS & _). rewrite ES in H. cbn [bind] in H.
  rewrite tdiag_diag in H. destruct (diag_herm chi l Hl) as [H1 H2].
  destruct (normalized_sym inf chi (Dn * Dn) _ _ _ H1 HS H) as (A & B & C & E). split; [split; assumption|]. auto. Qed.

Lemma move_sl_sym decomp inf chi d Dn a e e' : shaped [d; Dn; Dn; Dn; Dn] a -> shaped [chi; chi; Dn * Dn] (snd e) ->
  good_decomp chi decomp -> move_sl decomp inf chi a e = Ok e' ->
  symmetric_env z cj chi Dn e' /\ diagonal z chi (fst e') /\ vabs (entry (fst e') [0; 0]) = o.
Proof. destruct e as [C T]. cbn [snd]. intros Ha HT HD H. unfold ctm_MOVE_sl in H.
  apply bind_ok in H. destruct H as (M & _ & H). apply bind_ok in H. destruct H as ([l P] & HM & H). apply HD in HM. cbn [fst snd] in H.
  apply bind_ok in H. destruct H as (nT & HN & H).
  destruct (absorb_any chi d Dn a T P nT Ha HT (or_introl HN)) as (_ & _ & HI). apply row_shape in HI.
  exact (tail_sym chi Dn inf l nT e' HM HI H). Qed.

(** both moves are the same function on environments of the right shape *)
Lemma move_dl_sl decomp inf chi d Dn a e : shaped [d; Dn; Dn; Dn; Dn] a -> shaped [chi; chi] (fst e) -> shaped [chi; chi; Dn * Dn] (snd e) ->
  forall e', move_dl decomp inf chi a e = Ok e' <-> move_sl decomp inf chi a e = Ok e'.
Proof. destruct e as [C T]. cbn [fst snd]. intros Ha HC HT e'. unfold ctm_MOVE_sl, ctm_MOVE_dl.
  destruct (corner_ok z o add mul cj SRL chi d Dn C T a HC HT Ha) as (M & E1 & E2 & _). rewrite E1. cbn [bind].
  destruct (dlayer a) as [A|] eqn:EA; cbn [bind] in *; [|discriminate E2]. rewrite E2. cbn [bind].
  destruct (decomp M chi) as [[l P]|]; cbn [bind fst snd]; [|split; discriminate].
  split; intros H; apply bind_ok in H; destruct H as (nT & HN & H).
  - destruct (absorb_any chi d Dn a T P nT Ha HT) as (X & _ & _); [right; rewrite EA; exact HN|]. rewrite X. exact H.
  - destruct (absorb_any chi d Dn a T P nT Ha HT) as (_ & X & _); [left; exact HN|]. rewrite EA in X. cbn [bind] in X. rewrite X. exact H. Qed.
End M.
