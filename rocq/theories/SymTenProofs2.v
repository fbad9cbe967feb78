(** Proofs about whole tables: parsing, filling, importing. *)
From Coq Require Import Ascii Lia.
From Verif Require Import Base BaseLemmas Text TextLemmas Tensor TensorLemmas SymTen SymTenSpec SymTenProofs.
Open Scope char_scope.
Open Scope list_scope.

Lemma Forall2_same {A B} (R : A -> B -> Prop) l : (forall a, In a l -> exists b, R a b) -> exists l', Forall2 R l l'.
Proof.
  induction l as [|a l IH]; intros H; [exists []; constructor|].
  destruct (H a) as [b Hb]; [now left|]. destruct IH as [l' Hl]; [intros x Hx; apply H; now right|]. exists (b :: l'). now constructor.
Qed.
Lemma Forall2_map1 {A B C} (f : A -> B) (R : B -> C -> Prop) l l' : Forall2 (fun a => R (f a)) l l' -> Forall2 R (map f l) l'.
Proof. induction 1; cbn; constructor; auto. Qed.

Lemma Forall2_impl {A B} (R S : A -> B -> Prop) l l' : (forall a b, R a b -> S a b) -> Forall2 R l l' -> Forall2 S l l'.
Proof. induction 2; constructor; auto. Qed.

Section Table.
Context {V : Type} (eval_ : text -> option V) (zero : V).
Lemma parse_table data pre l : is_table data pre l -> Forall (fun n => Forall (fun e => eval_ (l_val e) <> None) (n_elems n)) l ->
  exists r, parse_symten_text eval_ data = Ok r /\ Forall2 (entry_of eval_) l r.
Proof.
  intros [[Hp HF] E] HV. unfold parse_symten_text. rewrite E. unfold parse_classification, table_text.
  rewrite fold_left_app, class0 by assumption. destruct (class_entries l HF [] [] []) as [b Eb]. rewrite Eb. cbn [app c_raw_t c_meta_t].
  assert (HE : exists r, Forall2 (fun n es => parse_elems eval_ (list_text n) = Ok es /\ Forall2 (elem_of eval_) (n_elems n) es) l r).
  { apply Forall2_same. intros n Hn. rewrite Forall_forall in HF, HV. specialize (HF n Hn). specialize (HV n Hn).
    destruct HF as (_ & _ & He & _ & _ & H1 & _ & _).
    assert (HX : exists es, Forall2 (fun e r => parse_elem eval_ (inner e ++ txt ")") = Ok r /\ elem_of eval_ e r) (n_elems n) es).
    { apply Forall2_same. intros e Hin. rewrite Forall_forall in He, HV. specialize (HV e Hin).
      destruct (eval_ (l_val e)) as [v|] eqn:Ev; [|congruence]. exists (map (fun x => Z.of_nat (x_val x)) (l_ix e), v).
      rewrite parse_elem_spec by auto. rewrite Ev. split; [reflexivity|]. split; [reflexivity | exact Ev]. }
    destruct HX as [es HX]. exists es. split.
    - unfold parse_elems, list_text. rewrite raw_elems_spec by assumption. apply mapM_ok. apply Forall2_map1.
      revert HX. apply Forall2_impl. intros ? ? [H _]. exact H.
    - revert HX. apply Forall2_impl. intros ? ? [_ H]. exact H. }
  destruct HE as [r HE].
  assert (M : mapM (parse_elems eval_) (map list_text l) = Ok r).
  { apply mapM_ok, Forall2_map1. revert HE. apply Forall2_impl. intros ? ? [H _]. exact H. }
  rewrite M. cbn [bind]. eexists. split; [reflexivity|]. clear - HF HE.
  induction HE as [|n es l r [_ H] HE IH]; [constructor|]. inversion HF as [|? ? Hn Hl]; subst. cbn [map combine]. constructor; [|auto].
  split; [|exact H]. cbn [fst]. intros k. apply parse_meta_spec; apply Hn.
Qed.

(** ** filling *)
Definition zpos (e : list nat * V) : list Z * V := (map Z.of_nat (fst e), snd e).
Lemma fill_step (dims : list nat) (t : tensor V) ix v : twf t -> tdims t = dims -> in_range dims ix ->
  exists t', tupdate t (map Z.of_nat ix) (fun _ => v) = Ok t' /\ twf t' /\ tdims t' = dims /\
  forall jx, in_range dims jx -> tget t' jx = if list_eq_dec Nat.eq_dec ix jx then Some v else tget t jx.
Proof.
  intros Hw Hd Hr. assert (N : norm_indices (tdims t) (map Z.of_nat ix) = Ok ix) by (rewrite Hd; now apply norm_indices_nat).
  destruct (tupdate_ok t (map Z.of_nat ix) (fun _ => v) ix N) as [t' Ht]. exists t'. split; [exact Ht|].
  destruct (tupdate_spec _ _ _ _ Hw Ht) as (p & Hp & Hw' & Hd' & Hg). rewrite N in Hp. inv Hp. split; [exact Hw'|]. split; [exact Hd'|].
  intros jx Hj. rewrite Hg. destruct (tget_Some t jx Hw Hj) as [w Hwv]. rewrite Hwv. cbn [option_map].
  assert (Hl : length p = length jx) by (apply in_range_length in Hr, Hj; congruence).
  destruct (list_eq_dec Nat.eq_dec p jx) as [-> |Hn].
  - now rewrite (proj2 (is_prefix_full jx jx eq_refl) eq_refl).
  - destruct (is_prefix p jx) eqn:Ep; [|reflexivity]. apply is_prefix_full in Ep; [congruence | exact Hl].
Qed.
Lemma fill_loop dims (es : list (list nat * V)) : Forall (fun e => in_range dims (fst e)) es -> forall (t : tensor V), twf t -> tdims t = dims ->
  exists t', foldM (fun t e => tupdate t (fst e) (fun _ => snd e)) (map zpos es) t = Ok t' /\ twf t' /\ tdims t' = dims /\
  forall ix, in_range dims ix -> tget t' ix = match listed ix es with Some v => Some v | None => tget t ix end.
Proof.
  induction 1 as [|[jx v] es He HF IH]; intros t Hw Hd.
  - exists t. repeat split; auto.
  - destruct (fill_step dims t jx v Hw Hd He) as (t1 & E1 & Hw1 & Hd1 & Hg1). destruct (IH t1 Hw1 Hd1) as (t' & E & Hw' & Hd' & Hg).
    exists t'. split; [cbn [map foldM zpos fst snd]; rewrite E1; exact E|]. split; [exact Hw'|]. split; [exact Hd'|].
    intros ix Hi. rewrite Hg by assumption. cbn [listed]. destruct (listed ix es); [reflexivity|]. rewrite Hg1 by assumption.
    destruct (list_eq_dec Nat.eq_dec jx ix); reflexivity.
Qed.
Lemma fill_dense dims es : Forall (fun e => in_range dims (fst e)) es ->
  exists t, fill_from_sparse_coo (tzeros zero dims) (map zpos es) = Ok t /\ dense zero dims es t.
Proof.
  intros HF. destruct (fill_loop dims es HF (tzeros zero dims) (twf_tzeros _ _) eq_refl) as (t & E & Hw & Hd & Hg).
  exists t. split; [exact E|]. split; [exact Hw|]. split; [exact Hd|]. intros ix Hi. rewrite Hg by assumption.
  destruct (listed ix es); [reflexivity|]. now apply tget_tzeros.
Qed.
Lemma fill_fix_dense dims ix v es : in_range dims ix -> Forall (fun e => in_range dims (fst e)) es ->
  exists t es', fill_from_sparse_coo_FIX (tzeros zero dims) ((map Z.of_nat ix, v) :: map zpos (map (fun e => (map S (fst e), snd e)) es)) = Ok (t, es')
    /\ dense zero dims ((ix, v) :: es) t.
Proof.
  intros Hi HF. destruct (fill_dense dims ((ix, v) :: es)) as (t & E & Hd); [now constructor|].
  exists t. eexists. split; [|exact Hd]. unfold fill_from_sparse_coo_FIX.
  assert (Q : forall (l : list (list Z * V)) t0, foldM (fun t e => tupdate t (map (fun i => Z.sub i 1) (fst e)) (fun _ => snd e)) l t0
     = foldM (fun t e => tupdate t (fst e) (fun _ => snd e)) (map (fun e => (map (fun i => Z.sub i 1) (fst e), snd e)) l) t0).
  { induction l as [|e l IH]; intros t0; [reflexivity|]. cbn [foldM map fst snd]. destruct (tupdate t0 _ _); cbn [bind]; auto. }
  rewrite Q. unfold fill_from_sparse_coo in E.
  match goal with |- bind (foldM _ ?l _) _ = _ => replace l with (map zpos ((ix, v) :: es)) end.
  - rewrite E. reflexivity.
  - cbn [map]. f_equal.
    + unfold zpos. cbn [fst snd]. f_equal. rewrite !map_map. apply map_ext. intros a. lia.
    + rewrite !map_map. apply map_ext. intros [jx w]. unfold zpos. cbn [fst snd]. f_equal. rewrite !map_map. apply map_ext. intros a. lia.
Qed.
(** order does not matter for distinct indices *)
Lemma listed_In ix (v : V) (es : list (list nat * V)) : NoDup (map fst es) -> (listed ix es = Some v <-> In (ix, v) es).
Proof.
  induction es as [|[jx w] es IH]; cbn [map fst listed]; intros HN; [split; [discriminate | intros []]|].
  inversion HN as [|? ? Hni HN']; subst. specialize (IH HN'). destruct (listed ix es) as [u|] eqn:El.
  - split; [intros H; right; apply IH; exact H|]. intros [H|H]; [|now apply IH]. inv H. exfalso. apply Hni.
    assert (K : In (ix, u) es) by (clear - El; induction es as [|[a b] es IH]; [discriminate|]; cbn [listed] in El;
      destruct (listed ix es) eqn:E2; [right; auto|]; destruct (list_eq_dec _ a ix) as [-> |]; [inv El; now left | discriminate]).
    now apply (in_map fst) in K.
  - destruct (list_eq_dec Nat.eq_dec jx ix) as [-> |Hn].
    + split; [intros H; inv H; now left|]. intros [H|H]; [now inv H|]. apply IH in H. discriminate.
    + split; [discriminate|]. intros [H|H]; [inv H; congruence|]. apply IH in H. discriminate.
Qed.
Lemma dense_unique dims es es' t t' : NoDup (map fst es) -> Permutation.Permutation es es' -> dense zero dims es t -> dense zero dims es' t' -> t = t'.
Proof.
  intros HN HP (Hw & Hd & Hg) (Hw' & Hd' & Hg'). apply tensor_ext; auto; [congruence|]. intros ix. destruct (tget t ix) as [v|] eqn:Et.
  - assert (Hr : in_range dims ix) by (rewrite <- Hd; eapply tget_range; eauto). rewrite Hg' by assumption. rewrite <- Et, Hg by assumption. f_equal.
    assert (HN' : NoDup (map fst es')) by (eapply Permutation.Permutation_NoDup; [apply Permutation.Permutation_map; exact HP | exact HN]).
    destruct (listed ix es) as [a|] eqn:E1, (listed ix es') as [b|] eqn:E2; auto.
    + apply listed_In in E1, E2; auto. apply (Permutation.Permutation_in _ HP) in E1. apply (listed_In ix) in E1, E2; auto. congruence.
    + apply listed_In in E1; auto. apply (Permutation.Permutation_in _ HP) in E1. apply (listed_In ix) in E1; auto. congruence.
    + apply listed_In in E2; auto. apply (Permutation.Permutation_in _ (Permutation.Permutation_sym HP)) in E2. apply (listed_In ix) in E2; auto. congruence.
  - destruct (tget t' ix) as [w|] eqn:Et'; [|reflexivity]. assert (Hr : in_range dims ix) by (rewrite <- Hd'; eapply tget_range; eauto).
    rewrite Hg in Et by assumption. discriminate.
Qed.

(** ** imports *)
Lemma elem_positions es rs vs : Forall2 (elem_of eval_) es rs -> vs = map snd rs -> Forall2 (fun e v => eval_ (l_val e) = Some v) es vs
  /\ rs = map zpos (combine (map place es) vs).
Proof.
  intros H ->. induction H as [|e [ix v] es rs [H1 H2] H IH]; [split; [constructor | reflexivity]|]. cbn [fst snd] in *. destruct IH as [IH1 IH2].
  split; [now constructor|]. cbn [map combine]. rewrite <- IH2. f_equal. unfold zpos. cbn [fst snd]. subst ix. f_equal.
  unfold place. now rewrite map_map.
Qed.
Lemma combine_map_S (l : list (list nat)) (vs : list V) :
  combine (map (map S) l) vs = map (fun e => (map S (fst e), snd e)) (combine l vs).
Proof. revert vs. induction l as [|x l IH]; intros [|v vs]; cbn; auto. f_equal. apply IH. Qed.
Lemma Forall_combine_in dims l (vs : list V) : Forall (in_range dims) l -> Forall (fun e => in_range dims (fst e)) (combine l vs).
Proof. intros H. revert vs. induction H; intros [|v vs]; cbn; constructor; auto. Qed.
Definition fill_of (cv : convention) (t : tensor V) (es : list (list Z * V)) : res (tensor V) :=
  match cv with
  | from_zero => fill_from_sparse_coo t es
  | fix_first => bind (fill_from_sparse_coo_FIX t es) (fun r => Ok (fst r))
  end.
Lemma fill_entry cv dims n m rs l : entry_of eval_ n (m, rs) -> positions cv dims (n_elems n) l ->
  exists t, fill_of cv (tzeros zero dims) rs = Ok t /\ tensor_of eval_ zero cv dims n (m, t).
Proof.
  intros [Hm He] HP. cbn [fst snd] in *. destruct (elem_positions _ _ _ He eq_refl) as [HV HR]. set (vs := map snd rs) in *.
  destruct HP as [HI HP]. destruct cv; cbn [fill_of].
  - rewrite HP in HR. rewrite HR. destruct (fill_dense dims (combine l vs)) as (t & E & Hd); [now apply Forall_combine_in|].
    exists t. split; [exact E|]. split; [exact Hm|]. exists l, vs. repeat split; auto; apply Hd.
  - destruct (n_elems n) as [|e es] eqn:En; [destruct HP|]. destruct l as [|ix l]; [destruct HP|]. destruct HP as [Hix Hl].
    inversion HV as [|? v ? vs' Hv HV' Q1 Q2]. rewrite <- Q2 in *. cbn [map combine] in HR. rewrite Hix, Hl, combine_map_S in HR. rewrite HR.
    inversion HI as [|? ? HI1 HI2]; subst.
    destruct (fill_fix_dense dims (place e) v (combine l vs') HI1 (Forall_combine_in _ _ _ HI2)) as (t & es' & E & Hd).
    exists t. split; [unfold zpos at 1; cbn [fst snd]; rewrite E; reflexivity|]. split; [exact Hm|].
    exists (place e :: l), (v :: vs'). rewrite En. split; [|split; [now constructor | exact Hd]]. split; [exact HI|]. now split.
Qed.
Lemma import_gen (fill : tensor V -> list (list Z * V) -> res (tensor V)) dims (sel : dict text text -> res bool) (b : entry -> bool)
    (T : entry -> dict text text * tensor V -> Prop) data pre l :
  is_table data pre l -> Forall (fun n => Forall (fun e => eval_ (l_val e) <> None) (n_elems n)) l ->
  (forall n m es, In n l -> entry_of eval_ n (m, es) -> sel m = Ok (b n) /\
     (b n = true -> exists t, fill (tzeros zero dims) es = Ok t /\ T n (m, t))) ->
  exists r, import_with eval_ zero fill dims sel data = Ok r /\ Forall2 T (filter b l) r.
Proof.
  intros HT HV HS. destruct (parse_table data pre l HT HV) as (rs & E & HE).
  unfold import_with. rewrite E. cbn [bind]. clear HT E HV.
  assert (K : forall acc, exists r, foldM (fun tensors (tcoo : symten) => bind (sel (fst tcoo)) (fun b =>
      if b : bool then bind (fill (tzeros zero dims) (snd tcoo)) (fun t => Ok (tensors ++ [(fst tcoo, t)])) else Ok tensors)) rs acc = Ok (acc ++ r)
      /\ Forall2 T (filter b l) r).
  { induction HE as [|n [m es] l rs Hn HE IH]; intros acc; [exists []; rewrite app_nil_r; split; [reflexivity | constructor]|].
    assert (IH' := IH (fun n m es Hin => HS n m es (or_intror Hin))). clear IH. cbn [foldM fst snd filter].
    destruct (HS n m es (or_introl eq_refl) Hn) as [Hs Hf]. rewrite Hs. cbn [bind]. destruct (b n).
    - destruct (Hf eq_refl) as (t & Et & Ht). rewrite Et. cbn [bind].
      destruct (IH' (acc ++ [(m, t)])) as (r & Er & HF). exists ((m, t) :: r). split; [|now constructor].
      rewrite Er. now rewrite <- app_assoc.
    - apply IH'. }
  destruct (K []) as (r & Er & HF). exists r. split; [exact Er | exact HF].
Qed.
Lemma sel_group pg n m es : entry_of eval_ n (m, es) -> lookup (txt "pg") (n_fields n) <> None -> has_pg pg m = Ok (of_group pg n).
Proof.
  intros [Hn _] Hpg. specialize (Hn (txt "pg")). cbn [fst] in Hn. unfold has_pg, dget_exn, of_group. rewrite Hn.
  destruct (lookup (txt "pg") (n_fields n)) as [g|]; [|congruence]. cbn [bind]. f_equal.
  destruct (list_eq_dec ascii_dec g pg) as [-> |Hne]; [now apply eqb_true | apply eqb_false; congruence].
Qed.
Lemma readable_values cv dims pg l : Forall (readable eval_ cv dims pg) l -> Forall (fun n => Forall (fun e => eval_ (l_val e) <> None) (n_elems n)) l.
Proof. apply Forall_impl. intros n (_ & H & _). exact H. Qed.
Lemma import_table cv dims pg data pre l : is_table data pre l -> Forall (readable eval_ cv dims pg) l ->
  exists r, import_with eval_ zero (fill_of cv) dims (has_pg pg) data = Ok r /\ Forall2 (tensor_of eval_ zero cv dims) (filter (of_group pg) l) r.
Proof.
  intros HT HR. apply (import_gen (fill_of cv) dims (has_pg pg) (of_group pg) _ data pre l HT (readable_values _ _ _ _ HR)).
  intros n m es Hin Hn. rewrite Forall_forall in HR. destruct (HR n Hin) as (Hpg & _ & Hpos). split; [now apply sel_group with es|].
  intros Hg. destruct (Hpos Hg) as [p Hp]. exact (fill_entry cv dims n m es p Hn Hp).
Qed.
Lemma squeeze_spec (D : nat) (t : tensor V) : D <> 1%nat -> twf t -> tdims t = [1; D; D]%nat ->
  twf (squeeze t) /\ tdims (squeeze t) = [D; D] /\ forall i j, tget (squeeze t) [i; j] = tget t [0; i; j]%nat.
Proof.
  intros HD Hw Ht. destruct t as [dims data]. cbn [tdims] in Ht. subst dims. unfold squeeze. cbn [tdims tdata filter Nat.eqb negb].
  replace (Nat.eqb D 1) with false by (symmetry; now apply Nat.eqb_neq). cbn [negb]. split.
  - unfold twf in *. cbn [tdims tdata prod_dims fold_right] in *. cbn in *. lia.
  - split; [reflexivity|]. intros i j. unfold tget, telts. cbn [tdims tdata].
    assert (E : indices [1; D; D]%nat = map (cons 0%nat) (indices [D; D])) by (cbn [indices seq flat_map]; apply app_nil_r).
    rewrite E. generalize (indices [D; D]). intros l. revert data Hw. clear. intros data _. revert data.
    induction l as [|x l IH]; intros [|y data]; cbn [map combine]; try reflexivity. cbn [dget].
    destruct (eq_dec [i; j] x) as [<- |Hn].
    + destruct (eq_dec [0; i; j]%nat [0; i; j]%nat); [reflexivity | congruence].
    + destruct (eq_dec [0; i; j]%nat (0%nat :: x)); [congruence|]. apply IH.
Qed.
(** a bond matrix [t] describes the list of elements with a leading index of one value *)
Lemma import_bonds (D : nat) pg data pre l : D <> 1%nat -> is_table data pre l ->
  Forall (fun n => Forall (fun e => eval_ (l_val e) <> None) (n_elems n)) l ->
  (match pg with None => True | Some _ => Forall (fun n => lookup (txt "pg") (n_fields n) <> None) l end) ->
  let sel := match pg with None => fun _ => true | Some g => of_group g end in
  (forall n, In n l -> sel n = true -> exists p, positions from_zero [1; D; D]%nat (n_elems n) p) ->
  exists r, import_sym_bonds eval_ zero D pg data = Ok r /\
    Forall2 (fun n x => tdims (snd x) = [D; D] /\ exists t, tensor_of eval_ zero from_zero [1; D; D]%nat n (fst x, t) /\
       forall i j, tget (snd x) [i; j] = tget t [0; i; j]%nat) (filter sel l) r.
Proof.
  intros HD HT HV Hpg sel HP. unfold import_sym_bonds.
  apply (import_gen _ _ _ sel _ data pre l HT HV). intros n m es Hin Hn. split.
  - subst sel. destruct pg as [g|]; [|reflexivity]. rewrite Forall_forall in Hpg. apply sel_group with es; auto.
  - intros Hs. destruct (HP n Hin Hs) as [p Hp]. destruct (fill_entry from_zero [1; D; D]%nat n m es p Hn Hp) as (t & E & Ht).
    cbn [fill_of] in E. rewrite E. cbn [bind]. eexists. split; [reflexivity|]. cbn [fst snd].
    assert (Q := Ht). destruct Q as (_ & l0 & vs & _ & _ & (Hw & Hd & _)). cbn [snd] in Hw, Hd.
    destruct (squeeze_spec D t HD Hw Hd) as (_ & H2 & H3). split; [exact H2|]. exists t. split; [exact Ht | exact H3].
Qed.
Lemma import_missing fill dims pg data pre l : is_table data pre l -> Forall (fun n => Forall (fun e => eval_ (l_val e) <> None) (n_elems n)) l ->
  (exists n l', l = n :: l' /\ lookup (txt "pg") (n_fields n) = None) -> import_with eval_ zero fill dims (has_pg pg) data = Err KeyError.
Proof.
  intros HT HV (n & l' & -> & Hk). destruct (parse_table data pre _ HT HV) as (rs & E & HE).
  unfold import_with. rewrite E. cbn [bind]. inversion HE as [|? [m es] ? ? [Hn _] ?]; subst. cbn [foldM fst snd].
  pose proof (Hn (txt "pg")) as Hk'. cbn [fst] in Hk'. unfold has_pg, dget_exn. rewrite Hk', Hk. reflexivity.
Qed.
End Table.
