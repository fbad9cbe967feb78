From Coq Require Import Reals Lra Lia.
From Verif Require Import Base BaseLemmas Lattice Ctm Conv ConvSpec.
Open Scope R_scope.
Open Scope res_scope.
Open Scope list_scope.

(** ** sorting *)
Lemma sort_desc_id l : (forall i j, (i <= j < length l)%nat -> nth j l 0 <= nth i l 0) -> sort_desc l = l.
Proof.
  induction l as [|x l IH]; intros H; [reflexivity|].
  cbn [sort_desc fold_right]. fold (sort_desc l). rewrite IH.
  - destruct l as [|y l]; [reflexivity|]. cbn [insert_desc].
    destruct (Rle_dec y x) as [|n]; [reflexivity|]. exfalso. apply n. apply (H 0%nat 1%nat). cbn. lia.
  - intros i j Hij. apply (H (S i) (S j)). cbn. lia.
Qed.

(** ** distances *)
Lemma nth_map_0 (f : R -> R) l i : f 0 = 0 -> nth i (map f l) 0 = f (nth i l 0).
Proof. intros E. rewrite <- E at 1. apply map_nth. Qed.

Lemma sumR_app a b : sumR (a ++ b) = sumR a + sumR b.
Proof. unfold sumR. induction a as [|x a IH]; cbn; [lra|]. rewrite IH. lra. Qed.

Lemma dist2_S a b n : dist2 a b (S n) = (a 0%nat - b 0%nat) * (a 0%nat - b 0%nat) + dist2 (fun i => a (S i)) (fun i => b (S i)) n.
Proof. unfold dist2. cbn [seq map fold_right]. f_equal. rewrite <- seq_shift, map_map. reflexivity. Qed.

Lemma dist2_nil_l s : dist2 (fun _ => 0) (fun i => nth i s 0) (length s) = sumR (map sq s).
Proof. induction s as [|x s IH]; [reflexivity|]. cbn [length]. rewrite dist2_S. cbn [nth map sumR fold_right].
  rewrite IH. unfold sumR, sq. lra. Qed.
Lemma dist2_nil_r s : dist2 (fun i => nth i s 0) (fun _ => 0) (length s) = sumR (map sq s).
Proof. induction s as [|x s IH]; [reflexivity|]. cbn [length]. rewrite dist2_S. cbn [nth map sumR fold_right].
  rewrite IH. unfold sumR, sq. lra. Qed.
Lemma dist2_ext a a' b b' n : (forall i, a i = a' i) -> (forall i, b i = b' i) -> dist2 a b n = dist2 a' b' n.
Proof. intros H1 H2. unfold dist2. f_equal. apply map_ext. intros i. rewrite H1, H2. reflexivity. Qed.

Fixpoint dl (s1 s2 : list R) : R :=
  match s1, s2 with
  | [], s => sumR (map sq s)
  | s, [] => sumR (map sq s)
  | x :: s1', y :: s2' => (x - y) * (x - y) + dl s1' s2'
  end.
Lemma dl_nil_r s : dl s [] = sumR (map sq s).
Proof. destruct s; reflexivity. Qed.
Lemma dl_dist2 s1 : forall s2, dl s1 s2 = dist2 (fun i => nth i s1 0) (fun i => nth i s2 0) (Nat.max (length s1) (length s2)).
Proof.
  induction s1 as [|x s1 IH]; intros s2.
  - cbn [dl length Nat.max]. rewrite <- dist2_nil_l. apply dist2_ext; intros [|i]; reflexivity.
  - destruct s2 as [|y s2].
    + rewrite dl_nil_r, <- dist2_nil_r. rewrite Nat.max_0_r. apply dist2_ext; intros [|i]; reflexivity.
    + cbn [dl length]. rewrite IH. cbn [Nat.max]. rewrite dist2_S. reflexivity.
Qed.
Lemma diff_spec_dl s1 : forall s2, diff_spec s1 s2 = dl s1 s2.
Proof.
  induction s1 as [|x s1 IH]; intros s2.
  - destruct s2 as [|y s2]; unfold diff_spec; cbn -[sumR sq]; [cbn; lra|].
    change (sumR []) with 0. lra.
  - destruct s2 as [|y s2].
    + unfold diff_spec. cbn -[sumR sq]. change (sumR []) with 0. lra.
    + specialize (IH s2). unfold diff_spec in *. cbn [dl length Nat.eqb]. 
      change (Nat.ltb (S (length s1)) (S (length s2))) with (Nat.ltb (length s1) (length s2)).
      destruct (Nat.eqb (length s1) (length s2)); [|destruct (Nat.ltb (length s1) (length s2))];
        cbn [firstn skipn map2 map]; change sumR with (fold_right Rplus 0) in *; cbn [fold_right];
        rewrite <- IH; unfold sq; lra.
Qed.

(** ** maximum *)
Lemma maxR_spec l m : maxR l = Ok m -> In m l /\ forall x, In x l -> x <= m.
Proof.
  destruct l as [|a l]; [discriminate|]. cbn. intros [= <-]. revert a.
  induction l as [|b l IH]; intros a; cbn [fold_left].
  - split; [now left|]. intros x [<-|[]]. lra.
  - destruct (Rlt_dec a b) as [h|h]; destruct (IH (if Rlt_dec a b then b else a)) as [I M].
    + destruct (Rlt_dec a b); [|tauto]. split; [destruct I as [<-|I]; cbn; auto|].
      intros x [<-|Hx]; [|auto]. specialize (M b (or_introl eq_refl)). lra.
    + destruct (Rlt_dec a b); [tauto|]. split; [destruct I as [<-|I]; cbn; auto|].
      intros x [<-|[<-|Hx]]; [apply M; now left| |apply M; now right].
      specialize (M a (or_introl eq_refl)). lra.
Qed.

Section C.
Variable X : Type.
Variable svdvals : X -> list R.
Notation sg := (sigma X svdvals).
Notation cd2 := (corner_dist2 X svdvals).
Notation near' := (near X svdvals).
Notation good := (good_env X svdvals).
Notation check := (conv_specC X svdvals).

(** the recorded spectrum of a corner *)
Definition spec1 (C : X) : list R := map (fun x => x / nth 0 (svdvals C) 0) (svdvals C).
Definition specs (E : dict ckey X) : dict ckey (list R) := map (fun kc : ckey * X => (fst kc, spec1 (snd kc))) E.

Lemma dget_map {V W} (g : V -> W) (E : dict ckey V) k :
  dget (map (fun kc : ckey * V => (fst kc, g (snd kc))) E) k = match dget E k with Some c => Some (g c) | None => None end.
Proof. induction E as [|[k' c] E IH]; [reflexivity|]. cbn. destruct (eq_dec k k'); [reflexivity|]. exact IH. Qed.
Lemma dget_specs E k : dget (specs E) k = match dget E k with Some c => Some (spec1 c) | None => None end.
Proof. apply dget_map. Qed.

Lemma get_spectra_good ks E : good ks E -> get_spectra X svdvals E = Ok (specs E).
Proof.
  intros (_ & ND & _ & HP). unfold get_spectra, specs.
  apply mapM_Ok_map. intros [k c] I. cbn. specialize (HP k c (In_dget _ _ _ ND I)).
  destruct HP as [H0 _]. unfold spec1. destruct (svdvals c) as [|s0 s] eqn:Es; [cbn in H0; lra|]. reflexivity.
Qed.

Lemma spec1_sorted C : proper X svdvals C -> sort_desc (spec1 C) = spec1 C.
Proof.
  intros [H0 H]. apply sort_desc_id. unfold spec1. rewrite map_length. intros i j Hij.
  assert (E0 : 0 / nth 0 (svdvals C) 0 = 0) by (unfold Rdiv; ring).
  rewrite !(nth_map_0 (fun x => x / nth 0 (svdvals C) 0)) by exact E0.
  apply Rmult_le_compat_r; [left; apply Rinv_0_lt_compat; assumption|]. apply H. assumption.
Qed.

Lemma specs_sorted ks E : good ks E -> map (fun kv : ckey * list R => (fst kv, sort_desc (snd kv))) (specs E) = specs E.
Proof.
  intros (_ & ND & _ & HP). unfold specs. rewrite map_map. apply map_ext_in. intros [k c] I. cbn.
  rewrite spec1_sorted; [reflexivity|]. apply (HP k). apply In_dget; assumption.
Qed.

Lemma diff_spec1 C C' : diff_spec (spec1 C) (spec1 C') = cd2 C C'.
Proof.
  rewrite diff_spec_dl, dl_dist2. unfold corner_dist2, width, spec1. rewrite !map_length.
  apply dist2_ext; intros i; unfold sigma; rewrite nth_map_0; try reflexivity; unfold Rdiv; ring.
Qed.

Definition diffs_of (E E' : dict ckey X) : list R :=
  map (fun kc : ckey * X => match dget E (fst kc) with Some C => cd2 (snd kc) C | None => 0 end) E'.

Lemma diffs_good ks E E' : good ks E -> good ks E' ->
  mapM (fun kv : ckey * list R =>
                 s1 <- dget_exn (specs E') (fst kv) ;;
                 s2 <- dget_exn (specs E) (fst kv) ;;
                 Ok (diff_spec s1 s2)) (specs E') = Ok (diffs_of E E').
Proof.
  intros (_ & ND & HK & HP) (_ & ND' & HK' & HP'). unfold specs at 3.
  rewrite (mapM_Ok_map _ (fun kv => match dget E (fst kv) with
     | Some C => match dget E' (fst kv) with Some C' => cd2 C' C | None => 0 end | None => 0 end)).
  - f_equal. rewrite map_map. unfold diffs_of. apply map_ext_in. intros [k c] I. cbn.
    rewrite (In_dget _ _ _ ND' I). destruct (dget E k); reflexivity.
  - intros [k s] I. apply in_map_iff in I. destruct I as ([k1 c] & [= <- <-] & I). cbn [fst].
    unfold dget_exn. rewrite !dget_specs. rewrite (In_dget _ _ _ ND' I). cbn [bind].
    assert (Hk : In k1 (dkeys E)) by (apply HK, HK'; apply (in_map fst) in I; exact I).
    apply dget_Some_key in Hk. destruct Hk as [C ->]. cbn [bind]. rewrite diff_spec1. reflexivity.
Qed.

Definition crit_of (p : pnorm) (E E' : dict ckey X) : option R :=
  match p with
  | Pfro => Some (sqrt (sumR (diffs_of E E')))
  | Pinf => match maxR (diffs_of E E') with Ok m => Some (sqrt m) | _ => None end
  | Pother => None
  end.
Definition small (tol : R) (c : option R) : bool :=
  match c with Some c => if Rlt_dec c tol then true else false | None => false end.

Lemma dist2_nonneg a b n : 0 <= dist2 a b n.
Proof. unfold dist2. induction (seq 0 n) as [|i l IH]; cbn; [lra|]. pose proof (Rle_0_sqr (a i - b i)). unfold Rsqr in *. lra. Qed.

Lemma small_near ks p tol E E' : good ks E -> good ks E' -> (small tol (crit_of p E E') = true <-> near' p tol E E').
Proof.
  intros (Hne & ND & HK & HP) (_ & ND' & HK' & HP'). destruct p; cbn [crit_of near].
  - cbn. unfold diffs_of, sumR. destruct (Rlt_dec _ _); split; (discriminate || tauto).
  - destruct (maxR (diffs_of E E')) as [m|er] eqn:Em.
    + apply maxR_spec in Em. destruct Em as [I M]. cbn. unfold diffs_of in I. apply in_map_iff in I.
      destruct I as ([k C'] & Em & I). cbn in Em.
      assert (Hk : In k (dkeys E)) by (apply HK, HK'; apply (in_map fst) in I; exact I).
      apply dget_Some_key in Hk. destruct Hk as [C HC]. rewrite HC in Em.
      split.
      * destruct (Rlt_dec (sqrt m) tol) as [h|]; [|discriminate]. intros _ k2 C2 C2' G G'.
        assert (cd2 C2' C2 <= m).
        { apply M. unfold diffs_of. apply in_map_iff. exists (k2, C2'). cbn. rewrite G. split; [reflexivity|].
          apply dget_In. assumption. }
        eapply Rle_lt_trans; [apply sqrt_le_1; [apply dist2_nonneg| |eassumption]|assumption].
        rewrite <- Em. apply dist2_nonneg.
      * intros H. destruct (Rlt_dec (sqrt m) tol) as [|h]; [reflexivity|]. exfalso. apply h. rewrite <- Em.
        apply (H k); [assumption|]. apply In_dget; assumption.
    + exfalso. unfold maxR, diffs_of in Em. destruct E' as [|[k c] E']; [|discriminate].
      destruct ks as [|k ks]; [tauto|]. exact (proj2 (HK' k) (or_introl eq_refl)).
  - cbn. split; [discriminate|tauto].
Qed.

(** histories produced by the check itself *)
Record hist_ok (es : list (dict ckey X)) (h : hist) : Prop := {
  ho_spec : h_spec h = map specs es;
  ho_diffs : length (h_diffs h) = length es;
  ho_crit : length (h_crit h) = length es }.

Lemma check_step ks p tol mx es E h : hist_ok es h -> (forall F, In F es -> good ks F) -> good ks E ->
  exists b h', check p tol mx E (Some h) = Ok (b, h') /\ hist_ok (es ++ [E]) h' /\
    (b = true <-> (exists E0, nth_error es (length es - 1) = Some E0 /\ near' p tol E0 E) \/ (mx <= Z.of_nat (S (length es)))%Z).
Proof.
  intros [H1 H2 H3] HG GE. unfold conv_specC. rewrite (get_spectra_good ks E GE). cbn [bind].
  rewrite (specs_sorted ks E GE).
  assert (HL : forall d c, hist_ok (es ++ [E]) (mkHist (h_spec h ++ [specs E]) (h_diffs h ++ [d]) (h_crit h ++ [c]))).
  { intros d c. split; cbn; rewrite ?app_length, ?H1, ?H2, ?H3, ?map_app; reflexivity. }
  destruct es as [|F0 es'] using rev_ind.
  - specialize (HL None None). rewrite H1 in *. cbn [map bind app]. eexists _, _. split; [reflexivity|]. split; [exact HL|].
    cbn [h_diffs]. rewrite app_length, H2. cbn [length Nat.add Nat.ltb Nat.leb andb orb nth_error Nat.sub].
    rewrite Z.leb_le. split; [auto|]. intros [(E0 & A & _)|]; [discriminate|assumption].
  - clear IHes'. assert (GF : good ks F0) by (apply HG, in_or_app; right; now left).
    rewrite H1, map_app. cbn [map].
    assert (LS : exists s l, map specs es' ++ [specs F0] = s :: l /\ last l s = specs F0).
    { destruct es' as [|G es']; [exists (specs F0), []; auto|].
      exists (specs G), (map specs es' ++ [specs F0]). split; [reflexivity|]. apply last_last. }
    destruct LS as (s & l & Esl & Els). rewrite Esl, Els. rewrite (diffs_good ks F0 E GF GE). cbn [bind].
    assert (HD : length (h_diffs h) = S (length es')) by (rewrite H2, app_length; cbn; lia).
    assert (HN : nth_error (es' ++ [F0]) (length (es' ++ [F0]) - 1) = Some F0).
    { rewrite app_length. cbn [length]. rewrite nth_error_app2 by lia.
      replace (length es' + 1 - 1 - length es')%nat with 0%nat by lia. reflexivity. }
    assert (HB : forall h', length (h_diffs h') = S (S (length es')) ->
      (Nat.ltb 1 (length (h_diffs h')) && small tol (crit_of p F0 E) || (mx <=? Z.of_nat (length (h_diffs h')))%Z = true <->
      (exists E0, nth_error (es' ++ [F0]) (length (es' ++ [F0]) - 1) = Some E0 /\ near' p tol E0 E) \/
        (mx <= Z.of_nat (S (length (es' ++ [F0]))))%Z)).
    { intros h' ->. cbn [Nat.ltb Nat.leb andb]. rewrite orb_true_iff, Z.leb_le, (small_near ks p tol F0 E GF GE).
      rewrite HN, app_length. cbn [length]. replace (S (length es' + 1)) with (S (S (length es'))) by lia.
      split; (intros [A|A]; [left|right; assumption]); [exists F0; auto|].
      destruct A as (E0 & [= <-] & A). exact A. }
    assert (HQ : match p with
      | Pfro => Ok (Some (diffs_of F0 E), Some (sqrt (sumR (diffs_of F0 E))))
      | Pinf => m <- maxR (diffs_of F0 E) ;; Ok (Some (diffs_of F0 E), Some (sqrt m))
      | Pother => Ok (Some (diffs_of F0 E), None) end = Ok (Some (diffs_of F0 E), crit_of p F0 E)).
    { destruct p; cbn; try reflexivity. destruct (maxR (diffs_of F0 E)) as [m|er] eqn:Em; [reflexivity|]. exfalso.
      unfold maxR, diffs_of in Em. destruct E as [|[k c] E']; [|discriminate].
      destruct GE as (Hne & _ & HK' & _). destruct ks as [|k ks]; [tauto|]. exact (proj2 (HK' k) (or_introl eq_refl)). }
    rewrite HQ. cbn [bind].
    specialize (HL (Some (diffs_of F0 E)) (crit_of p F0 E)). rewrite H1, map_app in HL. cbn [map] in HL. rewrite Esl in HL.
    match type of HL with hist_ok _ ?g => specialize (HB g) end.
    eexists _, _. split; [reflexivity|].
    split; [exact HL|]. apply HB. cbn [h_diffs]. rewrite app_length, HD. cbn. lia.
Qed.

(** the check called once per iteration, threading the history *)
Definition calls (p : pnorm) (tol : R) (mx : Z) (es : list (dict ckey X)) : res (option (bool * hist)) :=
  foldM (fun r E => bh <- check p tol mx E (match r with Some (_, h) => Some h | None => None end) ;; Ok (Some bh)) es None.

Lemma check_None p tol mx E : check p tol mx E None = check p tol mx E (Some (mkHist [] [] [])).
Proof. reflexivity. Qed.

Lemma calls_spec ks p tol mx es E : (forall F, In F (es ++ [E]) -> good ks F) ->
  exists b h, calls p tol mx (es ++ [E]) = Ok (Some (b, h)) /\ hist_ok (es ++ [E]) h /\
    (b = true <-> (exists E0, nth_error es (length es - 1) = Some E0 /\ near' p tol E0 E) \/ (mx <= Z.of_nat (S (length es)))%Z).
Proof.
  revert E. induction es as [|F es IH] using rev_ind; intros E HG.
  - destruct (check_step ks p tol mx [] E (mkHist [] [] [])) as (b & h & A & B & C).
    + split; reflexivity. + intros F []. + apply HG. now left.
    + exists b, h. split; [|split; assumption]. unfold calls. cbn [app foldM]. rewrite check_None, A. reflexivity.
  - destruct (IH F) as (b0 & h0 & A0 & B0 & _). { intros G I. apply HG. apply in_or_app. now left. }
    destruct (check_step ks p tol mx (es ++ [F]) E h0 B0) as (b & h & A & B & C).
    + intros G I. apply HG. apply in_or_app. now left.
    + apply HG. apply in_or_app. right. now left.
    + exists b, h. split; [|split; assumption]. unfold calls in *. rewrite foldM_app, A0. cbn [bind foldM].
      rewrite A. reflexivity.
Qed.
End C.

(** the two-norm is below the tolerance times the number of corners' root only; a witness
    that the default criterion may accept what the two-norm rejects *)
Definition w_svd (b : bool) : list R := if b then [1; 1/2] else [1].
Definition w_k1 : ckey := ((0, 0), (1, 1))%Z.
Definition w_k2 : ckey := ((0, 0), (1, -1))%Z.
Definition w_E1 : dict ckey bool := [(w_k1, true); (w_k2, true)].
Definition w_E2 : dict ckey bool := [(w_k1, false); (w_k2, false)].
Lemma w_good1 : good_env bool w_svd [w_k1; w_k2] w_E1.
Proof.
  split; [discriminate|]. split; [repeat constructor; cbn; intuition discriminate|]. split; [reflexivity|].
  intros k C HG. apply dget_In in HG. destruct HG as [[= _ <-]|[[= _ <-]|[]]];
  (split; [cbn; lra|]; intros [|[|i]] [|[|j]]; cbn; intros; lra || lia).
Qed.
Lemma w_good2 : good_env bool w_svd [w_k1; w_k2] w_E2.
Proof.
  split; [discriminate|]. split; [repeat constructor; cbn; intuition discriminate|]. split; [reflexivity|].
  intros k C HG. apply dget_In in HG. destruct HG as [[= _ <-]|[[= _ <-]|[]]];
  (split; [cbn; lra|]; intros [|i] [|j]; cbn; intros; lra || lia).
Qed.
Lemma w_dist : corner_dist2 bool w_svd false true = 1 / 4.
Proof. unfold corner_dist2, dist2, width, sigma. cbn. field. Qed.
Lemma sqrt_quarter : sqrt (1 / 4) = 1 / 2.
Proof. replace (1 / 4) with (1 / 2 * (1 / 2)) by field. apply sqrt_square. lra. Qed.
Lemma w_near : near bool w_svd Pinf (6 / 10) w_E1 w_E2.
Proof.
  intros k C C' H1 H2. apply dget_In in H1, H2.
  assert (C = true) as -> by (destruct H1 as [[= _ <-]|[[= _ <-]|[]]]; reflexivity).
  assert (C' = false) as -> by (destruct H2 as [[= _ <-]|[[= _ <-]|[]]]; reflexivity).
  rewrite w_dist, sqrt_quarter. lra.
Qed.
Lemma w_not_near : ~ near bool w_svd Pfro (6 / 10) w_E1 w_E2.
Proof.
  unfold near, w_E1, w_E2. cbn [map fold_right fst snd].
  change (dget _ w_k1) with (Some true). change (dget _ w_k2) with (Some true). cbv iota.
  rewrite w_dist. intros H. assert (6 / 10 <= sqrt (1 / 4 + (1 / 4 + 0))); [|lra].
  replace (6 / 10) with (sqrt (6 / 10 * (6 / 10))) by (apply sqrt_square; lra). apply sqrt_le_1; lra.
Qed.
Lemma calls_default_refuted : exists (X : Type) (svdvals : X -> list R) ks tol E1 E2 h,
  good_env X svdvals ks E1 /\ good_env X svdvals ks E2 /\
  calls X svdvals Pinf tol 50 [E1; E2] = Ok (Some (true, h)) /\ ~ near X svdvals Pfro tol E1 E2.
Proof.
  destruct (calls_spec bool w_svd [w_k1; w_k2] Pinf (6 / 10) 50 [w_E1] w_E2) as (b & h & A & _ & B).
  { intros F [<-|[<-|[]]]; [exact w_good1|exact w_good2]. }
  assert (b = true) as -> by (apply B; left; exists w_E1; split; [reflexivity|exact w_near]).
  exists bool, w_svd, [w_k1; w_k2], (6 / 10), w_E1, w_E2, h. 
  split; [exact w_good1|]. split; [exact w_good2|]. split; [exact A|exact w_not_near].
Qed.

Lemma calls_converged : forall X svdvals ks p tol mx es E,
  (forall F, In F (es ++ [E]) -> good_env X svdvals ks F) ->
  exists b h, calls X svdvals p tol mx (es ++ [E]) = Ok (Some (b, h)) /\
    length (h_spec h) = S (length es) /\ length (h_diffs h) = S (length es) /\ length (h_crit h) = S (length es) /\
    (b = true <-> (exists E0, nth_error es (length es - 1) = Some E0 /\ near X svdvals p tol E0 E) \/
                  (mx <= Z.of_nat (S (length es)))%Z).
Proof.
  intros X s ks p tol mx es E H. destruct (calls_spec X s ks p tol mx es E H) as (b & h & A & [B1 B2 B3] & C).
  exists b, h. split; [exact A|]. rewrite B1, map_length, B2, B3, app_length, PeanoNat.Nat.add_1_r.
  split; [reflexivity|]. split; [reflexivity|]. split; [reflexivity|]. exact C.
Qed.
