(** Growing a strip site by site, and closing it. *)
From Verif Require Import Base BaseLemmas Lattice Tensor TensorLemmas Net NetSpec NetProofs NetProofs2 NetProofs3 Corners CornersSpec CornersProofs Rdm RdmSpec RdmProofs Corr CorrSpec CorrProofs CorrProofs2 CorrProofs3.
From Verif Require Ctm.
From Coq Require Import Ring ArithRing Permutation.
Open Scope list_scope.
Open Scope nat_scope.
Open Scope res_scope.

Section P.
Context {K : Type} (z o : K) (add mul : K -> K -> K) (cj : K -> K).
Hypothesis SR : semi_ring_theory z o add mul eq.
Notation ten := (tensor K).
Notation network := (@network K).
Variables (st : ipeps ten) (e : Ctm.envt ten) (As : coord -> ten) (Cs Ts : coord -> coord -> ten).
Hypothesis HS : sees st e As Cs Ts.
Notation TM := (apply_TM_1sO z o add mul cj st e).
Notation col := (col_net cj As Ts).
Notation edge := (edge_net Cs Ts).
Notation GE := (get_edge z o add mul st e).
Notation AE := (apply_edge z o add mul st e).
Variable D : nat -> nat.
Notation isc := (is_contraction D z o add mul).

(** one step, anywhere *)
Lemma Df_shift b k : Df D (sh b) k = D (b + k).
Proof. reflexivity. Qed.
Lemma ren_cons f (E : ten) ts (N : network) : rnet f ((E, ts) :: N) = (E, map (rleg f) ts) :: rnet f N.
Proof. reflexivity. Qed.
Lemma ren_app f (N N' : network) : rnet f (N ++ N') = rnet f N ++ rnet f N'.
Proof. unfold rnet. apply map_app. Qed.
Lemma at_b (local : network) (b : nat) out (m : res ten) :
  (fits (Df D (sh b)) local -> exists M, m = Ok M /\ is_contraction (Df D (sh b)) z o add mul local out M) ->
  fits D (rnet (sh b) local) -> exists M, m = Ok M /\ isc (rnet (sh b) local) (map (rleg (sh b)) out) M.
Proof. intros H HF. destruct (H (fits_ren D (sh b) local HF)) as (M & E & HI). exists M. split; [exact E|].
  exact (isc_ren z o add mul SR D (sh b) (sh_inj b) _ _ _ HI). Qed.
Lemma step_none d v b E : fits D ((E, rim b) :: col d v b false) ->
  exists M, TM v (dvec d) E None = Ok M /\ isc ((E, rim b) :: col d v b false) (rim (b + 16)) M.
Proof. intros HF. assert (X := at_b _ b _ _ (tm_none z o add mul cj SR st e As Cs Ts HS (Df D (sh b)) d v E)).
  rewrite ren_cons, !rim_sh, col_sh, Nat.add_0_r in X. exact (X HF). Qed.
Lemma step_op d v b E m : fits D (((E, rim b) :: col d v b true) ++ [(m, [V (b + 8); V (b + 9)])]) ->
  exists M, TM v (dvec d) E (Some m) = Ok M /\ isc (((E, rim b) :: col d v b true) ++ [(m, [V (b + 8); V (b + 9)])]) (rim (b + 16)) M.
Proof. intros HF. assert (X := at_b _ b _ _ (tm_op z o add mul cj SR st e As Cs Ts HS (Df D (sh b)) d v E m)).
  rewrite ren_app, ren_cons, !rim_sh, col_sh, Nat.add_0_r in X. exact (X HF). Qed.
Lemma step_opl d v b E m : (forall k, D k <> 0) -> fits D (((E, rim b) :: col d v b true) ++ [(m, [V (b + 8); V (b + 9); V (b + 28)])]) ->
  exists M, TM v (dvec d) E (Some m) = Ok M /\ isc (((E, rim b) :: col d v b true) ++ [(m, [V (b + 8); V (b + 9); V (b + 28)])]) (rim (b + 16) ++ [V (b + 28)]) M.
Proof. intros HD HF. assert (X := at_b _ b _ _ (tm_opl z o add mul cj SR st e As Cs Ts HS (Df D (sh b)) (fun k => HD _) d v E m)).
  rewrite ren_app, ren_cons, map_app, !rim_sh, col_sh, Nat.add_0_r in X. exact (X HF). Qed.
Lemma step_opr d v b E m : (forall k, D k <> 0) -> fits D (((E, rim b ++ [V (b + 12)]) :: col d v b true) ++ [(m, [V (b + 8); V (b + 9); V (b + 12)])]) ->
  exists M, TM v (dvec d) E (Some m) = Ok M /\ isc (((E, rim b ++ [V (b + 12)]) :: col d v b true) ++ [(m, [V (b + 8); V (b + 9); V (b + 12)])]) (rim (b + 16)) M.
Proof. intros HD HF. assert (X := at_b _ b _ _ (tm_opr z o add mul cj SR st e As Cs Ts HS (Df D (sh b)) (fun k => HD _) d v E m)).
  rewrite ren_app, ren_cons, map_app, !rim_sh, col_sh, Nat.add_0_r in X. exact (X HF). Qed.
Lemma step_last d v b X : fits D ((X, rim b) :: edge d v b (b + 10)) ->
  exists M, AE v (dvec d) X = Ok M /\ isc ((X, rim b) :: edge d v b (b + 10)) [] M.
Proof. intros HF. assert (Y := at_b _ b _ _ (last_ok z o add mul cj SR st e As Cs Ts HS (Df D (sh b)) d v X)).
  rewrite ren_cons, !rim_sh, edge_sh, Nat.add_0_r in Y. exact (Y HF). Qed.
Lemma step_last_given b X R : fits D [(X, rim b); (R, rim b)] ->
  exists M, tensordot z o add mul X R [0; 1; 2] [0; 1; 2] = Ok M /\ isc [(X, rim b); (R, rim b)] [] M.
Proof. intros HF. assert (Y := at_b _ b _ _ (last_given_ok z o add mul SR (Df D (sh b)) X R)).
  cbn [rnet map fst snd] in Y. rewrite !rim_sh, Nat.add_0_r in Y. exact (Y HF). Qed.

(** networks whose bonds are numbered below b, except for the open ones *)
Definition below (b : nat) (out : list leg) (N : network) : Prop :=
  (forall l, In l (nvars N) -> l < b \/ In l (flat_map bonds out)) /\ incl (flat_map bonds out) (nvars N).
Definition holds (b : nat) (out : list leg) (N : network) (E : ten) : Prop := isc N out E /\ below b out N.
Lemma holds_fits b out N E : holds b out N E -> twf E /\ tdims E = map (ldim D) out.
Proof. intros [(W & Hd & _) _]. split; assumption. Qed.
(** joining R, whose bonds are numbered from b on *)
Lemma holds_join b out N E R out' b' M : holds b out N E -> isc ((E, out) :: R) out' M ->
  (forall l, In l (nvars R) -> b <= l) -> (forall l, In l (flat_map bonds out') -> b <= l) ->
  (forall l, In l (nvars ((E, out) :: R)) -> l < b' \/ In l (flat_map bonds out')) -> incl (flat_map bonds out') (nvars R) -> b <= b' ->
  holds b' out' (N ++ R) M.
Proof. intros [HN [HB HI]] HM HR HO HB' HI' Hle. split.
  - apply (isc_sub z o add mul SR D N R out out' E); [exact HN|exact HM|exact HI|].
    intros l Hl. apply In_inner in Hl. destruct Hl as [Hl Hn]. destruct (HB l Hl) as [H|H]; [|contradiction].
    split; intros X; [apply HR in X|apply HO in X]; lia.
  - split.
    + intros l Hl. rewrite nvars_app in Hl. apply in_app_iff in Hl. destruct Hl as [Hl|Hl].
      * destruct (HB l Hl) as [H|H]; [left; lia|]. apply HB'. unfold nvars. cbn. apply in_app_iff. now left.
      * apply HB'. unfold nvars. cbn. apply in_app_iff. now right.
    + intros l Hl. rewrite nvars_app. apply in_app_iff. right. now apply HI'. Qed.

Ltac in_cases H := cbn in H; repeat (destruct H as [H|H]; [subst; try lia|]); try contradiction H.
Lemma col_low d v b op l : In l (nvars (col d v b op)) -> b <= l /\ (l < b + 16 \/ In l (flat_map bonds (rim (b + 16)))).
Proof. destruct d, op; cbn; intros H; repeat (destruct H as [<-|H]; [split; [lia|]; first [left; lia|right; lia] |]); contradiction H. Qed.
Lemma rim_low b l : In l (flat_map bonds (rim b)) -> b <= l < b + 16.
Proof. cbn. lia. Qed.
Lemma col_rim d v b op : incl (flat_map bonds (rim (b + 16))) (nvars (col d v b op)).
Proof. intros l Hl. destruct d, op; cbn in *; lia. Qed.
Lemma base_S i : base (S i) = base i + 16.
Proof. unfold base. lia. Qed.

Notation good n := (holds (base n) (rim (base n))).
Lemma fits_cons (E : ten) ts N : fits D ((E, ts) :: N) <-> (twf E /\ tdims E = map (ldim D) ts) /\ fits D N.
Proof. unfold fits. apply Forall_cons_iff. Qed.
Lemma grow d v n N E : good n N E -> fits D (col d v (base n) false) ->
  exists M, TM v (dvec d) E None = Ok M /\ good (S n) (N ++ col d v (base n) false) M.
Proof. intros HG HF. destruct (step_none d v (base n) E) as (M & EM & HM).
  { apply fits_cons. split; [exact (holds_fits _ _ _ _ HG)|exact HF]. }
  exists M. split; [exact EM|]. rewrite base_S. eapply holds_join; [exact HG|exact HM| | | | |lia].
  - intros l Hl. now apply col_low in Hl.
  - intros l Hl. apply rim_low in Hl. lia.
  - intros l Hl. unfold nvars in Hl. cbn [flat_map snd] in Hl. apply in_app_iff in Hl. destruct Hl as [Hl|Hl].
    + left. apply rim_low in Hl. lia.
    + apply col_low in Hl. tauto.
  - apply col_rim. Qed.
Lemma grow_op d v n N E m : good n N E -> fits D (col d v (base n) true) -> fits D [(m, [V (ketb n); V (brab n)])] ->
  exists M, TM v (dvec d) E (Some m) = Ok M /\ good (S n) (N ++ col d v (base n) true ++ [(m, [V (ketb n); V (brab n)])]) M.
Proof. intros HG HF Hm. destruct (step_op d v (base n) E m) as (M & EM & HM).
  { apply fits_app. split; [|exact Hm]. apply fits_cons. split; [exact (holds_fits _ _ _ _ HG)|exact HF]. }
  exists M. split; [exact EM|]. rewrite base_S.
  assert (HR : forall l, In l (nvars (col d v (base n) true ++ [(m, [V (ketb n); V (brab n)])])) -> base n <= l /\ (l < base n + 16 \/ In l (flat_map bonds (rim (base n + 16))))).
  { intros l Hl. rewrite nvars_app in Hl. apply in_app_iff in Hl. destruct Hl as [Hl|Hl]; [now apply col_low in Hl|].
    cbn [nvars flat_map snd bonds app] in Hl. unfold ketb, brab in Hl. destruct Hl as [<-|[<-|[]]]; (split; [lia|left; lia]). }
  eapply holds_join; [exact HG|exact HM| | | | |lia].
  - intros l Hl. now apply HR in Hl.
  - intros l Hl. apply rim_low in Hl. lia.
  - intros l Hl. unfold nvars in Hl. cbn [flat_map snd] in Hl. apply in_app_iff in Hl. destruct Hl as [Hl|Hl].
    + left. apply rim_low in Hl. lia.
    + apply HR in Hl. tauto.
  - intros l Hl. rewrite nvars_app. apply in_app_iff. left. now apply col_rim. Qed.

(** the two halves of a two-site operator *)
Definition mbond (n : nat) : nat := base n + 12.
Lemma grow_opl d v n N E m : (forall k, D k <> 0) -> good n N E -> fits D (col d v (base n) true) -> fits D [(m, [V (ketb n); V (brab n); V (mbond (S n))])] ->
  exists M, TM v (dvec d) E (Some m) = Ok M /\ holds (base (S n)) (rim (base (S n)) ++ [V (mbond (S n))]) (N ++ col d v (base n) true ++ [(m, [V (ketb n); V (brab n); V (mbond (S n))])]) M.
Proof. intros HD HG HF Hm. assert (EB : mbond (S n) = base n + 28) by (unfold mbond; rewrite base_S; lia).
  rewrite EB in *. destruct (step_opl d v (base n) E m HD) as (M & EM & HM).
  { apply fits_app. split; [|exact Hm]. apply fits_cons. split; [exact (holds_fits _ _ _ _ HG)|exact HF]. }
  exists M. split; [exact EM|]. rewrite base_S.
  assert (HR : forall l, In l (nvars (col d v (base n) true ++ [(m, [V (ketb n); V (brab n); V (base n + 28)])])) -> base n <= l /\ (l < base n + 16 \/ In l (flat_map bonds (rim (base n + 16) ++ [V (base n + 28)])))).
  { intros l Hl. rewrite nvars_app in Hl. rewrite flat_map_app, in_app_iff. apply in_app_iff in Hl. destruct Hl as [Hl|Hl]; [apply col_low in Hl; tauto|].
    cbn [nvars flat_map snd bonds app] in Hl. unfold ketb, brab in Hl. destruct Hl as [<-|[<-|[<-|[]]]]; (split; [lia|]); [left; lia|left; lia|right; right; now left]. }
  eapply holds_join; [exact HG|exact HM| | | | |lia].
  - intros l Hl. now apply HR in Hl.
  - intros l Hl. rewrite flat_map_app in Hl. apply in_app_iff in Hl. destruct Hl as [Hl|[<-|[]]]; [apply rim_low in Hl; lia|lia].
  - intros l Hl. unfold nvars in Hl. cbn [flat_map snd] in Hl. apply in_app_iff in Hl. destruct Hl as [Hl|Hl].
    + left. apply rim_low in Hl. lia.
    + apply HR in Hl. tauto.
  - intros l Hl. rewrite nvars_app. rewrite flat_map_app in Hl. apply in_app_iff in Hl. apply in_app_iff. destruct Hl as [Hl|Hl]; [left; now apply (col_rim d v (base n) true)|right].
    cbn in *. tauto. Qed.
Lemma grow_opr d v n N E m : (forall k, D k <> 0) -> holds (base n) (rim (base n) ++ [V (mbond n)]) N E -> fits D (col d v (base n) true) -> fits D [(m, [V (ketb n); V (brab n); V (mbond n)])] ->
  exists M, TM v (dvec d) E (Some m) = Ok M /\ good (S n) (N ++ col d v (base n) true ++ [(m, [V (ketb n); V (brab n); V (mbond n)])]) M.
Proof. intros HD HG HF Hm. destruct (step_opr d v (base n) E m HD) as (M & EM & HM).
  { apply fits_app. split; [|exact Hm]. apply fits_cons. split; [exact (holds_fits _ _ _ _ HG)|exact HF]. }
  exists M. split; [exact EM|]. rewrite base_S.
  assert (HR : forall l, In l (nvars (col d v (base n) true ++ [(m, [V (ketb n); V (brab n); V (mbond n)])])) -> base n <= l /\ (l < base n + 16 \/ In l (flat_map bonds (rim (base n + 16))))).
  { intros l Hl. rewrite nvars_app in Hl. apply in_app_iff in Hl. destruct Hl as [Hl|Hl]; [now apply col_low in Hl|].
    cbn [nvars flat_map snd bonds app] in Hl. unfold ketb, brab, mbond in Hl. destruct Hl as [<-|[<-|[<-|[]]]]; (split; [lia|left; lia]). }
  eapply holds_join; [exact HG|exact HM| | | | |lia].
  - intros l Hl. now apply HR in Hl.
  - intros l Hl. apply rim_low in Hl. lia.
  - intros l Hl. unfold nvars in Hl. cbn [flat_map snd] in Hl. apply in_app_iff in Hl. destruct Hl as [Hl|Hl].
    + rewrite flat_map_app in Hl. apply in_app_iff in Hl. left. destruct Hl as [Hl|[<-|[]]]; [apply rim_low in Hl; lia|unfold mbond; lia].
    + apply HR in Hl. tauto.
  - intros l Hl. rewrite nvars_app. apply in_app_iff. left. now apply col_rim. Qed.

(** closing a strip *)
Lemma last_low d v b l : In l (nvars (edge d v b (b + 10))) -> b <= l.
Proof. destruct d; cbn; lia. Qed.
Lemma close d v n N E rl : good n N E -> fits D (last_edge Cs Ts rl d v (base n)) ->
  exists M, match rl with None => AE v (dvec d) E | Some f => tensordot z o add mul E (f v) [0; 1; 2] [0; 1; 2] end = Ok M
    /\ isc ((E, rim (base n)) :: last_edge Cs Ts rl d v (base n)) [] M /\ isc (N ++ last_edge Cs Ts rl d v (base n)) [] M.
Proof. intros HG HF.
  assert (X : exists M, match rl with None => AE v (dvec d) E | Some f => tensordot z o add mul E (f v) [0; 1; 2] [0; 1; 2] end = Ok M
    /\ isc ((E, rim (base n)) :: last_edge Cs Ts rl d v (base n)) [] M).
  { destruct rl as [f|]; cbn [last_edge] in *.
    - apply step_last_given. apply fits_cons. split; [exact (holds_fits _ _ _ _ HG)|exact HF].
    - apply step_last. apply fits_cons. split; [exact (holds_fits _ _ _ _ HG)|exact HF]. }
  destruct X as (M & EM & HM). exists M. split; [exact EM|]. split; [exact HM|]. destruct HG as [HN [HB HI]].
  apply (isc_sub z o add mul SR D _ _ (rim (base n)) [] E); [exact HN|exact HM|exact HI|].
  intros l Hl. apply In_inner in Hl. destruct Hl as [Hl Hn]. destruct (HB l Hl) as [H|H]; [|contradiction]. split; [|intros []].
  destruct rl as [f|]; cbn [last_edge]; intros Y.
  - unfold nvars in Y. cbn [flat_map snd] in Y. rewrite app_nil_r in Y. apply rim_low in Y. lia.
  - apply last_low in Y. lia. Qed.

(** opening it *)
Lemma opening d v rl : fits D (first_edge Cs Ts rl d v) ->
  exists M, match rl with None => GE v (cneg (dvec d)) | Some f => Ok (f v) end = Ok M /\ good 0 (first_edge Cs Ts rl d v) M.
Proof. destruct rl as [f|]; cbn [first_edge]; intros HF.
  - exists (f v). split; [reflexivity|]. apply fits_cons in HF. destruct HF as [[W Hd] _]. split; [now apply (isc_leaf z o add mul SR)|].
    unfold below, nvars. cbn [flat_map snd]. rewrite app_nil_r. split; [intros l Hl; now right|apply incl_refl].
  - rewrite dvec_opp. destruct (first_ok z o add mul cj SR st e As Cs Ts HS D (dopp d) v HF) as (M & EM & HM). exists M. split; [exact EM|].
    split; [exact HM|]. split.
    + intros l Hl. destruct d; cbn in *; lia.
    + intros l Hl. destruct d; cbn in *; lia. Qed.

(** scaling *)
Lemma good_scal b out N E c : holds b out N E -> holds b out (scal c :: N) (tmap (mul c) E).
Proof. intros [HN HB]. split; [now apply (isc_tmap z o add mul SR)|exact HB]. Qed.
Lemma good_scal_one b out N E : holds b out N E -> holds b out (scal o :: N) E.
Proof. intros [HN HB]. split; [now apply (isc_scal_one z o add mul SR)|exact HB]. Qed.
Lemma good_scal_mul b out N E a c : holds b out (scal a :: scal c :: N) E -> holds b out (scal (mul a c) :: N) E.
Proof. intros [HN HB]. split; [now apply (isc_scal_mul z o add mul SR)|exact HB]. Qed.
End P.
