(** The two factors of a two-site operator; the columns of the C4v environment with and without operators. *)
From Verif Require Import Base BaseLemmas Tensor TensorLemmas Net NetSpec NetProofs NetProofs2 NetProofs3 NetTrace Corners CornersSpec CornersProofs Rdm RdmSpec RdmProofs RdmC4vProofs CorrSpec CorrC4v CorrC4vSpec CorrProofs CorrProofs3 CorrProofs4 CorrProofs5 CorrProofs6 CorrProofs7 CorrProofs8 NetEye CorrC4vProofs.
From Coq Require Import Ring ArithRing Field Permutation.
Open Scope list_scope.
Open Scope nat_scope.
Open Scope res_scope.

Section S.
Context {K : Type} (z o : K) (add mul : K -> K -> K) (cj : K -> K).
Hypothesis SR : semi_ring_theory z o add mul eq.
Add Ring KR : SR.
Notation ten := (tensor K).
Variable svd : ten -> res (ten * list K * ten).
Hypothesis SV : svd_real z add mul cj svd.
Ltac dleaf_fits := constructor; [split; [cbn [fst]; assumption|cbn [fst snd map ldim DD Nat.eqb FF]; try assumption]|].
Lemma lvals_range D s ts : (forall l, In l (flat_map bonds ts) -> s l < D l) -> in_range (map (ldim D) ts) (map (lval D s) ts).
Proof. unfold in_range. induction ts as [|t ts IH]; intros H; cbn [map]; constructor.
  - apply lval_range. intros k Hk. apply H. cbn. apply in_app_iff. now left.
  - apply IH. intros l Hl. apply H. cbn. apply in_app_iff. now right. Qed.
Lemma real_isc D (op : ten) ts ts' M : twf op -> tdims op = map (ldim D) ts -> is_contraction D z o add mul [(op, ts)] ts' M -> NoDup (flat_map bonds ts') ->
  incl (flat_map bonds ts) (flat_map bonds ts') -> incl (flat_map bonds ts') (flat_map bonds ts) -> real cj op -> real cj M.
Proof. intros W Hd (WM & DM & HV) N I1 I2 HR ix v E.
  assert (R : in_range (tdims M) ix) by (apply (tget_range _ _ _ WM E)). rewrite DM in R.
  destruct (legs_surj D ts' N ix (fun _ => 0) R) as (s & _ & Hs & <-). rewrite (HV s Hs) in E. injection E as <-.
  assert (X : inner [(op, ts)] ts' = []).
  { destruct (inner _ _) as [|k l] eqn:Ek; [reflexivity|]. exfalso. assert (Hk : In k (k :: l)) by now left. rewrite <- Ek in Hk. apply In_inner in Hk. unfold nvars in Hk. cbn in Hk. rewrite app_nil_r in Hk. destruct Hk as [H1 H2]. apply H2, I1, H1. }
  rewrite X. cbn [sum_over]. unfold product. cbn [map fst snd prod_list fold_right].
  destruct (tget_Some op (map (lval D s) ts)) as [w Hw]; [exact W|rewrite Hd; apply lvals_range; intros l Hl; apply Hs, I1, Hl|].
  unfold entry. rewrite Hw. replace (mul w o) with w by ring. exact (HR _ _ Hw). Qed.
Lemma split_ok op d : d <> 0 -> twf op -> tdims op = [d; d; d; d] -> real cj op ->
  exists l r L, split_op z o add mul svd op = Ok (l, r) /\ L <> 0 /\ twf l /\ twf r /\ tdims l = [d; d; L] /\ tdims r = [d; d; L] /\
  forall a b c e, a < d -> b < d -> c < d -> e < d ->
    tget op [a; b; c; e] = Some (sum_list z add (map (fun k => mul (entry z l [a; c; k]) (entry z r [b; e; k])) (seq 0 L))).
Proof. intros Hd W Hop HRe. unfold split_op. replace (size op 0) with d by (unfold size; now rewrite Hop).
  (* the matrix *)
  assert (X1 : exists M, (m <- permute z op [0; 2; 1; 3] ;; view m [d ^ 2; d ^ 2]) = Ok M /\ is_contraction (DD d 1) z o add mul [(op, [V 0; V 1; V 2; V 3])] [FF 0 2; FF 1 3] M).
  { assert (HF : fits (DD d 1) [(op, [V 0; V 1; V 2; V 3])]) by (constructor; [split; [exact W|exact Hop]|constructor]).
    leaves SR HF. singleE SR; [step cperm; cviewe [FF 0 2; FF 1 3]|check|reflexivity]. all: cbn; lia. }
  destruct X1 as (M & EM & IM). destruct (permute z op [0; 2; 1; 3]) as [m0|?] eqn:E0; [|discriminate EM]. cbn [bind] in EM |- *. rewrite EM. cbn [bind].
  assert (WM := proj1 IM). assert (DM := proj1 (proj2 IM)). cbn in DM.
  assert (RM : real cj M) by (apply (real_isc (DD d 1) op [V 0; V 1; V 2; V 3] [FF 0 2; FF 1 3] M W Hop IM); [repeat constructor; cbn; lia|intros q; cbn; tauto|intros q; cbn; tauto|exact HRe]).
  destruct (SV M (d * d)) as (u & s & v & ES & Hs & Wu & Wv & Du & Dv & Rv & HV); [nia|exact WM|exact DM|exact RM|].
  rewrite ES. cbn [bind]. set (L := length s) in *. assert (HL : L <> 0) by (subst L; destruct s; [contradiction|cbn; lia]).
  (* left *)
  assert (X2 : exists l, view u [d; d; L] = Ok l /\ is_contraction (DD d L) z o add mul [(u, [FF 0 2; V 4])] [V 0; V 2; V 4] l).
  { assert (HF : fits (DD d L) [(u, [FF 0 2; V 4])]) by (constructor; [split; [exact Wu|exact Du]|constructor]).
    leaves SR HF. singleE SR; [cviewe [V 0; V 2; V 4]|check|reflexivity]. }
  destruct X2 as (l & El & Il). rewrite El. cbn [bind].
  (* right *)
  assert (X3 : exists vt, permute z v [1; 0] = Ok vt /\ is_contraction (DD d L) z o add mul [(v, [FF 1 3; V 4])] [V 4; FF 1 3] vt).
  { assert (HF : fits (DD d L) [(v, [FF 1 3; V 4])]) by (constructor; [split; [exact Wv|exact Dv]|constructor]).
    leaves SR HF. singleE SR; [cperm|check|reflexivity]. }
  destruct X3 as (vt & Ev & Iv). rewrite Ev. cbn [bind].
  assert (WS : twf (mkT [L] s)). { unfold twf. cbn. lia. }
  assert (Wh : twf vt) by exact (proj1 Iv).
  assert (X4 : exists r, (x <- einsum z o add mul [(mkT [L] s, [0]); (vt, [0; 1])] [0; 1] ;; (y <- view x [L; d; d] ;; permute z y [1; 2; 0])) = Ok r
    /\ is_contraction (DD d L) z o add mul [(mkT [L] s, [V 4]); (vt, [V 4; FF 1 3])] [V 1; V 3; V 4] r).
  { assert (HF : fits (DD d L) [(mkT [L] s, [V 4]); (vt, [V 4; FF 1 3])]).
    { constructor; [split; [exact WS|reflexivity]|]. constructor; [split; [exact Wh|exact (proj1 (proj2 Iv))]|constructor]. }
    leaves SR HF. singleE SR; [step ltac:(cein SR); step ltac:(cviewe [V 4; V 1; V 3]); cperm|check|reflexivity]. }
  destruct X4 as (r & Er & Ir). destruct (einsum z o add mul [(mkT [L] s, [0]); (vt, [0; 1])] [0; 1]) as [x|?] eqn:Ex; [|discriminate Er]. cbn [bind] in Er |- *.
  destruct (view x [L; d; d]) as [y|?] eqn:Ey; [|discriminate Er]. cbn [bind] in Er |- *. rewrite Er. cbn [bind].
  exists l, r, L. split; [reflexivity|]. split; [exact HL|]. split; [exact (proj1 Il)|]. split; [exact (proj1 Ir)|].
  split; [exact (proj1 (proj2 Il))|]. split; [exact (proj1 (proj2 Ir))|].
  intros a b c e Ha Hb Hc He.
  pose (sg := fun k4 k => match k with 0 => a | 1 => b | 2 => c | 3 => e | _ => k4 end).
  assert (P : a * d + c < d * d /\ b * d + e < d * d) by nia. destruct P as [P1 P2].
  destruct (tget_Some op [a; b; c; e]) as [w Hw]; [exact W|rewrite Hop; repeat (constructor; [assumption|]); constructor|].
  rewrite Hw. f_equal.
  assert (EM' : entry z M [a * d + c; b * d + e] = w).
  { assert (Y := isc_entry z o add mul (DD d 1) _ _ M (sg 0) w IM). unfold entry. cbn in Y. rewrite Y; [reflexivity| |].
    - cbn. intros k [<-|[<-|[<-|[<-|[]]]]]; cbn; assumption.
    - cbn. unfold entry. rewrite Hw. ring. }
  rewrite <- EM', HV by assumption. f_equal. apply map_ext_in. intros k Hk. apply in_seq in Hk.
  assert (Rg : forall q, In q [0; 1; 2; 3; 4] -> sg k q < DD d L q).
  { intros q [<-|[<-|[<-|[<-|[<-|[]]]]]]; cbn; lia. }
  assert (Y1 : entry z l [a; c; k] = entry z u [a * d + c; k]).
  { assert (Y := isc_entry z o add mul (DD d L) _ _ l (sg k) (entry z u [a * d + c; k]) Il). unfold entry at 1. cbn in Y. rewrite Y; [reflexivity| |].
    - intros q Hq. apply Rg. cbn. tauto.
    - ring. }
  assert (Y2 : entry z vt [k; b * d + e] = entry z v [b * d + e; k]).
  { assert (Y := isc_entry z o add mul (DD d L) _ _ vt (sg k) (entry z v [b * d + e; k]) Iv). unfold entry at 1. cbn in Y. rewrite Y; [reflexivity| |].
    - intros q Hq. apply Rg. cbn. tauto.
    - ring. }
  assert (Y3 : entry z r [b; e; k] = mul (nth k s z) (entry z vt [k; b * d + e])).
  { assert (Y := isc_entry z o add mul (DD d L) _ _ r (sg k) (mul (nth k s z) (entry z vt [k; b * d + e])) Ir). unfold entry at 1. cbn in Y. rewrite Y; [reflexivity| |].
    - intros q Hq. apply Rg. cbn. tauto.
    - change (entry z (mkT [L] s) [k]) with (match tget (mkT [L] s) [k] with Some v => v | None => z end).
      rewrite (tget_flat (mkT [L] s) [k] WS) by (constructor; [cbn; lia|constructor]). cbn [tdims tdata flat]. cbn [prod_dims fold_right]. replace (k * 1 + 0) with k by lia.
      rewrite (nth_error_nth' s z) by (fold L; lia). ring. }
  assert (Y4 : cj (entry z v [b * d + e; k]) = entry z v [b * d + e; k]).
  { unfold entry. destruct (tget_Some v [b * d + e; k]) as [x' Hx']; [exact Wv| |rewrite Hx'; exact (Rv _ _ Hx')].
    rewrite Dv. constructor; [cbn; lia|]. constructor; [cbn; lia|constructor]. }
  rewrite Y1, Y3, Y4, Y2. ring. Qed.
End S.

Ltac expand H := match type of H with fits ?D ?n => let r := eval cbv -[tmap eye eye3] in n in change (fits D r) in H end.
Ltac expand_goal := match goal with |- fits ?D ?n => let r := eval cbv -[tmap eye eye3] in n in change (fits D r) end.
Ltac pieces H := unfold fits in H; repeat match type of H with Forall _ (_ :: _) => let P := fresh "P" in apply Forall_cons_iff in H; destruct H as [P H] end.
Ltac assemble := unfold fits; repeat (apply Forall_cons; [first [assumption|idtac]|]); try apply Forall_nil.
Ltac in_list := let q := fresh "q" in let Hq := fresh "Hq" in intros q Hq; cbn in Hq; repeat match type of Hq with _ \/ _ => destruct Hq as [Hq|Hq] end; try contradiction; subst q; reflexivity.
Ltac out_list := let Hq := fresh "Hq" in intros Hq; cbn in Hq; repeat match type of Hq with _ \/ _ => destruct Hq as [Hq|Hq] end; try contradiction; discriminate Hq.
Section L.
Context {K : Type} (z o : K) (add mul : K -> K -> K) (cj : K -> K) (sub : K -> K -> K) (opp : K -> K) (div : K -> K -> K) (inv : K -> K).
Hypothesis FT : field_theory z o add mul sub opp div inv eq.
Notation SR := (SR_of_field FT).
Notation ten := (tensor K).
Variables (C T a : ten).
Variable D : nat -> nat.
Notation isc := (is_contraction D z o add mul).
Notation col := (column cj T a).

Lemma tm1_none E : fits D ((E, rims 1 0) :: col 1 0 false) ->
  exists M, tm1 z o add mul cj T a None E = Ok M /\ isc ((E, rims 1 0) :: col 1 0 false) (rims 1 32) M.
Proof. intros HF. set (D' := setD D 15 (D 14)).
  assert (HA : size a 0 = D 14) by (expand HF; pieces HF; exact (f_equal (fun l => nth 0 l 0) (proj2 P1))).
  assert (HF' : fits D' ((E, rims 1 0) :: col 1 0 true ++ [xleg 0 0 (eye z o (D 14))])).
  { expand HF. expand_goal. pieces HF. assemble. split; [apply eye_wf|reflexivity]. }
  destruct (tm_with_ok z o add mul cj SR T a D' _ _ HF') as (M & EM & IM). exists M. split.
  - unfold tm1. cbn [bind]. rewrite HA. exact EM.
  - apply (isc_ext z o add mul D' D). { in_list. }
    assert (IM' : is_contraction D' z o add mul ((eye z o (D 14), [V 14; V 15]) :: (E, rims 1 0) :: col 1 0 true) (rims 1 32) M).
    { revert IM. apply (isc_perm z o add mul SR). rewrite app_comm_cons. symmetry. apply Permutation_cons_append. }
    refine (isc_eye z o add mul SR D' 14 15 (D 14) _ _ M eq_refl eq_refl _ _ _ _ IM'); [discriminate|out_list|out_list|cbn; tauto]. Qed.

(** factors replaced *)
Lemma isc_last (m m' : ten) ts ts' R out M : isc [(m', ts')] ts m -> incl (flat_map bonds ts) (flat_map bonds ts') -> incl (flat_map bonds ts') (flat_map bonds ts) ->
  isc (R ++ [(m, ts)]) out M -> isc (R ++ [(m', ts')]) out M.
Proof. intros H1 I1 I2 H2. apply (isc_perm z o add mul SR D _ _ _ _ (Permutation_cons_append R _)).
  apply (isc_swap z o add mul sub opp div inv FT D m m' ts ts' R out M H1 I1 I2). revert H2. apply (isc_perm z o add mul SR D). symmetry. apply Permutation_cons_append. Qed.
Lemma tm1_some op O E : is_transpose op O -> fits D ((E, rims 1 0) :: col 1 0 true ++ [(O, [V 15; V 14])]) ->
  exists M, tm1 z o add mul cj T a (Some op) E = Ok M /\ isc ((E, rims 1 0) :: col 1 0 true ++ [(O, [V 15; V 14])]) (rims 1 32) M.
Proof. intros HT HF. rewrite app_comm_cons in HF. apply fits_app in HF. destruct HF as [HF HO].
  assert (HO' := transpose_fits D op O 14 15 HT HO).
  assert (HF' : fits D (((E, rims 1 0) :: col 1 0 true) ++ [xleg 0 0 op])) by (apply fits_app; now split).
  destruct (tm_with_ok z o add mul cj SR T a D op E HF') as (M & EM & IM). exists M. split.
  - unfold tm1. assert (HL : length (tdims op) = 2) by (apply fits_cons in HO'; rewrite (proj2 (proj1 HO')); reflexivity). rewrite HL. exact EM.
  - rewrite app_comm_cons in IM |- *. revert IM. apply isc_last; [|intros q; cbn; tauto|intros q; cbn; tauto].
    apply (transpose_releg z o add mul cj sub opp div inv FT D op O); [exact HT|]. apply fits_cons in HO. exact (proj2 (proj1 HO)). Qed.

Lemma halves_isc Dv op dd (l r : ten) i j i' j' m L : NoDup [i; j; i'; j'; m] -> twf op -> tdims op = [dd; dd; dd; dd] ->
  Dv i = dd -> Dv j = dd -> Dv i' = dd -> Dv j' = dd -> Dv m = L ->
  (forall a b c e, a < dd -> b < dd -> c < dd -> e < dd ->
    tget op [a; b; c; e] = Some (sum_list z add (map (fun k => mul (entry z l [a; c; k]) (entry z r [b; e; k])) (seq 0 L)))) ->
  is_contraction Dv z o add mul [(l, [V i; V j; V m]); (r, [V i'; V j'; V m])] [V i; V i'; V j; V j'] op.
Proof. intros N W Ho D1 D2 D3 D4 HL HV. split; [exact W|]. split; [cbn [map ldim]; rewrite Ho; congruence|]. intros s Hs.
  assert (ND : i <> j /\ i <> i' /\ i <> j' /\ i <> m /\ j <> i' /\ j <> j' /\ j <> m /\ i' <> j' /\ i' <> m /\ j' <> m).
  { repeat match goal with H : NoDup (_ :: _) |- _ => apply NoDup_cons_iff in H; destruct H as [? H] end. cbn in *. intuition. }
  destruct ND as (N1 & N2 & N3 & N4 & N5 & N6 & N7 & N8 & N9 & N10).
  rewrite inner_halves by assumption. cbn [map lval sum_over]. rewrite HL.
  assert (R : s i < dd /\ s i' < dd /\ s j < dd /\ s j' < dd).
  { rewrite <- D1 at 1. rewrite <- D3 at 1. rewrite <- D2 at 1. rewrite <- D4. repeat split; apply Hs; cbn; tauto. }
  destruct R as (R1 & R2 & R3 & R4). rewrite HV by assumption. f_equal. f_equal. apply map_ext_in. intros k Hk. unfold product. cbn [map fst snd prod_list fold_right lval].
  assert (U : forall q, q <> m -> upd s m k q = s q). { intros q Hq. unfold upd. now rewrite (proj2 (Nat.eqb_neq q _) Hq). }
  rewrite (U i), (U j), (U i'), (U j') by assumption. replace (upd s m k m) with k by (unfold upd; now rewrite Nat.eqb_refl).
  pose proof SR as Q. rewrite <- (SRmul_1_l Q (entry z r _)) at 1. rewrite (SRmul_comm Q o). reflexivity. Qed.
Lemma unsplit Dv op O (l r : ten) i j i' j' m R out M : NoDup [i; j; i'; j'; m] ->
  is_contraction Dv z o add mul [(l, [V i; V j; V m]); (r, [V i'; V j'; V m])] [V i; V i'; V j; V j'] op ->
  is_transpose2 op O -> fits Dv [(O, [V j; V j'; V i; V i'])] -> ~ In m (nvars R) -> ~ In m (flat_map bonds out) ->
  is_contraction Dv z o add mul (R ++ [(l, [V i; V j; V m]); (r, [V i'; V j'; V m])]) out M ->
  is_contraction Dv z o add mul (R ++ [(O, [V j; V j'; V i; V i'])]) out M.
Proof. intros N HC (W & W' & (d1 & d2 & d3 & d4 & Hd & Hd') & HT) HF' HR HO HI.
  apply (isc_perm z o add mul SR Dv _ _ _ _ (Permutation_app_comm R _)) in HI.
  apply (isc_unsub z o add mul SR Dv _ R _ out op M HC) in HI.
  - apply (isc_perm z o add mul SR Dv _ _ _ _ (Permutation_cons_append R _)).
    revert HI. apply (isc_swap z o add mul sub opp div inv FT); [|intros q; cbn; tauto|intros q; cbn; tauto].
    apply fits_cons in HF'. destruct HF' as [[_ HF'] _]. rewrite Hd' in HF'. cbn [map ldim] in HF'. injection HF' as D1 D2 D3 D4.
    apply (isc_releg z o add mul sub opp div inv FT); [exact W|rewrite Hd; cbn [map ldim]; congruence|intros q; cbn; tauto|].
    intros s Hs. cbn [map lval].
    assert (R0 : in_range (tdims op) [s i; s i'; s j; s j']).
    { rewrite Hd. rewrite D1, D2, D3, D4. repeat (constructor; [apply Hs; cbn [flat_map bonds app In]; tauto|]). constructor. }
    destruct (tget_Some op _ W R0) as [x Hx]. rewrite Hx. unfold entry. now rewrite HT, Hx.
  - unfold nvars. intros q Hq. cbn in Hq. cbn. tauto.
  - intros q Hq. apply In_inner in Hq. destruct Hq as [Hq Hn]. unfold nvars in Hq. cbn [flat_map snd bonds app In] in Hq, Hn.
    assert (q = m) by intuition congruence. subst q. split; assumption. Qed.
End L.
