(** All 8^4 choices of open spins of 2x2 cells: the upper and the lower half are checked apart (64 choices each) and joined by a lemma. *)
From Verif Require Import Base BaseLemmas Lattice Tensor TensorLemmas Net NetSpec NetProofs NetProofs2 NetProofs3 Corners CornersSpec CornersProofs Rdm RdmSpec RdmProofs RdmKag RdmKagSpec RdmKagProofs RdmKagProofs2 RdmKagProofs3.
From Coq Require Import Permutation.
Open Scope list_scope.
Open Scope nat_scope.

(** ** two networks joined along their first two legs *)
Lemma leg_eqb_refl l : leg_eqb l l = true.
Proof. now apply leg_eqb_eq. Qed.
Lemma dot2 x y ou ol bu bl fu fl : length ou <= 2 -> length ol <= 2 ->
  NoDup (flat_map bonds ou ++ flat_map bonds ol ++ bonds x ++ bonds y ++ bu ++ bl) ->
  sym_dot (mkS (x :: y :: ou) bu fu) (mkS (x :: y :: ol) bl fl) [0;1] [0;1] = Some (mkS (ou ++ ol) (bonds x ++ bonds y ++ bu ++ bl) (fu ++ fl)).
Proof. intros Hu Hl N. apply nodupb_spec in N.
  destruct ou as [|u0 [|u1 [|u2 ou]]]; [..|cbn in Hu; exfalso; revert Hu; clear; intros; lia];
  (destruct ol as [|l0 [|l1 [|l2 ol]]]; [..|cbn in Hl; exfalso; revert Hl; clear; intros; lia]);
  unfold sym_dot, sym_einsum; cbv zeta;
  match goal with |- context [nodupb (flat_map ?f ?l ++ ?m)] =>
    assert (Q : nodupb (flat_map f l ++ m) = true) by (rewrite <- N; cbn -[nodupb bonds]; rewrite ?app_nil_r; rewrite <- ?app_assoc; reflexivity);
    revert Q; generalize (nodupb (flat_map f l ++ m)); intros q -> end;
  cbn -[leg_eqb bonds]; rewrite ?leg_eqb_refl; cbn -[leg_eqb bonds]; rewrite ?app_nil_r; rewrite <- ?app_assoc; reflexivity. Qed.

(** ** the two halves *)
Definition xL := F (V (lefb 2 2 1)) (vv 2 2 0 1).
Definition yL := F (V (rigb 2 2 1)) (vv 2 2 1 1).
Definition xyb := bonds xL ++ bonds yL.
Definition fT a b := f_LU 2 2 a ++ f_RU 2 2 b.
Definition fB c e := f_LD 2 2 c ++ f_RD 2 2 e.
Definition oT a b := opn 2 2 a 0 0 ++ opn 2 2 b 1 0.
Definition oB c e := opn 2 2 c 0 1 ++ opn 2 2 e 1 1.
Definition setT := distinct (fvars (fT [0;1;2] [0;1;2])).
Definition setB := distinct (fvars (fB [0;1;2] [0;1;2])).
Definition half (r : option sym) fac opens st : bool :=
  match r with
  | Some U => sym_is U fac (xL :: yL :: opens) && nodupb (ovars U ++ s_bnd U) && forallb (fun k => memb k st) (fvars fac) && forallb (fun k => memb k (fvars fac)) (ovars U)
  | None => false
  end.
Lemma halfT : all2 (fun a b => half (top22 a b) (fT a b) (oT a b) setT) = true.
Proof. vm_cast_no_check (eq_refl true). Qed.
Lemma halfB : all2 (fun c e => half (bot22 c e) (fB c e) (oB c e) setB) = true.
Proof. vm_cast_no_check (eq_refl true). Qed.
Lemma apart : forallb (fun k => negb (memb k setB) || memb k xyb) setT = true.
Proof. vm_cast_no_check (eq_refl true). Qed.
(** the legs of the result *)
Definition ends a b c e : bool :=
  match sym_end 2 2 (length a + length c + length b + length e) (mkS (oT a b ++ oB c e) [] []) (expand_perm [length a; length b; length c; length e]) with
  | Some Y => legs_eqb (s_out Y) (kpatch_out 2 2 (l22 a b c e)) | None => false end.
Lemma ends_ok : all2 (fun a b => all2 (ends a b)) = true.
Proof. vm_cast_no_check (eq_refl true). Qed.

(** ** joining the halves *)
Lemma half_some r fac opens st : half r fac opens st = true -> exists b f, r = Some (mkS (xL :: yL :: opens) b f) /\
  Permutation b (to_sum fac (xL :: yL :: opens)) /\ Permutation f fac /\ NoDup (flat_map bonds (xL :: yL :: opens) ++ b) /\
  incl (fvars fac) st /\ incl (flat_map bonds (xL :: yL :: opens)) (fvars fac).
Proof. unfold half. destruct r as [[out b f]|]; [|discriminate]. intros H. rewrite !andb_true_iff in H. destruct H as [[[H1 H2] H3] H4].
  unfold sym_is in H1. cbn [s_out s_bnd s_fac] in *. rewrite !andb_true_iff in H1. destruct H1 as [[E P] Q]. apply legs_eqb_eq in E. subst out.
  apply (permb_perm _ (fun a b H => proj1 (Nat.eqb_eq a b) H)) in P. apply (permb_perm _ fac_eqb_eq) in Q.
  exists b, f. split; [reflexivity|]. split; [exact P|]. split; [exact Q|]. split; [now apply nodupb_spec|].
  rewrite forallb_forall in H3, H4. split; intros k Hk; [apply memb_spec, H3, Hk|apply memb_spec, H4, Hk]. Qed.
Lemma in_to_sum k fac out : In k (to_sum fac out) <-> In k (fvars fac) /\ ~ In k (flat_map bonds out).
Proof. unfold to_sum. rewrite filter_In, nodup_In. destruct (in_dec Nat.eq_dec k (flat_map bonds out)); split; intros [? ?]; split; auto; try discriminate; contradiction. Qed.
Lemma nodup_to_sum fac out : NoDup (to_sum fac out).
Proof. unfold to_sum. apply NoDup_filter, NoDup_nodup. Qed.
Lemma fvars_app f g : fvars (f ++ g) = fvars f ++ fvars g.
Proof. unfold fvars. apply flat_map_app. Qed.
Lemma in_fvars_perm f g k : Permutation f g -> In k (fvars f) -> In k (fvars g).
Proof. intros P. unfold fvars. rewrite !in_flat_map. intros (x & Hx & Hk). exists x. split; [eapply Permutation_in; eassumption|exact Hk]. Qed.
Lemma perm6 {A} (a b c e r1 r2 r3 r4 r : list A) : Permutation r (r1 ++ r2 ++ r3 ++ r4) ->
  Permutation (((a ++ r1) ++ (b ++ r2)) ++ ((c ++ r3) ++ (e ++ r4))) (a ++ b ++ c ++ e ++ r).
Proof. intros P. rewrite P, <- !app_assoc. apply Permutation_app_head.
  rewrite (Permutation_app_swap_app r1 b). apply Permutation_app_head.
  rewrite (Permutation_app_swap_app r2 c), (Permutation_app_swap_app r1 c). apply Permutation_app_head.
  rewrite (Permutation_app_swap_app r3 e), (Permutation_app_swap_app r2 e), (Permutation_app_swap_app r1 e). reflexivity. Qed.
Definition rim_ok := permb fac_eqb (rimF 2 2) (skipn 2 (f_LU 2 2 []) ++ skipn 2 (f_RU 2 2 []) ++ skipn 2 (f_LD 2 2 []) ++ skipn 2 (f_RD 2 2 [])).
Lemma fac_join a b c e : Permutation (fT a b ++ fB c e) (fac22 a b c e).
Proof. unfold fT, fB, fac22, f_LU, f_RU, f_LD, f_RD. apply perm6.
  apply (permb_perm _ fac_eqb_eq). change (rim_ok = true). vm_compute. reflexivity. Qed.
Lemma end_out w h n out b f p Y : sym_end w h n (mkS out [] []) p = Some Y -> sym_end w h n (mkS out b f) p = Some (mkS (s_out Y) b f).
Proof. unfold sym_end, ovars. cbn [s_out]. destruct (_ && _); [|discriminate]. unfold sym_view, ovars. cbn [s_out s_bnd s_fac].
  destruct (_ && _); [|discriminate]. cbn [ob]. unfold sym_perm. cbn [s_out s_bnd s_fac]. destruct (is_permb _ _); [|discriminate].
  intros E. injection E as <-. reflexivity. Qed.
Lemma opn_len w h s i j : length (opn w h s i j) <= 1.
Proof. unfold opn. destruct s; cbn; constructor; constructor. Qed.
Lemma nodup_app_dis {A} (l m : list A) : NoDup (l ++ m) -> forall k, In k l -> ~ In k m.
Proof. induction l as [|a l IH]; cbn; intros N k Hk; [contradiction|]. inversion N; subst. destruct Hk as [<-|Hk]; [|now apply IH]. intros X. apply H1. rewrite in_app_iff. tauto. Qed.
Lemma nodup_app_r {A} (l m : list A) : NoDup (l ++ m) -> NoDup m.
Proof. induction l as [|a l IH]; cbn; intros N; [exact N|]. inversion N; subst. now apply IH. Qed.
Lemma nodup_app_intro {A} (l m : list A) : NoDup l -> NoDup m -> (forall k, In k l -> In k m -> False) -> NoDup (l ++ m).
Proof. induction l as [|a l IH]; cbn; intros N M H; [exact M|]. inversion N; subst. constructor.
  - rewrite in_app_iff. intros [X|X]; [contradiction|]. apply (H a); [now left|exact X].
  - apply IH; auto. intros k Hk. apply H. now right. Qed.
Lemma nth_seq_id {A} (l : list A) d : map (fun k => nth k l d) (seq 0 (length l)) = l.
Proof. induction l as [|a l IH]; cbn; [reflexivity|]. f_equal. rewrite <- seq_shift, map_map. exact IH. Qed.
(** no bond outside the cut belongs to both halves *)
Lemma apart_in k : In k setT -> In k setB -> In k xyb.
Proof. intros HT HB. generalize apart. rewrite forallb_forall. intros H. specialize (H k HT). cbv beta in H.
  apply memb_spec in HB. rewrite HB in H. cbn in H. now apply memb_spec. Qed.
Lemma end_bonds w h n out p Y : sym_end w h n (mkS out [] []) p = Some Y -> forall k, In k (flat_map bonds (s_out Y)) <-> In k (flat_map bonds out).
Proof. unfold sym_end, ovars. cbn [s_out]. destruct (_ && _); [|discriminate]. unfold sym_view, ovars. cbn [s_out s_bnd s_fac].
  destruct (_ && _); [|discriminate]. cbn [ob]. unfold sym_perm. cbn [s_out s_bnd s_fac]. destruct (is_permb _ _) eqn:P; [|discriminate].
  intros E. injection E as <-. cbn [s_out]. clear -P. set (l := flat_map bonds out) in *. intros k.
  pose proof (proj1 (is_permb_spec _ _) P) as Q. apply (Permutation_map (fun k0 => nth k0 (map V l) (V 0))) in Q. rewrite nth_seq_id in Q.
  assert (E : flat_map bonds (map V l) = l). { clear. induction l as [|a l IH]; [reflexivity|]. cbn. now rewrite IH. }
  transitivity (In k (flat_map bonds (map V l))); [|now rewrite E]. rewrite !in_flat_map. split; intros (x & Hx & Hk); exists x; (split; [|exact Hk]);
    [eapply Permutation_in; [exact Q|exact Hx]|eapply Permutation_in; [symmetry; exact Q|exact Hx]]. Qed.

Lemma oT_len a b : length (oT a b) <= 2.
Proof. unfold oT. rewrite app_length. apply (Nat.add_le_mono _ 1 _ 1); apply opn_len. Qed.
Lemma oB_len a b : length (oB a b) <= 2.
Proof. unfold oB. rewrite app_length. apply (Nat.add_le_mono _ 1 _ 1); apply opn_len. Qed.
Opaque setT setB xL yL fT fB oT oB.
Lemma run22_ok a b c e : In a subs -> In b subs -> In c subs -> In e subs ->
  exists S', run22 (top22 a b) (bot22 c e) (length a) (length b) (length c) (length e) = Some S' /\
    s_out S' = kpatch_out 2 2 (l22 a b c e) /\ Permutation (s_bnd S') (to_sum (fac22 a b c e) (kpatch_out 2 2 (l22 a b c e))) /\ Permutation (s_fac S') (fac22 a b c e).
Proof. intros Ha Hb Hc He.
  destruct (half_some _ _ _ _ (all2_in _ a b halfT Ha Hb)) as (bu & fu & EU & PU & QU & NU & IU & JU).
  destruct (half_some _ _ _ _ (all2_in _ c e halfB Hc He)) as (bl & fl & EL & PL & QL & NL & IL & JL).
  assert (HE := all2_in _ c e (all2_in _ a b ends_ok Ha Hb) Hc He). unfold ends in HE.
  destruct (sym_end _ _ _ _ _) as [Y|] eqn:EY; [|discriminate]. apply legs_eqb_eq in HE.
  remember (oT a b) as ou eqn:Eou. remember (oB c e) as ol eqn:Eol. cbn [flat_map] in NU, JU, NL, JL.
  assert (BU : forall k, In k bu <-> In k (fvars (fT a b)) /\ ~ In k xyb /\ ~ In k (flat_map bonds ou)).
  { intros k. split; intros Hk.
    - apply (Permutation_in _ PU) in Hk. apply in_to_sum in Hk. destruct Hk as [H1 H2]. cbn [flat_map] in H2. rewrite !in_app_iff in H2. unfold xyb. rewrite in_app_iff. tauto.
    - apply (Permutation_in _ (Permutation_sym PU)). apply in_to_sum. cbn [flat_map]. rewrite !in_app_iff. unfold xyb in Hk. rewrite in_app_iff in Hk. tauto. }
  assert (BL : forall k, In k bl <-> In k (fvars (fB c e)) /\ ~ In k xyb /\ ~ In k (flat_map bonds ol)).
  { intros k. split; intros Hk.
    - apply (Permutation_in _ PL) in Hk. apply in_to_sum in Hk. destruct Hk as [H1 H2]. cbn [flat_map] in H2. rewrite !in_app_iff in H2. unfold xyb. rewrite in_app_iff. tauto.
    - apply (Permutation_in _ (Permutation_sym PL)). apply in_to_sum. cbn [flat_map]. rewrite !in_app_iff. unfold xyb in Hk. rewrite in_app_iff in Hk. tauto. }
  assert (SEP : forall k, In k (fvars (fT a b)) -> In k (fvars (fB c e)) -> In k xyb) by (intros k H1 H2; exact (apart_in k (IU k H1) (IL k H2))).
  assert (XT : incl xyb (fvars (fT a b))). { intros k Hk. apply JU. unfold xyb in Hk. rewrite !in_app_iff in *. tauto. }
  assert (XB : incl xyb (fvars (fB c e))). { intros k Hk. apply JL. unfold xyb in Hk. rewrite !in_app_iff in *. tauto. }
  assert (OT : incl (flat_map bonds ou) (fvars (fT a b))). { intros k Hk. apply JU. rewrite !in_app_iff. tauto. }
  assert (OB : incl (flat_map bonds ol) (fvars (fB c e))). { intros k Hk. apply JL. rewrite !in_app_iff. tauto. }
  rewrite (app_assoc (bonds xL)), <- !app_assoc in NU. rewrite (app_assoc (bonds xL)), <- !app_assoc in NL.
  assert (NU' : NoDup (xyb ++ flat_map bonds ou ++ bu)) by (unfold xyb; rewrite <- !app_assoc; exact NU).
  assert (NL' : NoDup (xyb ++ flat_map bonds ol ++ bl)) by (unfold xyb; rewrite <- !app_assoc; exact NL).
  clear NU NL.
  assert (DU : forall k, In k (flat_map bonds ou) -> ~ In k xyb). { intros k Hk Hx. refine (nodup_app_dis _ _ NU' k Hx _). rewrite in_app_iff. tauto. }
  assert (DL : forall k, In k (flat_map bonds ol) -> ~ In k xyb). { intros k Hk Hx. refine (nodup_app_dis _ _ NL' k Hx _). rewrite in_app_iff. tauto. }
  assert (N : NoDup (flat_map bonds ou ++ flat_map bonds ol ++ bonds xL ++ bonds yL ++ bu ++ bl)).
  { replace (flat_map bonds ou ++ flat_map bonds ol ++ bonds xL ++ bonds yL ++ bu ++ bl) with (flat_map bonds ou ++ flat_map bonds ol ++ xyb ++ bu ++ bl) by (unfold xyb; now rewrite <- !app_assoc).
    apply (Permutation_NoDup (l := (xyb ++ flat_map bonds ou ++ bu) ++ (flat_map bonds ol ++ bl))).
    - rewrite <- !app_assoc. rewrite (Permutation_app_swap_app xyb (flat_map bonds ou)). apply Permutation_app_head.
      rewrite (Permutation_app_swap_app bu (flat_map bonds ol)). rewrite (Permutation_app_swap_app xyb (flat_map bonds ol)). reflexivity.
    - apply nodup_app_intro; [exact NU'|exact (nodup_app_r _ _ NL')|].
      intros k H1 H2. rewrite in_app_iff in H1, H2. rewrite in_app_iff in H1.
      assert (F2 : In k (fvars (fB c e)) /\ ~ In k xyb). { destruct H2 as [H2|H2]; [split; [now apply OB|now apply DL]|]. apply BL in H2. tauto. }
      destruct H1 as [H1|[H1|H1]]; [tauto|apply F2, SEP; [now apply OT|apply F2]|]. apply BU in H1. apply F2, SEP; tauto. }
  assert (LU : length ou <= 2). { rewrite Eou. apply oT_len. }
  assert (LL : length ol <= 2). { rewrite Eol. apply oB_len. }
  unfold run22. rewrite EU, EL. cbn [ob]. rewrite (dot2 _ _ _ _ _ _ _ _ LU LL N). cbn [ob].
  rewrite (end_out _ _ _ _ (bonds xL ++ bonds yL ++ bu ++ bl) (fu ++ fl) _ _ EY).
  eexists. split; [reflexivity|]. cbn [s_out s_bnd s_fac]. split; [exact HE|].
  assert (PF : Permutation (fu ++ fl) (fac22 a b c e)). { etransitivity; [|apply fac_join]. now apply Permutation_app. }
  split; [|exact PF].
  apply NoDup_Permutation; [exact (nodup_app_r _ _ (nodup_app_r _ _ N))|apply nodup_to_sum|].
  intros k. rewrite in_to_sum, <- HE. rewrite (end_bonds _ _ _ _ _ _ EY k). rewrite flat_map_app, in_app_iff.
  assert (FV : In k (fvars (fac22 a b c e)) <-> In k (fvars (fT a b)) \/ In k (fvars (fB c e))).
  { rewrite <- in_app_iff, <- fvars_app. split; apply in_fvars_perm; [symmetry|]; apply fac_join. }
  rewrite FV. assert (XY : In k xyb <-> In k (bonds xL) \/ In k (bonds yL)) by apply in_app_iff.
  rewrite ?in_app_iff. rewrite BU, BL. rewrite ?in_app_iff.
  specialize (SEP k). specialize (XT k). specialize (XB k). specialize (OT k). specialize (OB k). specialize (DU k). specialize (DL k).
  destruct (in_dec Nat.eq_dec k xyb), (in_dec Nat.eq_dec k (flat_map bonds ou)), (in_dec Nat.eq_dec k (flat_map bonds ol)); tauto. Qed.

Section PermB.
Context {A : Type} (e : A -> A -> bool).
Hypothesis He : forall a b, e a b = true -> a = b.
Hypothesis Hr : forall a, e a a = true.
Lemma take_one_in a l : In a l -> exists r, take_one e a l = Some r.
Proof. induction l as [|b l IH]; cbn; [intros []|]. intros H. destruct (e a b) eqn:E; [eexists; reflexivity|].
  destruct H as [->|H]; [now rewrite Hr in E|]. destruct (IH H) as (r & ->). eexists. reflexivity. Qed.
Lemma permb_complete l1 l2 : Permutation l1 l2 -> permb e l1 l2 = true.
Proof. revert l2; induction l1 as [|a l1 IH]; intros l2 P; cbn.
  - apply Permutation_nil in P. now rewrite P.
  - destruct (take_one_in a l2) as (r & E); [eapply Permutation_in; [exact P|now left]|]. rewrite E. apply IH.
    apply (Permutation_cons_inv (a := a)). etransitivity; [exact P|]. exact (take_one_perm e He a l2 r E). Qed.
End PermB.
Lemma legs_eqb_refl l : legs_eqb l l = true.
Proof. induction l as [|a l IH]; cbn; [reflexivity|]. now rewrite leg_eqb_refl. Qed.
Lemma fac_eqb_refl f : fac_eqb f f = true.
Proof. unfold fac_eqb. now rewrite Nat.eqb_refl, legs_eqb_refl. Qed.
Lemma all22_in a b c e : In a subs -> In b subs -> In c subs -> In e subs ->
  good (run22 (top22 a b) (bot22 c e) (length a) (length b) (length c) (length e)) (fac22 a b c e) (kpatch_out 2 2 (l22 a b c e)) = true.
Proof. intros Ha Hb Hc He. destruct (run22_ok a b c e Ha Hb Hc He) as (S' & E & EO & PB & PF). unfold good. rewrite E. unfold sym_is.
  rewrite EO, legs_eqb_refl. rewrite (permb_complete _ (fun a b H => proj1 (Nat.eqb_eq a b) H) Nat.eqb_refl _ _ PB).
  now rewrite (permb_complete _ fac_eqb_eq fac_eqb_refl _ _ PF). Qed.
