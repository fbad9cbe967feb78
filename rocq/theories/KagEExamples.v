(** Density matrices exist for every state; complex numbers are a field; states that contradict the documented claims. *)
From Coq Require Import Lia Ring Field Reals Lra Permutation.
From Verif Require Import Base BaseLemmas Tensor TensorLemmas Net Plaq PlaqSpec PlaqProofs PlaqProofs6 PlaqProofs9 Su3 Su3Spec Su3Proofs5 Su3Examples Kag KagSpec RdmKag KagE KagESpec KagProofs KagProofs2 KagExamples
  KagEProofs KagEProofs2 KagEProofs3 KagEProofs4.
Open Scope list_scope.
Open Scope nat_scope.
Open Scope res_scope.

Section Dens.
Context {K : Type} (k0 k1 : K) (kadd kmul ksub : K -> K -> K) (kopp : K -> K).
Hypothesis Kr : ring_theory k0 k1 kadd kmul ksub kopp (@eq K).
Add Ring KringE5 : Kr.
Variables (d : nat) (L M : Z) (E : @operator K -> K).
Hypothesis HE : expectation kadd kmul d E.
Notation on := (on k0 (3 * L) M).
Definition flip (ix : list nat) (n : nat) (i a : list nat) : K := if eqb (a ++ i) ix then k1 else k0.
Definition rho (n : nat) (ps : list coord) : tensor K := tbuild (repeat d (2 * n)) (fun ix => E (on ps (flip ix n))).
Lemma dens_rho n ps : length ps = n -> density k0 kadd kmul L M d E n ps (rho n ps).
Proof.
  intros Hn. unfold rho. split; [reflexivity|]. split; [apply twf_tbuild|]. intros O.
  transitivity (E (osum k0 kadd (indices (repeat d (2 * n))) (fun ix => oscale kmul (O (skipn n ix) (firstn n ix)) (on ps (flip ix n))))).
  - apply (E_eq kadd kmul d E HE). intros s s' Hs Hs'. unfold osum, oscale. unfold PlaqSpec.on at 1. destruct (agree_off (3 * L) M (map (wrap (3 * L) M) ps) s s') eqn:A.
    + set (i := map (fun p => s (wrap (3 * L) M p)) ps). set (a := map (fun p => s' (wrap (3 * L) M p)) ps).
      assert (Li : length i = n) by (unfold i; now rewrite map_length). assert (La : length a = n) by (unfold a; now rewrite map_length).
      transitivity (fold_right kadd k0 (map (fun ix => kmul (PlaqSpec.delta k0 k1 (eqb ix (a ++ i))) (O (skipn n ix) (firstn n ix))) (indices (repeat d (2 * n))))).
      * rewrite (sum_delta k0 k1 kadd kmul ksub kopp Kr) with (g := fun ix => O (skipn n ix) (firstn n ix)).
        -- rewrite <- La at 1. rewrite skipn_app, Nat.sub_diag, skipn_all, firstn_app. rewrite La, Nat.sub_diag. rewrite <- La, firstn_all. cbn [firstn]. now rewrite app_nil_r.
        -- apply NoDup_indices.
        -- apply In_indices. unfold in_range. replace (2 * n) with (n + n) by lia. rewrite repeat_app. apply Forall2_app.
           ++ rewrite <- La. clear -Hs'. unfold a. induction ps as [|p l IH]; cbn; constructor; auto.
           ++ rewrite <- Li. clear -Hs. unfold i. induction ps as [|p l IH]; cbn; constructor; auto.
      * apply (sum_map_ext k0 kadd). intros ix _. unfold PlaqSpec.on. rewrite A. fold i a. unfold flip, PlaqSpec.delta. destruct (eqb (a ++ i) ix) eqn:Q.
        -- apply (eqb_true (A := list nat)) in Q. subst ix. rewrite (proj2 (eqb_true (A := list nat) _ _) eq_refl). ring.
        -- destruct (eqb ix (a ++ i)) eqn:Q'; [|ring]. apply (eqb_true (A := list nat)) in Q'. subst ix. rewrite (proj2 (eqb_true (A := list nat) _ _) eq_refl) in Q. discriminate.
    + transitivity (fold_right kadd k0 (map (fun _ => k0) (indices (repeat d (2 * n))))).
      * generalize (indices (repeat d (2 * n))) as l. induction l as [|x l IH]; cbn; [reflexivity|]. rewrite <- IH. ring.
      * apply (sum_map_ext k0 kadd). intros ix _. unfold PlaqSpec.on. rewrite A. ring.
  - rewrite (E_sum k0 k1 kadd kmul ksub kopp Kr d E HE). apply (sum_map_ext k0 kadd). intros ix Hix. apply In_indices in Hix. rewrite tget_tbuild by exact Hix. rewrite (E_scale kadd kmul d E HE). ring.
Qed.
End Dens.

(** ** the field of complex numbers *)
Definition cxinv (a : cx) : cx := (fst a / (fst a * fst a + snd a * snd a), - snd a / (fst a * fst a + snd a * snd a))%R.
Definition cxdiv (a b : cx) : cx := cxmul a (cxinv b).
Lemma cx_field : field_theory cx0 cx1 cxadd cxmul cxsub cxopp cxdiv cxinv (@eq cx).
Proof.
  constructor; [exact cx_ring|exact cx_01|reflexivity|]. intros [a b] H. unfold cxmul, cxinv, cx1. cbn [fst snd].
  assert (Q : (a * a + b * b <> 0)%R). { intros Q. apply H. unfold cx0. assert (a = 0)%R by nra. assert (b = 0)%R by nra. now subst. }
  f_equal; field; exact Q.
Qed.
Lemma ofnat_cx n : ofnat cx0 cx1 cxadd n = (INR n, 0%R).
Proof. induction n as [|n IH]; [reflexivity|]. cbn [ofnat]. rewrite IH, S_INR. unfold cxadd, cx1. cbn [fst snd]. f_equal; ring. Qed.
Lemma cx_char0 n : n <> 0 -> ofnat cx0 cx1 cxadd n <> cx0.
Proof. intros H. rewrite ofnat_cx. intros Q. injection Q as Q. apply (not_0_INR n H Q). Qed.

(** ** states given by finitely many elements |s'> <s| *)
Definition config := coord -> nat.
Definition sesq (l : list (cx * (config * config))) (O : @operator cx) : cx := fold_right cxadd cx0 (map (fun x => cxmul (fst x) (O (fst (snd x)) (snd (snd x)))) l).
Add Ring CxRing : cx_ring.
Lemma sesq_exp d l : Forall (fun x => forall p, fst (snd x) p < d /\ snd (snd x) p < d) l -> expectation cxadd cxmul d (sesq l).
Proof.
  intros H. split; [|split].
  - intros A B Q. unfold sesq. induction H as [|x l Hx _ IH]; [reflexivity|]. cbn [map fold_right]. rewrite IH, Q; [reflexivity|intros p; apply Hx..].
  - intros A B. unfold sesq. clear H. induction l as [|x l IH]; cbn [map fold_right]; [ring|]. rewrite IH. unfold oadd. ring.
  - intros c A. unfold sesq. clear H. induction l as [|x l IH]; cbn [map fold_right]; [ring|]. rewrite IH. unfold oscale. ring.
Qed.
Ltac close_bools := repeat match goal with
  | |- context [agree_off ?a ?b ?c ?d ?e] => let v := eval vm_compute in (agree_off a b c d e) in change (agree_off a b c d e) with v
  | |- context [@eqb (list nat) ?i ?a ?b] => let v := eval vm_compute in (@eqb (list nat) i a b) in change (@eqb (list nat) i a b) with v
  | |- context [forallb ?f ?l] => let v := eval vm_compute in (forallb f l) in change (forallb f l) with v end; cbv beta iota.
Lemma ex_tr (d : nat) (L M : Z) E : exists tr : coord -> tensor cx -> res cx, forall op, is_op d op -> tr c00 op = Ok (cxmul cx1 (E (on cx0 (3 * L) M (tri_dn c00) (stored cx0 d op)))).
Proof. exists (fun c op => Ok (cxmul cx1 (E (on cx0 (3 * L) M (tri_dn c) (stored cx0 d op))))). reflexivity. Qed.

(** the three cyclic orders of the colours on one up triangle, with amplitudes 1, i, -1 *)
Definition turned (a b c : nat) : config := fun p => if eqb p (3, 1)%Z then a else if eqb p (4, 0)%Z then b else if eqb p (2, 1)%Z then c else 0.
Lemma turned_range a b c p : a < 3 -> b < 3 -> c < 3 -> turned a b c p < 3.
Proof. intros. unfold turned. repeat destruct (eqb _ _); lia. Qed.
Definition chiral_state : @operator cx -> cx :=
  let s := turned 0 1 2 in let t := turned 2 0 1 in let u := turned 1 2 0 in
  sesq [(cxthird, (s, s)); (cxthird, (t, t)); (cxthird, (u, u));
        (cxmul cxthird cxi, (s, t)); (cxmul cxthird (cxopp cxi), (t, s)); (cxmul cxthird cxi, (t, u)); (cxmul cxthird (cxopp cxi), (u, t)); (cxmul cxthird (cxopp cx1), (s, u)); (cxmul cxthird (cxopp cx1), (u, s))].
Lemma chiral_exp : expectation cxadd cxmul 3 chiral_state.
Proof. apply sesq_exp. repeat (apply Forall_cons; [intros p; cbn [fst snd]; split; apply turned_range; lia|]). apply Forall_nil. Qed.
Lemma chiral_norm : normalised cx0 cx1 2 2 chiral_state.
Proof. unfold normalised, chiral_state, sesq, one. cbn [map fold_right fst snd]. close_bools. cxs. Qed.
Lemma chiral_up : chiral_state (on cx0 (3 * 2) 2 (tri_up c00) (Chi cx0 cx1 cxmul cxsub cxi)) = (4 / 3, 0)%R.
Proof. unfold chiral_state, sesq, on, Chi, moves. cbn [map fold_right fst snd]. close_bools. unfold dirac. cxs. Qed.
Notation cx_su3 f := (f cx0 cx1 cxadd cxmul cxsub cxopp cxhalf cxthird cxi).
Notation KF := (kagome_final cx0 cx1 cxadd cxmul cxsub cxopp cxhalf cxthird cxi cxs3 cx_ring cx_half cx_third cx_im cx_s3).
Notation RHO := (rho cx0 cx1).
Notation dens_RHO := (dens_rho cx0 cx1 cxadd cxmul cxsub cxopp cx_ring).
(** the sign of chirality_up *)
Lemma chirality_up_refuted : exists L M E up r tr o a b x y, (2 <= L)%Z /\ (2 <= M)%Z /\ expectation cxadd cxmul 3 E /\ normalised cx0 cx1 L M E /\
  (forall op, is_op 3 op -> tr c00 op = Ok (E (on cx0 (3 * L) M (tri_dn c00) (stored cx0 3 op)))) /\ up c00 = Ok r /\ density cx0 cxadd cxmul L M 3 E 3 (up_code c00) r /\
  cx_su3 kagome_h cx0 cx0 cx1 = Ok o /\ su3_obs cx0 cx1 cxadd cxmul cxdiv cxre 3 up tr (chirality cxmul cxsub cxi o) (perm2_tri o) = Ok (a, b, x, y) /\
  x <> cxre (E (on cx0 (3 * L) M (tri_up c00) (loc4 cx0 (chirality cxmul cxsub cxi o)))).
Proof.
  destruct (KF cx0 cx0 cx1) as (o & Ho & HD & Hel). destruct (kagome_wf cx0 cx1 cxadd cxmul cxsub cxopp cxhalf cxthird cxi cxs3 cx_ring cx_half cx_third cx_im cx_s3 _ _ _ o Ho) as (_ & W2 & Wc).
  rewrite Forall_forall in HD. assert (Dc : tdims (chirality cxmul cxsub cxi o) = [3; 3; 3; 3; 3; 3]) by (apply HD; cbn [In]; tauto). assert (D2 : tdims (perm2_tri o) = [3; 3; 3; 3; 3; 3]) by (apply HD; cbn [In]; tauto).
  assert (Hc : forall i a, state3 3 i -> state3 3 a -> el cx0 (chirality cxmul cxsub cxi o) (i ++ a) = Chi cx0 cx1 cxmul cxsub cxi i a) by (intros i a Hi Ha; apply (Hel i a Hi Ha)).
  assert (Hp : forall i a, state3 3 i -> state3 3 a -> el cx0 (perm2_tri o) (i ++ a) = bonds3 cx0 cx1 cxadd i a) by (intros i a Hi Ha; apply (Hel i a Hi Ha)).
  set (r := RHO 3 2 2%Z chiral_state 3 (up_code c00)). set (tr := fun (c : coord) op => Ok (chiral_state (on cx0 (3 * 2) 2 (tri_dn c) (stored cx0 3 op)))).
  pose proof (dens_RHO 3 2%Z 2%Z chiral_state chiral_exp 3 (up_code c00) eq_refl) as Dr. change (RHO 3 2%Z 2%Z chiral_state 3 (up_code c00)) with r in Dr.
  exists 2%Z, 2%Z, chiral_state, (fun _ => Ok r), r, tr, o. do 4 eexists.
  split; [lia|]. split; [lia|]. split; [exact chiral_exp|]. split; [exact chiral_norm|]. split; [reflexivity|]. split; [reflexivity|]. split; [exact Dr|]. split; [exact Ho|]. split.
  - apply (su3_obs_ok cx0 cx1 cxadd cxmul cxsub cxopp cx_ring 3 2 2 chiral_state ltac:(lia) ltac:(lia) chiral_exp cxdiv cxinv cx_field chiral_norm cxre tr cx1 cx_01
      (fun op _ => f_equal Ok (eq_sym (Rmul_1_l cx_ring _))) cxi _ _ Wc Dc W2 D2 Hc Hp (fun _ => Ok r) r eq_refl Dr).
  - assert (V : chiral_state (on cx0 (3 * 2) 2 (tri_up c00) (loc4 cx0 (chirality cxmul cxsub cxi o))) = (4 / 3, 0)%R).
    { rewrite <- chiral_up. apply (on_ext3 cx0 cxadd cxmul 2 2 3 chiral_state chiral_exp). intros. now apply (loc4_ext cx0 3 (chirality cxmul cxsub cxi o)). }
    rewrite V, chiral_up. unfold cxre, cxopp. cbn [fst snd]. intros Q. injection Q. lra.
Qed.

(** ** SS_up_01 is the correlation of the spins 1 and 2 *)
Definition one_up_spin : config := fun p => if eqb p (3, 1)%Z then 1 else 0.
Definition spin_state : @operator cx -> cx := sesq [(cx1, (one_up_spin, one_up_spin))].
Lemma spin_exp : expectation cxadd cxmul 2 spin_state.
Proof. apply sesq_exp. repeat (apply Forall_cons; [intros p; cbn [fst snd]; unfold one_up_spin; destruct (eqb _ _); lia|]). apply Forall_nil. Qed.
Lemma spin_norm : normalised cx0 cx1 2 2 spin_state.
Proof. unfold normalised, spin_state, sesq, one. cbn [map fold_right fst snd]. close_bools. cxs. Qed.
Notation dot2 := (dot cx0 cx1 cxadd cxmul cxsub cxopp cxhalf cxi (fun i a => el cx0 Sz2 [i; a]) (fun i a => el cx0 Sp2 [i; a]) (fun i a => el cx0 Sm2 [i; a])).
Notation cross2 := (cross_z cx0 cx1 cxadd cxmul cxsub cxopp cxhalf cxi (fun i a => el cx0 Sp2 [i; a]) (fun i a => el cx0 Sm2 [i; a])).
Lemma spin_on (O : local) : spin_state (on cx0 (3 * 2) 2 (tri_up c00) O) = O [1; 0; 0] [1; 0; 0].
Proof. unfold spin_state, sesq, on. cbn [map fold_right fst snd]. close_bools. change (map _ (tri_up c00)) with [1; 0; 0]. ring. Qed.
Lemma up_labels_refuted : exists L M E up r dn c j1 o l, (2 <= L)%Z /\ (2 <= M)%Z /\ expectation cxadd cxmul 2 E /\ normalised cx0 cx1 L M E /\
  (forall op, tdims op = [2; 2; 2; 2; 2; 2] -> exists n, dn c op = Ok (E (on cx0 (3 * L) M (tri_dn c) (loc4 cx0 op)), n)) /\ up c = Ok r /\ density cx0 cxadd cxmul L M 2 E 3 (up_code c) r /\
  model2 j1 cx0 cx0 cx0 cx0 cx0 = Ok o /\ bond_corr cx0 cx1 cxadd cxmul up dn c o = Ok l /\ nth 3 l cx0 <> E (on cx0 (3 * L) M (tri_up c) (scale cxmul j1 (dot2 0 1))).
Proof.
  destruct (B2 cx1 cx0 cx0 cx0 cx0 cx0 (or_introl eq_refl) cxz_0) as (o & t0 & t1 & t2 & Ho & Hb & D0 & D1 & D2 & Hel).
  set (r := RHO 2 2 2%Z spin_state 3 (up_code c00)). set (dn := fun (c : coord) op => Ok (spin_state (on cx0 (3 * 2) 2 (tri_dn c) (loc4 cx0 op)), cx1)).
  pose proof (dens_RHO 2 2%Z 2%Z spin_state spin_exp 3 (up_code c00) eq_refl) as Dr. change (RHO 2 2%Z 2%Z spin_state 3 (up_code c00)) with r in Dr.
  exists 2%Z, 2%Z, spin_state, (fun _ => Ok r), r, dn, c00, cx1, o. eexists.
  split; [lia|]. split; [lia|]. split; [exact spin_exp|]. split; [exact spin_norm|]. split; [intros op _; eexists; reflexivity|]. split; [reflexivity|]. split; [exact Dr|]. split; [exact Ho|]. split.
  - apply (bond_corr_ok cx0 cx1 cxadd cxmul cxsub cxopp cx_ring 2 2 2 spin_state spin_exp cxhalf cxi _ _ _ cx1 cx0 o t0 t1 t2 Hb D0 D1 D2 Hel (fun _ => Ok r) dn c00 r (fun op _ => ex_intro _ cx1 eq_refl) eq_refl Dr).
  - cbn [nth]. rewrite !spin_on. unfold plus, scale, dot, cross_z, minus, on2, place, plus, sx, sy. cbn [nth Nat.eqb]. unfold unit_mat, dirac, Sz2, Sp2, Sm2. rewrite ?e00, ?e01, ?e10, ?e11. cbn [Nat.eqb].
    unfold cxmul, cxadd, cxsub, cxopp, cx0, cx1, cxhalf, cxi. cbn [fst snd]. intros Q. injection Q. lra.
Qed.

(** ** KAGOME_SU3.energy_1site: spins of three cells that do not form a triangle *)
Definition stripe (b : nat) : config := fun p => let r := (fst p mod 6)%Z in if (r mod 3 =? 2)%Z then 2 else if (r <? 3)%Z then b else 1 - b.
Definition stripes : @operator cx -> cx := sesq [(cxhalf, (stripe 0, stripe 0)); (cxhalf, (stripe 1, stripe 1))].
Lemma stripes_exp : expectation cxadd cxmul 3 stripes.
Proof. apply sesq_exp. repeat (apply Forall_cons; [intros p; cbn [fst snd]; unfold stripe; cbv zeta; repeat destruct (Z.eqb _ _); repeat destruct (Z.ltb _ _); lia|]). apply Forall_nil. Qed.
Lemma stripes_norm : normalised cx0 cx1 2 2 stripes.
Proof. unfold normalised, stripes, sesq, one. cbn [map fold_right fst snd]. close_bools. cxs. Qed.
Lemma agree_refl L M ps s : agree_off L M ps s s = true.
Proof. unfold agree_off. apply forallb_forall. intros p _. rewrite Nat.eqb_refl. apply orb_true_r. Qed.
Lemma stripes_on ps O : stripes (on cx0 (3 * 2) 2 ps O) =
  cxadd (cxmul cxhalf (O (map (fun p => stripe 0 (wrap (3 * 2) 2 p)) ps) (map (fun p => stripe 0 (wrap (3 * 2) 2 p)) ps)))
        (cxmul cxhalf (O (map (fun p => stripe 1 (wrap (3 * 2) 2 p)) ps) (map (fun p => stripe 1 (wrap (3 * 2) 2 p)) ps))).
Proof. unfold stripes, sesq, on. cbn [map fold_right fst snd]. rewrite !agree_refl. ring. Qed.
Lemma stripe_move b p q : b < 2 -> In p (sites 2 2) -> stripe b (wrap (3 * 2) 2 (cadd (3 * (fst p - 0), snd p - 0)%Z q)) = stripe (if (fst p =? 0)%Z then b else 1 - b) (wrap (3 * 2) 2 q).
Proof.
  intros Hb Hp. assert (Hx : (fst p = 0 \/ fst p = 1)%Z). { apply In_sites in Hp; lia. }
  unfold stripe, wrap, cadd. cbn [fst snd]. rewrite !Z.mod_mod by lia. change (3 * 2)%Z with 6%Z. pose proof (Z.mod_pos_bound (fst q) 6 ltac:(lia)) as Hr.
  rewrite Zplus_mod. set (r := (fst q mod 6)%Z) in *. destruct Hx as [-> | ->]; assert (Hc : (r = 0 \/ r = 1 \/ r = 2 \/ r = 3 \/ r = 4 \/ r = 5)%Z) by lia;
    repeat (destruct Hc as [Hc|Hc]); rewrite Hc; destruct b as [|[|?]]; try lia; reflexivity.
Qed.
Lemma stripes_same : same_cells cx0 2 2 stripes (fun _ => c00).
Proof.
  intros p ps O Hp. cbn [fst snd c00]. rewrite !stripes_on, !map_map.
  rewrite (map_ext _ _ (fun q => stripe_move 0 p q ltac:(lia) Hp)), (map_ext _ _ (fun q => stripe_move 1 p q ltac:(lia) Hp)). destruct (fst p =? 0)%Z; cbn [Nat.sub]; [reflexivity|ring].
Qed.
Lemma stripes_tiling : tiling 2 2 (fun _ => c00) [c00] 4.
Proof. split; [repeat constructor; auto|]. split; [intros; now left|]. intros k [<-|[]]. reflexivity. Qed.
Ltac config_bools := repeat match goal with |- context [map (fun p => stripe ?b (wrap ?l ?m p)) ?ps] => let v := eval vm_compute in (map (fun p => stripe b (wrap l m p)) ps) in change (map (fun p => stripe b (wrap l m p)) ps) with v end.
Lemma stripes_triangles : stripes (triangles cx0 cxadd 2 2 (bonds3 cx0 cx1 cxadd)) = (8, 0)%R.
Proof.
  unfold triangles. rewrite (E_sum cx0 cx1 cxadd cxmul cxsub cxopp cx_ring 3 stripes stripes_exp). change (sites 2 2) with [(0, 0); (0, 1); (1, 0); (1, 1)]%Z. cbn [map fold_right].
  rewrite !(E_add cxadd cxmul 3 stripes stripes_exp), !stripes_on. config_bools. unfold bonds3, moves. close_bools. unfold dirac. cxs.
Qed.
Notation far := [spin 1 c00; spin 0 (px c00); spin 2 (pxy c00)].
Lemma energy_1site_refuted : exists L M E n tr keep r o e, (2 <= L)%Z /\ (2 <= M)%Z /\ expectation cxadd cxmul 3 E /\ normalised cx0 cx1 L M E /\
  tiling L M (fun _ => c00) [c00] n /\ same_cells cx0 L M E (fun _ => c00) /\
  (forall op, is_op 3 op -> tr c00 op = Ok (E (on cx0 (3 * L) M (tri_dn c00) (stored cx0 3 op)))) /\ keep c00 [sB] [sC] [] [sA] = Ok r /\ density cx0 cxadd cxmul L M 3 E 3 far r /\
  cx_su3 kagome_h cx1 cx0 cx0 = Ok o /\ energy_1site cx0 cx1 cxadd cxmul cxdiv cxre 3 tr keep [c00] (h_tri o) = Ok e /\
  cxmul (ofnat cx0 cx1 cxadd (3 * length (sites L M))) e <> E (triangles cx0 cxadd L M (loc4 cx0 (h_tri o))).
Proof.
  destruct (KF cx1 cx0 cx0) as (o & Ho & HD & Hel). destruct (kagome_wf cx0 cx1 cxadd cxmul cxsub cxopp cxhalf cxthird cxi cxs3 cx_ring cx_half cx_third cx_im cx_s3 _ _ _ o Ho) as (Wh & _ & _).
  rewrite Forall_forall in HD. assert (Dh : tdims (h_tri o) = [3; 3; 3; 3; 3; 3]) by (apply HD; cbn [In]; tauto).
  assert (Hh : forall x y w x' y' w', x < 3 -> y < 3 -> w < 3 -> x' < 3 -> y' < 3 -> w' < 3 -> loc4 cx0 (h_tri o) [x; y; w] [x'; y'; w'] = bonds3 cx0 cx1 cxadd [x; y; w] [x'; y'; w']).
  { intros x y w x' y' w' H1 H2 H3 H4 H5 H6. apply (loc4_ext cx0 3 (h_tri o)); try assumption. intros i a Hi Ha. destruct (Hel i a Hi Ha) as (_ & _ & _ & Q & _). rewrite Q. unfold H_triangle. ring. }
  set (r := RHO 3 2 2%Z stripes 3 far). set (tr := fun (c : coord) op => Ok (stripes (on cx0 (3 * 2) 2 (tri_dn c) (stored cx0 3 op)))).
  pose proof (dens_RHO 3 2%Z 2%Z stripes stripes_exp 3 far eq_refl) as Dr. change (RHO 3 2%Z 2%Z stripes 3 far) with r in Dr.
  exists 2%Z, 2%Z, stripes, 4, tr, (fun _ _ _ _ _ => Ok r), r, o. eexists.
  split; [lia|]. split; [lia|]. split; [exact stripes_exp|]. split; [exact stripes_norm|]. split; [exact stripes_tiling|]. split; [exact stripes_same|]. split; [reflexivity|]. split; [reflexivity|]. split; [exact Dr|]. split; [exact Ho|]. split.
  - apply (energy_1site_ok cx0 cx1 cxadd cxmul cxsub cxopp cx_ring 3 2 2 stripes ltac:(lia) ltac:(lia) stripes_exp cxdiv cxinv cx_field stripes_norm cxre tr cx1 cx_01
      (fun op _ => f_equal Ok (eq_sym (Rmul_1_l cx_ring _))) (fun _ _ _ _ _ => Ok r) [c00] (h_tri o) r Wh Dh eq_refl Dr).
  - assert (T : stripes (triangles cx0 cxadd 2 2 (loc4 cx0 (h_tri o))) = (8, 0)%R).
    { rewrite <- stripes_triangles. unfold triangles. rewrite !(E_sum cx0 cx1 cxadd cxmul cxsub cxopp cx_ring 3 stripes stripes_exp). apply (sum_map_ext cx0 cxadd). intros p _. rewrite !(E_add cxadd cxmul 3 stripes stripes_exp).
      f_equal; apply (on_ext3 cx0 cxadd cxmul 2 2 3 stripes stripes_exp); exact Hh. }
    rewrite T, !stripes_on. config_bools. rewrite !Hh by lia. unfold bonds3, moves. close_bools. unfold dirac. change (3 * length (sites 2 2)) with 12. rewrite ofnat_cx. cbn [length num].
    unfold cxdiv, cxinv, cxre, cxmul, cxadd, cx0, cx1, cxhalf. cbn [fst snd]. intros Q. apply (f_equal fst) in Q. cbn [fst] in Q. rewrite INR_IZR_INZ in Q. cbn in Q. revert Q. 
    match goal with |- ?a = ?b -> _ => replace a with 4%R by (field; lra) end. lra.
Qed.
