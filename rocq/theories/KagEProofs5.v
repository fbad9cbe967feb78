(** Energies per site of the spin and of the SU(3) model. *)
From Coq Require Import Lia Ring Field.
From Verif Require Import Base BaseLemmas Tensor TensorLemmas Net Plaq PlaqSpec PlaqProofs PlaqProofs6 Su3 Su3Spec Su3Proofs5 Kag KagSpec RdmKag KagE KagESpec KagProofs KagProofs2 KagEProofs KagEProofs2 KagEProofs3 KagEProofs4.
Open Scope list_scope.
Open Scope nat_scope.
Open Scope res_scope.

Section P5.
Context {K : Type} (k0 k1 : K) (kadd kmul ksub : K -> K -> K) (kopp : K -> K) (kdiv : K -> K -> K) (kinv : K -> K).
Hypothesis Kr : ring_theory k0 k1 kadd kmul ksub kopp (@eq K).
Hypothesis Kf : field_theory k0 k1 kadd kmul ksub kopp kdiv kinv (@eq K).
Hypothesis char0 : forall n, n <> 0%nat -> ofnat k0 k1 kadd n <> k0.
Add Ring KringE6 : Kr.
Notation "a +k b" := (kadd a b) (at level 50, left associativity).
Notation "a *k b" := (kmul a b) (at level 40, left associativity).
Variables (d : nat) (L M : Z) (E : @operator K -> K).
Hypotheses (HL : (2 <= L)%Z) (HM : (2 <= M)%Z).
Hypothesis HE : expectation kadd kmul d E.
Notation on := (on k0 (3 * L) M).
Notation dens := (density k0 kadd kmul L M d E).
Variables (v2s : coord -> coord) (ks : list coord) (n : nat).
Hypothesis HT : tiling L M v2s ks n.
Hypothesis HI : same_cells k0 L M E v2s.
Hypothesis Hpos : 0 < length ks.
Variables (up : coord -> res (tensor K)) (dn : coord -> tensor K -> res (K * K)) (cast : K -> K).
Hypothesis Hdn : forall k op, In k ks -> tdims op = repeat d 6 -> exists m, dn k op = Ok (E (on (tri_dn k) (loc4 k0 op)), m).
Hypothesis Hup : forall k, In k ks -> exists r, up k = Ok r /\ dens 3 (up_code k) r.
Lemma triangles_ext O O' : (forall x y w x' y' w', x < d -> y < d -> w < d -> x' < d -> y' < d -> w' < d -> O [x; y; w] [x'; y'; w'] = O' [x; y; w] [x'; y'; w']) ->
  E (triangles k0 kadd L M O) = E (triangles k0 kadd L M O').
Proof.
  intros H. unfold triangles. rewrite !(E_sum k0 k1 kadd kmul ksub kopp Kr d E HE). apply (sum_map_ext k0 kadd). intros p _. rewrite !(E_add kadd kmul d E HE).
  f_equal; apply (on_ext3 k0 kadd kmul L M d E HE); exact H.
Qed.
(** an operator with the elements of O *)
Lemma energy_of h (O : local) : tdims h = repeat d 6 -> (forall i a, state3 d i -> state3 d a -> el k0 h (i ++ a) = O i a) -> cyclic d O ->
  (forall k, In k ks -> cast (E (on (tri_dn k) O)) = E (on (tri_dn k) O) /\ cast (E (on (tri_up k) O)) = E (on (tri_up k) O)) ->
  exists e, energy_f k0 k1 kadd kmul kdiv up dn ks cast h = Ok e /\ ofnat k0 k1 kadd (3 * length (sites L M)) *k e = E (triangles k0 kadd L M O).
Proof.
  intros Dh Hel Hc Hr. assert (HO : forall x y w x' y' w', x < d -> y < d -> w < d -> x' < d -> y' < d -> w' < d -> loc4 k0 h [x; y; w] [x'; y'; w'] = O [x; y; w] [x'; y'; w']) by (intros; now apply (loc4_ext k0 d h)).
  assert (E3 : forall p q r, E (on [p; q; r] (loc4 k0 h)) = E (on [p; q; r] O)) by (intros; now apply (on_ext3 k0 kadd kmul L M d E HE)).
  rewrite <- (triangles_ext _ _ HO). apply (energy_ok k0 k1 kadd kmul ksub kopp Kr L M d E HE kdiv kinv Kf char0 up dn v2s ks n HT HI h cast); try assumption.
  - intros x y w x' y' w' H1 H2 H3 H4 H5 H6. rewrite !HO by assumption. now apply Hc.
  - intros k Hk. now apply Hdn.
  - intros k Hk. unfold tri_dn, tri_up. rewrite !E3. now apply Hr.
Qed.
End P5.

Section P6.
Context {K : Type} (k0 k1 : K) (kadd kmul ksub : K -> K -> K) (kopp : K -> K) (kdiv : K -> K -> K) (re : K -> K).
Hypothesis Kr : ring_theory k0 k1 kadd kmul ksub kopp (@eq K).
Add Ring KringE7 : Kr.
Lemma per_site_f keep (dn : coord -> tensor K -> res (K * K)) h r m x : keep c00 [] [sB] [sA] [sC] = Ok r -> dn c00 h = Ok (x, m) -> (exists nn, norm3 k0 k1 kadd kmul r = Ok nn) ->
  energy_per_site_2x2 k0 k1 kadd kmul kdiv re dn keep h = energy_f k0 k1 kadd kmul kdiv (fun _ => Ok r) dn [c00] re h.
Proof.
  intros Hk Hd (nn & Hn). unfold energy_per_site_2x2, energy_triangles_2x2, energy_f, energy_triangle_dn, energy_triangle_up. cbn [mapM]. rewrite Hd, Hk. cbn [bind]. rewrite Hn. cbn [bind].
  destruct (value3 k0 k1 kadd kmul r h) as [y|]; [|reflexivity]. cbn [bind]. do 2 f_equal. unfold total_e. cbn [fold_left fst snd]. ring.
Qed.
End P6.

Section P7.
Context {K : Type} (k0 k1 : K) (kadd kmul ksub : K -> K -> K) (kopp : K -> K) (half third im s3 : K) (re : K -> K).
Hypothesis Kr : ring_theory k0 k1 kadd kmul ksub kopp (@eq K).
Hypothesis Hhalf : kmul (kadd k1 k1) half = k1.
Hypothesis Hthird : kmul (kadd k1 (kadd k1 k1)) third = k1.
Hypothesis Him : kmul im im = kopp k1.
Hypothesis Hs3 : kmul s3 s3 = kadd k1 (kadd k1 k1).
Context (kdiv : K -> K -> K) (kinv : K -> K).
Hypothesis Kf : field_theory k0 k1 kadd kmul ksub kopp kdiv kinv (@eq K).
Variables (L M : Z) (E : @operator K -> K).
Hypotheses (HL : (2 <= L)%Z) (HM : (2 <= M)%Z).
Hypothesis HE : expectation kadd kmul 3 E.
Notation on := (on k0 (3 * L) M).
Notation dens := (density k0 kadd kmul L M 3 E).
Notation mv := (moves k0 k1).
Notation Ht := (H_triangle k0 k1 kadd kmul ksub im).
Notation P2 := (bonds3 k0 k1 kadd).
Notation chi := (fun i a => kmul im (ksub (mv cyc i a) (mv cyc' i a))).
Notation kag3 := (kagome_h k0 k1 kadd kmul ksub kopp half third im).
Notation num3 := (num k0 k1 kadd 3).
Notation final := (kagome_final k0 k1 kadd kmul ksub kopp half third im s3 Kr Hhalf Hthird Him Hs3).
Notation wf3 := (kagome_wf k0 k1 kadd kmul ksub kopp half third im s3 Kr Hhalf Hthird Him Hs3).
Lemma su3_obs_2x2_final dn up m r j k h : (forall op, tdims op = [3; 3; 3; 3; 3; 3] -> dn c00 op = Ok (E (on (tri_dn c00) (loc4 k0 op)), m op)) -> up c00 = Ok r -> dens 3 (up_code c00) r ->
  exists o, kag3 j k h = Ok o /\ su3_obs_2x2 k0 k1 kadd kmul kdiv re up dn (h_tri o) (chirality kmul ksub im o) (perm2_tri o) =
    Ok (re (E (on (tri_dn c00) chi)), re (E (on (tri_dn c00) (Ht j k h))), kdiv (re (E (on (tri_dn c00) P2))) num3,
       (re (E (on (tri_up c00) chi)), re (E (on (tri_up c00) (Ht j k h))), kdiv (re (E (on (tri_up c00) P2))) num3)).
Proof.
  intros Hdn Hup Dr. destruct (final j k h) as (o & Ho & HD & Hel). destruct (wf3 _ _ _ o Ho) as (Wh & W2 & Wc). exists o. split; [exact Ho|]. rewrite Forall_forall in HD.
  assert (Dh : tdims (h_tri o) = [3; 3; 3; 3; 3; 3]) by (apply HD; cbn [In]; tauto). assert (Dc : tdims (chirality kmul ksub im o) = [3; 3; 3; 3; 3; 3]) by (apply HD; cbn [In]; tauto). assert (D2 : tdims (perm2_tri o) = [3; 3; 3; 3; 3; 3]) by (apply HD; cbn [In]; tauto).
  assert (Hh : forall x y w x' y' w', x < 3 -> y < 3 -> w < 3 -> x' < 3 -> y' < 3 -> w' < 3 -> loc4 k0 (h_tri o) [x; y; w] [x'; y'; w'] = Ht j k h [x; y; w] [x'; y'; w']).
  { intros. apply (loc4_ext k0 3 (h_tri o)); try assumption. intros i a Hi Ha. apply (Hel i a Hi Ha). }
  assert (E3 : forall p q t, E (on [p; q; t] (loc4 k0 (h_tri o))) = E (on [p; q; t] (Ht j k h))) by (intros; now apply (on_ext3 k0 kadd kmul L M 3 E HE)).
  rewrite (su3_obs_2x2_ok k0 k1 kadd kmul ksub kopp Kr 3 L M E HE kdiv re im (chirality kmul ksub im o) (perm2_tri o) (h_tri o) Dc D2 Dh (fun i a Hi Ha => proj2 (proj2 (proj2 (proj2 (proj2 (proj2 (Hel i a Hi Ha)))))))
    (fun i a Hi Ha => proj1 (Hel i a Hi Ha)) up r Hup Dr dn (fun op D => ex_intro _ (m op) (Hdn op D))).
  - unfold tri_dn, tri_up. rewrite !E3. reflexivity.
  - intros x y w x' y' w' H1 H2 H3 H4 H5 H6. rewrite !Hh by assumption. now apply (cyclic_H_triangle k0 k1 kadd kmul ksub kopp im kopp Kr 3 j k h).
Qed.
Lemma su3_obs_final up r tr N j k h : normalised k0 k1 L M E -> N <> k0 -> (forall op, is_op 3 op -> tr c00 op = Ok (kmul N (E (on (tri_dn c00) (stored k0 3 op))))) -> up c00 = Ok r -> dens 3 (up_code c00) r ->
  exists o, kag3 j k h = Ok o /\ su3_obs k0 k1 kadd kmul kdiv re 3 up tr (chirality kmul ksub im o) (perm2_tri o) =
    Ok (re (E (on (tri_dn c00) chi)), kdiv (re (E (on (tri_dn c00) P2))) num3, re (kopp (E (on (tri_up c00) chi))), kdiv (re (E (on (tri_up c00) P2))) num3).
Proof.
  intros HN HN0 Htr Hup Dr. destruct (final j k h) as (o & Ho & HD & Hel). destruct (wf3 _ _ _ o Ho) as (Wh & W2 & Wc). exists o. split; [exact Ho|]. rewrite Forall_forall in HD.
  assert (Dc : tdims (chirality kmul ksub im o) = [3; 3; 3; 3; 3; 3]) by (apply HD; cbn [In]; tauto). assert (D2 : tdims (perm2_tri o) = [3; 3; 3; 3; 3; 3]) by (apply HD; cbn [In]; tauto).
  exact (su3_obs_ok k0 k1 kadd kmul ksub kopp Kr 3 L M E HL HM HE kdiv kinv Kf HN re tr N HN0 Htr im _ _ Wc Dc W2 D2 (fun i a Hi Ha => proj2 (proj2 (proj2 (proj2 (proj2 (proj2 (Hel i a Hi Ha)))))))
    (fun i a Hi Ha => proj1 (Hel i a Hi Ha)) up r Hup Dr).
Qed.
End P7.
