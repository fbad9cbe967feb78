(** Energies of the kagome lattice from its density matrices. *)
From Coq Require Import Lia Ring Field Permutation.
From Verif Require Import Base BaseLemmas Tensor TensorLemmas Net Plaq PlaqSpec PlaqProofs PlaqProofs2 PlaqProofs5 PlaqProofs6 Su3 Su3Spec Kag RdmKag KagE KagESpec.
Open Scope list_scope.
Open Scope Z_scope.
Open Scope res_scope.

Section P.
Context {K : Type} (k0 k1 : K) (kadd kmul ksub : K -> K -> K) (kopp : K -> K).
Hypothesis Kr : ring_theory k0 k1 kadd kmul ksub kopp (@eq K).
Add Ring KringE : Kr.
Notation "a +k b" := (kadd a b) (at level 50, left associativity).
Notation "a *k b" := (kmul a b) (at level 40, left associativity).
Notation sum l := (fold_right kadd k0 l).
Notation el := (el k0).
Variables (L M : Z) (d : nat).
Notation D6 := [d; d; d; d; d; d].
Notation D4 := [d; d; d; d].
Notation D2 := [d; d].
Notation on := (on k0 (3 * L) M).
Notation loc4 := (loc4 k0).
Notation contract := (contract k0 k1 kadd kmul).

Lemma dd_eq : (d =? d)%nat = true. Proof. apply Nat.eqb_refl. Qed.
Lemma build0 (f : list nat -> K) : tbuild [] f = mkT [] [f []]. Proof. reflexivity. Qed.
Ltac con Hr Hh := unfold KagE.contract, einsum, summed, label_dims; cbn [flat_map fst snd app seq length]; rewrite ?Hr, ?Hh; cbn -[tbuild nsum nprod tel Nat.eqb indices]; rewrite ?Hr, ?Hh;
  cbn -[tbuild nsum nprod tel indices]; rewrite ?dd_eq; cbn -[tbuild nsum nprod tel indices]; rewrite build0; unfold item; cbn [tdata]; f_equal; unfold nsum.
Definition tr6 (l ix : list nat) : list nat := map (fun k => nth k ix 0%nat) l.
Lemma nodup_map_in {A B} (f : A -> B) l : (forall x y, In x l -> In y l -> f x = f y -> x = y) -> NoDup l -> NoDup (map f l).
Proof.
  intros Hf. induction 1 as [|a l Ha Hl IH]; cbn; constructor; [|apply IH; intros x y Hx Hy; apply Hf; now right].
  rewrite in_map_iff. intros (y & He & Hy). apply Ha. rewrite <- (Hf y a); [exact Hy| now right | now left | exact He].
Qed.
(** relabelling of a sum over six indices *)
Lemma relabel (f : list nat -> K) l l' : (forall i j k a b c, tr6 l' (tr6 l [i; j; k; a; b; c]) = [i; j; k; a; b; c] /\ tr6 l (tr6 l' [i; j; k; a; b; c]) = [i; j; k; a; b; c])%nat ->
  (forall i j k a b c, in_range D6 [i; j; k; a; b; c] -> in_range D6 (tr6 l [i; j; k; a; b; c]) /\ in_range D6 (tr6 l' [i; j; k; a; b; c]))%nat ->
  sum (map (fun ix => f (tr6 l ix)) (indices D6)) = sum (map f (indices D6)).
Proof.
  intros Hi Hr. rewrite <- (map_map (tr6 l) f). apply (sum_perm k0 k1 kadd kmul ksub kopp Kr), Permutation_map.
  assert (S6 : forall ix, In ix (indices D6) -> exists i j k a b c, ix = [i; j; k; a; b; c] /\ in_range D6 ix).
  { intros ix Hx. apply In_indices in Hx. pose proof (in_range_length _ _ Hx) as Hl. cbn in Hl. destruct ix as [|i [|j [|k [|a [|b [|c [|? ?]]]]]]]; try discriminate Hl. repeat eexists. exact Hx. }
  apply NoDup_Permutation.
  - apply nodup_map_in; [|apply NoDup_indices]. intros x y Hx Hy He. destruct (S6 x Hx) as (i & j & k & a & b & c & -> & _). destruct (S6 y Hy) as (i' & j' & k' & a' & b' & c' & -> & _).
    rewrite <- (proj1 (Hi i j k a b c)), He. apply Hi.
  - apply NoDup_indices.
  - intros x. rewrite in_map_iff. split.
    + intros (y & <- & Hy). destruct (S6 y Hy) as (i & j & k & a & b & c & -> & Hy'). apply In_indices. now apply Hr.
    + intros Hx. destruct (S6 x Hx) as (i & j & k & a & b & c & -> & Hx'). exists (tr6 l' [i; j; k; a; b; c]). split; [apply Hi|]. apply In_indices. now apply Hr.
Qed.
Ltac range6 := intros i j k a b c Hin; repeat match goal with H : Forall2 _ _ _ |- _ => inversion H; clear H; subst | H : in_range _ _ |- _ => inversion H; clear H; subst end; split; repeat (apply Forall2_cons; [assumption|]); apply Forall2_nil.
Lemma contract6 l r h : tdims r = D6 -> tdims h = D6 -> In l [[3; 4; 5; 0; 1; 2]; [0; 1; 2; 3; 4; 5]; [2; 0; 1; 5; 3; 4]]%nat ->
  contract l r h = Ok (sum (map (fun ix => el r ix *k el h (tr6 l ix)) (indices D6))).
Proof.
  intros Hr Hh [<-|[<-|[<-|[]]]]; con Hr Hh.
  - etransitivity; [|apply (relabel (fun ix => el r ix *k el h (tr6 [3; 4; 5; 0; 1; 2]%nat ix)) [3; 4; 5; 0; 1; 2]%nat [3; 4; 5; 0; 1; 2]%nat); [intros; split; reflexivity|range6]].
    apply (sum_map_ext k0 kadd); intros ix Hix; apply In_indices, in_range_length in Hix; cbn in Hix;
    destruct ix as [|i [|j [|k [|a [|b [|c [|? ?]]]]]]]; try discriminate Hix; cbn -[tel]; unfold tel, Plaq.el; ring.
  - apply (sum_map_ext k0 kadd); intros ix Hix; apply In_indices, in_range_length in Hix; cbn in Hix;
    destruct ix as [|i [|j [|k [|a [|b [|c [|? ?]]]]]]]; try discriminate Hix; cbn -[tel]; unfold tel, Plaq.el; ring.
  - etransitivity; [|apply (relabel (fun ix => el r ix *k el h (tr6 [2; 0; 1; 5; 3; 4]%nat ix)) [1; 2; 0; 4; 5; 3]%nat [2; 0; 1; 5; 3; 4]%nat); [intros; split; reflexivity|range6]].
    apply (sum_map_ext k0 kadd); intros ix Hix; apply In_indices, in_range_length in Hix; cbn in Hix;
    destruct ix as [|i [|j [|k [|a [|b [|c [|? ?]]]]]]]; try discriminate Hix; cbn -[tel]; unfold tel, Plaq.el; ring.
Qed.
Lemma contract4 r h : tdims r = D4 -> tdims h = D4 -> contract [0; 1; 2; 3]%nat r h = Ok (sum (map (fun ix => el r ix *k el h ix) (indices D4))).
Proof.
  intros Hr Hh; con Hr Hh. apply (sum_map_ext k0 kadd); intros ix Hix; apply In_indices, in_range_length in Hix; cbn in Hix;
    destruct ix as [|i [|j [|k [|a [|? ?]]]]]; try discriminate Hix; cbn -[tel]; unfold tel, Plaq.el; ring.
Qed.
Lemma norm3_ok r : tdims r = D6 -> norm3 k0 k1 kadd kmul r = Ok (sum (map (fun ix => el r (ix ++ ix)) (indices [d; d; d]))).
Proof.
  intros Hr. unfold norm3, einsum, summed, label_dims. cbn [flat_map fst snd app seq length]. rewrite Hr. cbn -[tbuild nsum nprod tel Nat.eqb indices]. rewrite Hr.
  cbn -[tbuild nsum nprod tel indices]. rewrite ?dd_eq. cbn -[tbuild nsum nprod tel indices]. rewrite build0. unfold item. cbn [tdata]. f_equal. unfold nsum.
  apply (sum_map_ext k0 kadd); intros ix Hix; apply In_indices, in_range_length in Hix; cbn in Hix;
    destruct ix as [|i [|j [|k [|? ?]]]]; try discriminate Hix; cbn -[tel]; unfold tel, Plaq.el; ring.
Qed.

Variable E : @operator K -> K.
Hypothesis HE : expectation kadd kmul d E.
Notation dens := (density k0 kadd kmul L M d E).
Lemma idx6 (f g : list nat -> K) : (forall i j k a b c, f [i; j; k; a; b; c] = g [i; j; k; a; b; c])%nat -> sum (map f (indices D6)) = sum (map g (indices D6)).
Proof. intros H. apply (sum_map_ext k0 kadd). intros ix Hix. apply In_indices, in_range_length in Hix. cbn in Hix. destruct ix as [|i [|j [|k [|a [|b [|c [|? ?]]]]]]]; try discriminate Hix. apply H. Qed.
Lemma idx4 (f g : list nat -> K) : (forall i j a b, f [i; j; a; b] = g [i; j; a; b])%nat -> sum (map f (indices D4)) = sum (map g (indices D4)).
Proof. intros H. apply (sum_map_ext k0 kadd). intros ix Hix. apply In_indices, in_range_length in Hix. cbn in Hix. destruct ix as [|i [|j [|a [|b [|? ?]]]]]; try discriminate Hix. apply H. Qed.
(** the value of an operator *)
Lemma value3_ok ps r h : dens 3 ps r -> tdims h = D6 -> value3 k0 k1 kadd kmul r h = Ok (E (on ps (loc4 h))).
Proof.
  intros (Dr & _ & H) Dh. unfold value3. rewrite contract6 by (try assumption; cbn [In]; tauto). rewrite H. f_equal. change (repeat d (2 * 3)) with D6. apply idx6. reflexivity.
Qed.
Lemma overlap3_ok ps r h : dens 3 ps r -> tdims h = D6 -> overlap3 k0 k1 kadd kmul r h = Ok (E (on ps (transposed (loc4 h)))).
Proof.
  intros (Dr & _ & H) Dh. unfold overlap3. rewrite contract6 by (try assumption; cbn [In]; tauto). rewrite H. f_equal. change (repeat d (2 * 3)) with D6. apply idx6. reflexivity.
Qed.
Lemma ring3_ok ps r h : dens 3 ps r -> tdims h = D6 ->
  ring3 k0 k1 kadd kmul r h = Ok (E (on ps (fun i a => match i, a with [x; y; w], [x'; y'; w'] => loc4 h [w'; x'; y'] [w; x; y] | _, _ => k0 end))).
Proof.
  intros (Dr & _ & H) Dh. unfold ring3. rewrite contract6 by (try assumption; cbn [In]; tauto). rewrite H. f_equal. change (repeat d (2 * 3)) with D6. apply idx6. reflexivity.
Qed.

(** order of the spins *)
Lemma agree_perm ps qs s s' : Permutation ps qs -> agree_off (3 * L) M ps s s' = agree_off (3 * L) M qs s s'.
Proof.
  intros H. unfold agree_off. assert (Q : forall (f g : coord -> bool) l, (forall x, f x = g x) -> forallb f l = forallb g l) by (intros f g l He; induction l as [|x l IH]; cbn; [reflexivity|]; now rewrite He, IH).
  apply Q. intros p. f_equal. apply Bool.eq_true_iff_eq. rewrite !existsb_exists. split; intros (q & Hq & He); exists q; (split; [|exact He]).
  - eapply Permutation_in; eauto.
  - eapply Permutation_in; [apply Permutation_sym; eauto|exact Hq].
Qed.
Lemma rot_on p q r O O' : (forall x y w x' y' w', (x < d)%nat -> (y < d)%nat -> (w < d)%nat -> (x' < d)%nat -> (y' < d)%nat -> (w' < d)%nat -> O [y; w; x] [y'; w'; x'] = O' [x; y; w] [x'; y'; w']) ->
  E (on [q; r; p] O) = E (on [p; q; r] O').
Proof.
  intros H. apply (E_eq kadd kmul d E HE). intros s s' Hs Hs'. unfold PlaqSpec.on. cbn [map].
  rewrite (agree_perm _ [wrap (3 * L) M p; wrap (3 * L) M q; wrap (3 * L) M r]).
  - destruct agree_off; [|reflexivity]. apply H; auto.
  - apply Permutation_sym, (Permutation_middle [wrap (3 * L) M q; wrap (3 * L) M r] []).
Qed.
Lemma on_ext ps O O' : (forall i a, length i = length ps -> length a = length ps -> Forall (fun x => (x < d)%nat) i -> Forall (fun x => (x < d)%nat) a -> O i a = O' i a) -> E (on ps O) = E (on ps O').
Proof.
  intros H. apply (E_eq kadd kmul d E HE). intros s s' Hs Hs'. unfold PlaqSpec.on. destruct agree_off; [|reflexivity].
  apply H; rewrite ?map_length; try reflexivity; apply Forall_forall; intros x Hx; apply in_map_iff in Hx; destruct Hx as (? & <- & _); auto.
Qed.
Lemma on_ext3 p q r O O' : (forall x y w x' y' w', (x < d)%nat -> (y < d)%nat -> (w < d)%nat -> (x' < d)%nat -> (y' < d)%nat -> (w' < d)%nat -> O [x; y; w] [x'; y'; w'] = O' [x; y; w] [x'; y'; w']) ->
  E (on [p; q; r] O) = E (on [p; q; r] O').
Proof.
  intros H. apply on_ext. intros i a Hi Ha Fi Fa. cbn in Hi, Ha. destruct i as [|x [|y [|w [|? ?]]]]; try discriminate Hi. destruct a as [|x' [|y' [|w' [|? ?]]]]; try discriminate Ha.
  repeat match goal with H : Forall _ (_ :: _) |- _ => inversion H; clear H end. subst. auto.
Qed.
(** the order of rdm2x2_up_triangle_open (C80_up_triangle) *)
Definition up_code (c : coord) : list coord := [spin 1 (px c); spin 2 (py c); spin 0 (pxy c)].
Lemma up_cyclic c O : cyclic d O -> E (on (up_code c) O) = E (on (tri_up c) O).
Proof. intros H. apply rot_on. exact H. Qed.

(** ** energies *)
Section En.
Context (kdiv : K -> K -> K) (kinv : K -> K).
Hypothesis Kf : field_theory k0 k1 kadd kmul ksub kopp kdiv kinv (@eq K).
Hypothesis char0 : forall n, n <> 0%nat -> ofnat k0 k1 kadd n <> k0.
Notation num := (num k0 k1 kadd).
Notation ofnat := (ofnat k0 k1 kadd).
Lemma num_ofnat n : num n = ofnat n. Proof. induction n as [|n IH]; [reflexivity|]. cbn. now rewrite IH. Qed.
Lemma div_mul x y : y <> k0 -> y *k kdiv x y = x.
Proof. intros H. rewrite (Fdiv_def Kf). transitivity (x *k (kinv y *k y)); [ring|]. rewrite (Finv_l Kf y H). ring. Qed.
Lemma mul_div x y : y <> k0 -> kdiv (y *k x) y = x.
Proof. intros H. rewrite (Fdiv_def Kf). transitivity (x *k (kinv y *k y)); [ring|]. rewrite (Finv_l Kf y H). ring. Qed.
Variables (up : coord -> res (tensor K)) (dn : coord -> tensor K -> res (K * K)).
Lemma total_e_sum l : total_e k0 kadd l = sum (map (fun p => fst (snd p)) l).
Proof.
  unfold total_e. assert (Q : forall a, fold_left (fun s (p : coord * (K * K)) => s +k fst (snd p)) l a = a +k sum (map (fun p => fst (snd p)) l)).
  { induction l as [|p l IH]; intros a; cbn; [ring|]. rewrite IH. ring. }
  rewrite Q. ring.
Qed.
Lemma mapM_ok {A B} (f : A -> res B) g l : (forall a, In a l -> f a = Ok (g a)) -> mapM f l = Ok (map g l).
Proof. induction l as [|a l IH]; intros H; [reflexivity|]. cbn. rewrite (H a (or_introl eq_refl)). cbn. rewrite IH by (intros b Hb; apply H; now right). reflexivity. Qed.
Variables (v2s : coord -> coord) (ks : list coord) (n : nat).
Hypothesis HT : tiling L M v2s ks n.
Hypothesis HI : same_cells k0 L M E v2s.
Variables (h : tensor K) (cast : K -> K).
Hypothesis Dh : tdims h = D6.
Hypothesis Hcyc : cyclic d (loc4 h).
Hypothesis Hdn : forall k, In k ks -> exists m, dn k h = Ok (E (on (tri_dn k) (loc4 h)), m).
Hypothesis Hup : forall k, In k ks -> exists r, up k = Ok r /\ dens 3 (up_code k) r.
Hypothesis Hcast : forall k, In k ks -> cast (E (on (tri_dn k) (loc4 h))) = E (on (tri_dn k) (loc4 h)) /\ cast (E (on (tri_up k) (loc4 h))) = E (on (tri_up k) (loc4 h)).
Lemma cells_dn p : In p (sites L M) -> E (on (tri_dn p) (loc4 h)) = E (on (tri_dn (v2s p)) (loc4 h)).
Proof.
  intros Hp. rewrite <- (HI p (tri_dn (v2s p)) (loc4 h) Hp). apply f_equal. apply (f_equal (fun ps => on ps (loc4 h))). unfold tri_dn, spin, cadd. cbn [map fst snd]. destruct p as [x y], (v2s (x, y)) as [x' y']. cbn [fst snd]. repeat (apply (f_equal2 cons); [apply (f_equal2 pair); lia|]). reflexivity.
Qed.
Lemma cells_up p : In p (sites L M) -> E (on (tri_up p) (loc4 h)) = E (on (tri_up (v2s p)) (loc4 h)).
Proof.
  intros Hp. rewrite <- (HI p (tri_up (v2s p)) (loc4 h) Hp). apply f_equal. apply (f_equal (fun ps => on ps (loc4 h))). unfold tri_up, spin, cadd, px, py, pxy. cbn [map fst snd]. destruct p as [x y], (v2s (x, y)) as [x' y']. cbn [fst snd]. repeat (apply (f_equal2 cons); [apply (f_equal2 pair); lia|]). reflexivity.
Qed.
Lemma mapM_exist {A B} (f : A -> res B) (P : A -> B -> Prop) l : (forall a, In a l -> exists b, f a = Ok b /\ P a b) -> exists bs, mapM f l = Ok bs /\ Forall2 P l bs.
Proof.
  induction l as [|a l IH]; intros H; [exists []; split; [reflexivity|constructor]|]. destruct (H a (or_introl eq_refl)) as (b & Hb & Pb). destruct IH as (bs & Hbs & Pbs); [intros x Hx; apply H; now right|].
  exists (b :: bs). cbn. rewrite Hb. cbn. rewrite Hbs. cbn. split; [reflexivity|constructor; assumption].
Qed.
Lemma sum_forall2 (g : coord -> K) l (bs : list (coord * (K * K))) : Forall2 (fun k b => fst b = k /\ fst (snd b) = g k) l bs -> sum (map (fun p => fst (snd p)) bs) = sum (map g l).
Proof. induction 1 as [|a b l bs [_ Hb] _ IH]; cbn; [reflexivity|]. now rewrite Hb, IH. Qed.
Lemma dn_ok : exists bs, energy_triangle_dn dn ks cast h = Ok bs /\ Forall2 (fun k b => fst b = k /\ fst (snd b) = E (on (tri_dn k) (loc4 h))) ks bs.
Proof.
  apply mapM_exist. intros k Hk. destruct (Hdn k Hk) as (m & Hm). exists (k, (cast (E (on (tri_dn k) (loc4 h))), m)). rewrite Hm. cbn. split; [reflexivity|]. split; [reflexivity|]. apply Hcast, Hk.
Qed.
Lemma up_ok : exists bs, energy_triangle_up k0 k1 kadd kmul up ks cast h = Ok bs /\ Forall2 (fun k b => fst b = k /\ fst (snd b) = E (on (tri_up k) (loc4 h))) ks bs.
Proof.
  apply mapM_exist. intros k Hk. destruct (Hup k Hk) as (r & Hr & Dr). rewrite Hr. cbn [bind]. rewrite norm3_ok by apply Dr. cbn [bind]. rewrite (value3_ok _ _ _ Dr Dh). cbn [bind].
  eexists. split; [reflexivity|]. split; [reflexivity|]. cbn [fst snd]. rewrite (up_cyclic k _ Hcyc). apply Hcast, Hk.
Qed.
Theorem energy_ok : (0 < length ks)%nat -> exists e, energy_f k0 k1 kadd kmul kdiv up dn ks cast h = Ok e /\ ofnat (3 * length (sites L M)) *k e = E (triangles k0 kadd L M (loc4 h)).
Proof.
  intros Hpos. destruct dn_ok as (bd & Hd & Fd). destruct up_ok as (bu & Hu & Fu). unfold energy_f. rewrite Hd, Hu. cbn [bind]. eexists. split; [reflexivity|].
  rewrite !total_e_sum, (sum_forall2 _ _ _ Fd), (sum_forall2 _ _ _ Fu), (num_ofnat (3 * length ks)).
  set (g := fun k => E (on (tri_dn k) (loc4 h)) +k E (on (tri_up k) (loc4 h))).
  assert (Q : E (triangles k0 kadd L M (loc4 h)) = ofnat n *k sum (map g ks)).
  { unfold triangles. rewrite (E_sum k0 k1 kadd kmul ksub kopp Kr d E HE). rewrite <- (tile_sum k0 k1 kadd kmul ksub kopp Kr L M v2s ks n g HT).
    apply (sum_map_ext k0 kadd). intros p Hp. rewrite (E_add kadd kmul d E HE). unfold g. rewrite (cells_dn p Hp), (cells_up p Hp). reflexivity. }
  rewrite Q, (tile_count L M v2s ks n HT). replace (3 * (n * length ks))%nat with (n * (3 * length ks))%nat by lia.
  rewrite (ofnat_mul k0 k1 kadd kmul ksub kopp Kr n (3 * length ks)).
  transitivity (ofnat n *k (ofnat (3 * length ks) *k kdiv (sum (map (fun k => E (on (tri_up k) (loc4 h))) ks) +k sum (map (fun k => E (on (tri_dn k) (loc4 h))) ks)) (ofnat (3 * length ks)))); [ring|].
  rewrite div_mul by (apply char0; lia). f_equal. unfold g. rewrite (sum_map_add k0 k1 kadd kmul ksub kopp Kr). ring.
Qed.
End En.
End P.
