(** The matrices returned by the functions for density matrices. *)
From Verif Require Import Base BaseLemmas Lattice Tensor TensorLemmas Net NetSpec NetProofs3 CornersSpec RdmSpec RdmProofs6 RdmPost RdmPostSpec RdmPostProofs.
From Verif Require Ctm CtmC4vProofs3.
From Coq Require Import Ring Field_theory.
Open Scope list_scope.
Open Scope nat_scope.
Open Scope res_scope.

Section P.
Context {K : Type} (z o half : K) (add mul sub : K -> K -> K) (opp : K -> K) (div : K -> K -> K) (inv cj : K -> K) (is0 lt0 imag_big : K -> bool) (nonneg : K -> Prop).
Hypothesis L : order_laws z o half add mul sub opp div inv cj is0 lt0 nonneg.
Hypothesis imag_real : forall x, cj x = x -> imag_big x = false.
Variable eigh : tensor K -> res (list K * tensor K).
Notation ten := (tensor K).
Notation network := (@network K).
Notation spdr := (sym_pos_def_rdm z o half add mul div cj is0 imag_big lt0 eigh).
Notation back := (returned z o half add mul div cj is0 imag_big lt0 eigh).
Lemma SRO2 : semi_ring_theory z o add mul eq.
Proof. exact (SRO z o half add mul sub opp div inv cj is0 lt0 nonneg L). Qed.

Lemma patch_dims D w h l A C1 C2 C3 C4 Tu Tr Td Tl i j : fits D (patch_net w h l cj A C1 C2 C3 C4 Tu Tr Td Tl) -> i < w -> j < h -> In (i, j) l ->
  D (pbra w h i j) = D (pket w h i j).
Proof. intros HF Hi Hj Hl. unfold fits in HF. rewrite Forall_forall in HF.
  assert (I : forall x, In x (site_net w h l cj A i j) -> In x (patch_net w h l cj A C1 C2 C3 C4 Tu Tr Td Tl)).
  { intros x Hx. unfold patch_net. apply in_or_app. left. apply in_flat_map. exists j. split; [apply in_seq; lia|]. apply in_flat_map. exists i. split; [apply in_seq; lia|exact Hx]. }
  destruct (HF _ (I _ (or_introl eq_refl))) as [_ E1]. destruct (HF _ (I _ (or_intror (or_introl eq_refl)))) as [_ E2].
  assert (O : is_open l i j = true). { unfold is_open. apply existsb_exists. exists (i, j). split; [exact Hl|]. cbn. now rewrite !Nat.eqb_refl. }
  rewrite O in E2. cbn [fst snd tdims tmap] in E1, E2. rewrite E2 in E1. cbn in E1. now injection E1. Qed.
Lemma patch_square D w h l net A C1 C2 C3 C4 Tu Tr Td Tl M : fits D (patch_net w h l cj A C1 C2 C3 C4 Tu Tr Td Tl) -> (forall i j, In (i, j) l -> i < w /\ j < h) ->
  is_contraction D z o add mul net (patch_out w h l) M -> square (site_dims D w h l) M.
Proof. intros HF HL (W & E & _). split; [exact W|]. rewrite E. unfold patch_out, site_dims. rewrite map_app, !map_map. apply f_equal2; [reflexivity|]. apply map_ext_in. intros [i j] Hin. cbn [ldim fst snd].
  destruct (HL i j Hin). now apply (patch_dims D w h l A C1 C2 C3 C4 Tu Tr Td Tl). Qed.

Lemma back_ok c s ds r M R : good_eigh z add mul cj eigh -> square ds M -> r = Ok M -> back c s r = Ok R ->
  density_op z o add mul cj nonneg s ds R /\ (s = false -> normalized_part z add mul cj half div ds M R).
Proof. intros HE S -> H. unfold returned in H. cbn [bind] in H.
  split; [exact (rdm_result z o half add mul sub opp div inv cj is0 lt0 imag_big nonneg L imag_real eigh c s ds M R HE S H)|]. intros ->.
  assert (N1 : ds <> []). { intros ->. apply rdm_nonempty in H. apply H. destruct S as [_ ->]. reflexivity. }
  destruct (Nat.eq_dec (prod_dims ds) 0) as [E0|N0].
  { exfalso. exact (zero_dims _ ds M R S N1 E0 H). }
  assert (V := rdm_value z o half add mul sub opp div inv cj is0 lt0 imag_big nonneg L imag_real eigh c ds M S N1 N0).
  destruct (is0 _); [rewrite V in H; discriminate|]. destruct V as (R' & E & S' & V). rewrite E in H. injection H as <-. split; assumption. Qed.

Lemma value c ds M : square ds M -> ds <> [] -> prod_dims ds <> 0 ->
  (spdr c false M = Err ZeroDivisionError /\ mul half (add (trace_op z add ds M) (cj (trace_op z add ds M))) = z) \/
  (exists R, spdr c false M = Ok R /\ normalized_part z add mul cj half div ds M R /\ mul half (add (trace_op z add ds M) (cj (trace_op z add ds M))) <> z).
Proof. intros S N1 N0.
  assert (V := rdm_value z o half add mul sub opp div inv cj is0 lt0 imag_big nonneg L imag_real eigh c ds M S N1 N0). unfold re in V.
  destruct (is0 _) eqn:E0; [left|right].
  - split; [exact V|]. now apply (ol_is0 _ _ _ _ _ _ _ _ _ _ _ _ _ L).
  - destruct V as (R & E & S' & V). exists R. split; [exact E|]. split; [split; assumption|]. intros X. apply (ol_is0 _ _ _ _ _ _ _ _ _ _ _ _ _ L) in X. congruence. Qed.
Lemma positive_part c ds M R : good_eigh z add mul cj eigh -> square ds M -> spdr c true M = Ok R ->
  exists H D U t, CtmC4vSpec.shaped [prod_dims ds; prod_dims ds] H /\
  (forall ix iy, in_shape ds ix -> in_shape ds iy ->
     entry z H [flat ds ix; flat ds iy] = mul half (add (entry z M (ix ++ iy)) (cj (entry z M (iy ++ ix))))) /\
  eigh H = Ok (D, U) /\ t <> z /\
  forall ix iy, in_shape ds ix -> in_shape ds iy -> entry z R (ix ++ iy) =
    div (total z add (fun k => mul (entry z U [flat ds ix; k]) (mul (if lt0 (nth k D z) then z else nth k D z) (cj (entry z U [flat ds iy; k])))) (seq 0 (prod_dims ds))) t.
Proof. intros HE S H0. destruct (rdm_positive_part z o half add mul sub opp div inv cj is0 lt0 imag_big nonneg L imag_real eigh c ds M R HE S H0) as (H & D & U & t & [SH GH] & EE & N & _ & V).
  exists H, D, U, t. split; [exact SH|]. split; [|auto]. intros ix iy Hx Hy. rewrite GH by now apply flat_lt. unfold unfold2. now rewrite !(flat2 z ds M). Qed.
Lemma back_some c ds r M : square ds M -> ds <> [] -> r = Ok M -> mul half (add (trace_op z add ds M) (cj (trace_op z add ds M))) <> z -> exists R, back c false r = Ok R.
Proof. intros S N1 -> HT. unfold returned. cbn [bind]. destruct (Nat.eq_dec (prod_dims ds) 0) as [E0|N0].
  { exfalso. apply HT. assert (E : indices ds = []) by (apply length_zero_iff_nil; rewrite length_indices; exact E0). unfold trace_op, total. rewrite E. cbn.
    rewrite (CtmC4vProofs3.cjz _ _ _ _ _ _ _ _ _ _ _ _ _ (LO z o half add mul sub opp div inv cj is0 lt0 nonneg L)). destruct SRO2. rewrite SRadd_0_l, SRmul_comm. apply SRmul_0_l. }
  assert (V := rdm_value z o half add mul sub opp div inv cj is0 lt0 imag_big nonneg L imag_real eigh c ds M S N1 N0). unfold re in V.
  destruct (is0 _) eqn:E0; [|destruct V as (R & E & _); eauto]. exfalso. apply HT. now apply (ol_is0 _ _ _ _ _ _ _ _ _ _ _ _ _ L). Qed.

Section At.
Variables (D : nat -> nat) (st : ipeps ten) (e : Ctm.envt ten) (As : coord -> ten) (Cs Ts : coord -> coord -> ten).
Hypothesis HS : sees st e As Cs Ts.
Hypothesis HE : good_eigh z add mul cj eigh.
Notation returns := (returns z o add mul cj half div nonneg D As Cs Ts).
Ltac inside := let i := fresh in let j := fresh in let H := fresh in intros i j H; cbn in H; repeat (destruct H as [H|H]; [injection H as <- <-; lia|]); contradiction.
Lemma ret cplx s w h l c f M : fits D (patch_at cj As Cs Ts w h l c) -> (forall i j, In (i, j) l -> i < w /\ j < h) ->
  is_contraction D z o add mul (patch_at cj As Cs Ts w h l c) (patch_out w h l) M -> f = Ok M -> returns s w h l c (back cplx s f).
Proof. intros HF HL HM Hf. exists M. split; [exact HM|]. unfold patch_at in HF. split.
  { intros -> Hl HT. apply (back_some cplx _ _ M (patch_square _ _ _ _ _ _ _ _ _ _ _ _ _ _ M HF HL HM)); [destruct l; [congruence|discriminate]|exact Hf|exact HT]. }
  intros R HR. exact (back_ok cplx s _ f M R HE (patch_square _ _ _ _ _ _ _ _ _ _ _ _ _ _ M HF HL HM) Hf HR). Qed.
Notation P f := (f z o half add mul div cj is0 imag_big lt0 eigh).
Lemma rdm1x1_returns cplx s c sl : fits D (patch_at cj As Cs Ts 1 1 [(0, 0)] c) -> (sl = true \/ i_v2s st c = Ok c) ->
  returns s 1 1 [(0, 0)] c (P (@rdm1x1 K) cplx s st e c sl).
Proof. intros HF HC. destruct (rdm1x1_ok z o add mul cj SRO2 D st e As Cs Ts HS c HF) as (M & E1 & E2 & HM).
  apply (ret cplx s 1 1 _ c _ M HF ltac:(inside) HM). destruct sl; [exact E1|]. apply E2. destruct HC; [discriminate|assumption]. Qed.
Lemma rdm2x1_returns cplx s c sl : fits D (patch_at cj As Cs Ts 2 1 [(0, 0); (1, 0)] c) ->
  returns s 2 1 [(0, 0); (1, 0)] c (P (@rdm2x1 K) cplx s st e c sl).
Proof. intros HF. destruct (rdm2x1_ok z o add mul cj SRO2 D st e As Cs Ts HS c HF) as (M & E1 & E2 & HM).
  apply (ret cplx s 2 1 _ c _ M HF ltac:(inside) HM). destruct sl; assumption. Qed.
Lemma rdm1x2_returns cplx s c sl : fits D (patch_at cj As Cs Ts 1 2 [(0, 0); (0, 1)] c) ->
  returns s 1 2 [(0, 0); (0, 1)] c (P (@rdm1x2 K) cplx s st e c sl).
Proof. intros HF. destruct (rdm1x2_ok z o add mul cj SRO2 D st e As Cs Ts HS c HF) as (M & E1 & E2 & HM).
  apply (ret cplx s 1 2 _ c _ M HF ltac:(inside) HM). destruct sl; assumption. Qed.
Lemma nnn11_returns cplx s c : fits D (patch_at cj As Cs Ts 2 2 [(0, 0); (1, 1)] c) ->
  returns s 2 2 [(0, 0); (1, 1)] c (P (@rdm2x2_NNN_11 K) cplx s st e c).
Proof. intros HF. destruct (nnn11_ok z o add mul cj SRO2 D st e As Cs Ts HS c HF) as (M & E1 & HM).
  apply (ret cplx s 2 2 _ c _ M HF ltac:(inside) HM). exact E1. Qed.
Lemma nnn1n1_returns cplx s c oe : fits D (patch_at cj As Cs Ts 2 2 [(0, 1); (1, 0)] (cadd c (0, -1)%Z)) ->
  returns s 2 2 [(0, 1); (1, 0)] (cadd c (0, -1)%Z) (P (@rdm2x2_NNN_1n1 K) cplx s st e c oe).
Proof. intros HF. destruct (nnn1n1_ok z o add mul cj SRO2 D st e As Cs Ts HS c HF) as (M & E1 & E2 & HM).
  apply (ret cplx s 2 2 _ _ _ M HF ltac:(inside) HM). destruct oe; assumption. Qed.
Lemma rdm2x2_returns cplx s c : fits D (patch_at cj As Cs Ts 2 2 [(0, 0); (1, 0); (0, 1); (1, 1)] c) ->
  returns s 2 2 [(0, 0); (1, 0); (0, 1); (1, 1)] c (P (@rdm2x2_legacy K) cplx s st e c).
Proof. intros HF. destruct (rdm2x2_ok z o add mul cj SRO2 D st e As Cs Ts HS c HF) as (M & _ & E2 & HM).
  apply (ret cplx s 2 2 _ _ _ M HF ltac:(inside) HM). exact E2. Qed.
Lemma oe_returns cplx s c open : NoDup open -> Forall (fun k => k < 4) open -> fits D (patch_at cj As Cs Ts 2 2 (named_sites open) c) ->
  returns s 2 2 (named_sites open) c (P (@rdm2x2_oe K) cplx s st e c open).
Proof. intros ND HB HF. destruct (oe_named z o add mul cj SRO2 D st e As Cs Ts HS c open ND HB HF) as (M & E & HM).
  apply (ret cplx s 2 2 _ _ _ M HF); [|exact HM|exact E]. intros i j Hin. unfold named_sites in Hin. apply in_map_iff in Hin. destruct Hin as (k & E' & Hk). apply filter_In in Hk. destruct Hk as [Hk _].
  injection E' as <- <-. cbn in Hk. repeat (destruct Hk as [<-|Hk]; [cbn; lia|]). contradiction. Qed.
(** no site open: the contraction is a number, and _sym_pos_def_rdm does not take it *)
Lemma oe_none cplx s c : fits D (patch_at cj As Cs Ts 2 2 [] c) -> P (@rdm2x2_oe K) cplx s st e c [] = Err TypeError.
Proof. intros HF. destruct (oe_named z o add mul cj SRO2 D st e As Cs Ts HS c [] (NoDup_nil _) (Forall_nil _) HF) as (M & E & W & ED & _).
  unfold rdm2x2_oe, returned. rewrite E. cbn [bind]. unfold sym_pos_def_rdm, as_matrix. rewrite ED. reflexivity. Qed.
End At.
End P.
