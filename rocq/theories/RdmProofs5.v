(** Two-site operators given as a chain of four tensors. *)
From Verif Require Import Base BaseLemmas Lattice Tensor TensorLemmas Net NetSpec NetProofs NetProofs2 NetProofs3 Corners CornersSpec CornersProofs Rdm RdmSpec RdmProofs RdmProofs4.
From Coq Require Import Ring ArithRing Permutation.
Open Scope list_scope.
Open Scope nat_scope.
Open Scope res_scope.

Section R.
Context {K : Type} (z o : K) (add mul : K -> K -> K) (cj : K -> K).
Hypothesis SR : semi_ring_theory z o add mul eq.
Variable D : nat -> nat.
Notation ten := (tensor K).
Notation isc := (is_contraction D z o add mul).
Variables (A : nat -> nat -> ten) (C1 C2 C3 C4 : ten) (Tu Tr Td Tl : nat -> ten).
Notation patch w h l := (patch_net w h l cj A C1 C2 C3 C4 Tu Tr Td Tl).

Lemma view_first (m : ten) : twf (drop_first m) -> view m (tl (tdims m)) = Ok (drop_first m).
Proof. intros W. unfold view, treshape. unfold twf in W. cbn in W. rewrite W, Nat.eqb_refl. reflexivity. Qed.
Lemma view_last (m : ten) : twf (drop_last m) -> view m (removelast (tdims m)) = Ok (drop_last m).
Proof. intros W. unfold view, treshape. unfold twf in W. cbn in W. rewrite W, Nat.eqb_refl. reflexivity. Qed.
Lemma fits_app (n1 n2 : @network K) : fits D (n1 ++ n2) <-> fits D n1 /\ fits D n2.
Proof. unfold fits. apply Forall_app. Qed.
Lemma fits_eye a b : D a = D b -> fits D [(eye z o (D a), [V a; V b])].
Proof. intros E. constructor; [|constructor]. split; [apply twf_tbuild|]. cbn. now rewrite E. Qed.

(** a network contracted with identities on the bonds of two sites *)
Lemma mps_ok (tn : res (list (ten * list nat))) labels (net : @network K) pk0 pb0 pk1 pb1 b0 b1 b2 m0 m1 m2 m3 :
  let ops := [(drop_first m0, [V pk0; V b0]); (m1, [V b0; V pb0; V b1]); (m2, [V b1; V pk1; V b2]); (drop_last m3, [V b2; V pb1])] in
  size m0 0 = 1 -> last (tdims m3) 0 = 1 -> fits D (net ++ ops) -> D pk0 = D pb0 -> D pk1 = D pb1 ->
  (exists R, (t <- tn ;; einsum z o add mul (t ++ [(drop_first m0, [nth 0 labels 0; 100]); (m1, [100; nth 2 labels 0; 101]);
     (m2, [101; nth 1 labels 0; 102]); (drop_last m3, [102; nth 3 labels 0])]) []) = Ok R /\ isc (net ++ ops) [] R) ->
  (fits D (net ++ [(eye z o (D pk0), [V pk0; V pb0])] ++ [(eye z o (D pk1), [V pk1; V pb1])]) ->
   exists I, (t <- tn ;; einsum z o add mul (t ++ [(eye z o (D pk0), [nth 0 labels 0; nth 2 labels 0]); (eye z o (D pk1), [nth 1 labels 0; nth 3 labels 0])]) []) = Ok I
     /\ isc (net ++ [(eye z o (D pk0), [V pk0; V pb0])] ++ [(eye z o (D pk1), [V pk1; V pb1])]) [] I) ->
  exists R I, eval_mps z o add mul tn labels [m0; m1; m2; m3] = Ok (R, I)
    /\ isc (net ++ ops) [] R
    /\ isc (net ++ [(eye z o (D pk0), [V pk0; V pb0])] ++ [(eye z o (D pk1), [V pk1; V pb1])]) [] I.
Proof. intros ops H0 H3 HF E0 E1 (R & ER & IR) HI. apply fits_app in HF. destruct HF as [HN HO].
  destruct HI as (I & EI & II). { apply fits_app. split; [exact HN|]. apply fits_app. split; now apply fits_eye. }
  exists R, I. split; [|split; assumption]. destruct tn as [t|e]; [cbn [bind] in ER, EI|discriminate ER].
  unfold eval_mps, mps_tn, id_tn. cbn [bind]. rewrite H0, H3. cbn [Nat.eqb].
  assert (W0 : twf (drop_first m0) /\ size m0 1 = D pk0).
  { unfold fits in HO. rewrite Forall_forall in HO. destruct (HO _ (or_introl eq_refl)) as [W Hd]. cbn [fst snd] in *. split; [exact W|].
    unfold size. cbn in Hd. destruct (tdims m0) as [|? [|? ?]]; cbn in Hd; try discriminate. now injection Hd. }
  assert (W3 : twf (drop_last m3)). { unfold fits in HO. rewrite Forall_forall in HO. apply (HO (drop_last m3, [V b2; V pb1])). cbn. auto. }
  assert (W2 : size m2 1 = D pk1).
  { unfold fits in HO. rewrite Forall_forall in HO. destruct (HO (m2, [V b1; V pk1; V b2])) as [W Hd]; [cbn; auto|]. cbn [fst snd] in *. unfold size. now rewrite Hd. }
  destruct W0 as [W0 S0]. rewrite (view_first _ W0), (view_last _ W3). cbn [bind]. rewrite ER. cbn [bind]. rewrite S0, W2, EI. reflexivity. Qed.

Lemma join2 net a b a' b' net' I : D a = D b -> D a' = D b' ->
  isc (net ++ [(eye z o (D a), [V a; V b])] ++ [(eye z o (D a'), [V a'; V b'])]) [] I ->
  a <> b -> a' <> b' -> a <> b' -> b <> b' -> a <> a' -> a' <> b ->
  let net1 := ren_net b' a' net ++ [(eye z o (D a), [V a; V b])] in
  net' = ren_net b a (ren_net b' a' net) ->
  permb Nat.eqb (inner ((net ++ [(eye z o (D a), [V a; V b])]) ++ [(eye z o (D a'), [V a'; V b'])]) []) (inner net1 [] ++ [b']) = true ->
  memb a' (inner net1 []) = true ->
  permb Nat.eqb (inner net1 []) (inner net' [] ++ [b]) = true -> memb a (inner net' []) = true ->
  isc net' [] I.
Proof. intros E E' H N N' N1 N2 N3 N4 net1 -> P1 M1 P2 M2.
  apply (join_bonds z o add mul SR D _ [] I a b E N); [intros []|now apply (permb_perm _ (fun x y => proj1 (Nat.eqb_eq x y)))|left; now apply memb_spec|].
  assert (EN : ren_net b' a' (net ++ [(eye z o (D a), [V a; V b])]) = net1).
  { unfold net1, ren_net. rewrite map_app. cbn. rewrite (proj2 (Nat.eqb_neq a b') N1), (proj2 (Nat.eqb_neq b b') N2). reflexivity. }
  fold net1. rewrite <- EN.
  apply (join_bonds z o add mul SR D _ [] I a' b' E' N'); [intros []| |left; rewrite EN; now apply memb_spec|].
  - rewrite EN. now apply (permb_perm _ (fun x y => proj1 (Nat.eqb_eq x y))).
  - rewrite <- app_assoc. exact H. Qed.

(** two sites next to each other *)
Ltac dims_of HF := match type of HF with fits _ (?p ++ _) => let H := fresh "HP" in pose proof (proj1 (proj1 (fits_app _ _) HF)) as H; expand_net H; conj_dims_all H cj; clear H end.
Ltac t_mps SR := first [unfold tn2x1; views; cbn [app nth out2x1]; cein SR | unfold tn1x2; views; cbn [app nth out1x2]; cein SR | unfold tn2x2; views; cbn [app nth nnn_label]; cein SR].
Ltac mps_case SR HF := let H0 := fresh "HA" in let H3 := fresh "HZ" in intros H0 H3; dims_of HF;
  match goal with |- exists R I, eval_mps _ _ _ _ ?tn ?lab _ = _ /\ isc (?net ++ ?ops) [] R /\ isc ?cl [] I =>
    let o' := eval cbv -[drop_first drop_last] in ops in
    match o' with [(_, [V ?pk0; V ?b0]); (_, [V _; V ?pb0; V ?b1]); (_, [V _; V ?pk1; V ?b2]); (_, [V _; V ?pb1])] =>
    destruct (mps_ok tn lab net pk0 pb0 pk1 pb1 b0 b1 b2 _ _ _ _ H0 H3 HF ltac:(assumption) ltac:(assumption)) as (R & I & ER & IR & II);
    [start SR HF cj; singleE SR; [t_mps SR|check|reflexivity]
    |intros HG; start SR HG cj; singleE SR; [t_mps SR|check|reflexivity]
    |exists R, I; split; [exact ER|split; [exact IR|]];
     eapply (join2 net pk0 pb0 pk1 pb1); [assumption|assumption|exact II|discriminate|discriminate|discriminate|discriminate|discriminate|discriminate|reflexivity|vm_compute; reflexivity..]]
    end end.
Lemma mps_h m0 m1 m2 m3 : let l := [(0, 0); (1, 0)] in
  fits D (patch 2 1 l ++ mps_net 2 1 l (drop_first m0) m1 m2 (drop_last m3)) -> size m0 0 = 1 -> last (tdims m3) 0 = 1 ->
  exists R I, eval_mps z o add mul (tn2x1 cj C1 C2 C3 C4 (Tu 0) (Tu 1) (Tr 0) (Td 0) (Td 1) (Tl 0) (A 0 0) (A 1 0)) out2x1 [m0; m1; m2; m3] = Ok (R, I)
    /\ isc (patch 2 1 l ++ mps_net 2 1 l (drop_first m0) m1 m2 (drop_last m3)) [] R /\ isc (patch 2 1 []) [] I.
Proof. intros l HF. unfold l in *. mps_case SR HF. Qed.
Lemma mps_v m0 m1 m2 m3 : let l := [(0, 0); (0, 1)] in
  fits D (patch 1 2 l ++ mps_net 1 2 l (drop_first m0) m1 m2 (drop_last m3)) -> size m0 0 = 1 -> last (tdims m3) 0 = 1 ->
  exists R I, eval_mps z o add mul (tn1x2 cj C1 C2 C3 C4 (Tu 0) (Tr 0) (Tr 1) (Td 0) (Tl 0) (Tl 1) (A 0 0) (A 0 1)) out1x2 [m0; m1; m2; m3] = Ok (R, I)
    /\ isc (patch 1 2 l ++ mps_net 1 2 l (drop_first m0) m1 m2 (drop_last m3)) [] R /\ isc (patch 1 2 []) [] I.
Proof. intros l HF. unfold l in *. mps_case SR HF. Qed.
Lemma mps_diag m0 m1 m2 m3 : let l := [(0, 1); (1, 0)] in
  fits D (patch 2 2 l ++ mps_net 2 2 l (drop_first m0) m1 m2 (drop_last m3)) -> size m0 0 = 1 -> last (tdims m3) 0 = 1 ->
  exists R I, eval_mps z o add mul (tn2x2 cj C1 C2 C3 C4 (Tu 0) (Tl 0) (Tu 1) (Tr 0) (Tr 1) (Td 1) (Td 0) (Tl 1) (A 0 0) (A 1 0) (A 0 1) (A 1 1) nnn_label)
      [11; 22; 14; 25] [m0; m1; m2; m3] = Ok (R, I)
    /\ isc (patch 2 2 l ++ mps_net 2 2 l (drop_first m0) m1 m2 (drop_last m3)) [] R /\ isc (patch 2 2 []) [] I.
Proof. intros l HF. unfold l in *. mps_case SR HF. Qed.
End R.
