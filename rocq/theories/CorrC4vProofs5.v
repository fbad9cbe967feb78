(** The correlation functions of the C4v state contract the drawn strips. *)
From Verif Require Import Base BaseLemmas Tensor TensorLemmas Net NetSpec NetProofs NetProofs2 NetProofs3 Corners CornersSpec CornersProofs Corr CorrSpec CorrC4v CorrC4vSpec CorrProofs CorrProofs3 CorrProofs4 CorrProofs5 CorrC4vProofs CorrC4vProofs2 CorrC4vProofs3 CorrC4vProofs4.
From Coq Require Import Ring ArithRing Field Permutation.
Open Scope list_scope.
Open Scope nat_scope.
Open Scope res_scope.

Lemma fits_perm {K} D (n1 n2 : @network K) : Permutation n1 n2 -> fits D n1 -> fits D n2.
Proof. intros P H. unfold fits in *. rewrite Forall_forall in *. intros x Hx. apply H. revert Hx. apply Permutation_in. now symmetry. Qed.
Lemma swap_ops {A} (L P Q R Y : list A) (x y : A) : Permutation ((L ++ P ++ [x]) ++ Q ++ (R ++ [y]) ++ Y) ((L ++ (P ++ Q ++ R) ++ Y) ++ [x; y]).
Proof. rewrite <- !app_assoc. apply Permutation_app_head. apply Permutation_app_head. cbn [app].
  transitivity (x :: y :: Q ++ R ++ Y).
  - constructor. rewrite (app_assoc Q R). rewrite (app_assoc Q R Y). symmetry. apply Permutation_middle.
  - change (x :: y :: Q ++ R ++ Y) with ([x; y] ++ Q ++ R ++ Y). rewrite (Permutation_app_comm [x; y]). now rewrite <- !app_assoc. Qed.
Lemma in_list_dec (l : list nat) (P : nat -> Prop) : Forall P l -> forall k, In k l -> P k.
Proof. intros H. now rewrite Forall_forall in H. Qed.

Lemma rleg_sh2 b c t : rleg (sh (b + c)) t = rleg (sh b) (rleg (sh c) t).
Proof. induction t as [l|x IHx y IHy]; cbn; [unfold sh; now rewrite Nat.add_assoc|now rewrite IHx, IHy]. Qed.
Lemma rnet_sh2 {K} b c (N : @network K) : rnet (sh (b + c)) N = rnet (sh b) (rnet (sh c) N).
Proof. unfold rnet. rewrite map_map. apply map_ext. intros p. cbn [fst snd]. rewrite map_map. f_equal. apply map_ext. intros t. apply rleg_sh2. Qed.

Section P.
Context {K : Type} (z o : K) (add mul : K -> K -> K) (cj : K -> K) (sub : K -> K -> K) (opp : K -> K) (div : K -> K -> K) (inv : K -> K).
Hypothesis FT : field_theory z o add mul sub opp div inv eq.
Notation SR := (SR_of_field FT).
Variable maxabs : tensor K -> K.
Hypothesis MA : forall t, maxabs t = z -> forall ix v, tget t ix = Some v -> v = z.
Notation ten := (tensor K).
Notation network := (@network K).
Variable svd : ten -> res (ten * list K * ten).
Hypothesis SV : svd_real z add mul cj svd.
Variables (C T a : ten).
Variable D : nat -> nat.
Notation isc := (is_contraction D z o add mul).
Notation val := (value D z o add mul).
Notation col := (column cj T a).

(** columns anywhere *)
Ltac legs := repeat (apply cons_eq; [try reflexivity; unfold sh, FF; try (f_equal; lia); f_equal; f_equal; lia|]); reflexivity.
Lemma column_sh h b op : h <= 2 -> col h b op = rnet (sh b) (col h 0 op).
Proof. intros H. symmetry. unfold rnet, column, b_top, b_bot, b_hk, b_hb, b_vk, b_vb, b_ket, b_bra. destruct h as [|[|[|h]]]; [| | |lia]; destruct op; cbn [map fst snd rleg FF Nat.add Nat.mul flat_map seq app];
  repeat (apply net_cons; [legs|]); reflexivity. Qed.
Lemma right_sh h b : h <= 2 -> right_end C T h b = rnet (sh b) (right_end C T h 0).
Proof. intros H. symmetry. unfold rnet, right_end, b_top, b_bot, b_hk, b_hb, b_end. destruct h as [|[|[|h]]]; [| | |lia]; cbn [map fst snd rleg FF Nat.add Nat.mul flat_map seq app];
  repeat (apply net_cons; [legs|]); reflexivity. Qed.
Lemma at_S i : at_col (S i) = at_col i + 32.
Proof. unfold at_col. lia. Qed.
Definition X (h i : nat) : network := col h (at_col i) false.
Definition site_net (O : ten) (i : nat) : network := col 1 (at_col i) true ++ [on_site i O].
Definition row_op (O : ten) (i : nat) : network := (col 1 (at_col i) true ++ col 1 (at_col (S i)) true) ++ [on_row i O].
Definition col_op (O : ten) (i : nat) : network := col 2 (at_col i) true ++ [on_column i O].
Definition Y (h i : nat) : network := right_end C T h (at_col i).
Notation grows h := (grows z o add mul D h).
Notation ends h := (ends z o add mul D h).
Notation good h := (good z o add mul D h).
Ltac low := apply in_list_dec; match goal with |- Forall ?P ?l => let v := eval vm_compute in l in change (Forall P v) end;
  repeat (apply Forall_cons; [first [left; vm_compute; lia|right; vm_compute; tauto]|]); apply Forall_nil.
Ltac inc := intros l; vm_compute; tauto.

Lemma grow_none1 : grows 1 (tm1 z o add mul cj T a None) (X 1) 1.
Proof. apply (grows_of z o add mul sub opp div inv FT D 1 ltac:(lia) 1 _ (col 1 0 false)); [intros i; apply column_sh; lia| |low|inc|lia].
  intros b E. cbn zeta. apply (tm1_none z o add mul cj sub opp div inv FT). Qed.
Lemma grow_some1 op O : is_transpose op O -> grows 1 (tm1 z o add mul cj T a (Some op)) (site_net O) 1.
Proof. intros HT. apply (grows_of z o add mul sub opp div inv FT D 1 ltac:(lia) 1 _ (col 1 0 true ++ [(O, [V 15; V 14])])); [| |low|inc|lia].
  - intros i. unfold site_net. rewrite ren_app, <- column_sh by lia. reflexivity.
  - intros b E. cbn zeta. apply (tm1_some z o add mul cj sub opp div inv FT). exact HT. Qed.
Lemma grow_none12 : grows 2 (tm1_2 z o add mul cj T a svd None) (X 2) 1.
Proof. apply (grows_of z o add mul sub opp div inv FT D 2 ltac:(lia) 1 _ (col 2 0 false)); [intros i; apply column_sh; lia| |low|inc|lia].
  intros b E. cbn zeta. intros HF. exact (tm12_none_ok z o add mul cj SR T a _ E HF). Qed.
Lemma end_close : ends 1 (close_edge z o add mul C T) (Y 1).
Proof. apply (ends_of z o add mul sub opp div inv FT D 1 ltac:(lia) _ (right_end C T 1 0)); [intros i; apply right_sh; lia|].
  intros b E. cbn zeta. apply (close_ok z o add mul SR). Qed.
Lemma end_given R : ends 1 (fun E => tensordot z o add mul E R [0;1;2] [0;1;2]) (fun i => [(R, rims 1 (at_col i))]).
Proof. apply (ends_of z o add mul sub opp div inv FT D 1 ltac:(lia) _ [(R, rims 1 0)]); [intros i; unfold rnet; cbn [map fst snd]; now rewrite rims_sh, Nat.add_0_r|].
  intros b E. cbn zeta. apply (given_ok z o add mul SR). Qed.
Lemma end_close2 T' : is_transpose C C -> is_reflection T T' -> ends 2 (close_edge_L z o add mul C T') (Y 2).
Proof. intros HC HT. apply (ends_of z o add mul sub opp div inv FT D 2 ltac:(lia) _ (right_end C T 2 0)); [intros i; apply right_sh; lia|].
  intros b E. cbn zeta. apply (close2_drawn z o add mul cj sub opp div inv FT); assumption. Qed.
Lemma open1 : is_transpose C C -> fits D (left_end C T 1 32) -> exists E, edge z o add mul C T = Ok E /\ good 1 0 (left_end C T 1 (at_col 0)) E.
Proof. intros HC HF. destruct (edge_drawn z o add mul cj sub opp div inv FT C T D HC HF) as (E & EE & IE). exists E. split; [exact EE|]. split; [exact IE|]. split; [low|inc]. Qed.
Lemma open_given L : fits D [(L, rims 1 32)] -> good 1 0 [(L, rims 1 (at_col 0))] L.
Proof. intros HF. apply fits_cons in HF. destruct HF as [[W Hd] _]. split; [apply (isc_leaf z o add mul SR); assumption|]. split; [low|inc]. Qed.
Lemma open2 T' : is_transpose C C -> is_reflection T T' -> fits D (left_end C T 2 32) -> exists E, edge_L z o add mul C T' 2 = Ok E /\ good 2 0 (left_end C T 2 (at_col 0)) E.
Proof. intros HC HT HF. destruct (edge2_drawn z o add mul cj sub opp div inv FT C T D T' HC HT HF) as (E & EE & IE). exists E. split; [exact EE|]. split; [exact IE|]. split; [low|inc]. Qed.
Section Two.
Hypothesis HD : forall k, D k <> 0.
Lemma grow_none2 : grows 1 (tm2 z o add mul cj T a svd None) (fun i => X 1 i ++ X 1 (S i)) 2.
Proof. apply (grows_of z o add mul sub opp div inv FT D 1 ltac:(lia) 2 _ (col 1 0 false ++ col 1 32 false)); [| |low|inc|lia].
  - intros i. unfold X. rewrite at_S, ren_app, <- column_sh by lia. f_equal. rewrite (column_sh 1 (at_col i + 32)) by lia. rewrite (column_sh 1 32) by lia. apply rnet_sh2.
  - intros b E. cbn zeta. apply (tm2_none z o add mul cj sub opp div inv FT). intros k. apply HD. Qed.

Lemma grow_row op O : square op -> real cj op -> is_transpose2 op O -> grows 1 (tm2 z o add mul cj T a svd (Some op)) (row_op O) 2.
Proof. intros H1 H2 H3. apply (grows_of z o add mul sub opp div inv FT D 1 ltac:(lia) 2 _ (col 1 0 true ++ col 1 32 true ++ [(O, [V 15; V 47; V 14; V 46])])); [| |low|inc|lia].
  - intros i. unfold row_op. rewrite at_S, !ren_app, <- column_sh, <- app_assoc by lia. f_equal. f_equal.
    + rewrite (column_sh 1 (at_col i + 32)) by lia. rewrite (column_sh 1 32) by lia. apply rnet_sh2.
    + unfold on_row. rewrite at_S. unfold rnet, b_bra, b_ket. cbn [map fst snd rleg Nat.add Nat.mul]. apply net_cons; [legs|reflexivity].
  - intros b E. cbn zeta. apply (tm2_some z o add mul cj sub opp div inv FT svd SV); try assumption. intros k. apply HD. Qed.
Lemma grow_col op O : square op -> real cj op -> is_transpose2 op O -> grows 2 (tm1_2 z o add mul cj T a svd (Some op)) (col_op O) 1.
Proof. intros H1 H2 H3. apply (grows_of z o add mul sub opp div inv FT D 2 ltac:(lia) 1 _ (col 2 0 true ++ [(O, [V 15; V 17; V 14; V 16])])); [| |low|inc|lia].
  - intros i. unfold col_op. rewrite !ren_app, <- column_sh by lia. reflexivity.
  - intros b E. cbn zeta. apply (tm12_some z o add mul cj sub opp div inv FT svd SV); try assumption. intros k. apply HD. Qed.
End Two.

(** ** Networks *)
Lemma cols_ext h g c k : (forall i, c <= i < c + k -> g i = false) -> flat_map (fun i => col h (at_col i) (g i)) (seq c k) = cols (X h) c k.
Proof. intros H. unfold cols, X. induction k as [|k IH] in c, H |- *; [reflexivity|]. cbn [seq flat_map]. rewrite H by lia. f_equal. apply IH. intros i Hi. apply H. lia. Qed.
Notation norm h rl n := (norm_of cj C T a h rl n).
Lemma norm_split h rl c r : norm h rl (c + r) = (left_of C T h rl (at_col 0) ++ cols (X h) 0 c) ++ cols (X h) c r ++ right_of C T h rl (at_col (c + r)).
Proof. unfold norm_of, columns. rewrite (cols_ext h (fun _ => false) 0 (c + r)) by reflexivity. unfold cols. rewrite seq_app, flat_map_app, <- !app_assoc. reflexivity. Qed.
Lemma flags l i b : existsb (fun j => i =? j) l = b -> at_one_of l i = b.
Proof. exact (fun H => H). Qed.
Lemma sites_split rl r O1 O2 : Permutation ((left_of C T 1 rl (at_col 0) ++ site_net O1 0) ++ cols (X 1) 1 r ++ site_net O2 (S r) ++ right_of C T 1 rl (at_col (S r + 1))) (sites_net cj C T a rl (r + 2) O1 O2).
Proof. unfold sites_net, columns, site_net. replace (r + 2 - 1) with (S r) by lia. replace (S r + 1) with (r + 2) by lia.
  replace (flat_map (fun i => col 1 (at_col i) (at_one_of [0; S r] i)) (seq 0 (r + 2))) with (col 1 (at_col 0) true ++ cols (X 1) 1 r ++ col 1 (at_col (S r)) true); [apply swap_ops|].
  replace (r + 2) with (S (S r)) by lia. rewrite seq_S, flat_map_app. cbn [seq flat_map]. rewrite (cols_ext 1 (at_one_of [0; S r]) 1 r).
  2:{ intros i Hi. unfold at_one_of. cbn [existsb]. rewrite (proj2 (Nat.eqb_neq i 0)), (proj2 (Nat.eqb_neq i (S r))) by lia. reflexivity. }
  replace (at_one_of [0; S r] (0 + S r)) with true. 2:{ unfold at_one_of. cbn [existsb plus]. rewrite (Nat.eqb_refl (S r)). now rewrite orb_true_r. }
  rewrite app_nil_r, <- app_assoc. reflexivity. Qed.
Lemma column_split r O1 O2 : Permutation ((left_end C T 2 (at_col 0) ++ col_op O1 0) ++ cols (X 2) 1 r ++ col_op O2 (S r) ++ right_end C T 2 (at_col (S r + 1))) (column_net cj C T a (r + 2) O1 O2).
Proof. unfold column_net, columns, col_op. replace (r + 2 - 1) with (S r) by lia. replace (S r + 1) with (r + 2) by lia.
  replace (flat_map (fun i => col 2 (at_col i) (at_one_of [0; S r] i)) (seq 0 (r + 2))) with (col 2 (at_col 0) true ++ cols (X 2) 1 r ++ col 2 (at_col (S r)) true); [apply swap_ops|].
  replace (r + 2) with (S (S r)) by lia. rewrite seq_S, flat_map_app. cbn [seq flat_map]. rewrite (cols_ext 2 (at_one_of [0; S r]) 1 r).
  2:{ intros i Hi. unfold at_one_of. cbn [existsb]. rewrite (proj2 (Nat.eqb_neq i 0)), (proj2 (Nat.eqb_neq i (S r))) by lia. reflexivity. }
  replace (at_one_of [0; S r] (0 + S r)) with true. 2:{ unfold at_one_of. cbn [existsb plus]. rewrite (Nat.eqb_refl (S r)). now rewrite orb_true_r. }
  rewrite app_nil_r, <- app_assoc. reflexivity. Qed.
Lemma row_split r O1 O2 : Permutation ((left_end C T 1 (at_col 0) ++ row_op O1 0) ++ cols (X 1) 2 r ++ row_op O2 (2 + r) ++ right_end C T 1 (at_col (2 + r + 2))) (row_net cj C T a (r + 4) O1 O2).
Proof. unfold row_net, columns, row_op. replace (r + 4 - 1) with (3 + r) by lia. replace (r + 4 - 2) with (2 + r) by lia. replace (2 + r + 2) with (r + 4) by lia. set (g := at_one_of [0; 1; 2 + r; 3 + r]).
  replace (flat_map (fun i => col 1 (at_col i) (g i)) (seq 0 (r + 4))) with ((col 1 (at_col 0) true ++ col 1 (at_col 1) true) ++ cols (X 1) 2 r ++ (col 1 (at_col (2 + r)) true ++ col 1 (at_col (S (2 + r))) true)); [apply swap_ops|].
  replace (seq 0 (r + 4)) with (0 :: 1 :: seq 2 r ++ [2 + r; 3 + r]).
  2:{ replace (r + 4) with (2 + (r + 2)) by lia. cbn [plus seq]. do 2 f_equal. rewrite seq_app. cbn. repeat f_equal; lia. }
  cbn [flat_map]. rewrite flat_map_app. cbn [flat_map]. rewrite app_nil_r.
  assert (T' : forall i, i = 0 \/ i = 1 \/ i = 2 + r \/ i = 3 + r -> g i = true).
  { intros i Hi. unfold g, at_one_of. cbn [existsb]. rewrite !orb_true_iff, !Nat.eqb_eq. intuition lia. }
  rewrite (cols_ext 1 g 2 r).
  2:{ intros i Hi. unfold g, at_one_of. cbn [existsb]. rewrite !orb_false_iff, !Nat.eqb_neq. intuition lia. }
  rewrite !T' by tauto. rewrite <- !app_assoc. reflexivity. Qed.

Lemma sites_ok rl op1 O1 op2 O2 dist :
  let norm n := norm_of cj C T a 1 rl n in let net n r := sites_net cj C T a rl n O1 (O2 r) in
  (rl = None -> is_transpose C C) -> (0 <= dist)%Z -> is_transpose op1 O1 -> (forall r, is_transpose (op2 r) (O2 r)) ->
  (forall r, (Z.of_nat r <= dist)%Z -> fits D (norm (r + 2)) /\ fits D (net (r + 2) r) /\ val (norm (r + 2)) <> z) ->
  corrf_1sO1sO z o add mul cj C T a div maxabs op1 op2 dist rl = Ok (map (fun r => div (val (net (r + 2) r)) (val (norm (r + 2)))) (seq 0 (Z.to_nat (dist + 1)))).
Proof. cbn zeta. intros HC Hd HT1 HT2 HF. unfold corrf_1sO1sO.
  destruct (HF 0) as (FN & FS & _); [lia|].
  apply (fits_perm D _ _ (Permutation_sym (sites_split rl 0 O1 (O2 0)))) in FS. apply fits_app in FS. destruct FS as [FS _]. apply fits_app in FS. destruct FS as [FE F1].
  change (0 + 2) with (1 + 1) in FN. rewrite (norm_split 1 rl 1 1) in FN. apply fits_app in FN. destruct FN as [FN _]. apply fits_app in FN. destruct FN as [_ F0]. unfold cols in F0. cbn [seq flat_map] in F0. rewrite app_nil_r in F0.
  assert (OE : exists E, match rl with None => edge z o add mul C T | Some f => Ok (fst f) end = Ok E /\ good 1 0 (left_of C T 1 rl (at_col 0)) E).
  { destruct rl as [[l r]|]; [exists l; split; [reflexivity|apply open_given; exact FE]|apply open1; [now apply HC|exact FE]]. }
  destruct OE as (E & EE & GE). rewrite EE. cbn [bind].
  destruct (grow_some1 op1 O1 HT1 0 _ E GE F1) as (E1 & X1 & G1). destruct (grow_none1 0 _ E GE F0) as (E0 & X0 & G0). cbn [Nat.add] in G1, G0. rewrite X1, X0. cbn [bind].
  unfold entries. replace (dist + 1 <? 0)%Z with false by (symmetry; apply Z.ltb_ge; lia).
  assert (EY : ends 1 (match rl with None => close_edge z o add mul C T | Some f => fun x => tensordot z o add mul x (snd f) [0;1;2] [0;1;2] end) (fun i => right_of C T 1 rl (at_col i))).
  { destruct rl as [[l r]|]; [apply end_given|apply end_close]. }
  rewrite (loop_ok z o add mul sub opp div inv FT maxabs MA D 1 ltac:(lia) (fun op => tm1 z o add mul cj T a (Some op)) (tm1 z o add mul cj T a None) _ _ op2 (X 1) (fun r => site_net (O2 r)) 1 _ _ 1
    (left_of C T 1 rl (at_col 0) ++ X 1 0) (left_of C T 1 rl (at_col 0) ++ site_net O1 0) grow_none1 (fun r => grow_some1 _ _ (HT2 r)) EY EY (Z.to_nat (dist + 1)) 0 o E0 E1).
  - f_equal. apply map_ext. intros r. f_equal.
    + apply (value_perm z o add mul sub opp div inv FT). apply (sites_split rl r O1 (O2 r)).
    + f_equal. replace (r + 2) with (1 + S r) by lia. rewrite norm_split. unfold cols at 2. cbn [seq flat_map]. rewrite app_nil_r. reflexivity.
  - exact (F_1_neq_0 FT).
  - unfold cols. cbn [seq flat_map]. rewrite app_nil_r. apply (good_one z o add mul sub opp div inv FT). exact G0.
  - unfold cols. cbn [seq flat_map]. rewrite app_nil_r. apply (good_one z o add mul sub opp div inv FT). exact G1.
  - intros k Hk. destruct (HF k) as (A1 & A2 & A3); [lia|]. split; [exact (fits_perm D _ _ (Permutation_sym (sites_split rl k O1 (O2 k))) A2)|].
    replace (k + 2) with (1 + S k) in A1, A3 by lia. rewrite norm_split in A1, A3. unfold cols in A1 at 1. unfold cols in A3 at 1. cbn [seq flat_map] in A1, A3. rewrite app_nil_r in A1, A3. split; assumption. Qed.

Lemma row_den r : (left_end C T 1 (at_col 0) ++ X 1 0 ++ X 1 1) ++ cols (X 1) 2 (S r) ++ X 1 (S (2 + r)) ++ Y 1 (S (S (2 + r))) = norm 1 None (r + 4).
Proof. replace (r + 4) with (2 + S (S r)) by lia. rewrite norm_split, (cols_S (X 1) 2 (S r)). unfold cols at 2. cbn [seq flat_map]. rewrite app_nil_r.
  replace (2 + S r) with (S (2 + r)) by lia. rewrite <- !app_assoc. unfold Y. cbn [right_of]. replace (2 + S (S r)) with (S (S (2 + r))) by lia. reflexivity. Qed.
Definition dimer (op O : ten) : Prop := square op /\ real cj op /\ is_transpose2 op O.
Lemma column_ok T' op1 O1 op2 O2 dist :
  let norm n := norm_of cj C T a 2 None n in let net n r := column_net cj C T a n O1 (O2 r) in
  (forall k, D k <> 0) -> is_transpose C C -> is_reflection T T' -> (0 <= dist)%Z -> dimer op1 O1 -> (forall r, dimer (op2 r) (O2 r)) ->
  (forall r, (Z.of_nat r <= dist)%Z -> fits D (norm (r + 2)) /\ fits D (net (r + 2) r) /\ val (norm (r + 2)) <> z) ->
  corrf_2sOV_edges z o add mul cj C T a svd div maxabs T' op1 op2 dist = Ok (map (fun r => div (val (net (r + 2) r)) (val (norm (r + 2)))) (seq 0 (Z.to_nat (dist + 1)))).
Proof. cbn zeta. intros HD HC HT Hd (S1 & R1 & HT1) H2 HF. unfold corrf_2sOV_edges.
  destruct (HF 0) as (FN & FS & _); [lia|].
  apply (fits_perm D _ _ (Permutation_sym (column_split 0 O1 (O2 0)))) in FS. apply fits_app in FS. destruct FS as [FS _]. apply fits_app in FS. destruct FS as [FE F1].
  change (0 + 2) with (1 + 1) in FN. rewrite (norm_split 2 None 1 1) in FN. apply fits_app in FN. destruct FN as [FN _]. apply fits_app in FN. destruct FN as [_ F0]. unfold cols in F0. cbn [seq flat_map] in F0. rewrite app_nil_r in F0.
  destruct (open2 T' HC HT FE) as (E & EE & GE). rewrite EE. cbn [bind].
  destruct (grow_col HD op1 O1 S1 R1 HT1 0 _ E GE F1) as (E1 & X1 & G1). destruct (grow_none12 0 _ E GE F0) as (E0 & X0 & G0). cbn [Nat.add] in G1, G0. rewrite X1, X0. cbn [bind].
  unfold entries. replace (dist + 1 <? 0)%Z with false by (symmetry; apply Z.ltb_ge; lia).
  assert (EY := end_close2 T' HC HT).
  rewrite (loop_ok z o add mul sub opp div inv FT maxabs MA D 2 ltac:(lia) (fun op => tm1_2 z o add mul cj T a svd (Some op)) (tm1_2 z o add mul cj T a svd None) _ _ op2 (X 2) (fun r => col_op (O2 r)) 1 _ _ 1
    (left_end C T 2 (at_col 0) ++ X 2 0) (left_end C T 2 (at_col 0) ++ col_op O1 0) grow_none12 (fun r => grow_col HD _ _ (proj1 (H2 r)) (proj1 (proj2 (H2 r))) (proj2 (proj2 (H2 r)))) EY EY (Z.to_nat (dist + 1)) 0 o E0 E1).
  - f_equal. apply map_ext. intros r. f_equal.
    + apply (value_perm z o add mul sub opp div inv FT). apply (column_split r O1 (O2 r)).
    + f_equal. replace (r + 2) with (1 + S r) by lia. rewrite norm_split. unfold cols at 2. cbn [seq flat_map]. rewrite app_nil_r. reflexivity.
  - exact (F_1_neq_0 FT).
  - unfold cols. cbn [seq flat_map]. rewrite app_nil_r. apply (good_one z o add mul sub opp div inv FT). exact G0.
  - unfold cols. cbn [seq flat_map]. rewrite app_nil_r. apply (good_one z o add mul sub opp div inv FT). exact G1.
  - intros k Hk. destruct (HF k) as (A1 & A2 & A3); [lia|]. split; [exact (fits_perm D _ _ (Permutation_sym (column_split k O1 (O2 k))) A2)|].
    replace (k + 2) with (1 + S k) in A1, A3 by lia. rewrite norm_split in A1, A3. unfold cols in A1 at 1. unfold cols in A3 at 1. cbn [seq flat_map] in A1, A3. rewrite app_nil_r in A1, A3. split; assumption. Qed.
Lemma row_ok op1 O1 op2 O2 dist :
  let norm n := norm_of cj C T a 1 None n in let net n r := row_net cj C T a n O1 (O2 r) in
  (forall k, D k <> 0) -> is_transpose C C -> (0 <= dist)%Z -> dimer op1 O1 -> (forall r, dimer (op2 r) (O2 r)) ->
  (forall r, (Z.of_nat r <= dist)%Z -> fits D (norm (r + 4)) /\ fits D (net (r + 4) r) /\ val (norm (r + 4)) <> z) ->
  corrf_2sOH2sOH_E1 z o add mul cj C T a svd div maxabs op1 op2 dist = Ok (map (fun r => div (val (net (r + 4) r)) (val (norm (r + 4)))) (seq 0 (Z.to_nat (dist + 1)))).
Proof. cbn zeta. intros HD HC Hd (S1 & R1 & HT1) H2 HF. unfold corrf_2sOH2sOH_E1.
  destruct (HF 0) as (FN & FS & _); [lia|].
  apply (fits_perm D _ _ (Permutation_sym (row_split 0 O1 (O2 0)))) in FS. apply fits_app in FS. destruct FS as [FS _]. apply fits_app in FS. destruct FS as [FE F1].
  change (0 + 4) with (2 + 2) in FN. rewrite (norm_split 1 None 2 2) in FN. apply fits_app in FN. destruct FN as [FN _]. apply fits_app in FN. destruct FN as [_ F0]. unfold cols in F0. cbn [seq flat_map] in F0. rewrite app_nil_r in F0.
  destruct (open1 HC FE) as (E & EE & GE). rewrite EE. cbn [bind].
  destruct (grow_row HD op1 O1 S1 R1 HT1 0 _ E GE F1) as (E1 & X1 & G1). destruct (grow_none2 HD 0 _ E GE F0) as (E0 & X0 & G0). cbn [Nat.add] in G1, G0. rewrite X1, X0. cbn [bind].
  unfold entries. replace (dist + 1 <? 0)%Z with false by (symmetry; apply Z.ltb_ge; lia).
  rewrite (loop_ok z o add mul sub opp div inv FT maxabs MA D 1 ltac:(lia) (fun op => tm2 z o add mul cj T a svd (Some op)) (tm1 z o add mul cj T a None) _ _ op2 (X 1) (fun r => row_op (O2 r)) 2 _ _ 2
    (left_end C T 1 (at_col 0) ++ X 1 0 ++ X 1 1) (left_end C T 1 (at_col 0) ++ row_op O1 0) grow_none1 (fun r => grow_row HD _ _ (proj1 (H2 r)) (proj1 (proj2 (H2 r))) (proj2 (proj2 (H2 r))))
    end_close (ends_after z o add mul D 1 _ _ _ _ grow_none1 end_close) (Z.to_nat (dist + 1)) 0 o E0 E1).
  - f_equal. apply map_ext. intros r. f_equal.
    + apply (value_perm z o add mul sub opp div inv FT). apply (row_split r O1 (O2 r)).
    + f_equal. apply row_den.
  - exact (F_1_neq_0 FT).
  - unfold cols. cbn [seq flat_map]. rewrite app_nil_r. apply (good_one z o add mul sub opp div inv FT). exact G0.
  - unfold cols. cbn [seq flat_map]. rewrite app_nil_r. apply (good_one z o add mul sub opp div inv FT). exact G1.
  - intros k Hk. destruct (HF k) as (A1 & A2 & A3); [lia|]. split; [exact (fits_perm D _ _ (Permutation_sym (row_split k O1 (O2 k))) A2)|].
    rewrite row_den. split; assumption. Qed.
End P.
