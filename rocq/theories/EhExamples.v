(** Concrete boundary operators. *)
From Coq Require Import Reals.
From Verif Require Import Base BaseLemmas Lattice Tensor TensorLemmas Net NetSpec NetProofs NetProofs2 NetProofs3 Corners CornersSpec CornersProofs CornersExamples RdmSpec RdmProofs RdmExamples RdmC4vExamples Corr CorrSpec CorrProofs4 Transfer TransferSpec TransferProofs TransferExamples EhSpec EhProofs EhProofs2.
From Verif Require Ctm.
From Coq Require Import Lia.
Open Scope list_scope.
Open Scope nat_scope.
Open Scope res_scope.

(** a solver that fails with RuntimeError exactly if the operator maps x to y *)
Definition probe (m : nat) (x y : list Z) : eigen_solver Z unit := fun _ m' mv _ =>
  if (m' =? m) && returns_vec (mv x) y then Err RuntimeError else Err IndexError.

(** ** one site: different operators on the left and on the right *)
Definition A1 (k : coord) : tensor Z := zt [1; 2; 2; 2; 2] (repeat 1%Z 16).
Definition C1 (k d : coord) : tensor Z := zt [1; 1] [1%Z].
Definition T1 (k d : coord) : tensor Z :=
  if eqb d (-1, 0)%Z then zt [1; 1; 4] [2; 1; 0; 3]%Z else if eqb d (1, 0)%Z then zt [1; 4; 1] [1; 0; 5; 1]%Z
  else if eqb d (0, -1)%Z then zt [1; 4; 1] [1; 0; 0; 1]%Z else zt [4; 1; 1] [1; 0; 0; 1]%Z.
Definition f1 (c : coord) : coord := (0, 0)%Z.
Definition st1 := of_sites [(0, 0)%Z] 1 1 f1 A1.
Definition env1 := of_env [(0, 0)%Z] C1 T1.
Lemma sees1 : sees st1 env1 (fun v => A1 (f1 v)) (fun v => C1 (f1 v)) (fun v => T1 (f1 v)).
Proof. apply of_sees. intros v. split; [now left|reflexivity]. Qed.
Definition D1 (k : nat) : nat := if k mod 5 <? 3 then 2 else 1.
Lemma case1 : one_site st1 /\ i_lX st1 = 1%Z /\ i_lY st1 = 1%Z /\
  (forall k, k < 2 -> D1 (bnd 0 k) = 1 /\ D1 (bnd 1 k) = 1 /\ D1 (ext 0 k) = 2 /\ D1 (ext 1 k) = 2 /\ D1 (ext 2 k) = 2) /\
  fits D1 (ring (fun v => T1 (f1 v)) Right (0, 0)%Z 0 2 ++ ring (fun v => T1 (f1 v)) Left (0, 0)%Z 1 2) /\
  (** first the operator on the right, then that on the left, on the second basis vector *)
  Z_ get_EH_spec (probe 4 [0; 1; 0; 0]%Z [7; 21; 15; 45]%Z) st1 env1 1 2 2 (0, 0)%Z (1, 0)%Z = Err RuntimeError.
Proof. split; [exists (0, 0)%Z; reflexivity|]. split; [reflexivity|]. split; [reflexivity|]. split; [intros [|[|k]] Hk; [repeat split..|lia]|]. split; [repeat constructor|]. vm_compute. reflexivity. Qed.
Lemma case_c4v : get_EH_spec_c4v 0%Z 1%Z Z.add Z.mul (probe 4 [0; 1; 0; 0]%Z [2; 6; 0; 0]%Z) 1 (zt [1; 1; 4] [2; 1; 0; 3]%Z) (A1 (0, 0)%Z) 2 2 = Err RuntimeError.
Proof. vm_compute. reflexivity. Qed.
(** the product of the matrices, for a width of one site *)
Definition fails_at (M : tensor Z) (m : tensor Z) : res (list cplx) :=
  if (if list_eq_dec Nat.eq_dec (tdims m) (tdims M) then true else false) && eq_vec (tdata m) (tdata M) then Err RuntimeError else Err IndexError.
Lemma case_full : fits D1 (ring (fun v => T1 (f1 v)) Right (0, 0)%Z 1 1 ++ ring (fun v => T1 (f1 v)) Left (0, 0)%Z 0 1) /\
  Z_ get_full_EH_spec st1 env1 1 (fails_at (zt [2; 2] [2; 1; 10; 8]%Z)) (fun l => seq 0 (length l)) 1 (0, 0)%Z (1, 0)%Z = Err RuntimeError /\
  Z_ get_full_EH_spec st1 env1 1 (fails_at (zt [4; 4] [4;2;2;1; 20;16;10;8; 20;10;16;8; 100;80;80;64]%Z)) (fun l => seq 0 (length l)) 2 (0, 0)%Z (1, 0)%Z = Err RuntimeError.
Proof. split; [repeat constructor|]. split; vm_compute; reflexivity. Qed.

(** ** three sites in a row *)
Definition T3d (k d : coord) : tensor Z :=
  if eqb d (0, 1)%Z then zt [1; 2; 2] (if eqb k (0, 0)%Z then [0; 1; 0; 0] else if eqb k (1, 0)%Z then [0; 0; 1; 0] else [1; 0; 0; 0])%Z
  else if eqb d (-1, 0)%Z then zt [2; 2; 1] [1; 0; 0; 1]%Z else zt [2; 1; 2] [1; 0; 0; 1]%Z.
Definition env3d := of_env sites3 C8 T3d.
Lemma sees3d : sees st3 env3d (fun v => A3 (f3 v)) (fun v => C8 (f3 v)) (fun v => T3d (f3 v)).
Proof. apply of_sees. exact f3_ok. Qed.
Definition D3d (k : nat) : nat := if k mod 5 <? 3 then 1 else 2.
Lemma order_refuted : exists st e As Cs Ts c D chi ad L M m, sees st e As Cs Ts /\ reduces st /\ (forall v d, nth (leg_index d) (tdims (As v)) 0 = ad) /\ 1 <= L /\
  (forall k, k < L -> D (bnd 0 k) = chi /\ D (bnd 1 k) = chi /\ D (ext 0 k) = ad /\ D (ext 1 k) = ad /\ D (ext 2 k) = ad) /\
  fits D (ring Ts Down c 1 L ++ ring Ts Up c 0 L) /\
  Z_ (is_contraction D) (ring Ts Down c 1 L ++ ring Ts Up c 0 L) [side 2 L; side 0 L] M /\
  (forall eig sort_desc err, eig m = Err err -> Z_ get_full_EH_spec st e chi eig sort_desc L c (dvec Down) = Err err) /\
  tdata M = [2%Z] /\ tdata m = [0%Z].
Proof.
  assert (HD : forall k, k < 3 -> D3d (bnd 0 k) = 2 /\ D3d (bnd 1 k) = 2 /\ D3d (ext 0 k) = 1 /\ D3d (ext 1 k) = 1 /\ D3d (ext 2 k) = 1) by (intros [|[|[|k]]] Hk; [repeat split..|lia]).
  assert (HA : forall v d, nth (leg_index d) (tdims ((fun v => A3 (f3 v)) v)) 0 = 1) by (intros v d; destruct d; reflexivity).
  assert (HF : fits D3d (ring (fun v => T3d (f3 v)) Down (0, 0)%Z 1 3 ++ ring (fun v => T3d (f3 v)) Up (0, 0)%Z 0 3)) by (repeat constructor).
  destruct (full_product _ _ _ _ Z_ring st3 env3d _ _ _ sees3d D3d 2 1 HA reduces3 (0, 0)%Z Right 3 ltac:(lia) Down HD HF) as (M & E & HM).
  exists st3, env3d, (fun v => A3 (f3 v)), (fun v => C8 (f3 v)), (fun v => T3d (f3 v)), (0, 0)%Z, D3d, 2, 1, 3, M, (zt [1; 1] [0%Z]).
  split; [exact sees3d|]. split; [exact reduces3|]. split; [exact HA|]. split; [lia|]. split; [exact HD|]. split; [exact HF|]. split; [exact HM|]. split.
  - intros eig sort_desc err H. rewrite (full_eq _ _ _ _ _ _ _ _ _ _ _ _ _ _ _ sees3d).
    match goal with |- bind ?p _ = _ => replace p with (Ok (zt [1; 1] [0%Z])) by (vm_compute; reflexivity) end. cbn [bind]. rewrite H. reflexivity.
  - vm_compute in E. injection E as <-. split; reflexivity. Qed.

(** ** two rows with different bonds *)
Definition f2 (c : coord) : coord := (0, snd c mod 2)%Z.
Definition sites2 : list coord := [(0, 0); (0, 1)]%Z.
Lemma f2_ok v : In (f2 v) sites2 /\ f2 (f2 v) = f2 v.
Proof. unfold f2. destruct v as [x y]. cbn [fst snd]. assert (H1 := Z.mod_pos_bound y 2 ltac:(lia)). remember (y mod 2)%Z as p. clear Heqp.
  assert (P : (p = 0 \/ p = 1)%Z) by lia. destruct P as [-> | ->]; split; vm_compute; tauto. Qed.
Definition ad2 (k : coord) : nat := if eqb k (0, 0)%Z then 2 else 1.
Definition A2 (k : coord) : tensor Z := zt [1; 1; ad2 k; 1; ad2 k] (repeat 1%Z (ad2 k * ad2 k)).
Definition T2 (k d : coord) : tensor Z :=
  let n := ad2 k * ad2 k in
  if eqb d (-1, 0)%Z then zt [1; 1; n] (repeat 1%Z n) else if eqb d (1, 0)%Z then zt [1; n; 1] (repeat 1%Z n) else zt [1; 1; 1] [1%Z].
Definition st2 := of_sites sites2 1 2 f2 A2.
Definition env2 := of_env sites2 C8 T2.
Lemma sees2 : sees st2 env2 (fun v => A2 (f2 v)) (fun v => C8 (f2 v)) (fun v => T2 (f2 v)).
Proof. apply of_sees. exact f2_ok. Qed.
Lemma reduces2 : reduces st2.
Proof. intros v k d H. cbn in H. injection H as <-. cbn. f_equal. unfold f2, cadd. destruct v as [x y], d as [p q]. cbn [fst snd]. f_equal. apply Z.add_mod_idemp_l. lia. Qed.
Definition D2 (k : nat) : nat := if k <? 3 then 2 else 1.
Lemma sizes_refuted : exists st e As Cs Ts c D chi L, sees st e As Cs Ts /\ reduces st /\ 1 <= L /\
  (forall k, k < L -> D (bnd 0 k) = chi /\ D (bnd 1 k) = chi /\ forall s, s < 3 -> D (ext s k) = nth (leg_index Right) (tdims (As (along c Down k))) 0 /\ D (ext s k) = nth (leg_index Left) (tdims (As (along c Down k))) 0) /\
  fits D (ring Ts Right c 1 L ++ ring Ts Left c 0 L) /\
  forall eig sort_desc, Z_ get_full_EH_spec st e chi eig sort_desc L c (dvec Right) = Err RuntimeError.
Proof. exists st2, env2, (fun v => A2 (f2 v)), (fun v => C8 (f2 v)), (fun v => T2 (f2 v)), (0, 0)%Z, D2, 1, 2.
  split; [exact sees2|]. split; [exact reduces2|]. split; [lia|]. split; [intros [|[|k]] Hk; [split; [reflexivity|]; split; [reflexivity|]; intros [|[|[|s]]] Hs; [split; reflexivity..|lia]..|lia]|]. split; [repeat constructor|].
  intros eig sort_desc. rewrite (full_eq _ _ _ _ _ _ _ _ _ _ _ _ _ _ _ sees2).
  match goal with |- bind ?p _ = _ => replace p with (@Err (tensor Z) RuntimeError) by (vm_compute; reflexivity) end. reflexivity. Qed.

(** ** complex states on both sides of the cut: the kets on the two sides of it *)
Notation g_ f := (f g0 g1 gadd gmul).
Definition kets : tensor gi := mkT [2; 3] [(1,0);(1,0);(0,0); (0,-1);(0,0);(1,0)]%Z.
Definition over4 : list gi := [(2,0);(0,1); (0,-1);(2,0)]%Z.
Definition Ac (k : coord) : tensor gi := mkT [1; 2; 2; 2; 2] (repeat g1 16).
Definition Cc (k d : coord) : tensor gi := mkT [1; 1] [g1].
Definition Tc (k d : coord) : tensor gi := mkT (if eqb d (-1, 0)%Z then [1; 1; 4] else if eqb d (0, 1)%Z then [4; 1; 1] else [1; 4; 1]) over4.
Definition stc := of_sites [(0, 0)%Z] 1 1 f1 Ac.
Definition envc := of_env [(0, 0)%Z] Cc Tc.
Lemma seesc : sees stc envc (fun v => Ac (f1 v)) (fun v => Cc (f1 v)) (fun v => Tc (f1 v)).
Proof. apply of_sees. intros v. split; [now left|reflexivity]. Qed.
Definition Dc (k : nat) : nat := nth k [2; 2; 3; 1; 1; 3; 3] 1.
Lemma overlap_ok out : (out = open_legs Left 3 4 0 1 \/ out = open_legs Right 3 4 0 1) ->
  g_ (is_contraction Dc) [(kets, [V 0; V 2]); (tmap gconj kets, [V 1; V 2])] out (mkT (map (ldim Dc) out) over4).
Proof. intros Ho. assert (Hb : forall l, In l [0; 1; 3; 4] -> In l (flat_map bonds out)) by (destruct Ho as [-> | ->]; cbn; intros l; tauto).
  split; [destruct Ho as [-> | ->]; reflexivity|]. split; [reflexivity|]. intros s Hs.
  assert (H0 := Hs 0 (Hb 0 ltac:(cbn; tauto))). assert (H1 := Hs 1 (Hb 1 ltac:(cbn; tauto))). assert (H3 := Hs 3 (Hb 3 ltac:(cbn; tauto))). assert (H4 := Hs 4 (Hb 4 ltac:(cbn; tauto))).
  cbv in H0, H1, H3, H4. assert (E3 : s 3 = 0) by lia. assert (E4 : s 4 = 0) by lia. assert (P0 : s 0 = 0 \/ s 0 = 1) by lia. assert (P1 : s 1 = 0 \/ s 1 = 1) by lia.
  destruct Ho as [-> | ->]; cbn [open_legs map lval FF inner net_bonds]; rewrite E3, E4; destruct P0 as [P0|P0], P1 as [P1|P1]; rewrite P0, P1; cbn; unfold upd, product; cbn; rewrite P0, P1; reflexivity. Qed.
Lemma rho_ok D (A B C E : tensor gi) : let net := [(A, [V 0; V 2]); (B, [V 0; V 5]); (C, [V 1; V 6]); (E, [V 1; V 5])] in fits D net ->
  exists M, (x <- g_ tensordot A B [0] [0] ;; y <- g_ tensordot C E [0] [0] ;; g_ tensordot x y [1] [1]) = Ok M /\ g_ (is_contraction D) net [V 2; V 6] M.
Proof. cbn zeta. intros HF. expand_net HF. leaves gi_ring HF. (singleE gi_ring; [step ltac:(cdot gi_ring); step ltac:(cdot gi_ring); cdot gi_ring|check|reflexivity]). Qed.
Definition is_eigen (M : tensor gi) (v : gi) (x : list gi) : Prop := g_ tensordot M (mkT [length x] x) [1] [0] = Ok (mkT [length x] (map (gmul v) x)).
Lemma no_nine rho add mul x y w : add = gadd -> mul = gmul -> rho = mkT [3; 3] [(2,0); (1,0); (0,-1); (1,0); (2,0); (0,1); (0,1); (0,-1); (2,0)]%Z -> tensordot g0 g1 add mul rho (mkT [3] [x; y; w]) [1] [0] = Ok (mkT [3] [gmul (9, 0)%Z x; gmul (9, 0)%Z y; gmul (9, 0)%Z w]) -> [x; y; w] = repeat g0 3.
Proof. intros HA HM -> H. remember (gmul (9, 0)%Z x) as x9. remember (gmul (9, 0)%Z y) as y9. remember (gmul (9, 0)%Z w) as w9. vm_compute in H. injection H as H1 H2 H3. subst. destruct x as [a a'], y as [b b'], w as [c c'].
  unfold ExtendProofs2.gadd, ExtendProofs2.gmul in H1, H2, H3. cbn [fst snd] in H1, H2, H3. apply pair_equal_spec in H1, H2, H3. unfold ExtendProofs2.g0. cbn [repeat]. repeat f_equal; lia. Qed.
Lemma transposed_refuted : exists st e As Cs Ts c D (L R M rho : tensor gi), sees st e As Cs Ts /\ one_site st /\
  (** L and R: the states on the two sides for each index of the bond *)
  g_ (is_contraction D) [(L, [V 0; V 2]); (tmap gconj L, [V 1; V 2])] (open_legs Left 3 4 0 1) (Ts c (dvec Left)) /\
  g_ (is_contraction D) [(R, [V 0; V 2]); (tmap gconj R, [V 1; V 2])] (open_legs Right 3 4 0 1) (Ts c (dvec Right)) /\
  g_ (is_contraction D) [(L, [V 0; V 2]); (R, [V 0; V 5]); (tmap gconj L, [V 1; V 6]); (tmap gconj R, [V 1; V 5])] [V 2; V 6] rho /\
  (forall eig sort_desc err, eig M = Err err -> g_ get_full_EH_spec st e 1 eig sort_desc 1 c (dvec Right) = Err err) /\
  (** the leading value of the matrix is 9, the density matrix has 3 and not 9 *)
  is_eigen M (9, 0)%Z [(1, 0); (0, -1)]%Z /\ is_eigen rho (3, 0)%Z [(1, 0); (1, 0); (0, 0)]%Z /\
  forall x, length x = 3 -> is_eigen rho (9, 0)%Z x -> x = repeat g0 3.
Proof.
  destruct (rho_ok Dc kets kets (tmap gconj kets) (tmap gconj kets)) as (rho & E & HR); [repeat constructor|].
  exists stc, envc, (fun v => Ac (f1 v)), (fun v => Cc (f1 v)), (fun v => Tc (f1 v)), (0, 0)%Z, Dc, kets, kets, (mkT [2; 2] [(5,0);(0,4); (0,-4);(5,0)]%Z), rho.
  split; [exact seesc|]. split; [exists (0, 0)%Z; reflexivity|]. split; [exact (overlap_ok _ (or_introl eq_refl))|]. split; [exact (overlap_ok _ (or_intror eq_refl))|]. split; [exact HR|]. split.
  { intros eig sort_desc err H. rewrite (full_eq _ _ _ _ _ _ _ _ _ _ _ _ _ _ _ seesc).
    match goal with |- bind ?p _ = _ => replace p with (Ok (mkT [2; 2] [(5,0);(0,4); (0,-4);(5,0)]%Z)) by (vm_compute; reflexivity) end. cbn [bind]. rewrite H. reflexivity. }
  vm_compute in E. injection E as <-. split; [vm_compute; reflexivity|]. split; [vm_compute; reflexivity|].
  intros x Hx H. destruct x as [|[a a'] [|[b b'] [|[c c'] [|? ?]]]]; try discriminate Hx. exact (no_nine _ gadd gmul _ _ _ eq_refl eq_refl eq_refl H). Qed.
