(** Concrete transfer operators. *)
From Coq Require Import Reals.
From Verif Require Import Base BaseLemmas Lattice Tensor TensorLemmas Net NetSpec NetProofs NetProofs2 NetProofs3 Corners CornersSpec CornersProofs Rdm RdmSpec RdmProofs RdmExamples RdmC4vExamples Corr CorrSpec CorrProofs CorrProofs4 CorrC4v CorrC4vSpec Transfer TransferSpec TransferProofs TransferProofs2 TransferProofs3.
From Verif Require Ctm.
From Coq Require Import Permutation Lia Lra.
Open Scope list_scope.
Open Scope nat_scope.
Open Scope res_scope.

(** ** states given by their sites *)
Section Of.
Context {K : Type}.
Variables (sites : list coord) (lX lY : Z) (f : coord -> coord) (A : coord -> tensor K) (C T : coord -> coord -> tensor K).
Definition of_sites : ipeps (tensor K) := mk_ipeps (Some (map (fun k => (k, A k)) sites)) lX lY (fun v => Ok (f v)).
Definition of_env : Ctm.envt (tensor K) :=
  Ctm.mkE (map (fun p => (p, C (fst p) (snd p))) (list_prod sites dirs_C)) (map (fun p => (p, T (fst p) (snd p))) (list_prod sites dirs_T)).
Lemma dget_map {X Y} `{EqDec X} (g : X -> Y) l k : In k l -> dget (map (fun k => (k, g k)) l) k = Some (g k).
Proof. induction l as [|a l IH]; intros Hk; [destruct Hk|]. cbn. unfold eqb. destruct (eq_dec k a) as [->|Hne]; [reflexivity|]. apply IH. destruct Hk as [E|Hk]; [congruence|exact Hk]. Qed.
Lemma of_sees : (forall v, In (f v) sites /\ f (f v) = f v) -> sees of_sites of_env (fun v => A (f v)) (fun v => C (f v)) (fun v => T (f v)).
Proof. intros H v. destruct (H v) as [H1 H2]. exists (f v). split; [reflexivity|]. split; [cbn; now rewrite H2|]. split; [|split].
  - unfold ipeps_site. cbn. unfold dget_exn. rewrite dget_map by exact H1. reflexivity.
  - intros d Hd. unfold Ctm.getC, dget_exn. cbn [of_env Ctm.eC]. rewrite (dget_map (fun p => C (fst p) (snd p))); [reflexivity|]. apply in_prod; [exact H1|]. cbn in *. tauto.
  - intros d Hd. unfold Ctm.getT, dget_exn. cbn [of_env Ctm.eT]. rewrite (dget_map (fun p => T (fst p) (snd p))); [reflexivity|]. apply in_prod; [exact H1|]. cbn in *. tauto. Qed.
End Of.
Definition zt (dims : list nat) (l : list Z) : tensor Z := mkT dims l.
Notation Z_ f := (f 0%Z 1%Z Z.add Z.mul).

(** ** the tiling with 8 sites of examples/j1j2/ctmrg_j1j2.py: two steps down are not a period *)
Definition f8 (c : coord) : coord := ((fst c + 2 * (snd c / 2)) mod 4, snd c mod 2)%Z.
Definition sites8 : list coord := [(0, 0); (1, 0); (2, 0); (3, 0); (0, 1); (1, 1); (2, 1); (3, 1)]%Z.
Lemma f8_ok v : In (f8 v) sites8 /\ f8 (f8 v) = f8 v.
Proof. unfold f8. destruct v as [x y]. cbn [fst snd].
  assert (H1 := Z.mod_pos_bound (x + 2 * (y / 2)) 4 ltac:(lia)). assert (H2 := Z.mod_pos_bound y 2 ltac:(lia)).
  remember ((x + 2 * (y / 2)) mod 4)%Z as p. remember (y mod 2)%Z as q. clear Heqp Heqq.
  assert (P : (p = 0 \/ p = 1 \/ p = 2 \/ p = 3)%Z) by lia. assert (Q : (q = 0 \/ q = 1)%Z) by lia.
  destruct P as [-> |[-> |[-> | ->]]], Q as [-> | ->]; split; vm_compute; tauto. Qed.
Definition A8 (k : coord) : tensor Z := zt [1; 1; 1; 1; 1] [if eqb k (2, 0)%Z then 0%Z else 3%Z].
Definition C8 (k d : coord) : tensor Z := zt [1; 1] [1%Z].
Definition T8 (k d : coord) : tensor Z := zt [1; 1; 1] [if eqb d (0, -1)%Z then 2%Z else 1%Z].
Definition st8 := of_sites sites8 4 2 f8 A8.
Definition env8 := of_env sites8 C8 T8.
Lemma sees8 : sees st8 env8 (fun v => A8 (f8 v)) (fun v => C8 (f8 v)) (fun v => T8 (f8 v)).
Proof. apply of_sees. exact f8_ok. Qed.
Definition chan8 d n := channel (fun x => x) (fun v => A8 (f8 v)) (fun v => T8 (f8 v)) d (0, 0)%Z n.
Lemma fits8 d n : fits (fun _ => 1) (chan8 d n).
Proof. unfold chan8, channel, fits. apply Forall_forall. intros x Hx. apply in_flat_map in Hx. destruct Hx as (i & _ & Hx). destruct d; cbn in Hx; repeat (destruct Hx as [<-|Hx]; [repeat split|]); contradiction Hx. Qed.
Lemma f8_right i : i_v2s st8 (along (0, 0)%Z Right (i + 4)) = i_v2s st8 (along (0, 0)%Z Right i).
Proof. assert (E : forall k, along (0, 0)%Z Right k = (Z.of_nat k, 0%Z)).
  { induction k as [|k IH]; [reflexivity|]. cbn [along]. rewrite IH. unfold cadd. cbn [fst snd dvec]. f_equal. lia. }
  rewrite !E. cbn. f_equal. unfold f8. cbn [fst snd]. f_equal. replace (Z.of_nat (i + 4) + 2 * (0 / 2))%Z with (Z.of_nat i + 2 * (0 / 2) + 1 * 4)%Z by (rewrite Nat2Z.inj_add; lia). apply Z.mod_add. lia. Qed.
Notation TM8 := (Z_ apply_TM_1sO (fun x => x) st8 env8).
Definition mv8 d := matvec [1; 1; 1] (steps (fun v V => TM8 v (dvec d) V None) (dvec d) (cell_length st8 d) (0, 0)%Z).
Lemma mv8_handed {W} (eigs : eigen_solver Z W) argsort n d ev :
  Z_ get_Top_spec (fun x => x) eigs argsort st8 env8 n (0, 0)%Z (dvec d) ev = (r <- eigs ev 1 (mv8 d) n ;; sorted_spec argsort n true ev r).
Proof. rewrite (Top_eq _ _ _ _ _ st8 env8 _ _ _ sees8). destruct d; reflexivity. Qed.
(** to the right: the four sites of a row; the site (2,0) is missing *)
Lemma right_case : repeats st8 (0, 0)%Z Right (cell_length st8 Right) /\ cell_length st8 Right = 4 /\ same_rims (fun _ => 1) 4 /\ fits (fun _ => 1) (chan8 Right 8) /\
  mv8 Right [1%Z] = Ok [0%Z] /\ mv8 Down [1%Z] = Ok [81%Z].
Proof. split; [exact f8_right|]. split; [reflexivity|]. split; [intros k j _; reflexivity|]. split; [apply fits8|]. split; vm_compute; reflexivity. Qed.
Lemma cell_refuted : exists st e As Cs Ts c D m mv x M, sees st e As Cs Ts /\
  (forall W (eigs : eigen_solver Z W) argsort n ev err, eigs ev m mv n = Err err -> Z_ get_Top_spec (fun x => x) eigs argsort st e n c (dvec Down) ev = Err err) /\
  let N := cell_length st Down in let net := channel (fun x => x) As Ts Down c (2 * N) in
  1 <= N /\ same_rims D N /\ fits D net /\ length x = prod_dims (map (ldim D) (rim (base 0))) /\
  Z_ (is_contraction D) ((mkT (map (ldim D) (rim (base 0))) x, rim (base 0)) :: net) (rim (base (2 * N))) M /\
  iterate 2 mv x <> Ok (tdata M).
Proof.
  assert (X := steps_grow _ _ _ _ (fun x => x) Z_ring st8 env8 _ _ _ sees8 (fun _ => 1) Down (0, 0)%Z 4 0 0 _ _ (good_vec _ _ _ _ Z_ring (fun _ => 1) 0 [1%Z] eq_refl) (fun t _ => eq_refl) (fits8 Down 4)).
  destruct X as (M & EM & [GM _]).
  exists st8, env8, (fun v => A8 (f8 v)), (fun v => C8 (f8 v)), (fun v => T8 (f8 v)), (0, 0)%Z, (fun _ => 1), 1, (mv8 Down), [1%Z], M. split; [exact sees8|]. split.
  { intros W eigs argsort n ev err E. rewrite mv8_handed, E. reflexivity. }
  cbn zeta. change (cell_length st8 Down) with 2. split; [lia|]. split; [intros k j _; reflexivity|]. split; [apply fits8|]. split; [reflexivity|]. split; [exact GM|].
  vm_compute in EM. injection EM as <-. vm_compute. discriminate. Qed.

(** ** three sites in a row: the operators without sites go to the left *)
Definition f3 (c : coord) : coord := (fst c mod 3, 0)%Z.
Definition sites3 : list coord := [(0, 0); (1, 0); (2, 0)]%Z.
Lemma f3_ok v : In (f3 v) sites3 /\ f3 (f3 v) = f3 v.
Proof. unfold f3. destruct v as [x y]. cbn [fst snd]. assert (H1 := Z.mod_pos_bound x 3 ltac:(lia)). remember (x mod 3)%Z as p. clear Heqp.
  assert (P : (p = 0 \/ p = 1 \/ p = 2)%Z) by lia. destruct P as [-> |[-> | ->]]; split; vm_compute; tauto. Qed.
Definition A3 (k : coord) : tensor Z := zt [1; 1; 1; 1; 1] [1%Z].
Definition T3 (k d : coord) : tensor Z :=
  if eqb d (0, -1)%Z then zt [2; 1; 2] (if eqb k (0, 0)%Z then [0; 1; 0; 0] else if eqb k (1, 0)%Z then [0; 0; 1; 0] else [1; 0; 0; 0])%Z
  else zt [1; 1; 1] [1%Z].
Definition st3 := of_sites sites3 3 1 f3 A3.
Definition env3 := of_env sites3 C8 T3.
Lemma sees3 : sees st3 env3 (fun v => A3 (f3 v)) (fun v => C8 (f3 v)) (fun v => T3 (f3 v)).
Proof. apply of_sees. exact f3_ok. Qed.
Lemma reduces3 : reduces st3.
Proof. intros v k d H. cbn in H. injection H as <-. cbn. f_equal. unfold f3, cadd. destruct v as [x y], d as [p q]. cbn [fst snd]. f_equal. apply Z.add_mod_idemp_l. lia. Qed.
Definition D3 (k : nat) : nat := if k mod 16 =? 0 then 2 else 1.
Notation TM3 := (Z_ apply_TM_0sO st3 env3).
Definition mv3 d := matvec [2; 1] (steps (fun v V => TM3 v (dvec d) V) (dvec d) (cell_length st3 d) (0, 0)%Z).
Lemma mv3_handed {W} (eigs : eigen_solver Z W) argsort n d : d = Left \/ d = Right ->
  Z_ get_Top_w0_spec eigs argsort st3 env3 n (0, 0)%Z (dvec d) = (r <- eigs false 2 (mv3 d) n ;; ' (L, _) <- sorted_spec argsort n true false r ;; Ok L).
Proof. intros Hd. rewrite (Top0_eq _ _ _ _ (fun x => x) st3 env3 _ _ _ sees3). destruct Hd as [-> | ->]; reflexivity. Qed.
Definition seam3 d := seam (fun v => T3 (f3 v)) d (0, 0)%Z 3.
Lemma D3_same n : same_rims D3 n.
Proof. intros k j Hj. unfold D3, base. rewrite !(Nat.mul_comm 16), !Nat.add_comm with (m := j). now rewrite !Nat.mod_add by lia. Qed.
Lemma fits3 : fits D3 (seam3 Right) /\ fits D3 (seam3 Left).
Proof. split; repeat constructor. Qed.
Lemma left_case : mv3 Left [5; 7]%Z = Ok [0; 7]%Z /\ mv3 Right [5; 7]%Z = Ok [0; 0]%Z.
Proof. split; vm_compute; reflexivity. Qed.
(** what is drawn, to the right *)
Lemma drawn3 (E A1 B1 A2 B2 A3 B3 : tensor Z) D :
  let net := [(E, rim0 16); (A1, [V 16; V 20; V 32]); (B1, [V 20; V 19; V 35]); (A2, [V 32; V 36; V 48]); (B2, [V 36; V 35; V 51]); (A3, [V 48; V 52; V 64]); (B3, [V 52; V 51; V 67])] in
  fits D net -> exists M,
  (x <- Z_ tensordot E A1 [0] [0] ;; x <- Z_ tensordot x B1 [1;0] [0;1] ;; x <- Z_ tensordot x A2 [0] [0] ;; x <- Z_ tensordot x B2 [1;0] [0;1] ;;
   x <- Z_ tensordot x A3 [0] [0] ;; Z_ tensordot x B3 [1;0] [0;1]) = Ok M /\ Z_ (is_contraction D) net (rim0 64) M.
Proof. cbn zeta. intros HF. expand_net HF. leaves Z_ring HF.
  (singleE Z_ring; [step ltac:(cdot Z_ring); step ltac:(cdot Z_ring); step ltac:(cdot Z_ring); step ltac:(cdot Z_ring); step ltac:(cdot Z_ring); cdot Z_ring|check|reflexivity]). Qed.
Lemma mv3_zero add mul (HA : add = Z.add) (HM : mul = Z.mul) a b :
  matvec [2; 1] (steps (fun v V => apply_TM_0sO 0%Z 1%Z add mul st3 env3 v (dvec Right) V) (dvec Right) (cell_length st3 Right) (0, 0)%Z) [a; b] = Ok [0; 0]%Z.
Proof. vm_compute. subst add mul. match goal with |- Ok [?u; ?v] = _ => replace u with 0%Z by ring; replace v with 0%Z by ring end. reflexivity. Qed.
Lemma seam_refuted : exists st e As Cs Ts c D m mv x, sees st e As Cs Ts /\ reduces st /\
  (forall W (eigs : eigen_solver Z W) argsort n err, eigs false m mv n = Err err -> Z_ get_Top_w0_spec eigs argsort st e n c (dvec Right) = Err err) /\
  let N := cell_length st Right in
  1 <= N /\ repeats st c Right N /\ same_rims D N /\ fits D (seam Ts Right c N) /\ m = prod_dims (map (ldim D) (rim0 (base 0))) /\
  (** the drawn operator has the eigenvector x with the eigenvalue one *)
  length x = m /\ In 1%Z x /\
  Z_ (is_contraction D) ((mkT (map (ldim D) (rim0 (base 0))) x, rim0 (base 0)) :: seam Ts Right c N) (rim0 (base N)) (mkT (map (ldim D) (rim0 (base N))) x) /\
  (** the operator whose eigenvalues are computed vanishes *)
  forall y, length y = m -> mv y = Ok (repeat 0%Z m).
Proof. exists st3, env3, (fun v => A3 (f3 v)), (fun v => C8 (f3 v)), (fun v => T3 (f3 v)), (0, 0)%Z, D3, 2, (mv3 Right), [1; 0]%Z.
  split; [exact sees3|]. split; [exact reduces3|]. split.
  { intros W eigs argsort n err E. rewrite (mv3_handed eigs argsort n Right) by (now right). rewrite E. reflexivity. }
  cbn zeta. change (cell_length st3 Right) with 3. split; [lia|]. split.
  { intros i. assert (E : forall k, along (0, 0)%Z Right k = (Z.of_nat k, 0%Z)).
    { induction k as [|k IH]; [reflexivity|]. cbn [along]. rewrite IH. unfold cadd. cbn [fst snd dvec]. f_equal. lia. }
    rewrite !E. cbn. f_equal. unfold f3. cbn [fst snd]. f_equal. replace (Z.of_nat (i + 3)) with (Z.of_nat i + 1 * 3)%Z by lia. apply Z.mod_add. lia. }
  split; [apply D3_same|]. split; [apply fits3|]. split; [reflexivity|]. split; [reflexivity|]. split; [now left|]. split.
  - destruct (drawn3 (mkT (map (ldim D3) (rim0 (base 0))) [1; 0]%Z) (T3 (0, 0)%Z (0, -1)%Z) (T3 (0, 0)%Z (0, 1)%Z) (T3 (1, 0)%Z (0, -1)%Z) (T3 (1, 0)%Z (0, 1)%Z) (T3 (2, 0)%Z (0, -1)%Z) (T3 (2, 0)%Z (0, 1)%Z) D3) as (M & EM & HM).
    { repeat constructor. }
    vm_compute in EM. injection EM as <-. exact HM.
  - intros y Hy. destruct y as [|a [|b [|? ?]]]; try discriminate Hy. cbn [repeat].
    exact (mv3_zero Z.add Z.mul eq_refl eq_refl a b). Qed.

(** ** the order of the eigenvalues *)
(** a solver which finds two eigenvectors, the leading one first *)
Definition eq_vec (x y : list Z) : bool := if list_eq_dec Z.eq_dec x y then true else false.
Definition returns_vec (r : res (list Z)) (x : list Z) : bool := match r with Ok y => eq_vec y x | Err _ => false end.
Definition solve2 : eigen_solver Z (list Z) := fun _ _ mv _ =>
  if returns_vec (mv [0;0;0;1]%Z) [0;0;0;4]%Z && returns_vec (mv [0;1;0;0]%Z) [0;2;0;0]%Z
  then Ok ([(4, 0)%R; (2, 0)%R], [[0;0;0;1]; [0;1;0;0]]%Z) else Err RuntimeError.
Lemma returns_vec_ok r x : returns_vec r x = true -> r = Ok x.
Proof. unfold returns_vec, eq_vec. destruct r as [y|]; [|discriminate]. destruct (list_eq_dec Z.eq_dec y x); [intros _; now subst|discriminate]. Qed.
Lemma solve2_ok ev m mv n vals vecs : solve2 ev m mv n = Ok (vals, vecs) -> length vecs = length vals /\
  forall k, k < length vals -> exists v, nth k vals (0, 0)%R = (IZR v, 0%R) /\ mv (nth k vecs []) = Ok (map (Z.mul v) (nth k vecs [])) /\ In 1%Z (nth k vecs []).
Proof. unfold solve2. destruct (returns_vec _ _ && returns_vec _ _) eqn:E; [|discriminate]. apply andb_prop in E. destruct E as [E1 E2]. apply returns_vec_ok in E1, E2.
  intros H. injection H as <- <-. split; [reflexivity|]. intros [|[|k]] Hk; cbn [length nth] in *; [exists 4%Z|exists 2%Z|lia]; (split; [reflexivity|]); (split; [assumption|cbn; auto]). Qed.
Lemma top2_refuted : exists (T a : tensor Z) chi n (eigs : eigen_solver Z (list Z)) L, nth 0 (tdims T) 0 = chi /\
  (forall ev m mv n vals vecs, eigs ev m mv n = Ok (vals, vecs) -> length vecs = length vals /\
    forall k, k < length vals -> exists v, nth k vals (0, 0)%R = (IZR v, 0%R) /\ mv (nth k vecs []) = Ok (map (Z.mul v) (nth k vecs [])) /\ In 1%Z (nth k vecs [])) /\
  get_Top2_spec_c4v 0%Z 1%Z Z.add Z.mul (fun x => x) eigs chi T a (fun _ => Err RuntimeError) n = Ok L /\ ~ descending L.
Proof. assert (M1 : forall x, (0 <= x)%R -> modulus (x, 0)%R = x).
  { intros x Hx. unfold modulus. cbn [fst snd]. replace (x ^ 2 + 0 ^ 2)%R with (x * x)%R by ring. now apply sqrt_square. }
  exists (zt [2;2;1] [1;0;0;2]%Z), (zt [1;1;1;1;1] [1%Z]), 2, 2, solve2, [(1, 0)%R; (2, 0)%R]. split; [reflexivity|]. split; [exact solve2_ok|]. split.
  - unfold get_Top2_spec_c4v. match goal with |- context[solve2 ?b ?m ?f ?n] => replace (solve2 b m f n) with (Ok ([(4, 0)%R; (2, 0)%R], [[0;0;0;1]; [0;1;0;0]]%Z)) end.
    2: { unfold solve2. match goal with |- context[if ?b then _ else _] => replace b with true by (vm_compute; reflexivity) end. reflexivity. }
    cbn [bind]. rewrite reversed_ok by (reflexivity || discriminate). cbn [rev app map last]. rewrite M1 by lra. unfold over. cbn [fst snd]. do 2 f_equal; [f_equal; field|do 2 f_equal; field].
  - intros H. specialize (H 0 1 ltac:(cbn; lia)). cbn [nth] in H. rewrite !M1 in H by lra. lra. Qed.
