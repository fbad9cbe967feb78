(** Density matrices of 2x2, 2x1 and 1x2 cells with any spins left open: given tensors. *)
From Verif Require Import Base BaseLemmas Lattice Tensor TensorLemmas Net NetSpec NetProofs NetProofs2 NetProofs3 Corners CornersSpec CornersProofs Rdm RdmSpec RdmProofs RdmKag RdmKagSpec RdmKagProofs RdmKagProofs2.
From Coq Require Import Ring ArithRing Permutation.
Open Scope list_scope.
Open Scope nat_scope.
Open Scope res_scope.

Definition ob {A B} (m : option A) (f : A -> option B) : option B := match m with Some a => f a | None => None end.
Definition spin_bonds w h := flat_map (fun s => flat_map (fun i => flat_map (fun j => [sket w h s i j; sbra w h s i j]) (seq 0 h)) (seq 0 w)) (seq 0 3).
(** the last two steps: all fused legs split, then ordered *)
Definition sym_end w h (n : nat) (X : sym) (p : list nat) : option sym :=
  if (length (ovars X) =? 2 * n) && forallb (fun k => memb k (spin_bonds w h)) (ovars X)
  then ob (sym_view X (map V (ovars X))) (fun Y => sym_perm Y p) else None.
Definition sym_side (S : sym) (na nb : nat) : option sym :=
  if (0 <? na) && (0 <? nb) then sym_perm S [0;2;1;3] else if 0 <? na then sym_perm S [0;2;1] else Some S.

Section Run.
Definition top22 s0 s1 : option sym :=
  ob (sym_dot (canon (f_LU 2 2 s0) (o_LU 2 2 s0)) (canon (f_RU 2 2 s1) (o_RU 2 2 s1)) [1] [0]) (fun U => sym_side U (length s0) (length s1)).
Definition bot22 s2 s3 : option sym :=
  ob (sym_dot (canon (f_LD 2 2 s2) (o_LD 2 2 s2)) (canon (f_RD 2 2 s3) (o_RD 2 2 s3)) [1] [1]) (fun L => sym_side L (length s2) (length s3)).
Definition run22 (U L : option sym) n0 n1 n2 n3 : option sym :=
  ob U (fun U => ob L (fun L => ob (sym_dot U L [0;1] [0;1]) (fun X => sym_end 2 2 (n0 + n2 + n1 + n3) X (expand_perm [n0; n1; n2; n3])))).
Definition kl i j (s : list nat) := map (fun t => (i, j, t)) s : list (nat * nat * nat).
Definition l22 s0 s1 s2 s3 := kl 0 0 s0 ++ kl 1 0 s1 ++ kl 0 1 s2 ++ kl 1 1 s3.
Definition rimF w h : list (nat * list leg) :=
  map (fun i => (kTu w h i, lTu w h i)) (seq 0 w) ++ map (fun j => (kTr w h j, lTr w h j)) (seq 0 h) ++
  map (fun i => (kTd w h i, lTd w h i)) (seq 0 w) ++ map (fun j => (kTl w h j, lTl w h j)) (seq 0 h) ++ map (fun k => (kC w h k, lC w h k)) (seq 0 4).
Definition fac22 s0 s1 s2 s3 := cellF 2 2 s0 0 0 ++ cellF 2 2 s1 1 0 ++ cellF 2 2 s2 0 1 ++ cellF 2 2 s3 1 1 ++ rimF 2 2.
Definition good (r : option sym) fac out := match r with Some x => sym_is x fac out | None => false end.
(** one dimensional chains of two cells *)
Definition lf21 := [(kTd 2 1 0, lTd 2 1 0); (kC 2 1 3, lC 2 1 3)].
Definition lo21 := [F (V (lefb 2 1 1)) (vv 2 1 0 1); V (botb 2 1 1)].
Definition rf21 := [(kTd 2 1 1, lTd 2 1 1); (kC 2 1 2, lC 2 1 2)].
Definition ro21 := [F (V (rigb 2 1 1)) (vv 2 1 1 1); V (botb 2 1 1)].
Definition run21 s0 s1 : option sym :=
  ob (sym_dot (canon lf21 lo21) (canon (f_LU 2 1 s0) (o_LU 2 1 s0)) [0] [0]) (fun L =>
  ob (sym_dot (canon rf21 ro21) (canon (f_RU 2 1 s1) (o_RU 2 1 s1)) [0] [1]) (fun R =>
  ob (sym_dot L R [0;1] [0;1]) (fun X => sym_end 2 1 (length s0 + length s1) X (expand_perm [length s0; length s1])))).
Definition l21 s0 s1 := kl 0 0 s0 ++ kl 1 0 s1.
Definition fac21 s0 s1 := cellF 2 1 s0 0 0 ++ cellF 2 1 s1 1 0 ++ rimF 2 1.
Definition uf12 := [(kTr 1 2 0, lTr 1 2 0); (kC 1 2 1, lC 1 2 1)].
Definition uo12 := [F (V (topb 1 2 1)) (hh 1 2 1 0); V (rigb 1 2 1)].
Definition df12 := [(kTr 1 2 1, lTr 1 2 1); (kC 1 2 2, lC 1 2 2)].
Definition do12 := [V (rigb 1 2 1); F (V (botb 1 2 1)) (hh 1 2 1 1)].
Definition run12 s0 s1 : option sym :=
  ob (sym_dot (canon uf12 uo12) (canon (f_LU 1 2 s0) (o_LU 1 2 s0)) [0] [1]) (fun U =>
  ob (sym_dot (canon df12 do12) (canon (f_LD 1 2 s1) (o_LD 1 2 s1)) [1] [1]) (fun L =>
  ob (sym_dot U L [0;1] [0;1]) (fun X => sym_end 1 2 (length s0 + length s1) X (expand_perm [length s0; length s1])))).
Definition l12 s0 s1 := kl 0 0 s0 ++ kl 0 1 s1.
Definition fac12 s0 s1 := cellF 1 2 s0 0 0 ++ cellF 1 2 s1 0 1 ++ rimF 1 2.
Definition all2 (f : list nat -> list nat -> bool) : bool := forallb (fun a => forallb (f a) subs) subs.
Lemma all21 : all2 (fun a b => good (run21 a b) (fac21 a b) (kpatch_out 2 1 (l21 a b))) = true.
Proof. vm_cast_no_check (eq_refl true). Qed.
Lemma all12 : all2 (fun a b => good (run12 a b) (fac12 a b) (kpatch_out 1 2 (l12 a b))) = true.
Proof. vm_cast_no_check (eq_refl true). Qed.
End Run.
Lemma in_subs s : In s subs -> Forall (fun t => t < 3) s.
Proof. cbn [subs In]. intros H. repeat (destruct H as [<-|H]); [..|destruct H]; repeat constructor. Qed.
Lemma all2_in f a b : all2 f = true -> In a subs -> In b subs -> f a b = true.
Proof. intros H Ha Hb. unfold all2 in H. rewrite forallb_forall in H. specialize (H a Ha). cbn beta in H. rewrite forallb_forall in H. now apply H. Qed.
Lemma spin_app l l' i j t : spin_open (l ++ l') i j t = spin_open l i j t || spin_open l' i j t.
Proof. unfold spin_open. apply existsb_app. Qed.
Lemma spin_kl a b s i j t : spin_open (kl a b s) i j t = (a =? i) && (b =? j) && memb t s.
Proof. unfold spin_open, kl, memb. induction s as [|x s IH]; cbn; [now rewrite andb_false_r|]. rewrite IH. rewrite (Nat.eqb_sym x t).
  destruct (a =? i), (b =? j), (t =? x); reflexivity. Qed.

Section R.
Context {K : Type} (z o : K) (add mul : K -> K -> K) (cj : K -> K) (d : nat).
Hypothesis SR : semi_ring_theory z o add mul eq.
Variable D : nat -> nat.
Hypothesis HP : forall k, D k <> 0.
Notation ten := (tensor K).
Notation isc := (is_contraction D z o add mul).
Section Env.
Variable env : nat -> tensor K.
Notation rep := (rep z o add mul D env).
Lemma end_sound w h n X p S' M : spins D d w h -> rep X M -> sym_end w h n X p = Some S' ->
  exists N, (x <- view M (repeat d (2 * n)) ;; permute z x p) = Ok N /\ rep S' N.
Proof. intros HD HR HS. unfold sym_end in HS. destruct (_ && _) eqn:HC in HS; [|discriminate]. apply andb_true_iff in HC. destruct HC as [HL HB].
  apply Nat.eqb_eq in HL. rewrite forallb_forall in HB. unfold ob in HS. destruct (sym_view X _) as [Y|] eqn:EV in HS; [|discriminate].
  destruct (rep_view z o add mul D env X _ Y M (repeat d (2 * n)) HR EV) as (M1 & E1 & R1).
  { rewrite map_map, <- HL. cbn [ldim]. clear - HB HD. assert (HB' : forall x, In x (ovars X) -> D x = d).
    { intros x Hx. specialize (HB x Hx). apply existsb_exists in HB. destruct HB as (y & Hy & E). apply Nat.eqb_eq in E. subst y.
      unfold spins in HD. rewrite Forall_forall in HD. now apply HD. }
    clear HB. induction (ovars X) as [|x l IH]; [reflexivity|]. cbn. rewrite HB' by now left. f_equal. apply IH. intros y Hy. apply HB'. now right. }
  rewrite E1. cbn [bind]. exact (rep_perm z o add mul D env Y p S' M1 R1 HS). Qed.
Lemma side_sound X na nb S' M : rep X M -> sym_side X na nb = Some S' -> exists N, side z M na nb = Ok N /\ rep S' N.
Proof. intros HR HS. unfold sym_side in HS. unfold side. destruct (_ && _).
  - exact (rep_perm z o add mul D env X _ S' M HR HS).
  - destruct (0 <? na); [exact (rep_perm z o add mul D env X _ S' M HR HS)|]. injection HS as <-. now exists M. Qed.
Ltac obs H n := unfold ob at 1 in H; match type of H with context [match ?m with Some _ => _ | None => _ end] => destruct m as [n|] eqn:?E; [|discriminate H] end.
Lemma run22_sound s0 s1 s2 s3 lu ru rd ld S' : spins D d 2 2 ->
  rep (canon (f_LU 2 2 s0) (o_LU 2 2 s0)) lu -> rep (canon (f_RU 2 2 s1) (o_RU 2 2 s1)) ru ->
  rep (canon (f_RD 2 2 s3) (o_RD 2 2 s3)) rd -> rep (canon (f_LD 2 2 s2) (o_LD 2 2 s2)) ld ->
  run22 (top22 s0 s1) (bot22 s2 s3) (length s0) (length s1) (length s2) (length s3) = Some S' ->
  exists M, rdm2x2_c z o add mul d lu ru rd ld (length s0) (length s1) (length s2) (length s3) = Ok M /\ rep S' M.
Proof. intros HD R0 R1 R3 R2 HS. unfold run22 in HS. obs HS U. obs HS L. obs HS X. unfold top22 in E. unfold bot22 in E0. obs E U0. obs E0 L0.
  unfold rdm2x2_c.
  destruct (rep_dot z o add mul SR D env _ _ _ _ _ _ _ R0 R1 E2) as (u & -> & Ru). cbn [bind].
  destruct (side_sound _ _ _ _ _ Ru E) as (u' & -> & Ru'). cbn [bind].
  destruct (rep_dot z o add mul SR D env _ _ _ _ _ _ _ R2 R3 E3) as (l & -> & Rl). cbn [bind].
  destruct (side_sound _ _ _ _ _ Rl E0) as (l' & -> & Rl'). cbn [bind].
  destruct (rep_dot z o add mul SR D env _ _ _ _ _ _ _ Ru' Rl' E1) as (x & -> & Rx). cbn [bind].
  exact (end_sound _ _ _ _ _ _ _ HD Rx HS). Qed.
Ltac leaves_in := repeat match goal with H : NetProofs2.rep _ _ _ _ _ _ (leafS _ _) _ |- _ => leaf_in H end.
Lemma run21_sound s0 s1 lu ru C T2 Cx T1x S' : spins D d 2 1 ->
  rep (canon (f_LU 2 1 s0) (o_LU 2 1 s0)) lu -> rep (canon (f_RU 2 1 s1) (o_RU 2 1 s1)) ru ->
  rep (leafS (kC 2 1 3) (lC 2 1 3)) C -> rep (leafS (kTd 2 1 0) (lTd 2 1 0)) T2 ->
  rep (leafS (kC 2 1 2) (lC 2 1 2)) Cx -> rep (leafS (kTd 2 1 1) (lTd 2 1 1)) T1x ->
  run21 s0 s1 = Some S' -> exists M, rdm2x1_c z o add mul d lu ru C T2 Cx T1x (length s0) (length s1) = Ok M /\ rep S' M.
Proof. intros HD R0 R1 Q1 Q2 Q3 Q4 HS. unfold run21 in HS. obs HS L. obs HS R. obs HS X. unfold rdm2x1_c. leaves_in.
  assert (HL : exists N, (ld <- tensordot z o add mul C T2 [1] [1] ;; view ld [size C 0 * size T2 0; size T2 2]) = Ok N /\ rep (canon lf21 lo21) N).
  { eapply (res_canon z o add mul SR); [step ltac:(cdot SR); kview lo21|check]. }
  assert (HR : exists N, (rd <- tensordot z o add mul Cx T1x [1] [2] ;; view rd [size Cx 0 * size T1x 0; size T1x 1]) = Ok N /\ rep (canon rf21 ro21) N).
  { eapply (res_canon z o add mul SR); [step ltac:(cdot SR); kview ro21|check]. }
  destruct HL as (ld & EL & RL), HR as (rd & ER & RR).
  destruct (tensordot z o add mul C T2 [1] [1]) as [a|]; [cbn [bind] in *|discriminate EL]. rewrite EL. cbn [bind].
  destruct (rep_dot z o add mul SR D env _ _ _ _ _ _ _ RL R0 E) as (l & -> & Rl). cbn [bind].
  destruct (tensordot z o add mul Cx T1x [1] [2]) as [b|]; [cbn [bind] in *|discriminate ER]. rewrite ER. cbn [bind].
  destruct (rep_dot z o add mul SR D env _ _ _ _ _ _ _ RR R1 E0) as (r & -> & Rr). cbn [bind].
  destruct (rep_dot z o add mul SR D env _ _ _ _ _ _ _ Rl Rr E1) as (x & -> & Rx). cbn [bind].
  exact (end_sound _ _ _ _ _ _ _ HD Rx HS). Qed.
Lemma run12_sound s0 s1 lu ld C T1 Cy T2y S' : spins D d 1 2 ->
  rep (canon (f_LU 1 2 s0) (o_LU 1 2 s0)) lu -> rep (canon (f_LD 1 2 s1) (o_LD 1 2 s1)) ld ->
  rep (leafS (kC 1 2 1) (lC 1 2 1)) C -> rep (leafS (kTr 1 2 0) (lTr 1 2 0)) T1 ->
  rep (leafS (kC 1 2 2) (lC 1 2 2)) Cy -> rep (leafS (kTr 1 2 1) (lTr 1 2 1)) T2y ->
  run12 s0 s1 = Some S' -> exists M, rdm1x2_c z o add mul d lu ld C T1 Cy T2y (length s0) (length s1) = Ok M /\ rep S' M.
Proof. intros HD R0 R1 Q1 Q2 Q3 Q4 HS. unfold run12 in HS. obs HS L. obs HS R. obs HS X. unfold rdm1x2_c. leaves_in.
  assert (HL : exists N, (ru <- tensordot z o add mul C T1 [1] [0] ;; view ru [size C 0 * size T1 1; size T1 2]) = Ok N /\ rep (canon uf12 uo12) N).
  { eapply (res_canon z o add mul SR); [step ltac:(cdot SR); kview uo12|check]. }
  assert (HR : exists N, (rd <- tensordot z o add mul T2y Cy [2] [0] ;; rd <- permute z rd [0;2;1] ;; view rd [size T2y 0; size Cy 1 * size T2y 1]) = Ok N /\ rep (canon df12 do12) N).
  { eapply (res_canon z o add mul SR); [step ltac:(cdot SR); step cperm; kview do12|check]. }
  destruct HL as (ru & EL & RL), HR as (rd & ER & RR).
  destruct (tensordot z o add mul C T1 [1] [0]) as [a|]; [cbn [bind] in *|discriminate EL]. rewrite EL. cbn [bind].
  destruct (rep_dot z o add mul SR D env _ _ _ _ _ _ _ RL R0 E) as (l & -> & Rl). cbn [bind].
  destruct (tensordot z o add mul T2y Cy [2] [0]) as [b|]; [cbn [bind] in *|discriminate ER].
  destruct (permute z b [0;2;1]) as [b'|]; [cbn [bind] in *|discriminate ER]. rewrite ER. cbn [bind].
  destruct (rep_dot z o add mul SR D env _ _ _ _ _ _ _ RR R1 E0) as (r & -> & Rr). cbn [bind].
  destruct (rep_dot z o add mul SR D env _ _ _ _ _ _ _ Rl Rr E1) as (x & -> & Rx). cbn [bind].
  exact (end_sound _ _ _ _ _ _ _ HD Rx HS). Qed.
End Env.
End R.
