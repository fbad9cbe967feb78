From Verif Require Import Base BaseLemmas Tensor TensorLemmas TensorIO Extend C4v C4vSpec.
From Coq Require Import Ring.
Open Scope list_scope.
Open Scope nat_scope.

Lemma bdims_same d : bdims d d = Ok d.
Proof. induction d as [|x d IH]; [reflexivity|]. cbn [bdims]. rewrite IH. cbn [bind]. now rewrite Nat.eqb_refl. Qed.
Lemma bcast_same d ix : in_range d ix -> bcast d ix = ix.
Proof. revert ix. induction d as [|x d IH]; intros ix H; [reflexivity|]. inversion H as [|? i ? ix' Hi Hr]; subst. cbn [bcast]. rewrite IH by exact Hr.
  destruct (Nat.eqb_spec x 1) as [->|]; [|reflexivity]. f_equal. lia. Qed.

Lemma bonds4 D x : bonds D x -> exists u l d r, x = [u; l; d; r] /\ u < D /\ l < D /\ d < D /\ r < D.
Proof. intros [L F]. destruct x as [|u [|l [|d [|r [|]]]]]; try discriminate L.
  exists u, l, d, r. inversion_clear F as [|? ? H1 F1]. inversion_clear F1 as [|? ? H2 F2]. inversion_clear F2 as [|? ? H3 F3]. inversion_clear F3. auto. Qed.
Lemma bonds_mk D u l d r : u < D -> l < D -> d < D -> r < D -> bonds D [u; l; d; r].
Proof. intros. split; [reflexivity|]. repeat constructor; assumption. Qed.
Lemma bonds_range p D s x : s < p -> bonds D x -> in_range [p; D; D; D; D] (s :: x).
Proof. intros Hs Hx. destruct (bonds4 _ _ Hx) as (u & l & d & r & -> & ?). repeat constructor; tauto. Qed.
Lemma range_bonds p D ix : in_range [p; D; D; D; D] ix -> exists s x, ix = s :: x /\ s < p /\ bonds D x.
Proof. intros H. inversion H as [|? s ? ix1 Hs H1]; subst. exists s, ix1. split; [reflexivity|]. split; [exact Hs|].
  split; [apply in_range_length in H1; cbn in H1; congruence|].
  clear H Hs. repeat match goal with H : in_range (_ :: _) _ |- _ => inversion H; subst; clear H | H : Forall2 _ (_ :: _) _ |- _ => inversion H; subst; clear H | H : Forall2 _ [] _ |- _ => inversion H; subst; clear H end.
  repeat constructor; assumption. Qed.
Lemma moved_bonds D g x : bonds D x -> In g group -> bonds D (moved g x).
Proof. intros Hx Hg. destruct (bonds4 _ _ Hx) as (u & l & d & r & -> & ? & ? & ? & ?).
  cbn [group In] in Hg. decompose [or] Hg; try contradiction; subst g; unfold moved; cbn; now apply bonds_mk. Qed.

Section Ring.
Context {K : Type} (zero one : K) (add mul sub : K -> K -> K) (opp : K -> K) (half : K).
Variable Rth : ring_theory zero one add mul sub opp (@eq K).
Variable Hhalf : add half half = one.
Add Ring KR : Rth.
Notation el := (el zero).
Notation symm_step := (symm_step zero half mul).
Notation tbin := (tbin zero).
Notation projection := (projection zero add mul opp half).
Notation transforms := (transforms zero opp).
Notation make_A1 := (make_A1 zero half add mul).
Notation make_A2 := (make_A2 zero half add sub mul).
Notation make_B1 := (make_B1 zero half add sub mul).
Notation make_B2 := (make_B2 zero half add sub mul).
Notation sgn := (sgn opp).

Lemma onsite_ext p D (A B : tensor K) : onsite p D A -> onsite p D B ->
  (forall s u l d r, s < p -> u < D -> l < D -> d < D -> r < D -> el A s [u; l; d; r] = el B s [u; l; d; r]) -> A = B.
Proof. intros [WA DA] [WB DB] H. apply tensor_ext; try assumption; [congruence|]. rewrite DA. intros ix Hix.
  destruct (tget_Some A ix WA ltac:(rewrite DA; exact Hix)) as [a Ea]. destruct (tget_Some B ix WB ltac:(rewrite DB; exact Hix)) as [b Eb].
  destruct (range_bonds _ _ _ Hix) as (s & x & -> & Hs & Hx). destruct (bonds4 _ _ Hx) as (u & l & d & r & -> & ? & ? & ? & ?).
  specialize (H s u l d r). unfold C4vSpec.el in H. rewrite Ea, Eb in *. f_equal. auto. Qed.

Lemma tbin_onsite f p D A B : onsite p D A -> onsite p D B -> exists C, tbin f A B = Ok C /\ onsite p D C /\
  forall s x, s < p -> bonds D x -> el C s x = f (el A s x) (el B s x).
Proof. intros [WA DA] [WB DB]. unfold C4v.tbin. rewrite DA, DB, bdims_same. cbn [bind]. eexists. split; [reflexivity|].
  split; [split; [apply twf_tbuild|reflexivity]|]. intros s x Hs Hx. pose proof (bonds_range p D s x Hs Hx) as Hr.
  unfold C4vSpec.el at 1. rewrite tget_tbuild by exact Hr. rewrite !bcast_same by exact Hr. reflexivity. Qed.

Lemma step_onsite op q p D A : onsite p D A -> is_permb q 5 = true -> map (fun k => nth k [p; D; D; D; D] 0) q = [p; D; D; D; D] ->
  exists C, symm_step op q A = Ok C /\ onsite p D C /\
  forall s x x', s < p -> bonds D x -> bonds D x' -> unperm q (s :: x) = s :: x' -> el C s x = mul half (op (el A s x) (el A s x')).
Proof. intros [WA DA] Hq Hm. unfold C4v.symm_step, tpermute. rewrite DA. cbn [length]. rewrite Hq. cbn [bind]. rewrite Hm.
  set (B := tbuild [p; D; D; D; D] _).
  assert (HB : onsite p D B) by (split; [apply twf_tbuild|reflexivity]).
  destruct (tbin_onsite op p D A B (conj WA DA) HB) as (C & -> & [WC DC] & G). cbn [bind]. eexists. split; [reflexivity|].
  split; [split; [now apply twf_tmap|exact DC]|]. intros s x x' Hs Hx Hx' U. specialize (G s x Hs Hx).
  unfold C4vSpec.el in G |- *. rewrite tget_tmap. destruct (tget_Some C (s :: x) WC ltac:(rewrite DC; now apply bonds_range)) as [v Ev]. rewrite Ev in *. cbn [option_map]. rewrite G.
  f_equal. f_equal. unfold B. rewrite tget_tbuild by (now apply bonds_range). rewrite U. reflexivity. Qed.

(** the element of a symmetrized tensor in terms of the elements of the argument *)
Definition formula (f : tensor K -> res (tensor K)) (F : tensor K -> nat -> list nat -> K) : Prop :=
  forall p D A, onsite p D A -> exists C, f A = Ok C /\ onsite p D C /\ forall s x, s < p -> bonds D x -> el C s x = F A s x.

Lemma chain op1 q1 op2 q2 op3 q3 op4 q4 :
  is_permb q1 5 = true -> is_permb q2 5 = true -> is_permb q3 5 = true -> is_permb q4 5 = true ->
  (forall p D, map (fun k => nth k [p; D; D; D; D] 0) q1 = [p; D; D; D; D]) -> (forall p D, map (fun k => nth k [p; D; D; D; D] 0) q2 = [p; D; D; D; D]) ->
  (forall p D, map (fun k => nth k [p; D; D; D; D] 0) q3 = [p; D; D; D; D]) -> (forall p D, map (fun k => nth k [p; D; D; D; D] 0) q4 = [p; D; D; D; D]) ->
  let pm q (x : list nat) := tl (unperm q (0 :: x)) in
  (forall q, In q [q1; q2; q3; q4] -> forall s x, length x = 4 -> unperm q (s :: x) = s :: pm q x) ->
  (forall q, In q [q1; q2; q3; q4] -> forall D x, bonds D x -> bonds D (pm q x)) ->
  let F op q (f : list nat -> K) (x : list nat) := mul half (op (f x) (f (pm q x))) in
  formula (fun A => bind (symm_step op1 q1 A) (fun A => bind (symm_step op2 q2 A) (fun A => bind (symm_step op3 q3 A) (fun A => symm_step op4 q4 A))))
          (fun A s => F op4 q4 (F op3 q3 (F op2 q2 (F op1 q1 (el A s))))).
Proof. intros P1 P2 P3 P4 M1 M2 M3 M4 pm U B F p D A HA.
  destruct (step_onsite op1 q1 p D A HA P1 (M1 p D)) as (C1 & -> & H1 & G1). cbn [bind].
  destruct (step_onsite op2 q2 p D C1 H1 P2 (M2 p D)) as (C2 & -> & H2 & G2). cbn [bind].
  destruct (step_onsite op3 q3 p D C2 H2 P3 (M3 p D)) as (C3 & -> & H3 & G3). cbn [bind].
  destruct (step_onsite op4 q4 p D C3 H3 P4 (M4 p D)) as (C4 & -> & H4 & G4).
  exists C4. split; [reflexivity|]. split; [exact H4|].
  assert (R1 : forall s x, s < p -> bonds D x -> el C1 s x = F op1 q1 (el A s) x)
    by (intros s x Hs Hx; apply G1; try assumption; [apply B; [cbn; auto|assumption]|apply U; [cbn; auto|apply Hx]]).
  assert (R2 : forall s x, s < p -> bonds D x -> el C2 s x = F op2 q2 (F op1 q1 (el A s)) x).
  { intros s x Hs Hx. assert (Hx' : bonds D (pm q2 x)) by (apply B; [cbn; auto|assumption]).
    rewrite (G2 s x (pm q2 x)) by first [assumption | apply U; [cbn; auto|apply Hx]]. rewrite !R1 by assumption. reflexivity. }
  assert (R3 : forall s x, s < p -> bonds D x -> el C3 s x = F op3 q3 (F op2 q2 (F op1 q1 (el A s))) x).
  { intros s x Hs Hx. assert (Hx' : bonds D (pm q3 x)) by (apply B; [cbn; auto|assumption]).
    rewrite (G3 s x (pm q3 x)) by first [assumption | apply U; [cbn; auto|apply Hx]]. rewrite !R2 by assumption. reflexivity. }
  intros s x Hs Hx. assert (Hx' : bonds D (pm q4 x)) by (apply B; [cbn; auto 10|assumption]).
  rewrite (G4 s x (pm q4 x)) by first [assumption | apply U; [cbn; auto 10|apply Hx]]. rewrite !R3 by assumption. reflexivity. Qed.

Ltac conditions := apply chain;
  [ reflexivity | reflexivity | reflexivity | reflexivity | reflexivity | reflexivity | reflexivity | reflexivity | intros q Hq s x L; destruct x as [|u [|l [|d [|r [|]]]]]; try discriminate L; cbn [In] in Hq; decompose [or] Hq; try contradiction; subst q; reflexivity
  | intros q Hq D x Hx; destruct (bonds4 _ _ Hx) as (u & l & d & r & -> & ? & ? & ? & ?);
    cbn [In] in Hq; decompose [or] Hq; try contradiction; subst q; cbn; now apply bonds_mk ].

Lemma formula_eq f F G : formula f F -> (forall A s u l d r, F A s [u; l; d; r] = G A s [u; l; d; r]) -> formula f G.
Proof. intros H E p D A HA. destruct (H p D A HA) as (C & E1 & H1 & G1). exists C. split; [exact E1|]. split; [exact H1|].
  intros s x Hs Hx. rewrite G1 by assumption. destruct (bonds4 _ _ Hx) as (u & l & d & r & -> & ?). apply E. Qed.

Lemma twice a : mul (add half half) a = a.
Proof. rewrite Hhalf. ring. Qed.

Ltac finish :=
  intros A s u l d r; unfold C4vSpec.projection, group, fold_right, moved, chi, sym_dir, C4vSpec.sgn, unperm; cbn;
  match goal with |- ?L = ?R => transitivity (mul (add half half) R); [ring|apply twice] end.

Lemma formula_A1 : formula make_A1 (projection A1).
Proof. eapply formula_eq; [unfold C4v.make_A1; conditions|]. finish. Qed.
Lemma formula_A2 : formula make_A2 (projection A2).
Proof. eapply formula_eq; [unfold C4v.make_A2; conditions|]. finish. Qed.
Lemma formula_B1 : formula make_B1 (projection B1).
Proof. eapply formula_eq; [unfold C4v.make_B1; conditions|]. finish. Qed.

Lemma b2_formula : exists F, formula make_B2 F /\
  (forall D A s x, bonds D x -> (forall g, In g group -> el A s (moved g x) = sgn (chi B2 g) (el A s x)) -> F A s x = zero) /\
  (forall A s u l d r, F A s [d; r; u; l] = opp (F A s [u; l; d; r])).
Proof. eexists. split; [unfold C4v.make_B2; conditions|]. split.
  - intros D A s x Hx H. destruct (bonds4 _ _ Hx) as (u & l & d & r & -> & _).
    pose proof (fun g i => H g i) as H'. clear H.
    pose proof (H' {| refl := false; shift := 1 |} ltac:(cbn; auto 10)) as E1.
    pose proof (H' {| refl := false; shift := 2 |} ltac:(cbn; auto 10)) as E2.
    pose proof (H' {| refl := false; shift := 3 |} ltac:(cbn; auto 10)) as E3.
    pose proof (H' {| refl := true; shift := 0 |} ltac:(cbn; auto 10)) as E4.
    pose proof (H' {| refl := true; shift := 1 |} ltac:(cbn; auto 10)) as E5.
    pose proof (H' {| refl := true; shift := 2 |} ltac:(cbn; auto 10)) as E6.
    pose proof (H' {| refl := true; shift := 3 |} ltac:(cbn; auto 10)) as E7. clear H'.
    unfold moved, chi, sym_dir, C4vSpec.sgn in *. unfold unperm. cbn in *. rewrite ?E1, ?E2, ?E3, ?E4, ?E5, ?E6, ?E7. ring.
  - intros A s u l d r. unfold unperm. cbn. ring. Qed.

(** ** properties of the projections *)
Lemma proj_moved r A s x D g : bonds D x -> In g group -> projection r A s (moved g x) = sgn (chi r g) (projection r A s x).
Proof. intros Hx Hg. destruct (bonds4 _ _ Hx) as (u & l & d & rr & -> & _). cbn [group In] in Hg.
  decompose [or] Hg; try contradiction; subst g; destruct r; unfold C4vSpec.projection, group, fold_right, moved, chi, sym_dir, C4vSpec.sgn; cbn; ring. Qed.

Lemma eighth a : mul (mul half (mul half half)) (add a (add a (add a (add a (add a (add a (add a a))))))) = a.
Proof. transitivity (mul (add half half) (mul (add half half) (mul (add half half) a))); [ring|now rewrite !twice]. Qed.

Lemma proj_fix r A s x : (forall g, In g group -> el A s (moved g x) = sgn (chi r g) (el A s x)) -> projection r A s x = el A s x.
Proof. intros H. unfold C4vSpec.projection. etransitivity; [|apply eighth]. f_equal.
  unfold group, fold_right. rewrite !H by (cbn; auto 10). destruct r; unfold chi, C4vSpec.sgn; cbn; ring. Qed.

(** orthogonality: the projection of what transforms like [q] *)
Lemma proj_orth r q A s x : r <> q -> (forall g, In g group -> el A s (moved g x) = sgn (chi q g) (el A s x)) -> projection r A s x = zero.
Proof. intros N H. unfold C4vSpec.projection. unfold group, fold_right. rewrite !H by (cbn; auto 10).
  destruct r, q; try (exfalso; apply N; reflexivity); unfold chi, C4vSpec.sgn; cbn; ring. Qed.

Definition projector (r : irrep) (f : tensor K -> res (tensor K)) : Prop :=
  forall p D A, onsite p D A -> exists C, f A = Ok C /\ onsite p D C /\ transforms r C /\
    (forall s x, s < p -> bonds D x -> el C s x = projection r A s x) /\ (transforms r A -> C = A).
Lemma formula_projector r f : formula f (projection r) -> projector r f.
Proof. intros H p D A HA. destruct (H p D A HA) as (C & E & HC & G). exists C. split; [exact E|]. split; [exact HC|]. split; [|split; [exact G|]].
  - intros p' D' HD g s x Hg Hs Hx. destruct HC as [_ DC]. rewrite DC in HD. injection HD; intros; subst p' D'.
    rewrite !G by (try assumption; now apply moved_bonds). now apply (proj_moved r A s x D).
  - intros T. apply (onsite_ext p D); try assumption. intros s u l d rr Hs Hu Hl Hd Hr. pose proof (bonds_mk D u l d rr Hu Hl Hd Hr) as Hb.
    rewrite G by assumption. apply proj_fix. intros g Hg. destruct HA as [_ DA]. now apply (T p D DA). Qed.
End Ring.
