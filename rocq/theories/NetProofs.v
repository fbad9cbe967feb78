(** Sums over bonds. *)
From Verif Require Import Base BaseLemmas Tensor TensorLemmas Net NetSpec.
From Coq Require Import Ring.
Open Scope list_scope.
Open Scope nat_scope.

Lemma NoDup_app_inv {A} (l1 l2 : list A) : NoDup (l1 ++ l2) -> NoDup l1 /\ NoDup l2 /\ forall a, In a l1 -> ~ In a l2.
Proof. induction l1 as [|x l1 IH]; cbn; intros N.
  - split; [constructor|]. split; [exact N|intros a []].
  - inversion N as [|? ? Nx N']; subst. destruct (IH N') as (A1 & A2 & A3). repeat split.
    + constructor; [|exact A1]. intros X; apply Nx, in_app_iff; now left.
    + exact A2.
    + intros a [<-|X]; [intros Y; apply Nx, in_app_iff; now right|now apply A3]. Qed.

Section Sums.
Context {K : Type} (z o : K) (add mul : K -> K -> K).
Hypothesis SR : semi_ring_theory z o add mul eq.
Add Ring Kring : SR.
Variable D : nat -> nat.
Notation sum_list := (sum_list z add).
Notation prod_list := (prod_list o mul).
Notation sum_over := (sum_over D z add).
Implicit Types (s : nat -> nat) (ls : list nat) (G H : (nat -> nat) -> K).

Lemma sl_app l1 l2 : sum_list (l1 ++ l2) = add (sum_list l1) (sum_list l2).
Proof. unfold NetSpec.sum_list. induction l1 as [|a l1 IH]; cbn; [ring|rewrite IH; ring]. Qed.
Lemma sl_mul c l : mul c (sum_list l) = sum_list (map (mul c) l).
Proof. unfold NetSpec.sum_list. induction l as [|a l IH]; cbn; [ring|rewrite <- IH; ring]. Qed.
Lemma sl_add {A} (f g : A -> K) l : sum_list (map (fun a => add (f a) (g a)) l) = add (sum_list (map f l)) (sum_list (map g l)).
Proof. unfold NetSpec.sum_list. induction l as [|a l IH]; cbn; [ring|rewrite IH; ring]. Qed.
Lemma sl_zero {A} (l : list A) : sum_list (map (fun _ => z) l) = z.
Proof. unfold NetSpec.sum_list. induction l as [|a l IH]; cbn; [ring|rewrite IH; ring]. Qed.
Lemma sl_ext {A} (f g : A -> K) l : (forall a, In a l -> f a = g a) -> sum_list (map f l) = sum_list (map g l).
Proof. intros E. now rewrite (map_ext_in f g l E). Qed.
Lemma sl_flat {A B} (f : B -> K) (g : A -> list B) l :
  sum_list (map f (flat_map g l)) = sum_list (map (fun a => sum_list (map f (g a))) l).
Proof. induction l as [|a l IH]; cbn [flat_map map]; [reflexivity|]. now rewrite map_app, sl_app, IH. Qed.
Lemma sl_swap {A B} (f : A -> B -> K) la lb :
  sum_list (map (fun a => sum_list (map (f a) lb)) la) = sum_list (map (fun b => sum_list (map (fun a => f a b) la)) lb).
Proof. induction la as [|a la IH]; cbn [map].
  - cbn. symmetry. apply sl_zero.
  - change (sum_list (?x :: ?y)) with (add x (sum_list y)). rewrite IH, <- sl_add. reflexivity. Qed.
Lemma pl_app l1 l2 : prod_list (l1 ++ l2) = mul (prod_list l1) (prod_list l2).
Proof. unfold NetSpec.prod_list. induction l1 as [|a l1 IH]; cbn; [ring|rewrite IH; ring]. Qed.
Lemma pl_perm l1 l2 : Permutation l1 l2 -> prod_list l1 = prod_list l2.
Proof. unfold NetSpec.prod_list. induction 1; cbn; try congruence. ring. Qed.

Lemma upd_same s l i : upd s l i l = i.
Proof. unfold upd. now rewrite Nat.eqb_refl. Qed.
Lemma upd_other s l i k : k <> l -> upd s l i k = s k.
Proof. unfold upd. intros E. apply Nat.eqb_neq in E. now rewrite E. Qed.

(** assignments that agree outside [ls] and are in range on [ls] *)
Definition vary ls s s' : Prop := (forall k, ~ In k ls -> s' k = s k) /\ forall k, In k ls -> s' k < D k.
Lemma so_ext ls G H : forall s, (forall s', vary ls s s' -> G s' = H s') -> sum_over ls G s = sum_over ls H s.
Proof. induction ls as [|l ls IH]; intros s E; cbn [NetSpec.sum_over].
  - apply E. split; [reflexivity|intros k []].
  - apply sl_ext. intros i Hi. apply in_seq in Hi. apply IH. intros s' [A B]. apply E. split.
    + intros k N. rewrite A by (intros X; apply N; now right). apply upd_other. intros ->. apply N; now left.
    + intros k [->|X]; [|now apply B].
      destruct (in_dec Nat.eq_dec k ls) as [X|X]; [now apply B|]. rewrite A, upd_same by exact X. lia. Qed.

(** [G] depends only on the bonds [S] *)
Definition dep S G : Prop := forall s s', (forall k, In k S -> s k = s' k) -> G s = G s'.
Lemma so_dep ls S G : dep S G -> forall s s', (forall k, In k S -> ~ In k ls -> s k = s' k) -> sum_over ls G s = sum_over ls G s'.
Proof. intros HG. induction ls as [|l ls IH]; intros s s' E; cbn [NetSpec.sum_over].
  - apply HG. intros k Hk. apply E; [exact Hk|intros []].
  - apply sl_ext. intros i _. apply IH. intros k Hk N. destruct (Nat.eq_dec k l) as [->|Q].
    + now rewrite !upd_same.
    + rewrite !upd_other by exact Q. apply E; [exact Hk|]. intros [X|X]; [now subst|now apply N]. Qed.
Lemma dep_incl S S' G : dep S G -> incl S S' -> dep S' G.
Proof. intros HG I s s' E. apply HG. intros k Hk. apply E, I, Hk. Qed.
Lemma dep_mul S S' G H : dep S G -> dep S' H -> dep (S ++ S') (fun s => mul (G s) (H s)).
Proof. intros HG HH s s' E. f_equal; [apply HG|apply HH]; intros k Hk; apply E, in_app_iff; auto. Qed.

Lemma so_app l1 l2 G s : sum_over (l1 ++ l2) G s = sum_over l1 (sum_over l2 G) s.
Proof. revert s; induction l1 as [|l l1 IH]; intros s; cbn [NetSpec.sum_over app]; [reflexivity|].
  apply sl_ext. intros i _. apply IH. Qed.
Lemma so_mul ls c G s : sum_over ls (fun s => mul c (G s)) s = mul c (sum_over ls G s).
Proof. revert s; induction ls as [|l ls IH]; intros s; cbn [NetSpec.sum_over]; [reflexivity|].
  rewrite sl_mul, map_map. apply sl_ext. intros i _. apply IH. Qed.
Lemma so_add ls G H s : sum_over ls (fun s => add (G s) (H s)) s = add (sum_over ls G s) (sum_over ls H s).
Proof. revert s; induction ls as [|l ls IH]; intros s; cbn [NetSpec.sum_over]; [reflexivity|].
  rewrite <- sl_add. apply sl_ext. intros i _. apply IH. Qed.

Lemma so_swap a b ls S G s : dep S G -> sum_over (a :: b :: ls) G s = sum_over (b :: a :: ls) G s.
Proof. intros HG. destruct (Nat.eq_dec a b) as [->|N]; [reflexivity|]. cbn [NetSpec.sum_over].
  rewrite sl_swap. apply sl_ext. intros i _. apply sl_ext. intros j _. apply (so_dep _ S); [exact HG|].
  intros k _ _. unfold upd. destruct (Nat.eqb_spec k a), (Nat.eqb_spec k b); congruence. Qed.
Lemma so_perm l1 l2 S G : Permutation l1 l2 -> dep S G -> forall s, sum_over l1 G s = sum_over l2 G s.
Proof. intros P HG. induction P as [|x l l' P IH|x y l|l l' l'' P1 IH1 P2 IH2]; intros s.
  - reflexivity.
  - cbn [NetSpec.sum_over]. apply sl_ext. intros i _. apply IH.
  - apply (so_swap _ _ _ S); exact HG.
  - now rewrite IH1, IH2. Qed.

(** a product of sums over different bonds *)
Lemma so_prod2 l1 l2 S1 S2 G H s : dep S1 G -> dep S2 H ->
  (forall k, In k l2 -> ~ In k S1) -> (forall k, In k l1 -> ~ In k S2) ->
  mul (sum_over l1 G s) (sum_over l2 H s) = sum_over (l1 ++ l2) (fun s => mul (G s) (H s)) s.
Proof. intros HG HH N1 N2. rewrite so_app.
  transitivity (sum_over l1 (fun s' => mul (sum_over l2 H s) (G s')) s).
  - rewrite so_mul. ring.
  - apply so_ext. intros s' [A B]. rewrite <- (so_dep l2 S2 H HH s' s).
    2:{ intros k Hk _. apply A. intros X. exact (N2 k X Hk). }
    transitivity (sum_over l2 (fun s'' => mul (G s') (H s'')) s'); [rewrite so_mul; ring|].
    apply so_ext. intros s'' [A' B']. f_equal. apply HG. intros k Hk. symmetry. apply A'. intros X. exact (N1 k X Hk). Qed.

(** ** sums over the index of a leg *)
Lemma sl_seq_app f n m : sum_list (map f (seq 0 (n + m))) = add (sum_list (map f (seq 0 n))) (sum_list (map (fun i => f (n + i)) (seq 0 m))).
Proof. rewrite seq_app, map_app, sl_app. f_equal. cbn. 
  assert (E : forall k, map f (seq (n + k) m) = map (fun i => f (n + i)) (seq k m)).
  { induction m as [|m IH]; intros k; cbn; [reflexivity|]. f_equal. rewrite <- IH. f_equal. f_equal. lia. }
  specialize (E 0). now rewrite Nat.add_0_r in E; rewrite E. Qed.
Lemma sl_fuse f n m : sum_list (map f (seq 0 (n * m))) = sum_list (map (fun x => sum_list (map (fun y => f (x * m + y)) (seq 0 m))) (seq 0 n)).
Proof. revert f; induction n as [|n IH]; intros f; [reflexivity|].
  replace (S n * m) with (n * m + m) by lia. rewrite sl_seq_app, IH.
  replace (S n) with (n + 1) at 1 by lia. rewrite sl_seq_app. f_equal. cbn. rewrite Nat.add_0_r. ring. Qed.

Lemma lval_ext t s s' : (forall k, In k (bonds t) -> s k = s' k) -> lval D s t = lval D s' t.
Proof. induction t as [l|a IHa b IHb]; cbn; intros E; [apply E; now left|].
  rewrite IHa, IHb; [reflexivity| |]; intros k Hk; apply E, in_app_iff; auto. Qed.
Lemma lval_range t s : (forall k, In k (bonds t) -> s k < D k) -> lval D s t < ldim D t.
Proof. induction t as [l|a IHa b IHb]; cbn; intros E; [apply E; now left|].
  assert (A := IHa (fun k Hk => E k (in_or_app _ _ _ (or_introl Hk)))).
  assert (B := IHb (fun k Hk => E k (in_or_app _ _ _ (or_intror Hk)))). nia. Qed.

Lemma so_leg t : NoDup (bonds t) -> forall f s, sum_list (map f (seq 0 (ldim D t))) = sum_over (bonds t) (fun s' => f (lval D s' t)) s.
Proof. induction t as [l|a IHa b IHb]; cbn [bonds ldim]; intros N f s.
  - cbn. apply sl_ext. intros i _. now rewrite upd_same.
  - destruct (NoDup_app_inv _ _ N) as (Na & Nb & Nab).
    rewrite sl_fuse, so_app. rewrite (IHa Na _ s). apply so_ext. intros s1 _.
    rewrite (IHb Nb _ s1). apply so_ext. intros s2 [A _]. cbn [lval]. do 2 f_equal.
    f_equal. apply lval_ext. intros k Hk. symmetry. apply A. intros X. exact (Nab k Hk X). Qed.

Lemma so_legs ts : NoDup (flat_map bonds ts) -> forall (f : list nat -> K) s,
  sum_list (map f (indices (map (ldim D) ts))) = sum_over (flat_map bonds ts) (fun s' => f (map (lval D s') ts)) s.
Proof. induction ts as [|t ts IH]; cbn [flat_map map indices]; intros N f s.
  - cbn. ring.
  - destruct (NoDup_app_inv _ _ N) as (Na & Nb & Nab).
    rewrite sl_flat, so_app. rewrite (so_leg t Na _ s). apply so_ext. intros s1 _.
    rewrite map_map. rewrite (IH Nb _ s1). apply so_ext. intros s2 [A _]. do 2 f_equal.
    apply lval_ext. intros k Hk. symmetry. apply A. intros X. exact (Nab k Hk X). Qed.
End Sums.
