(** Renaming the bonds of a network, and complex conjugation of a network. *)
From Verif Require Import Base BaseLemmas Tensor TensorLemmas Net NetSpec NetProofs NetProofs2 NetProofs3 Corners CornersSpec CornersProofs.
From Coq Require Import Ring.
Open Scope list_scope.
Open Scope nat_scope.

Definition ren_sym (b : nat -> nat) (S : sym) : sym :=
  mkS (map (ren b) (s_out S)) (map b (s_bnd S)) (map (fun f => (fst f, map (ren b) (snd f))) (s_fac S)).
Lemma bonds_ren b t : bonds (ren b t) = map b (bonds t).
Proof. induction t as [l|x IHx y IHy]; cbn; [reflexivity|]. now rewrite IHx, IHy, map_app. Qed.
Lemma fbonds_ren b ts : flat_map bonds (map (ren b) ts) = map b (flat_map bonds ts).
Proof. induction ts as [|t ts IH]; cbn; [reflexivity|]. now rewrite bonds_ren, IH, map_app. Qed.
Lemma fvars_ren b fac : fvars (map (fun f => (fst f, map (ren b) (snd f))) fac) = map b (fvars fac).
Proof. unfold fvars. induction fac as [|f fac IH]; cbn; [reflexivity|]. now rewrite fbonds_ren, IH, map_app. Qed.

Section Ren.
Context {K : Type} (z o : K) (add mul : K -> K -> K).
Variable D : nat -> nat.
Variable env : nat -> tensor K.
Variable b : nat -> nat.
Hypothesis inj : forall k l, b k = b l -> k = l.
Hypothesis Db : forall l, D (b l) = D l.
Lemma ldim_b t : ldim D (ren b t) = ldim D t.
Proof. induction t as [l|x IHx y IHy]; cbn; [apply Db|now rewrite IHx, IHy]. Qed.
Lemma lval_b t s : lval D s (ren b t) = lval D (fun k => s (b k)) t.
Proof. induction t as [l|x IHx y IHy]; cbn; [reflexivity|now rewrite IHx, IHy, ldim_b]. Qed.
Lemma so_b (G : (nat -> nat) -> K) S : dep S G -> forall ls s,
  sum_over D z add (map b ls) (fun s => G (fun k => s (b k))) s = sum_over D z add ls G (fun k => s (b k)).
Proof. intros HG. induction ls as [|l ls IH]; intros s; cbn [map sum_over]; [reflexivity|].
  rewrite Db. apply sl_ext. intros i _. rewrite IH. apply (so_dep z add D ls S); [exact HG|].
  intros k _ _. unfold upd. destruct (Nat.eqb_spec (b k) (b l)) as [E|E], (Nat.eqb_spec k l) as [E'|E']; try reflexivity.
  - exfalso. apply E', inj, E.
  - subst. congruence. Qed.
Lemma rep_ren S M : rep z o add mul D env S M -> rep z o add mul D env (ren_sym b S) M.
Proof. intros (W & Hd & HI & HV). split; [exact W|]. split.
  { cbn. rewrite map_map, Hd. apply map_ext. intros t. symmetry. apply ldim_b. }
  split.
  { unfold ovars. cbn. rewrite fvars_ren, fbonds_ren, <- map_app. now apply incl_map. }
  intros s Hs. cbn [ren_sym s_out s_bnd s_fac]. unfold ovars in Hs. cbn in Hs. rewrite fbonds_ren in Hs.
  rewrite map_map, (map_ext _ _ (fun t => lval_b t s)), HV.
  2:{ intros l Hl. rewrite <- Db. apply Hs. now apply in_map. }
  f_equal. rewrite <- (so_b _ _ (fprod_dep z o mul D env (s_fac S)) (s_bnd S) s).
  apply so_ext. intros s' _. unfold fprod. rewrite map_map. f_equal. apply map_ext. intros f. cbn [fst snd]. f_equal.
  rewrite map_map. apply map_ext. intros t. symmetry. apply lval_b. Qed.
End Ren.

Section Conj.
Context {K : Type} (z o : K) (add mul : K -> K -> K) (cj : K -> K).
Hypothesis cj_z : cj z = z.
Hypothesis cj_o : cj o = o.
Hypothesis cj_add : forall x y, cj (add x y) = add (cj x) (cj y).
Hypothesis cj_mul : forall x y, cj (mul x y) = mul (cj x) (cj y).
Variable D : nat -> nat.
Lemma entry_conj (t : tensor K) ix : entry z (conj cj t) ix = cj (entry z t ix).
Proof. unfold entry, conj. rewrite tget_tmap. destruct (tget t ix); cbn; [reflexivity|now rewrite cj_z]. Qed.
Lemma cj_sum l : cj (sum_list z add l) = sum_list z add (map cj l).
Proof. induction l as [|x l IH]; cbn; [exact cj_z|]. rewrite cj_add. f_equal. exact IH. Qed.
Lemma cj_prod l : cj (prod_list o mul l) = prod_list o mul (map cj l).
Proof. induction l as [|x l IH]; cbn; [exact cj_o|]. rewrite cj_mul. f_equal. exact IH. Qed.
Lemma cj_so ls G s : cj (sum_over D z add ls G s) = sum_over D z add ls (fun s => cj (G s)) s.
Proof. revert s; induction ls as [|l ls IH]; intros s; cbn [sum_over]; [reflexivity|].
  rewrite cj_sum, map_map. apply sl_ext. intros i _. apply IH. Qed.
(** the conjugate of a contraction; [fac'] names the conjugated tensors *)
Lemma rep_conj env env' S fac' M : rep z o add mul D env S M ->
  incl (fvars fac') (fvars (s_fac S)) ->
  Forall2 (fun f f' => forall s, cj (entry z (env (fst f)) (map (lval D s) (snd f))) = entry z (env' (fst f')) (map (lval D s) (snd f'))) (s_fac S) fac' ->
  rep z o add mul D env' (mkS (s_out S) (s_bnd S) fac') (conj cj M).
Proof. intros (W & Hd & HI & HV) HF H2. split; [now apply twf_tmap|]. split; [exact Hd|]. split.
  { cbn. unfold ovars in *. cbn. intros k Hk. apply HI, HF, Hk. }
  intros s Hs. cbn [s_out s_bnd s_fac]. unfold conj. rewrite tget_tmap, HV by exact Hs. cbn. f_equal. rewrite cj_so.
  apply so_ext. intros s' _. unfold fprod. rewrite cj_prod, map_map. f_equal.
  clear - H2. induction H2 as [|f f' l l' Hf H2 IH]; cbn; [reflexivity|]. now rewrite Hf, IH. Qed.
End Conj.
