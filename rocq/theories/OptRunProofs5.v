From Verif Require Import Base BaseLemmas Flt Armijo Lbfgs LbfgsSpec LbfgsProofs OptRun OptRunSpec OptRunProofs OptRunProofs4.
Open Scope list_scope.

(** ** the checkpoints of a sequence of epochs *)
Section Tails.
Context {F : Type} {X : Type}.
Notation params := (list (list F)).
Notation ckpt := (@ckpt F).
Variable ef : X -> X * ending.
Variable pr : X -> params * opt F.
Variable ls : X -> list F.
Definition stored (n : Z) (s : X) : list ckpt :=
  match last_opt (ls s) with None => [] | Some l => [{| c_epoch := n; c_loss := l; c_params := fst (pr s); c_opt := snd (pr s) |}] end.
(** those after the start of epoch [ep]; [k] epochs follow it *)
Fixpoint tails (mx : Z) (k : nat) (ep : Z) (s : X) : list ckpt :=
  let (s', b) := ef s in
  match b with
  | Fail _ => []
  | Break => stored mx s'
  | Continue => match k with O => stored mx s' | S k' => stored (ep + 1) s' ++ tails mx k' (ep + 1) s' end
  end.
Definition pp (c : ckpt) : params * opt F := (c_params c, c_opt c).
Lemma stored_some n s l : last_opt (ls s) = Some l -> map pp (stored n s) = [pr s].
Proof. unfold stored. intros ->. cbn. unfold pp. cbn. destruct (pr s); reflexivity. Qed.

Lemma prefix_cons {A} (x : A) a b : prefix_related a b -> prefix_related (x :: a) (x :: b).
Proof. intros [[c ->]|[c ->]]; [left|right]; exists c; reflexivity. Qed.
Lemma prefix_nil {A} (b : list A) : prefix_related [] b. Proof. left. exists b. reflexivity. Qed.
Lemma prefix_sym {A} (a b : list A) : prefix_related a b -> prefix_related b a.
Proof. intros [H|H]; [right|left]; exact H. Qed.

Section Prefix.
Variable R : X -> X -> Prop.
Hypothesis HR : forall s1 s2, R s1 s2 -> forall s1' b1 s2' b2, ef s1 = (s1', b1) -> ef s2 = (s2', b2) ->
  (exists e, b1 = Fail e) \/ (exists e, b2 = Fail e) \/
  (R s1' s2' /\ pr s1' = pr s2' /\ (exists l, last_opt (ls s1') = Some l) /\ (exists l, last_opt (ls s2') = Some l)).
Lemma prefix_tails mx1 mx2 : forall k1 k2 ep1 ep2 s1 s2, R s1 s2 ->
  prefix_related (map pp (tails mx1 k1 ep1 s1)) (map pp (tails mx2 k2 ep2 s2)).
Proof.
  induction k1; intros k2 ep1 ep2 s1 s2 H.
  - cbn [tails]. destruct (ef s1) as [s1' b1] eqn:E1.
    assert (K : tails mx2 k2 ep2 s2 = let (s', b) := ef s2 in match b with Fail _ => [] | Break => stored mx2 s'
       | Continue => match k2 with O => stored mx2 s' | S k' => stored (ep2 + 1) s' ++ tails mx2 k' (ep2 + 1) s' end end) by (destruct k2; reflexivity).
    rewrite K. clear K. destruct (ef s2) as [s2' b2] eqn:E2.
    destruct (HR s1 s2 H _ _ _ _ E1 E2) as [[e ->]|[[e ->]|(H1 & H2 & [l1 H3] & [l2 H4])]]; [apply prefix_nil|apply prefix_sym, prefix_nil|].
    destruct b1; [| |apply prefix_nil]; rewrite (stored_some _ _ _ H3); (destruct b2; [|rewrite (stored_some _ _ _ H4), H2; apply prefix_cons, prefix_nil|apply prefix_sym, prefix_nil]);
      (destruct k2; [rewrite (stored_some _ _ _ H4), H2; apply prefix_cons, prefix_nil|]); rewrite map_app, (stored_some _ _ _ H4), H2; apply prefix_cons, prefix_nil.
  - cbn [tails]. destruct (ef s1) as [s1' b1] eqn:E1.
    assert (K : tails mx2 k2 ep2 s2 = let (s', b) := ef s2 in match b with Fail _ => [] | Break => stored mx2 s'
       | Continue => match k2 with O => stored mx2 s' | S k' => stored (ep2 + 1) s' ++ tails mx2 k' (ep2 + 1) s' end end) by (destruct k2; reflexivity).
    rewrite K. clear K. destruct (ef s2) as [s2' b2] eqn:E2.
    destruct (HR s1 s2 H _ _ _ _ E1 E2) as [[e ->]|[[e ->]|(H1 & H2 & [l1 H3] & [l2 H4])]]; [apply prefix_nil|apply prefix_sym, prefix_nil|].
    destruct b1; [| |apply prefix_nil].
    + rewrite map_app, (stored_some _ _ _ H3). destruct b2; [|rewrite (stored_some _ _ _ H4), H2; apply prefix_sym, prefix_cons, prefix_nil|apply prefix_sym, prefix_nil].
      destruct k2; [rewrite (stored_some _ _ _ H4), H2; apply prefix_sym, prefix_cons, prefix_nil|].
      rewrite map_app, (stored_some _ _ _ H4), H2. apply prefix_cons. apply IHk1. exact H1.
    + rewrite (stored_some _ _ _ H3). destruct b2; [|rewrite (stored_some _ _ _ H4), H2; apply prefix_cons, prefix_nil|apply prefix_sym, prefix_nil].
      destruct k2; [rewrite (stored_some _ _ _ H4), H2; apply prefix_cons, prefix_nil|]. rewrite map_app, (stored_some _ _ _ H4), H2. apply prefix_cons, prefix_nil.
Qed.
End Prefix.

Section Inv.
Variable I : X -> Prop.
Hypothesis HI : forall s s' b, I s -> ef s = (s', b) -> (exists e, b = Fail e) \/ I s'.
(** what follows a checkpoint *)
Lemma split_tails mx : forall k ep s, I s -> forall pre c post, tails mx k ep s = pre ++ c :: post ->
  post = [] \/ exists k' ep' s', I s' /\ pr s' = pp c /\ post = tails mx k' ep' s'.
Proof.
  induction k; intros ep s Hs pre c post H; cbn [tails] in H; destruct (ef s) as [s' b] eqn:E0.
  - left. assert (K : (length (pre ++ c :: post) <= 1)%nat).
    { rewrite <- H. unfold stored. destruct b; [destruct (last_opt _)|destruct (last_opt _)|]; cbn; lia. }
    rewrite app_length in K. cbn in K. destruct post; [reflexivity|cbn in K; lia].
  - assert (One : forall n, stored n s' = pre ++ c :: post -> post = []).
    { intros n H'. assert (K : (length (pre ++ c :: post) <= 1)%nat).
      { rewrite <- H'. unfold stored. destruct (last_opt _); cbn; lia. }
      rewrite app_length in K. cbn in K. destruct post; [reflexivity|cbn in K; lia]. }
    destruct b as [| |e]; [|left; exact (One _ H)|destruct pre; discriminate].
    destruct (HI s s' Continue Hs E0) as [[e He]|Hs']; [discriminate|].
    unfold stored in H at 1. destruct (last_opt (ls s')) as [l|]; [|exact (IHk (ep + 1)%Z s' Hs' _ _ _ H)].
    destruct pre as [|c0 pre]; cbn in H.
    + injection H as <- <-. right. exists k, (ep + 1)%Z, s'. repeat split; auto. unfold pp. cbn. destruct (pr s'); reflexivity.
    + injection H as _ H. exact (IHk (ep + 1)%Z s' Hs' _ _ _ H).
Qed.
Variable f : params -> F.
Hypothesis HL : forall s s' b, I s -> ef s = (s', b) -> (exists e, b = Fail e) \/ last_opt (ls s') = Some (f (fst (pr s))).
Lemma lag_tails mx : forall k ep s, I s -> let t := tails mx k ep s in
  map c_loss t = map f (firstn (length t) (fst (pr s) :: map c_params t)).
Proof.
  induction k; intros ep s Hs; cbv zeta; cbn [tails]; destruct (ef s) as [s' b] eqn:E0;
    destruct (HL s s' b Hs E0) as [[e ->]|L]; try reflexivity; destruct b; try reflexivity; unfold stored; rewrite L; try reflexivity.
  destruct (HI s s' Continue Hs E0) as [[e He]|Hs']; [discriminate|]. cbn [app map length firstn c_loss c_params].
  f_equal. apply IHk. exact Hs'.
Qed.
End Inv.
End Tails.
