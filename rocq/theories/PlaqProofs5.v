(** Expectation values, tilings, bonds. *)
From Coq Require Import Lia Ring Permutation.
From Verif Require Import Base BaseLemmas Tensor TensorLemmas Plaq PlaqSpec PlaqProofs PlaqProofs2 PlaqProofs3 PlaqProofs4.
Open Scope list_scope.
Open Scope Z_scope.

Section Bonds.
Variables (L M : Z).
Hypotheses (HL : 3 <= L) (HM : 3 <= M).
Lemma succ_mod n x : 0 <= x < n -> (x + 1) mod n = if Z.eqb (x + 1) n then 0 else x + 1.
Proof. intros H. destruct (Z.eqb_spec (x + 1) n) as [-> |]; [apply Z_mod_same_full | apply Z.mod_small; lia]. Qed.
Definition wbond (b : coord * coord) : coord * coord := (wrap L M (fst b), wrap L M (snd b)).
Lemma unordered_eq (b c : coord * coord) : unordered L M b = unordered L M c -> wbond b = wbond c \/ wbond b = (snd (wbond c), fst (wbond c)).
Proof.
  unfold unordered, wbond. destruct (cleb _ _), (cleb _ _); cbn [fst snd]; intros E; injection E; intros; try (left; congruence); right; congruence.
Qed.
Lemma cleb_total a b : cleb a b = false -> cleb b a = true.
Proof. unfold cleb. destruct a as [a1 a2], b as [b1 b2]. cbn. destruct (Z.ltb_spec a1 b1), (Z.ltb_spec b1 a1); cbn; try discriminate; try lia; try reflexivity. Qed.
Lemma cleb_anti a b : cleb a b = true -> cleb b a = true -> a = b.
Proof.
  unfold cleb. destruct a as [a1 a2], b as [b1 b2]. cbn. destruct (Z.ltb_spec a1 b1), (Z.ltb_spec b1 a1); cbn; try lia; destruct (Z.eqb_spec a1 b1), (Z.eqb_spec b1 a1); cbn; try discriminate; try lia.
  intros H1 H2. apply Z.leb_le in H1, H2. f_equal; lia.
Qed.
Lemma unordered_swap p q : unordered L M (p, q) = unordered L M (q, p).
Proof.
  unfold unordered. cbn [fst snd]. destruct (cleb (wrap L M p) (wrap L M q)) eqn:E1, (cleb (wrap L M q) (wrap L M p)) eqn:E2; try reflexivity.
  - now rewrite (cleb_anti _ _ E1 E2).
  - apply cleb_total in E1. congruence.
Qed.
Lemma unordered_wrap b : unordered L M (wbond b) = unordered L M b.
Proof. unfold unordered, wbond. cbn [fst snd]. assert (W : forall p, wrap L M (wrap L M p) = wrap L M p) by (intros p; unfold wrap; cbn; now rewrite !Zmod_mod). now rewrite !W. Qed.
Ltac mods := repeat match goal with
  | H : context [(?x + 1) mod ?n] |- _ => rewrite (succ_mod n x) in H by lia
  | |- context [(?x + 1) mod ?n] => rewrite (succ_mod n x) by lia
  | H : context [?x mod ?n] |- _ => rewrite (Z.mod_small x n) in H by lia
  | |- context [?x mod ?n] => rewrite (Z.mod_small x n) by lia end;
  repeat match goal with H : context [Z.eqb ?a ?b] |- _ => destruct (Z.eqb_spec a b) | |- context [Z.eqb ?a ?b] => destruct (Z.eqb_spec a b) end.
Lemma NoDup_app2 {A} (l l' : list A) : NoDup l -> NoDup l' -> (forall x, In x l -> In x l' -> False) -> NoDup (l ++ l').
Proof.
  intros H H' D. induction l as [|x l IH]; [exact H'|]. cbn. inversion H; subst. constructor.
  - rewrite in_app_iff. intros [Hi|Hi]; [contradiction|]. apply (D x); [now left | exact Hi].
  - apply IH; [assumption|]. intros y Hy. apply D. now right.
Qed.
Lemma NoDup_sites : NoDup (sites L M).
Proof.
  unfold sites. assert (H : forall l l' : list Z, NoDup l -> NoDup l' -> NoDup (list_prod l l')).
  { clear. induction l as [|x l IH]; intros l' Hl Hl'; [constructor|]. cbn. inversion Hl; subst. apply NoDup_app2; [|now apply IH|].
    - apply NoDup_map_inj; [intros a b _ _ E; now injection E | exact Hl'].
    - intros [a b] Ha Hb. apply in_map_iff in Ha. destruct Ha as (y & E & _). inv E. apply in_prod_iff in Hb. tauto. }
  apply H; apply NoDup_zrange.
Qed.
Lemma bonds_once_gen (f g : coord -> coord * coord) :
  (forall p q, In p (sites L M) -> In q (sites L M) -> unordered L M (f p) = unordered L M (f q) -> p = q) ->
  (forall p q, In p (sites L M) -> In q (sites L M) -> unordered L M (g p) = unordered L M (g q) -> p = q) ->
  (forall p q, In p (sites L M) -> In q (sites L M) -> unordered L M (f p) <> unordered L M (g q)) ->
  NoDup (map (unordered L M) (map f (sites L M) ++ map g (sites L M))).
Proof.
  intros Hf Hg Hfg. rewrite map_app, !map_map. apply NoDup_app2.
  - apply NoDup_map_inj; [exact Hf | apply NoDup_sites].
  - apply NoDup_map_inj; [exact Hg | apply NoDup_sites].
  - intros b H1 H2. apply in_map_iff in H1, H2. destruct H1 as (p & <- & Hp), H2 as (q & E & Hq). exact (Hfg p q Hp Hq (eq_sym E)).
Qed.
Ltac cases := intros [x y] [x' y'] Hp Hq; apply In_sites in Hp, Hq; cbn [fst snd] in Hp, Hq; 
  intros E; apply unordered_eq in E; unfold wbond, wrap, px, py, pxy in E; cbn [fst snd] in E;
  destruct E as [E|E]; injection E; clear E; intros; mods; try (f_equal; lia); try lia.
Theorem bonds_nn_once : NoDup (map (unordered L M) (bonds_nn L M)).
Proof. apply bonds_once_gen; cases. Qed.
Theorem bonds_nnn_once : NoDup (map (unordered L M) (bonds_nnn L M)).
Proof. apply bonds_once_gen; cases. Qed.
Lemma in_bonds (f g : coord -> coord * coord) v w p q :
  (forall r, In r (sites L M) -> wbond (f r) = (r, wrap L M (cadd r v))) ->
  (forall r, In r (sites L M) -> wbond (g r) = (r, wrap L M (cadd r w)) \/ (exists r', In r' (sites L M) /\ wbond (g r) = (r', wrap L M (cadd r' w)))) ->
  (forall r', In r' (sites L M) -> exists r, In r (sites L M) /\ wbond (g r) = (r', wrap L M (cadd r' w))) ->
  In p (sites L M) -> In q (sites L M) ->
  (In (unordered L M (p, q)) (map (unordered L M) (map f (sites L M) ++ map g (sites L M))) <-> apart L M [v; w] p q).
Proof.
  intros Hf Hg Hg' Hp Hq.
  assert (Wq : forall r, In r (sites L M) -> wrap L M r = r).
  { intros [x y] Hr. apply In_sites in Hr. cbn in Hr. unfold wrap. cbn. now rewrite !Z.mod_small by lia. }
  assert (Wb : wbond (p, q) = (p, q)) by (unfold wbond; cbn; now rewrite !Wq).
  rewrite in_map_iff. split.
  - intros (b & E & Hb). apply unordered_eq in E. rewrite Wb in E. cbn [fst snd] in E. apply in_app_iff in Hb.
    assert (D : exists r u, In u [v; w] /\ wbond b = (r, wrap L M (cadd r u))).
    { destruct Hb as [Hb|Hb]; apply in_map_iff in Hb; destruct Hb as (r & <- & Hr).
      - exists r, v. split; [now left | now apply Hf].
      - destruct (Hg r Hr) as [H|(r' & _ & H)]; [exists r, w | exists r', w]; (split; [right; now left | exact H]). }
    destruct D as (r & u & Hu & Ed). exists u. split; [exact Hu|]. rewrite Ed in E. destruct E as [E|E]; injection E; intros; subst; auto.
  - intros (u & Hu & Hpq).
    assert (G : forall r, In r (sites L M) -> exists b, In b (map f (sites L M) ++ map g (sites L M)) /\ wbond b = (r, wrap L M (cadd r u))).
    { intros r Hr. destruct Hu as [<- |[<- |[]]].
      - exists (f r). split; [apply in_app_iff; left; now apply in_map | now apply Hf].
      - destruct (Hg' r Hr) as (r' & Hr' & H). exists (g r'). split; [apply in_app_iff; right; now apply in_map | exact H]. }
    destruct Hpq as [E|E].
    + destruct (G p Hp) as (b & Hb & Eb). exists b. split; [|exact Hb]. rewrite <- unordered_wrap, Eb, <- E. reflexivity.
    + destruct (G q Hq) as (b & Hb & Eb). exists b. split; [|exact Hb]. rewrite <- unordered_wrap, Eb, <- E. apply unordered_swap.
Qed.
Theorem bonds_nn_all p q : In p (sites L M) -> In q (sites L M) ->
  (In (unordered L M (p, q)) (map (unordered L M) (bonds_nn L M)) <-> apart L M [(1, 0); (0, 1)] p q).
Proof.
  intros Hp Hq. apply in_bonds; [| | |exact Hp|exact Hq].
  - intros [x y] Hr. apply In_sites in Hr. cbn in Hr. unfold wbond, wrap, px, cadd. cbn. rewrite Z.add_0_r, (Z.mod_small x), (Z.mod_small y) by lia. reflexivity.
  - intros [x y] Hr. left. apply In_sites in Hr. cbn in Hr. unfold wbond, wrap, py, cadd. cbn. rewrite Z.add_0_r, (Z.mod_small x), (Z.mod_small y) by lia. reflexivity.
  - intros [x y] Hr. exists (x, y). split; [exact Hr|]. apply In_sites in Hr. cbn in Hr. unfold wbond, wrap, py, cadd. cbn. rewrite Z.add_0_r, (Z.mod_small x), (Z.mod_small y) by lia. reflexivity.
Qed.
Theorem bonds_nnn_all p q : In p (sites L M) -> In q (sites L M) ->
  (In (unordered L M (p, q)) (map (unordered L M) (bonds_nnn L M)) <-> apart L M [(1, 1); (1, -1)] p q).
Proof.
  intros Hp Hq. apply in_bonds; [| | |exact Hp|exact Hq].
  - intros [x y] Hr. apply In_sites in Hr. cbn in Hr. unfold wbond, wrap, pxy, cadd. cbn. rewrite (Z.mod_small x), (Z.mod_small y) by lia. reflexivity.
  - intros [x y] Hr. right. exists (x, (y + 1) mod M). split; [apply In_sites in Hr; apply In_sites; cbn in *; split; [lia|]; apply Z.mod_pos_bound; lia|].
    apply In_sites in Hr. cbn in Hr. unfold wbond, wrap, py, px, cadd. cbn. rewrite (Z.mod_small x) by lia. do 2 f_equal. rewrite Zplus_mod_idemp_l. f_equal. lia.
  - intros [x y] Hr. exists (x, (y + -1) mod M). split; [apply In_sites in Hr; apply In_sites; cbn in *; split; [lia|]; apply Z.mod_pos_bound; lia|].
    apply In_sites in Hr. cbn in Hr. unfold wbond, wrap, py, px, cadd. cbn. rewrite (Z.mod_small x) by lia. rewrite Zplus_mod_idemp_l, Zmod_mod. replace (y + -1 + 1) with y by lia. now rewrite (Z.mod_small y) by lia.
Qed.
End Bonds.
