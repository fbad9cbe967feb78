(** The operators of the AKLT models. *)
From Verif Require Import Base BaseLemmas Tensor TensorLemmas Su2 Su2Spec Su2Proofs Net Aklt AkltSpec AkltProofs AkltProofs2.
From Coq Require Import Reals Lra.
Open Scope list_scope.
Open Scope R_scope.

(** ** pairs of indices below 5 and indices below 25 *)
Definition split2 (ix : list nat) : list nat := match ix with [p; q] => [Nat.div p 5; Nat.modulo p 5; Nat.div q 5; Nat.modulo q 5]%nat | _ => [] end.
Lemma idx_split : indices [5; 5; 5; 5]%nat = map split2 (indices [25; 25]%nat).
Proof. vm_compute. reflexivity. Qed.
Lemma dget_map {V} (g : list nat -> list nat) (l : list (list nat)) : forall (dat : list V) x, (forall y, In y l -> g y = g x -> y = x) ->
  In x l -> dget (combine (map g l) dat) (g x) = dget (combine l dat) x.
Proof. induction l as [|y l IH]; intros dat x Hg Hx; [destruct Hx|]. destruct dat as [|v dat]; [reflexivity|]. cbn [map combine dget].
  destruct (eq_dec (g x) (g y)) as [E|N], (eq_dec x y) as [E'|N'].
  - reflexivity.
  - exfalso. apply N'. symmetry. apply Hg; [now left|now symmetry].
  - exfalso. apply N. now f_equal.
  - destruct Hx as [->|Hx]; [now exfalso|]. apply IH; [|exact Hx]. intros z Hz. apply Hg. now right. Qed.
Lemma tget_flat {V} (dat : list V) I J : (I < 25)%nat -> (J < 25)%nat ->
  tget (mkT [5; 5; 5; 5]%nat dat) [I / 5; I mod 5; J / 5; J mod 5]%nat = tget (mkT [25; 25]%nat dat) [I; J].
Proof. intros HI HJ. unfold tget, telts. cbn [tdims tdata]. rewrite idx_split. change [I / 5; I mod 5; J / 5; J mod 5]%nat with (split2 [I; J]).
  apply dget_map; [|apply In_indices; exact (in_range2 25 I J HI HJ)].
  intros y Hy E. apply In_indices in Hy. inversion Hy as [|? y1 ? ly H1 H2]; subst. inversion H2 as [|? y2 ? ly2 H3 H4]; subst. inversion H4; subst.
  assert (E1 : (y1 / 5 = I / 5)%nat) by exact (f_equal (fun l => nth 0 l O) E). assert (E2 : (y1 mod 5 = I mod 5)%nat) by exact (f_equal (fun l => nth 1 l O) E).
  assert (E3 : (y2 / 5 = J / 5)%nat) by exact (f_equal (fun l => nth 2 l O) E). assert (E4 : (y2 mod 5 = J mod 5)%nat) by exact (f_equal (fun l => nth 3 l O) E). pose proof (Nat.div_mod_eq y1 5). pose proof (Nat.div_mod_eq I 5). pose proof (Nat.div_mod_eq y2 5). pose proof (Nat.div_mod_eq J 5).
  assert (y1 = I) by Lia.lia. assert (y2 = J) by Lia.lia. subst. reflexivity. Qed.
Lemma rsum_flat (g : nat -> nat -> R) : rsum 5 (fun j => rsum 5 (fun b => g j b)) = rsum 25 (fun K => g (K / 5)%nat (K mod 5)%nat).
Proof. cbn -[Rplus]. ring. Qed.
Lemma div5 i a : (a < 5)%nat -> ((5 * i + a) / 5 = i)%nat.
Proof. intros Ha. rewrite Nat.mul_comm, Nat.div_add_l by discriminate. rewrite (Nat.div_small a 5 Ha). Lia.lia. Qed.
Lemma mod5 i a : (a < 5)%nat -> ((5 * i + a) mod 5 = a)%nat.
Proof. intros Ha. rewrite Nat.add_comm, Nat.mul_comm, Nat.mod_add by discriminate. now apply Nat.mod_small. Qed.
Lemma lt25 I : (I < 25)%nat -> (I / 5 < 5)%nat /\ (I mod 5 < 5)%nat.
Proof. intros H. split; [apply Nat.div_lt_upper_bound; [discriminate|Lia.lia]|now apply Nat.mod_upper_bound]. Qed.

(** a state and an operator with flattened indices *)
Definition fv (v : nat -> nat -> R) : nat -> nat -> R := fun K _ => v (K / 5)%nat (K mod 5)%nat.
Definition fl (O : nat -> nat -> nat -> nat -> R) : nat -> nat -> R := fun I J => O (I / 5)%nat (I mod 5)%nat (J / 5)%nat (J mod 5)%nat.
Lemma act_flat O v I c : (I < 25)%nat -> on1 25 (fl O) (fv v) I c = fv (act 5 O v) I c.
Proof. intros HI. unfold fv at 2, act. rewrite rsum_flat. reflexivity. Qed.
Lemma act_flat' O v i a c : (i < 5)%nat -> (a < 5)%nat -> act 5 O v i a = on1 25 (fl O) (fv v) (5 * i + a) c.
Proof. intros Hi Ha. rewrite act_flat by Lia.lia. unfold fv. now rewrite div5, mod5. Qed.

(** ** the polynomial *)
Notation M2 M := (mmul 25 M M). Notation M3 M := (mmul 25 (M2 M) M). Notation M4 M := (mmul 25 (M3 M) M).
Definition polyR (M : nat -> nat -> R) : nat -> nat -> R := fun i j => 1/14 * (M i j + 7/10 * M2 M i j + 7/45 * M3 M i j + 1/90 * M4 M i j).
Lemma mmul_scale n c A B i j : mmul n (mscale c A) B i j = c * mmul n A B i j.
Proof. unfold mmul, mscale. rewrite <- rsum_scale. apply rsum_ext. intros. lra. Qed.
Lemma in25 i j : (i < 25)%nat -> (j < 25)%nat -> in_range [25; 25]%nat [i; j].
Proof. exact (in_range2 25 i j). Qed.
Lemma matmul_el A B : meq 25 (el2 (matmul 25 A B)) (mmul 25 (el2 A) (el2 B)).
Proof. intros i j Hi Hj. unfold el2 at 1, matmul. rewrite tget_tbuild by (now apply in25). unfold mmul. now rewrite rsum_fold. Qed.
Lemma el2_scale c M i j : el2 (tscale c M) i j = mscale c (el2 M) i j.
Proof. unfold el2, tscale, mscale. rewrite tget_tmap. destruct (tget M _); cbn; lra. Qed.
Definition mat25 (t : tensor R) : Prop := twf t /\ tdims t = [25; 25]%nat.
Lemma el2_plus A B i j : mat25 A -> mat25 B -> (i < 25)%nat -> (j < 25)%nat -> el2 (tplus A B) i j = el2 A i j + el2 B i j.
Proof. intros [WA DA] [WB DB] Hi Hj. unfold el2. rewrite tget_plus by congruence. pose proof (in25 i j Hi Hj) as Hr.
  destruct (tget_Some A _ WA ltac:(rewrite DA; exact Hr)) as [u ->], (tget_Some B _ WB ltac:(rewrite DB; exact Hr)) as [w ->]. reflexivity. Qed.
Lemma mat25_plus A B : mat25 A -> mat25 B -> mat25 (tplus A B).
Proof. intros [WA DA] [WB DB]. split; [apply plus_wf; congruence|exact DA]. Qed.
Lemma mat25_mul A B : mat25 (matmul 25 A B).
Proof. split; [apply twf_tbuild|reflexivity]. Qed.
Lemma poly_spec M : mat25 M -> mat25 (quartic_of 5 M) /\ meq 25 (el2 (quartic_of 5 M)) (polyR (el2 M)).
Proof. intros HM. unfold quartic_of. change (5 * 5)%nat with 25%nat. cbv zeta.
  assert (R1 : forall A A', meq 25 A A' -> meq 25 A A') by auto.
  assert (E2 : forall c, meq 25 (el2 (matmul 25 (tscale c M) M)) (mscale c (M2 (el2 M)))).
  { intros c i j Hi Hj. rewrite matmul_el by assumption. unfold mscale. rewrite <- mmul_scale. apply mmul_ext; [| |assumption|assumption]; intros p q _ _; [apply el2_scale|reflexivity]. }
  assert (E3 : forall c, meq 25 (el2 (matmul 25 (matmul 25 (tscale c M) M) M)) (mscale c (M3 (el2 M)))).
  { intros c i j Hi Hj. rewrite matmul_el by assumption. unfold mscale. rewrite <- mmul_scale. apply mmul_ext; [| |assumption|assumption]; [apply E2|intros p q _ _; reflexivity]. }
  assert (E4 : forall c, meq 25 (el2 (matmul 25 (matmul 25 (matmul 25 (tscale c M) M) M) M)) (mscale c (M4 (el2 M)))).
  { intros c i j Hi Hj. rewrite matmul_el by assumption. unfold mscale. rewrite <- mmul_scale. apply mmul_ext; [| |assumption|assumption]; [apply E3|intros p q _ _; reflexivity]. }
  pose proof (mat25_mul) as HX. split.
  - split; [apply twf_tmap|]; [|exact (proj2 HM)]. repeat apply mat25_plus; auto.
  - intros i j Hi Hj. rewrite el2_scale. unfold mscale at 1. rewrite !el2_plus by (try assumption; repeat apply mat25_plus; auto).
    rewrite (E2 _ i j Hi Hj), (E3 _ i j Hi Hj), (E4 _ i j Hi Hj). reflexivity. Qed.

(** ** the exchange *)
Definition ss (i a j b : nat) : R := zed 5 i j * zed 5 a b + 1/2 * (Su2Proofs.up 5 i j * dn 5 a b + dn 5 i j * Su2Proofs.up 5 a b).
Lemma aklt_SS_spec : exists t, aklt_SS 5 = Ok t /\ twf t /\ tdims t = [5; 5; 5; 5]%nat /\ meq4 5 (mel4 t) ss.
Proof. unfold aklt_SS. destruct (get_sz 5) as (tz & Ez & Wz & Dz & Gz), (get_sp 5) as (p & Ep & Wp & Dp & Gp), (get_sm 5) as (q & Eq & Wq & Dq & Gq).
  rewrite Ez, Ep, Eq. cbn [bind]. eexists. split; [reflexivity|].
  assert (WK : forall A B, twf (kron 5 A B)) by (intros; apply twf_tbuild).
  assert (WP : twf (tplus (kron 5 p q) (kron 5 q p))) by (apply plus_wf; [apply WK|apply WK|reflexivity]).
  split; [apply plus_wf; [apply WK|apply twf_tmap, WP|reflexivity]|]. split; [reflexivity|].
  intros i a j b Hi Ha Hj Hb. rewrite (plus_mel 5) by (first [assumption|reflexivity|apply WK|apply twf_tmap, WP]).
  rewrite scale_mel. rewrite (plus_mel 5) by (first [assumption|reflexivity|apply WK]).
  rewrite !kron_mel by assumption. rewrite (Gz i j), (Gz a b), (Gp i j), (Gp a b), (Gq i j), (Gq a b) by assumption. unfold ss. lra. Qed.

Lemma view_eq (t : tensor R) dims : length (tdata t) = prod_dims dims -> view t dims = Ok (mkT dims (tdata t)).
Proof. intros H. unfold view, treshape. now rewrite H, Nat.eqb_refl. Qed.
(** the elements of h in terms of the 25 x 25 matrix *)
Lemma h_elements : exists h SS, aklt_h 5 = Ok (h, SS) /\ twf h /\ tdims h = [5; 5; 5; 5]%nat /\ twf SS /\ tdims SS = [5; 5; 5; 5]%nat /\ aklt_SS 5 = Ok SS /\
  meq4 5 (mel4 SS) ss /\ meq 25 (fl (mel4 h)) (polyR (fl ss)).
Proof. destruct aklt_SS_spec as (t & E & W & D & G). unfold aklt_h. rewrite E. cbn [bind].
  assert (L : length (tdata t) = 625%nat) by (unfold twf in W; rewrite D in W; exact W).
  rewrite (view_eq t) by exact L. cbn [bind].
  set (M := mkT [5 * 5; 5 * 5]%nat (tdata t)).
  assert (HM : mat25 M) by (split; [exact L|reflexivity]).
  destruct (poly_spec M HM) as [[WP DP] GP].
  assert (LP : length (tdata (quartic_of 5 M)) = 625%nat) by (unfold twf in WP; rewrite DP in WP; exact WP).
  rewrite (view_eq (quartic_of 5 M)) by exact LP. cbn [bind]. rewrite (view_eq M) by exact L. cbn [bind].
  assert (T : mkT [5; 5; 5; 5]%nat (tdata M) = t) by (destruct t as [dd dat]; cbn in D; subst dd; reflexivity). rewrite T.
  exists (mkT [5; 5; 5; 5]%nat (tdata (quartic_of 5 M))), t. split; [reflexivity|]. split; [exact LP|]. split; [reflexivity|]. split; [exact W|]. split; [exact D|]. split; [reflexivity|]. split; [exact G|].
  intros I J HI HJ. unfold fl, mel4. rewrite tget_flat by assumption.
  assert (TP : mkT [25; 25]%nat (tdata (quartic_of 5 M)) = quartic_of 5 M) by (destruct (quartic_of 5 M) as [dd dat]; cbn in DP; subst dd; reflexivity). rewrite TP.
  change (el2 (quartic_of 5 M) I J = polyR (fl ss) I J). rewrite GP by assumption.
  assert (F : meq 25 (el2 M) (fl ss)).
  { intros p q Hp Hq. unfold el2, M. change [5 * 5; 5 * 5]%nat with [25; 25]%nat. rewrite <- (tget_flat (tdata t)) by assumption.
    assert (T5 : mkT [5; 5; 5; 5]%nat (tdata t) = t) by (destruct t as [dd dat]; cbn in D; subst dd; reflexivity). rewrite T5.
    destruct (lt25 p Hp), (lt25 q Hq). now apply G. }
  assert (F2 : meq 25 (M2 (el2 M)) (M2 (fl ss))) by (now apply mmul_ext).
  assert (F3 : meq 25 (M3 (el2 M)) (M3 (fl ss))) by (now apply mmul_ext).
  assert (F4 : meq 25 (M4 (el2 M)) (M4 (fl ss))) by (now apply mmul_ext).
  unfold polyR. now rewrite (F I J HI HJ), (F2 I J HI HJ), (F3 I J HI HJ), (F4 I J HI HJ). Qed.

(** ** the action on states *)
Lemma act_prod m A B v : seq2 m (act m (fun i a j b => A i j * B a b) v) (on1 m A (on2 m B v)).
Proof. intros i a _ _. unfold act, on1, on2. apply rsum_ext. intros j _. rewrite <- rsum_scale. apply rsum_ext. intros. lra. Qed.
Lemma act_ss v : seq2 5 (act 5 ss v) (dot_spins 5 (zed 5) (Su2Proofs.up 5) (dn 5) v).
Proof. intros i a Hi Ha. unfold dot_spins, sadd, sscale. rewrite <- !(act_prod 5 _ _ v i a Hi Ha). unfold act, ss.
  rewrite <- rsum_add, <- rsum_scale, <- rsum_add. apply rsum_ext. intros j _. rewrite <- rsum_add, <- rsum_scale, <- rsum_add. apply rsum_ext. intros. lra. Qed.
Lemma on1_poly M w I c : (I < 25)%nat -> on1 25 (polyR M) w I c =
  1/14 * on1 25 M w I c + 1/20 * on1 25 M (on1 25 M w) I c + 1/90 * on1 25 M (on1 25 M (on1 25 M w)) I c + 1/1260 * on1 25 M (on1 25 M (on1 25 M (on1 25 M w))) I c.
Proof. intros HI. assert (A2 : forall w I, (I < 25)%nat -> on1 25 M (on1 25 M w) I c = on1 25 (M2 M) w I c).
  { intros w' I' H'. unfold on1 at 1. pose proof (on1_on1 25 M M (fun K _ => w' K c) I' 0%nat H' ltac:(Lia.lia)) as E. exact E. }
  assert (G : forall A B w I, (I < 25)%nat -> on1 25 A (on1 25 B w) I c = on1 25 (mmul 25 A B) w I c).
  { intros A B w' I' H'. exact (on1_on1 25 A B (fun K _ => w' K c) I' 0%nat H' ltac:(Lia.lia)). }
  assert (A3 : forall w I, (I < 25)%nat -> on1 25 M (on1 25 M (on1 25 M w)) I c = on1 25 (M3 M) w I c).
  { intros w' I' H'. rewrite <- G by exact H'. now rewrite A2. }
  rewrite A3 by exact HI. rewrite (A3 (on1 25 M w)) by exact HI. rewrite A2 by exact HI. rewrite G by exact HI.
  unfold on1, polyR. rewrite <- !rsum_scale, <- !rsum_add. apply rsum_ext. intros k _. field. Qed.
Lemma act_h h v : meq 25 (fl (mel4 h)) (polyR (fl ss)) -> seq2 5 (act 5 (mel4 h) v) (quartic 5 (zed 5) (Su2Proofs.up 5) (dn 5) (1/14) (1/20) (1/90) (1/1260) v).
Proof. intros HF i a Hi Ha. set (X := dot_spins 5 (zed 5) (Su2Proofs.up 5) (dn 5)).
  assert (HI : (5 * i + a < 25)%nat) by Lia.lia.
  rewrite (act_flat' _ _ _ _ 0%nat Hi Ha).
  transitivity (on1 25 (polyR (fl ss)) (fv v) (5 * i + a)%nat 0%nat).
  { apply rsum_ext. intros k Hk. now rewrite HF. }
  rewrite on1_poly by exact HI.
  assert (S1 : forall w u I, (I < 25)%nat -> (forall K, (K < 25)%nat -> w K 0%nat = fv u K 0%nat) -> on1 25 (fl ss) w I 0%nat = fv (X u) I 0%nat).
  { intros w u I H' Hw. transitivity (on1 25 (fl ss) (fv u) I 0%nat); [apply rsum_ext; intros k Hk; now rewrite Hw|]. rewrite act_flat by exact H'.
    unfold fv. destruct (lt25 I H'). now apply act_ss. }
  assert (H1 : forall I, (I < 25)%nat -> on1 25 (fl ss) (fv v) I 0%nat = fv (X v) I 0%nat) by (intros; now apply S1).
  assert (H2 : forall I, (I < 25)%nat -> on1 25 (fl ss) (on1 25 (fl ss) (fv v)) I 0%nat = fv (X (X v)) I 0%nat) by (intros; now apply S1).
  assert (H3 : forall I, (I < 25)%nat -> on1 25 (fl ss) (on1 25 (fl ss) (on1 25 (fl ss) (fv v))) I 0%nat = fv (X (X (X v))) I 0%nat) by (intros; now apply S1).
  rewrite (S1 _ _ _ HI H3), (H3 _ HI), (H2 _ HI), (H1 _ HI). unfold fv. rewrite div5, mod5 by exact Ha.
  unfold quartic, sadd, sscale. cbv zeta. change (dot_spins 5 (zed 5) (Su2Proofs.up 5) (dn 5)) with X. lra. Qed.

(** ** the image of h *)
Lemma flss_q : meq 25 (fl ss) (evm qX).
Proof. intros I J HI HJ. unfold evm. rewrite qX_eq, at2_tab by assumption. destruct (lt25 I HI), (lt25 J HJ). rewrite x_q by assumption. reflexivity. Qed.
Lemma poly_q : meq 25 (polyR (fl ss)) (mscale (1/1260) (evm qH)).
Proof. assert (F := flss_q).
  assert (F2 : meq 25 (M2 (fl ss)) (evm qX2)) by (intros I J HI HJ; rewrite (mmul_ext 25 _ (evm qX) _ (evm qX) F F I J HI HJ); rewrite qX2_eq; symmetry; now apply evm_prod).
  assert (F3 : meq 25 (M3 (fl ss)) (evm qX3)) by (intros I J HI HJ; rewrite (mmul_ext 25 _ (evm qX2) _ (evm qX) F2 F I J HI HJ); rewrite qX3_eq; symmetry; now apply evm_prod).
  assert (F4 : meq 25 (M4 (fl ss)) (evm qX4)) by (intros I J HI HJ; rewrite (mmul_ext 25 _ (evm qX3) _ (evm qX) F3 F I J HI HJ); rewrite qX4_eq; symmetry; now apply evm_prod).
  intros I J HI HJ. unfold polyR. rewrite (F I J HI HJ), (F2 I J HI HJ), (F3 I J HI HJ), (F4 I J HI HJ). unfold mscale, evm at 5. rewrite qH_eq, at2_tab by assumption.
  rewrite !ev_add, !ev_mul, !ev_z. unfold evm. field. Qed.
Lemma X_poly : meq 25 (mmul 25 (fl ss) (polyR (fl ss))) (mscale 4 (polyR (fl ss))).
Proof. intros I J HI HJ. rewrite (mmul_ext 25 _ (evm qX) _ (mscale (1/1260) (evm qH)) flss_q poly_q I J HI HJ). unfold mscale at 2. rewrite (poly_q I J HI HJ).
  assert (E : mmul 25 (evm qX) (mscale (1/1260) (evm qH)) I J = 1/1260 * mmul 25 (evm qX) (evm qH) I J).
  { unfold mmul, mscale. rewrite <- rsum_scale. apply rsum_ext. intros. lra. }
  rewrite E, <- evm_prod by assumption. rewrite XH. unfold evm at 1. rewrite at2_tab by assumption. rewrite ev_mul, ev_z. unfold mscale, evm. lra. Qed.
Lemma h_sym : meq 25 (polyR (fl ss)) (mtrans (polyR (fl ss))).
Proof. intros I J HI HJ. unfold mtrans. rewrite !poly_q by assumption. unfold mscale, evm.
  pose proof H_sym as Q. rewrite forallb_forall in Q. specialize (Q I ltac:(apply in_seq; Lia.lia)). rewrite forallb_forall in Q. specialize (Q J ltac:(apply in_seq; Lia.lia)).
  now rewrite (proj1 (BaseLemmas.eqb_true _ _) Q). Qed.
Lemma act_X_h h v : meq 25 (fl (mel4 h)) (polyR (fl ss)) -> seq2 5 (dot_spins 5 (zed 5) (Su2Proofs.up 5) (dn 5) (act 5 (mel4 h) v)) (sscale 4 (act 5 (mel4 h) v)).
Proof. intros HF i a Hi Ha. assert (HI : (5 * i + a < 25)%nat) by Lia.lia. rewrite <- (act_ss _ i a Hi Ha). rewrite (act_flat' ss _ i a 0%nat Hi Ha).
  unfold sscale. rewrite (act_flat' (mel4 h) v i a 0%nat Hi Ha).
  assert (E : forall I, (I < 25)%nat -> fv (act 5 (mel4 h) v) I 0%nat = on1 25 (polyR (fl ss)) (fv v) I 0%nat).
  { intros I H'. rewrite <- act_flat by exact H'. apply rsum_ext. intros k Hk. now rewrite HF. }
  transitivity (on1 25 (fl ss) (on1 25 (polyR (fl ss)) (fv v)) (5 * i + a)%nat 0%nat); [apply rsum_ext; intros k Hk; now rewrite E|].
  rewrite (on1_on1 25 _ _ (fun K _ => fv v K 0%nat) (5 * i + a)%nat 0%nat HI ltac:(Lia.lia)).
  transitivity (4 * on1 25 (polyR (fl ss)) (fv v) (5 * i + a)%nat 0%nat).
  { unfold on1. rewrite <- rsum_scale. apply rsum_ext. intros k Hk. rewrite X_poly by assumption. unfold mscale, fv. lra. }
  f_equal. rewrite <- E by exact HI. now rewrite act_flat. Qed.
