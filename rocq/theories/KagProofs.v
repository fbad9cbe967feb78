(** The spin Hamiltonian of a triangle: the tensors of the model, element by element. *)
From Verif Require Import Base BaseLemmas Tensor TensorLemmas Net Plaq Su3Spec Su3Proofs Su3Proofs4 Kag KagSpec.
From Coq Require Import Ring.
Open Scope list_scope.
Open Scope nat_scope.
Open Scope res_scope.

Section S.
Context {K : Type} (k0 k1 : K) (kadd kmul ksub : K -> K -> K) (kopp : K -> K) (half im : K) (cj : K -> K) (isz : K -> bool).
Hypothesis Kr : ring_theory k0 k1 kadd kmul ksub kopp (@eq K).
Add Ring Kring : Kr.
Notation "a + b" := (kadd a b).
Notation "a * b" := (kmul a b).
Notation "a - b" := (ksub a b).
Variables (m : nat) (Id1 Sz Sp Sm : tensor K) (cplx : bool).
Notation D2 := [m; m].
Notation D4 := [m; m; m; m].
Notation D6 := [m; m; m; m; m; m].
Notation el := (el k0).
Notation eK := (einsum k0 k1 kadd kmul).
Hypotheses (DI : tdims Id1 = D2) (Dz : tdims Sz = D2) (Dp : tdims Sp = D2) (Dm : tdims Sm = D2).

(** *** elements of einsum *)
Lemma mm_eq : (m =? m) = true. Proof. apply Nat.eqb_refl. Qed.
Lemma kron_ok A B : tdims A = D2 -> tdims B = D2 ->
  kron k0 k1 kadd kmul A B = Ok (tbuild D4 (fun ix => match ix with [i; j; a; b] => el A [i; a] * el B [j; b] | _ => k0 end)).
Proof. intros HA HB. unfold kron, einsum, summed, label_dims. cbn [flat_map fst snd app]. rewrite HA, HB. cbn -[tbuild nsum nprod tel Nat.eqb]. rewrite HA, HB. cbn -[tbuild nsum nprod tel]. rewrite ?mm_eq.
  cbn -[tbuild nsum nprod tel]. f_equal. apply build_ext. intros ix Hix. apply In_indices, in_range_length in Hix. cbn in Hix.
  destruct ix as [|i [|j [|k [|a [|? ?]]]]]; try discriminate Hix. cbn -[tel]. unfold tel, Plaq.el. ring. Qed.
Lemma with_id_ok A : tdims A = D4 -> with_id k0 k1 kadd kmul Id1 A = Ok (tbuild D6 (fun ix => match ix with [i; j; k; a; b; c] => el A [i; j; a; b] * el Id1 [k; c] | _ => k0 end)).
Proof. intros HA. unfold with_id, einsum, summed, label_dims. cbn [flat_map fst snd app]. rewrite DI, HA. cbn -[tbuild nsum nprod tel Nat.eqb]. rewrite DI, HA. cbn -[tbuild nsum nprod tel]. rewrite ?mm_eq.
  cbn -[tbuild nsum nprod tel]. f_equal. apply build_ext. intros ix Hix. apply In_indices, in_range_length in Hix. cbn in Hix.
  destruct ix as [|i [|j [|k [|a [|b [|c [|? ?]]]]]]]; try discriminate Hix. cbn -[tel]. unfold tel, Plaq.el. ring. Qed.
Lemma one_site_ok A : tdims A = D2 -> one_site k0 k1 kadd kmul Id1 A
  = Ok (tbuild D6 (fun ix => match ix with [i; j; k; a; b; c] => el A [i; a] * (el Id1 [j; b] * el Id1 [k; c]) | _ => k0 end)).
Proof. intros HA. unfold one_site, einsum, summed, label_dims. cbn [flat_map fst snd app]. rewrite DI, HA. cbn -[tbuild nsum nprod tel Nat.eqb]. rewrite DI, HA. cbn -[tbuild nsum nprod tel]. rewrite ?mm_eq.
  cbn -[tbuild nsum nprod tel]. f_equal. apply build_ext. intros ix Hix. apply In_indices, in_range_length in Hix. cbn in Hix.
  destruct ix as [|i [|j [|k [|a [|b [|c [|? ?]]]]]]]; try discriminate Hix. cbn -[tel]. unfold tel, Plaq.el. ring. Qed.
Lemma nsum_map_flat {A B} (g : A -> list B) (f : B -> K) l : nsum k0 kadd (map f (flat_map g l)) = nsum k0 kadd (map (fun a => nsum k0 kadd (map f (g a))) l).
Proof. induction l as [|a l IH]; cbn; [reflexivity|]. rewrite map_app. unfold nsum in *. rewrite fold_right_app, IH. clear IH.
  induction (g a) as [|b q IH]; cbn; [ring|]. rewrite IH. ring. Qed.
Lemma nsum_2 (f : list nat -> K) : nsum k0 kadd (map f (indices D2)) = total k0 kadd m (fun x => total k0 kadd m (fun y => f [x; y])).
Proof. cbn [indices]. rewrite nsum_map_flat. unfold total. unfold nsum at 1. f_equal. apply map_ext. intros x. rewrite map_map, nsum_map_flat. unfold nsum at 1. f_equal. apply map_ext. intros y. cbn. unfold nsum. cbn. ring. Qed.
Lemma total_ext n f g : (forall x, x < n -> f x = g x) -> total k0 kadd n f = total k0 kadd n g.
Proof. intros H. unfold total. f_equal. apply map_ext_in. intros x Hx. apply in_seq in Hx. apply H. lia. Qed.
Lemma ss2_ok A : tdims A = D4 -> eK [(A, [0; 1; 2; 3]); (A, [2; 3; 4; 5])] [0; 1; 4; 5]
  = Ok (tbuild D4 (fun ix => match ix with [i; j; a; b] => total k0 kadd m (fun x => total k0 kadd m (fun y => el A [i; j; x; y] * el A [x; y; a; b])) | _ => k0 end)).
Proof. intros HA. unfold einsum, summed, label_dims. cbn [flat_map fst snd app]. rewrite HA. cbn -[tbuild nsum nprod tel Nat.eqb indices]. rewrite HA. cbn -[tbuild nsum nprod tel indices]. rewrite ?mm_eq.
  cbn -[tbuild nsum nprod tel indices]. f_equal. apply build_ext. intros ix Hix. apply In_indices, in_range_length in Hix. cbn in Hix.
  destruct ix as [|i [|j [|a [|b [|? ?]]]]]; try discriminate Hix. rewrite nsum_2.
  apply total_ext. intros x Hx. apply total_ext. intros y Hy. cbn -[tel]. unfold tel, Plaq.el. ring. Qed.
(** *** permutations *)
Lemma perm6 f p : is_permb p 6 = true -> permute k0 (tbuild D6 f) p = Ok (tbuild D6 (fun ix => f (unperm p ix))).
Proof. intros Hp. unfold permute, tpermute. cbn [tbuild tdims length]. rewrite Hp.
  assert (E : map (fun k => nth k D6 0) p = D6).
  { pose proof (proj1 (is_permb_spec _ _) Hp) as P. pose proof (Permutation.Permutation_length P) as L. rewrite seq_length in L.
    assert (H : forall k, In k p -> nth k D6 0 = m).
    { intros k Hk. apply (Permutation.Permutation_in _ P), in_seq in Hk. do 6 (destruct k as [|k]; [reflexivity|]). lia. }
    rewrite (map_ext_in _ (fun _ => m) _ H). clear - L. do 6 (destruct p as [|? p]; [discriminate L|]). destruct p; [reflexivity|discriminate L]. }
  rewrite E. f_equal. apply build_ext. intros ix Hix. apply In_indices in Hix. rewrite tget_tbuild; [reflexivity|].
  apply in_range_unperm; [apply is_permb_spec; exact Hp|]. cbn [length]. rewrite E. exact Hix. Qed.

Definition rot1 (f : list nat -> K) (ix : list nat) : K := match ix with [i; j; k; a; b; c] => f [k; i; j; c; a; b] | _ => k0 end.
Definition rot2 (f : list nat -> K) (ix : list nat) : K := match ix with [i; j; k; a; b; c] => f [j; k; i; b; c; a] | _ => k0 end.
Lemma len6 (ix : list nat) : In ix (indices D6) -> exists i j k a b c, ix = [i; j; k; a; b; c] /\ i < m /\ j < m /\ k < m /\ a < m /\ b < m /\ c < m.
Proof. intros H. apply In_indices in H. pose proof (in_range_length _ _ H) as L. cbn in L.
  destruct ix as [|i [|j [|k [|a [|b [|c [|? ?]]]]]]]; try discriminate L. exists i, j, k, a, b, c. split; [reflexivity|].
  unfold in_range in H. repeat match goal with H : Forall2 _ (_ :: _) _ |- _ => inversion H; clear H end. subst. repeat split; assumption. Qed.
Lemma rot1_ok f : permute k0 (tbuild D6 f) [1; 2; 0; 4; 5; 3] = Ok (tbuild D6 (rot1 f)).
Proof. rewrite perm6 by reflexivity. f_equal. apply build_ext. intros ix Hix. destruct (len6 ix Hix) as (i & j & k & a & b & c & -> & _). reflexivity. Qed.
Lemma rot2_ok f : permute k0 (tbuild D6 f) [2; 0; 1; 5; 3; 4] = Ok (tbuild D6 (rot2 f)).
Proof. rewrite perm6 by reflexivity. f_equal. apply build_ext. intros ix Hix. destruct (len6 ix Hix) as (i & j & k & a & b & c & -> & _). reflexivity. Qed.
Lemma around_ok f : around k0 kadd (tbuild D6 f) = Ok (tbuild D6 (fun ix => f ix + rot1 f ix + rot2 f ix)).
Proof. unfold around. rewrite rot1_ok, rot2_ok. cbn [bind]. unfold tadd. now rewrite !zip_build. Qed.
(** *** the spin operators *)
Definition ssf (x y z : K) (ix : list nat) : K :=
  match ix with [i; j; a; b] => x * (el Sz [i; a] * el Sz [j; b]) + half * y * (el Sp [i; a] * el Sm [j; b]) + half * z * (el Sm [i; a] * el Sp [j; b]) | _ => k0 end.
Lemma SS_ok x y z : SSxyz k0 k1 kadd kmul half Sz Sp Sm x y z = Ok (tbuild D4 (ssf x y z)).
Proof. unfold SSxyz. rewrite !kron_ok by assumption. cbn [bind]. unfold tadd. rewrite !scl_build, !zip_build. f_equal. apply build_ext.
  intros ix Hix. apply In_indices, in_range_length in Hix. cbn in Hix. destruct ix as [|i [|j [|a [|b [|? ?]]]]]; try discriminate Hix. reflexivity. Qed.
Hypothesis isz_ok : forall x, isz x = true -> x = k0.
Lemma SSJ_ok j1 JD : SS_JD k0 k1 kadd kmul ksub half im isz Sz Sp Sm j1 JD = Ok (tbuild D4 (ssf j1 (j1 + im * JD) (j1 - im * JD))).
Proof. unfold SS_JD. destruct (isz JD) eqn:E; [|apply SS_ok]. rewrite SS_ok. cbn [bind]. rewrite scl_build. f_equal. apply build_ext.
  rewrite (isz_ok _ E). intros ix Hix. apply In_indices, in_range_length in Hix. cbn in Hix. destruct ix as [|i [|j [|a [|b [|? ?]]]]]; try discriminate Hix. unfold ssf. ring. Qed.
(** *** the triple product *)
Lemma trip_ok L V : tdims L = [3; 3; 3] -> tdims V = [3; m; m] ->
  eK [(L, [0; 1; 2]); (V, [1; 3; 4]); (V, [2; 5; 6]); (V, [0; 7; 8])] [3; 5; 7; 4; 6; 8]
  = Ok (tbuild D6 (fun ix => match ix with [i; j; k; a; b; c] => nsum k0 kadd (map (fun l => match l with [x; y; w] => el L [w; x; y] * (el V [x; i; a] * (el V [y; j; b] * el V [w; k; c])) | _ => k0 end) (indices [3; 3; 3])) | _ => k0 end)).
Proof. intros HL HV. unfold einsum, summed, label_dims. cbn [flat_map fst snd app]. rewrite HL, HV. cbn -[tbuild nsum nprod tel Nat.eqb indices]. rewrite HL, HV. cbn -[tbuild nsum nprod tel indices]. rewrite ?mm_eq.
  cbn -[tbuild nsum nprod tel indices]. f_equal. apply build_ext. intros ix Hix. apply In_indices, in_range_length in Hix. cbn in Hix.
  destruct ix as [|i [|j [|k [|a [|b [|c [|? ?]]]]]]]; try discriminate Hix. f_equal. apply map_ext_in. intros l Hl. apply In_indices, in_range_length in Hl. cbn in Hl.
  destruct l as [|x [|y [|w [|? ?]]]]; try discriminate Hl. cbn -[tel]. unfold tel, Plaq.el. ring. Qed.
Definition svf (k i j : nat) : K :=
  match k with 0 => el Sz [i; j] | 1 => half * (el Sp [i; j] + el Sm [i; j]) | _ => if cplx then kopp (half * im) * (el Sp [i; j] - el Sm [i; j]) else k0 end.
Hypotheses (wp : twf Sp) (wm : twf Sm).
Lemma own_build A : twf A -> tdims A = D2 -> A = tbuild D2 (fun ix => el A ix).
Proof. intros WA HA. rewrite <- HA. symmetry. apply (tbuild_tget k0 A WA). Qed.
Lemma svec_ok : Svec k0 kadd kmul ksub kopp half im m Sz Sp Sm cplx = tbuild [3; m; m] (fun ix => match ix with [k; i; j] => svf k i j | _ => k0 end).
Proof. unfold Svec. apply build_ext. intros ix Hix. apply In_indices in Hix. pose proof (in_range_length _ _ Hix) as L. cbn in L.
  destruct ix as [|k [|i [|j [|? ?]]]]; try discriminate L. unfold in_range in Hix. repeat match goal with H : Forall2 _ (_ :: _) _ |- _ => inversion H; clear H end. subst.
  assert (R : in_range D2 [i; j]) by (unfold in_range; repeat (apply Forall2_cons; [assumption|]); apply Forall2_nil).
  unfold svf. rewrite (own_build Sp wp Dp), (own_build Sm wm Dm). unfold tadd, tsub. rewrite !zip_build, !scl_build, !el_build by exact R. reflexivity. Qed.
Lemma el_svec k i j : k < 3 -> i < m -> j < m -> el (Svec k0 kadd kmul ksub kopp half im m Sz Sp Sm cplx) [k; i; j] = svf k i j.
Proof. intros Hk Hi Hj. rewrite svec_ok, el_build; [reflexivity|]. unfold in_range; repeat (apply Forall2_cons; [assumption|]); apply Forall2_nil. Qed.
Definition tripf (ix : list nat) : K :=
  match ix with [i; j; k; a; b; c] =>
    let t x y w := svf x i a * (svf y j b * svf w k c) in
    (t 1 2 0 + t 2 0 1 + t 0 1 2) - (t 2 1 0 + t 1 0 2 + t 0 2 1) | _ => k0 end.
Lemma trip_final : eK [(levi k0 k1 kopp, [0; 1; 2]); (Svec k0 kadd kmul ksub kopp half im m Sz Sp Sm cplx, [1; 3; 4]); (Svec k0 kadd kmul ksub kopp half im m Sz Sp Sm cplx, [2; 5; 6]); (Svec k0 kadd kmul ksub kopp half im m Sz Sp Sm cplx, [0; 7; 8])] [3; 5; 7; 4; 6; 8]
  = Ok (tbuild D6 tripf).
Proof. rewrite trip_ok; [|reflexivity|reflexivity]. f_equal. apply build_ext. intros ix Hix. destruct (len6 ix Hix) as (i & j & k & a & b & c & -> & Hi & Hj & Hk & Ha & Hb & Hc).
  assert (E : map (fun l => match l with [x; y; w] => el (levi k0 k1 kopp) [w; x; y] * (el (Svec k0 kadd kmul ksub kopp half im m Sz Sp Sm cplx) [x; i; a] *
     (el (Svec k0 kadd kmul ksub kopp half im m Sz Sp Sm cplx) [y; j; b] * el (Svec k0 kadd kmul ksub kopp half im m Sz Sp Sm cplx) [w; k; c])) | _ => k0 end) (indices [3; 3; 3])
   = map (fun l => match l with [x; y; w] => el (levi k0 k1 kopp) [w; x; y] * (svf x i a * (svf y j b * svf w k c)) | _ => k0 end) (indices [3; 3; 3])).
  { apply map_ext_in. intros l Hl. apply In_indices in Hl. pose proof (in_range_length _ _ Hl) as L. cbn in L. destruct l as [|x [|y [|w [|? ?]]]]; try discriminate L.
    unfold in_range in Hl. repeat match goal with H : Forall2 _ (_ :: _) _ |- _ => inversion H; clear H end. subst. now rewrite !el_svec by assumption. }
  rewrite E. clear E. cbn [indices seq flat_map map app]. unfold nsum. cbn [fold_right].
  repeat match goal with |- context [el (levi k0 k1 kopp) ?l] => let v := eval vm_compute in (el (levi k0 k1 kopp) l) in change (el (levi k0 k1 kopp) l) with v end.
  unfold tripf. cbv zeta. ring. Qed.
(** *** permutations by assignment *)
Lemma upd_build dims (f : list nat -> K) ix (v : K) : in_range dims ix -> tupdate (tbuild dims f) (map Z.of_nat ix) (fun _ => v) = Ok (tbuild dims (fun jx => if eqb ix jx then v else f jx)).
Proof. intros H. unfold tupdate. cbn [tdims tbuild]. rewrite norm_indices_nat by exact H. cbn [bind]. f_equal. unfold tbuild, telts. cbn [tdims tdata]. f_equal.
  rewrite <- (map_id (indices dims)) at 1. rewrite combine_maps, map_map. apply map_ext_in. intros jx Hj. cbn [fst snd]. apply In_indices in Hj.
  assert (L : length ix = length jx) by (rewrite (in_range_length _ _ H), (in_range_length _ _ Hj); reflexivity).
  destruct (is_prefix ix jx) eqn:E1; destruct (eqb ix jx) eqn:E2; try reflexivity.
  - apply (is_prefix_full ix jx L) in E1. apply (BaseLemmas.eqb_false ix jx) in E2. contradiction.
  - apply (proj1 (BaseLemmas.eqb_true ix jx)) in E2. apply (is_prefix_full ix jx L) in E2. congruence. Qed.
Lemma fill_ok g : (forall i j k, i < m -> j < m -> k < m -> in_range D6 (g i j k)) ->
  fill k0 k1 m g = Ok (tbuild D6 (fun jx => if existsb (fun q => eqb (g (fst q) (fst (snd q)) (snd (snd q))) jx) (ijk m) then k1 else k0)).
Proof. intros Hg. unfold fill.
  assert (H : forall l f, (forall q, In q l -> In q (ijk m)) -> foldM (fun t q => let '(i, (j, k)) := q in tupdate t (map Z.of_nat (g i j k)) (fun _ => k1)) l (tbuild D6 f)
    = Ok (tbuild D6 (fun jx => if existsb (fun q => eqb (g (fst q) (fst (snd q)) (snd (snd q))) jx) l then k1 else f jx))).
  { induction l as [|[i [j k]] l IH]; intros f Hl; [reflexivity|]. cbn [foldM]. rewrite upd_build.
    2:{ assert (Hq := Hl _ (or_introl eq_refl)). unfold ijk in Hq. apply in_prod_iff in Hq. destruct Hq as [H1 Hq]. apply in_prod_iff in Hq. destruct Hq as [H2 H3].
        apply in_seq in H1, H2, H3. apply Hg; lia. }
    cbn [bind]. rewrite IH by (intros q Hq; apply Hl; now right). f_equal. apply build_ext. intros jx _. cbn [existsb fst snd].
    destruct (eqb (g i j k) jx); destruct (existsb _ l); reflexivity. }
  change (tzeros k0 D6) with (tbuild D6 (fun _ => k0)). apply H. trivial. Qed.
Lemma P_ok : P_triangle k0 k1 m = Ok (tbuild D6 (fun ix => dirac k0 k1 (match ix with [i; j; k; a; b; c] => (i =? c) && ((j =? a) && (k =? b)) | _ => false end))).
Proof. unfold P_triangle. rewrite fill_ok.
  - f_equal. apply build_ext. intros ix Hix. destruct (len6 ix Hix) as (i & j & k & a & b & c & -> & Hi & Hj & Hk & Ha & Hb & Hc). unfold dirac.
    destruct (existsb _ _) eqn:E.
    + apply existsb_exists in E. destruct E as ([x [y w]] & _ & E). cbn [fst snd] in E. apply (proj1 (BaseLemmas.eqb_true _ _)) in E. injection E as -> -> -> <- <- <-. now rewrite !Nat.eqb_refl.
    + destruct (Nat.eqb_spec i c); destruct (Nat.eqb_spec j a); destruct (Nat.eqb_spec k b); try reflexivity. subst. exfalso.
      assert (X : existsb (fun q => eqb [fst q; fst (snd q); snd (snd q); fst (snd q); snd (snd q); fst q] [c; a; b; a; b; c]) (ijk m) = true); [|congruence].
      apply existsb_exists. exists (c, (a, b)). split; [|now apply (proj2 (BaseLemmas.eqb_true _ _))]. unfold ijk. rewrite !in_prod_iff, !in_seq. lia.
  - intros i j k Hi Hj Hk. unfold in_range; repeat (apply Forall2_cons; [assumption|]); apply Forall2_nil. Qed.
Lemma Pi_ok : P_triangle_inv k0 k1 m = Ok (tbuild D6 (fun ix => dirac k0 k1 (match ix with [i; j; k; a; b; c] => (i =? b) && ((j =? c) && (k =? a)) | _ => false end))).
Proof. unfold P_triangle_inv. rewrite fill_ok.
  - f_equal. apply build_ext. intros ix Hix. destruct (len6 ix Hix) as (i & j & k & a & b & c & -> & Hi & Hj & Hk & Ha & Hb & Hc). unfold dirac.
    destruct (existsb _ _) eqn:E.
    + apply existsb_exists in E. destruct E as ([x [y w]] & _ & E). cbn [fst snd] in E. apply (proj1 (BaseLemmas.eqb_true _ _)) in E. injection E as -> -> -> <- <- <-. now rewrite !Nat.eqb_refl.
    + destruct (Nat.eqb_spec i b); destruct (Nat.eqb_spec j c); destruct (Nat.eqb_spec k a); try reflexivity. subst. exfalso.
      assert (X : existsb (fun q => eqb [fst q; fst (snd q); snd (snd q); snd (snd q); fst q; fst (snd q)] [b; c; a; a; b; c]) (ijk m) = true); [|congruence].
      apply existsb_exists. exists (b, (c, a)). split; [|now apply (proj2 (BaseLemmas.eqb_true _ _))]. unfold ijk. rewrite !in_prod_iff, !in_seq. lia.
  - intros i j k Hi Hj Hk. unfold in_range; repeat (apply Forall2_cons; [assumption|]); apply Forall2_nil. Qed.
End S.
