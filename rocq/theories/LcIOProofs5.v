(** The two tensors of a state with a bond tensor, and the checkerboard they decorate. *)
From Coq Require Import Ring_theory Ring.
From Verif Require Import Base BaseLemmas Tensor TensorLemmas TensorIO TensorIOSpec NetSpec NetProofs
  StateIO Lattice LcIO LcIOSpec LcBondSpec LcIOProofs LcIOProofs2 LcIOProofs3 LcIOProofs4.
Open Scope nat_scope.
Open Scope list_scope.
Open Scope res_scope.

Section P.
Context {R : Type}.
Variables zero one : R.
Variables add mul sub : R -> R -> R.
Variable opp : R -> R.
Hypothesis Rth : ring_theory zero one add mul sub opp eq.
Add Ring Rr : Rth.
Lemma Rsr : semi_ring_theory zero one add mul eq.
Proof. constructor; intros; ring. Qed.
Notation weighted := (weighted zero add mul).
Notation bpnew := (bps_new zero one add mul sub).

Lemma real_comb r ts n l s dims : (forall t, In t ts -> is_real t) -> length l = length ts -> stack_shape ts = Ok dims ->
  combine_site zero add mul sub r (stack_cplx ts) ts (TReal (mkT [n] l)) = Ok s ->
  exists t, s = TReal t /\ twf t /\ tdims t = dims /\ forall ix, in_range dims ix -> tget t ix = Some (weighted l ts ix).
Proof. intros Hr Hl Hd Hc. unfold combine_site in Hc. rewrite Hd in Hc. cbn [bind] in Hc.
  assert (Hsc : stack_cplx ts = false).
  { unfold stack_cplx. apply not_true_iff_false. intros Hx. apply existsb_exists in Hx. destruct Hx as (x & Hx & Hxc).
    destruct (Hr _ Hx) as [T HT]. rewrite HT in Hxc. discriminate. }
  rewrite Hsc in Hc. bind_inv Hc. inv Hc. unfold lincomb in Ha. cbn [tdims length Nat.eqb bind tdata] in Ha. bind_inv Ha. clear Ha0.
  rewrite pairs_eq in Ha by (unfold reals; rewrite !map_length; lia). cbn [bind] in Ha. inv Ha. eexists. split; [reflexivity|].
  split; [apply twf_tbuild|]. split; [reflexivity|]. intros ix Hix. rewrite tget_tbuild by exact Hix. f_equal.
  rewrite (fold_left_sum zero one add mul sub opp Rth (fun ct => mul (fst ct) (at_ zero (snd ct) ix))). rewrite (Radd_0_l Rth). unfold LcIOSpec.weighted, reals. f_equal. rewrite combine_map_r, map_map. cbn [fst snd].
  apply map_ext_in. intros [x t] Hx. cbn [fst snd]. f_equal. apply at_real. apply in_combine_r in Hx. now apply Hr. Qed.

Lemma ib_id d i : i < d -> ib d i = i.
Proof. unfold ib. destruct (d =? 1) eqn:E; [apply Nat.eqb_eq in E; lia|reflexivity]. Qed.
Lemma dress_ok p a (b A B : tensor R) : tdims b = [a; a] -> tdims A = [p; a; a; a; a] -> dress zero add mul b A = Ok B ->
  is_contraction (bD p a) zero one add mul (dressed b A) [V 0; V 1; V 2; V 3; V 4] B.
Proof. intros Hb HA H. unfold dress in H. rewrite Hb, HA in H.
  assert (Hm : match_dim a a = Ok a) by (unfold match_dim; now rewrite Nat.eqb_refl). rewrite Hm in H. cbn [bind] in H. inv H.
  split; [apply twf_tbuild|]. split; [reflexivity|]. intros s Hs. cbn [flat_map bonds app In] in Hs.
  cbn [map lval]. rewrite tget_tbuild.
  2: { cbn [bD] in *. repeat (constructor; [first [apply (Hs 0); tauto|apply (Hs 1); tauto|apply (Hs 2); tauto|apply (Hs 3); tauto|apply (Hs 4); tauto]|]). constructor. }
  f_equal. change (inner (dressed b A) [V 0; V 1; V 2; V 3; V 4]) with [5; 6; 7; 8].
  assert (E := so_legs zero one add mul Rsr (bD p a) [V 5; V 6; V 7; V 8]). cbn [flat_map bonds app map ldim bD] in E.
  set (f := fun k : list nat => match k with [i; j; v; w] => mul (mul (mul (mul (at_ zero b [s 1; ib a i]) (at_ zero b [s 2; ib a j])) (at_ zero b [s 3; ib a v])) (at_ zero b [s 4; ib a w])) (at_ zero A [s 0; ib a i; ib a j; ib a v; ib a w]) | _ => zero end).
  transitivity (sum_list zero add (map f (indices [a; a; a; a]))).
  - unfold sum_list. rewrite <- (Radd_0_l Rth (fold_right _ _ _)). rewrite <- (fold_left_sum zero one add mul sub opp Rth f).
    assert (G : forall l acc, (forall k, In k l -> length k = 4) -> fold_left (fun acc k => match k with [i; j; v; w] => add acc (mul (mul (mul (mul (at_ zero b [s 1; ib a i]) (at_ zero b [s 2; ib a j])) (at_ zero b [s 3; ib a v])) (at_ zero b [s 4; ib a w])) (at_ zero A [s 0; ib a i; ib a j; ib a v; ib a w])) | _ => acc end) l acc = fold_left (fun acc x => add acc (f x)) l acc).
    { induction l as [|k l IH]; intros acc Hl; [reflexivity|]. cbn [fold_left]. rewrite IH by (intros; apply Hl; now right). f_equal.
      specialize (Hl k (or_introl eq_refl)). destruct k as [|i [|j [|v [|w [|x k]]]]]; try discriminate. reflexivity. }
    apply G. intros k Hk. apply In_indices in Hk. apply in_range_length in Hk. rewrite Hk. reflexivity.
  - rewrite (E ltac:(repeat constructor; cbn; intuition discriminate) f s). apply so_ext. intros s' [H1 H2]. cbn [lval map]. unfold f, product, dressed. cbn [map fst snd lval prod_list fold_right].
    cbn [In] in H1, H2. rewrite !ib_id by (first [apply (H2 5); tauto|apply (H2 6); tauto|apply (H2 7); tauto|apply (H2 8); tauto]).
    rewrite !(H1 0), !(H1 1), !(H1 2), !(H1 3), !(H1 4) by (intuition discriminate). unfold at_, entry. ring. Qed.

Theorem bp_sites p a site bond n l m q st :
  (forall mt, In mt site -> square (snd mt) /\ ten_shape (snd mt) = [p; a; a; a; a]) -> (forall mt, In mt bond -> square2 (snd mt) /\ ten_shape (snd mt) = [a; a]) ->
  length l = length site -> length q = length bond ->
  bpnew site bond (TReal (mkT [n] l)) (TReal (mkT [m] q)) = Ok st ->
  exists A B b : tensor R, twf A /\ tdims A = [p; a; a; a; a] /\ twf b /\ tdims b = [a; a] /\
    (forall ix, addresses [p; a; a; a; a] ix -> tget A ix = Some (weighted l (map snd site) ix)) /\
    (forall ix, addresses [a; a] ix -> tget b ix = Some (weighted q (map snd bond) ix)) /\
    is_contraction (bD p a) zero one add mul (dressed b A) [V 0; V 1; V 2; V 3; V 4] B /\
    forall x y, ipeps_site (b_state st) (x, y) = Ok (TReal (if Z.even (x + y) then A else B)).
Proof. intros Hs Hb Hl Hq H.
  assert (H1 : forall mt, In mt site -> dget (m_meta (fst mt)) "pg"%string <> Some "A_2"%string).
  { intros [m0 t] Hi E. destruct (bp_complex_raises zero one add mul sub site bond (TReal (mkT [n] l)) (TReal (mkT [m] q)) m0 t Hi E) as [e He]; [|congruence].
    intros mt Hm. destruct (Hb mt Hm) as [(T & k & -> & _) _]. reflexivity. }
  unfold bps_new in H. bind_inv H. rename a0 into ts. destruct (stacked_spec _ _ _ _ _ _ _ Ha) as [Hall [(_ & -> & _)|(Hne & _)]].
  2: { exfalso. apply Hne. destruct (of_irrep "A_2"%string site) as [|t ts'] eqn:E; [reflexivity|].
       destruct (of_irrep_In "A_2"%string site t) as (mt & Hm & _ & Hi); [rewrite E; now left|]. exfalso. exact (H1 mt Hm Hi). }
  bind_inv H. rename a0 into dims. bind_inv H. rename a0 into dims2. bind_inv H. rename a0 into A'. bind_inv H. rename a0 into b'. bind_inv H. rename a0 into B'. bind_inv H. rename a0 into st'. inv H. cbn [b_state].
  assert (Ed : dims = [p; a; a; a; a]).
  { destruct site as [|mt site]; [discriminate Ha0|]. rewrite <- (stack_shape_In _ _ (snd mt) Ha0) by (left; reflexivity). apply Hs. now left. }
  assert (Ed2 : dims2 = [a; a]).
  { destruct bond as [|mt bond]; [discriminate Ha1|]. rewrite <- (stack_shape_In _ _ (snd mt) Ha1) by (left; reflexivity). apply Hb. now left. }
  subst dims dims2.
  assert (Rs : forall t, In t (map snd site) -> is_real t). { intros t Ht. apply in_map_iff in Ht. destruct Ht as (mt & <- & Hm). destruct (Hs mt Hm) as [(T & ? & ? & -> & _) _]. now exists T. }
  assert (Rb : forall t, In t (map snd bond) -> is_real t). { intros t Ht. apply in_map_iff in Ht. destruct Ht as (mt & <- & Hm). destruct (Hb mt Hm) as [(T & ? & -> & _) _]. now exists T. }
  assert (C1 : forall ts : list (ten R), (forall t, In t ts -> is_real t) -> stack_cplx ts = false).
  { intros ts Hr. unfold stack_cplx. apply not_true_iff_false. intros Hx. apply existsb_exists in Hx. destruct Hx as (x & Hx & Hxc). destruct (Hr _ Hx) as [T HT]. rewrite HT in Hxc. discriminate. }
  rewrite (C1 _ Rs), <- (C1 _ Rb) in Ha3.
  destruct (real_comb 5 (map snd site) n l A' _ Rs ltac:(now rewrite map_length) Ha0 Ha2) as (A & -> & WA & DA & VA).
  destruct (real_comb 2 (map snd bond) m q b' _ Rb ltac:(now rewrite map_length) Ha1 Ha3) as (b & -> & Wb & Db & Vb).
  cbn [dress_ten] in Ha4. bind_inv Ha4. rename a0 into B. inv Ha4. exists A, B, b.
  split; [exact WA|]. split; [exact DA|]. split; [exact Wb|]. split; [exact Db|]. split; [exact VA|]. split; [exact Vb|]. split; [exact (dress_ok p a b A B Db DA Ha6)|].
  intros x y. unfold ipeps_init in Ha5. cbn [sites_truthy] in Ha5.
  bind_inv Ha5. rename a0 into ms. rename Ha4 into Hm.
  bind_inv Ha5. destruct a0 as [lx ly]. inv Ha5. bind_inv Hm. inv Hm.
  unfold ipeps_site. cbn [i_sites i_v2s]. unfold bp_v2s. cbn [fst snd bind].
  replace (((x + Z.abs x * 2) mod 2 + Z.abs y) mod 2)%Z with ((x + y) mod 2)%Z.
  - rewrite Zmod_even. destruct (Z.even (x + y)); reflexivity.
  - rewrite Zplus_mod_idemp_l. destruct (Z.abs_eq_or_opp y) as [->| ->].
    + replace (x + Z.abs x * 2 + y)%Z with (x + y + Z.abs x * 2)%Z by ring. symmetry. apply Z_mod_plus_full.
    + replace (x + Z.abs x * 2 + - y)%Z with (x + y + (Z.abs x - y) * 2)%Z by ring. symmetry. apply Z_mod_plus_full. Qed.
End P.
