From Verif Require Import Base BaseLemmas Flt Armijo Lbfgs LbfgsSpec LbfgsProofs OptRun OptRunSpec.
Open Scope list_scope.

(** ** loading an optimizer *)
Section Load.
Context {F : Type} (o : fops F).
Lemma slice_last_lastn {A} h (l : list A) : (1 <= h)%Z -> slice_last h l = lastn (Z.to_nat h) l.
Proof.
  intros H. unfold slice_last, lastn. assert (Q : (0 <? h)%Z = true) by (apply Z.ltb_lt; lia). rewrite Q. f_equal. lia.
Qed.
Lemma lastn_lastn {A} a b (l : list A) : lastn a (lastn b l) = lastn (Nat.min a b) l.
Proof.
  unfold lastn. rewrite skipn_length. 
  assert (K : forall m n (x : list A), skipn n (skipn m x) = skipn (m + n) x).
  { induction m; intros n x; [reflexivity|]. destruct x; [rewrite !skipn_nil; reflexivity|]. cbn. apply IHm. }
  rewrite K. destruct (Nat.le_gt_cases (length l) (Nat.min a b)).
  - replace (length l - b + (length l - (length l - b) - a))%nat with 0%nat by lia. replace (length l - Nat.min a b)%nat with 0%nat by lia. reflexivity.
  - f_equal. lia.
Qed.
Lemma keep_true_length (l : list (option F)) : (length (keep_true o l) <= length l)%nat.
Proof. unfold keep_true. induction l; cbn; [lia|]. destruct (match a with Some _ => _ | None => _ end); cbn; lia. Qed.
Lemma map_lastn {A B} (f : A -> B) n l : lastn n (map f l) = map f (lastn n l).
Proof. unfold lastn. rewrite map_length, skipn_map. reflexivity. Qed.

Lemma load_keeps_newest acc g (ck : opt F) al dirs : (1 <= g_hist g)%Z -> (1 <= g_hist (o_grp ck))%Z -> history o acc ck ->
  o_al ck = Some al -> m_dirs (o_mem ck) = Some dirs ->
  exists a, load_optimizer_state o (Some g) ck = Ok a /\
    history o (lastn (Z.to_nat (g_hist (o_grp ck))) acc) a /\
    holds_newest o (Z.to_nat (Z.min (g_hist g) (g_hist (o_grp ck)))) acc (o_mem a) /\
    (exists al', o_al a = Some al' /\ length al' = Z.to_nat (g_hist g)) /\
    o_grp a = {| g_lr := g_lr g; g_max_iter := g_max_iter g; g_max_eval := g_max_eval (o_grp ck); g_tol_grad := g_tol_grad g;
                 g_tol_change := g_tol_change g; g_ls := g_ls g; g_ls_eps := g_ls_eps g; g_hist := g_hist g |} /\
    o_niter a = o_niter ck /\ m_d (o_mem a) = m_d (o_mem ck) /\ m_t (o_mem a) = m_t (o_mem ck) /\ m_H (o_mem a) = m_H (o_mem ck) /\
    m_pg (o_mem a) = m_pg (o_mem ck) /\ m_pl (o_mem a) = m_pl (o_mem ck).
Proof.
  intros Hh Hh0 (N & Acc & D & Al) Hal Hd. set (h := g_hist g) in *. set (h0 := g_hist (o_grp ck)) in *.
  assert (D' : o_niter ck <> 0%Z /\ holds_newest o (Z.to_nat h0) acc (o_mem ck)).
  { destruct D as [[_ (D1 & _)]|D]; [congruence|exact D]. }
  clear D. destruct D' as [N0 (D1 & D2 & D3)]. rewrite Hal in Al.
  assert (Len : length dirs = Nat.min (Z.to_nat h0) (length acc)).
  { rewrite D1 in Hd. injection Hd as <-. rewrite map_length, lastn_length. reflexivity. }
  unfold load_optimizer_state. fold h h0. rewrite Hal, Hd, D2, D3. cbn [bind].
  set (al1 := if (h <? Z.of_nat (length (keep_true o al)))%Z then slice_last h (keep_true o al) else keep_true o al ++ pad h (length (keep_true o al))).
  assert (Al1 : length al1 = Z.to_nat h).
  { unfold al1. destruct (Z.ltb_spec h (Z.of_nat (length (keep_true o al)))).
    - rewrite slice_last_lastn, lastn_length by lia. lia.
    - unfold pad. rewrite app_length, repeat_length. lia. }
  assert (Acc' : Forall (acceptable o) (lastn (Z.to_nat h0) acc)).
  { apply Forall_forall. intros p Hp. eapply Forall_forall; [exact Acc|]. unfold lastn in Hp. clear - Hp.
    rewrite <- (firstn_skipn (length acc - Z.to_nat h0) acc). apply in_or_app. right. exact Hp. }
  assert (Fin : forall m, holds_newest o (Z.to_nat (Z.min h h0)) acc m -> forall gr, g_hist gr = h ->
     history o (lastn (Z.to_nat h0) acc) {| o_grp := gr; o_niter := o_niter ck; o_mem := m; o_al := Some al1 |}).
  { intros m Hm gr Hg. split; [exact N|]. split; [exact Acc'|]. cbn [o_grp o_mem o_al o_niter]. rewrite Hg. split; [|exact Al1].
    right. split; [exact N0|]. unfold holds_newest. rewrite lastn_lastn. replace (Nat.min (Z.to_nat h) (Z.to_nat h0)) with (Z.to_nat (Z.min h h0)) by lia. exact Hm. }
  destruct (Z.ltb_spec h h0) as [L|L]; [destruct (Z.ltb_spec h (Z.of_nat (length dirs))) as [L'|L']|].
  - rewrite !map_length, !lastn_length, Len, !Nat.eqb_refl. cbn [py_assert andb bind].
    set (m := {| m_d := _; m_t := _; m_dirs := _; m_stps := _; m_ro := _; m_H := _; m_pg := _; m_pl := _ |}).
    assert (Hm : holds_newest o (Z.to_nat (Z.min h h0)) acc m).
    { rewrite D1 in Hd. injection Hd as <-. unfold holds_newest, m. cbn [m_dirs m_stps m_ro]. rewrite !slice_last_lastn by lia.
      rewrite !map_lastn, !lastn_lastn. replace (Nat.min (Z.to_nat h) (Z.to_nat h0)) with (Z.to_nat (Z.min h h0)) by lia. auto. }
    eexists. split; [reflexivity|]. split; [apply Fin; [exact Hm|reflexivity]|]. split; [exact Hm|]. split; [exists al1; auto|]. repeat split.
  - cbn [bind]. assert (Hm : holds_newest o (Z.to_nat (Z.min h h0)) acc (o_mem ck)).
    { unfold holds_newest. rewrite D1, D2, D3. rewrite !(lastn_all (Z.to_nat h0)), !(lastn_all (Z.to_nat (Z.min h h0))) by lia. auto. }
    eexists. split; [reflexivity|]. split; [apply Fin; [exact Hm|reflexivity]|]. split; [exact Hm|]. split; [exists al1; auto|]. repeat split.
  - cbn [bind]. assert (Hm : holds_newest o (Z.to_nat (Z.min h h0)) acc (o_mem ck)).
    { rewrite Z.min_r by lia. unfold holds_newest. auto. }
    eexists. split; [reflexivity|]. split; [apply Fin; [exact Hm|reflexivity]|]. split; [exact Hm|]. split; [exists al1; auto|]. repeat split.
Qed.
Lemma load_same (ck : opt F) : load_optimizer_state o None ck = Ok ck. Proof. reflexivity. Qed.
(** without "al" the checkpoint cannot be loaded with new arguments *)
Lemma load_no_al g (ck : opt F) : o_al ck = None -> exists e, load_optimizer_state o (Some g) ck = Err e /\ (e = KeyError \/ e = AssertionError).
Proof.
  intros H. unfold load_optimizer_state. rewrite H.
  destruct (_ <? _)%Z; [|cbn; eauto]. destruct (m_dirs (o_mem ck)); [|cbn; eauto].
  destruct (_ <? _)%Z; [|cbn; eauto]. destruct (m_stps (o_mem ck)); [|cbn; eauto]. destruct (m_ro (o_mem ck)); [|cbn; eauto].
  unfold py_assert. destruct (_ && _)%bool; cbn; eauto.
Qed.
Lemma torch_newest h h0 dirs stps ro al : (1 <= h)%Z -> length stps = length dirs -> (Z.of_nat (length dirs) <= h0)%Z ->
  let '(dirs', stps', _, _) := load_torch o h h0 dirs stps ro al in
  dirs' = lastn (Z.to_nat h) dirs /\ stps' = lastn (Z.to_nat h) stps.
Proof.
  intros Hh Hl Hb. unfold load_torch. destruct (Z.ltb_spec h h0) as [L|L]; [destruct (Z.ltb_spec h (Z.of_nat (length dirs)))|]; cbn [andb];
    destruct (_ <? _)%Z; rewrite ?slice_last_lastn by lia; rewrite ?lastn_all by lia; auto.
Qed.
End Load.
