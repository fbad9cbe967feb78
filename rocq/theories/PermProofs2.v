(** The loops of cycleDecomp. *)
From Verif Require Import Base BaseLemmas Tensor Perm PermSpec PermProofs.
From Coq Require Import Permutation.
Open Scope list_scope.
Open Scope nat_scope.

Lemma remove_app x a b : ~ In x a -> In x b -> exists b', list_remove x (a ++ b) = Ok (a ++ b') /\ Permutation b (x :: b').
Proof. induction a as [|y a IH]; intros Ha Hb; cbn [app list_remove].
  - induction b as [|y b IHb]; [destruct Hb|]. cbn [list_remove]. destruct (Nat.eqb_spec y x) as [->|N].
    + exists b. split; [reflexivity|reflexivity].
    + destruct Hb as [->|Hb]; [congruence|]. destruct (IHb Hb) as (b' & E & P). rewrite E. cbn [bind].
      exists (y :: b'). split; [reflexivity|]. rewrite P. apply perm_swap.
  - rewrite (proj2 (Nat.eqb_neq y x)) by (intros ->; apply Ha; now left).
    destruct (IH ltac:(intros H; apply Ha; now right) Hb) as (b' & E & P). rewrite E. exists b'. split; [reflexivity|exact P]. Qed.

Lemma cyc_closed sigma c x : cyc sigma c -> In x c -> In (nth x sigma 0) c.
Proof. intros [Hn Hp] Hx. rewrite path_nth in Hp. destruct (In_nth_pos c x Hx) as (k & Hk & <-). rewrite Hp by exact Hk.
  destruct c as [|a c]; [contradiction|]. cbn [hd]. destruct (Nat.eq_dec k (length c)) as [->|N].
  - cbn [app nth]. rewrite app_nth2, Nat.sub_diag by lia. now left.
  - rewrite app_nth1 by (cbn in *; lia). apply nth_In. cbn in *; lia. Qed.

(** every element of a cycle is the image of an element of the cycle *)
Lemma cyc_onto sigma c y : cyc sigma c -> In y c -> exists x, In x c /\ nth x sigma 0 = y.
Proof. intros [Hn Hp] Hy. rewrite path_nth in Hp. destruct (In_nth_pos c y Hy) as ([|k] & Hk & E).
  - exists (nth (length c - 1) c 0). split; [apply nth_In; lia|]. rewrite Hp by lia. replace (S (length c - 1)) with (length c) by lia.
    rewrite app_nth2, Nat.sub_diag by lia. cbn. destruct c; [contradiction|]. exact E.
  - exists (nth k c 0). split; [apply nth_In; lia|]. rewrite Hp by lia. rewrite app_nth1 by lia. exact E. Qed.

Section Loop.
Variable sigma : list nat.
Hypothesis Hs : is_permutation sigma.
Notation n := (length sigma).

Lemma nth_err k : k < n -> nth_error sigma k = Some (nth k sigma 0).
Proof. intros H. now apply nth_error_nth'. Qed.

Lemma cycle_loop_ok cl leaders start fuel : forall step cy rest,
  length rest < fuel -> Forall (cyc sigma) cl ->
  (forall x, In x leaders -> In x (concat cl)) ->
  Permutation (concat cl ++ cy ++ rest) (seq 0 n) ->
  (exists c0, cy = c0 ++ [step] /\ path sigma c0 step) -> hd 0 cy = start ->
  exists cy' rest', cycle_loop fuel sigma start step cy (leaders ++ start :: rest) = Ok (cy', leaders ++ start :: rest') /\
    cyc sigma cy' /\ hd 0 cy' = start /\ Permutation (cy' ++ rest') (cy ++ rest) /\ length rest' <= length rest.
Proof. destruct (perm_facts sigma Hs) as (Pd & Pr & Pi).
  induction fuel as [|fuel IH]; intros step cy rest Hfu Hcl Hl Hp (c0 & -> & Hpath) Hhd; [lia|].
  assert (Hd : NoDup (concat cl ++ (c0 ++ [step]) ++ rest)) by (eapply Permutation_NoDup; [symmetry; exact Hp|apply seq_NoDup]).
  assert (Hst : step < n).
  { assert (I : In step (seq 0 n)) by (eapply Permutation_in; [exact Hp|]; apply in_or_app; right; apply in_or_app; left; apply in_or_app; right; now left).
    apply in_seq in I. lia. }
  cbn [cycle_loop]. rewrite (nth_err step Hst). set (x := nth step sigma 0).
  destruct (Nat.eqb_spec x start) as [E|Ne].
  - exists (c0 ++ [step]), rest. split; [reflexivity|]. split; [|split; [exact Hhd|split; [reflexivity|lia]]].
    split; [now destruct c0|]. rewrite Hhd. apply path_snoc. split; [exact Hpath|exact E].
  - assert (Hx : x < n) by (now apply Pr).
    assert (Nc : ~ In x (concat cl)).
    { intros H. apply in_concat in H as (c & Hc & Hxc). rewrite Forall_forall in Hcl.
      destruct (cyc_onto sigma c x (Hcl c Hc) Hxc) as (w & Hw & Ew).
      assert (Hwn : w < n).
      { assert (I : In w (seq 0 n)) by (eapply Permutation_in; [exact Hp|]; apply in_or_app; left; apply in_concat; exists c; now split).
        apply in_seq in I. lia. }
      assert (w = step) by (apply (nth_inj sigma); assumption). subst w.
      assert (I1 : In step (concat cl)) by (apply in_concat; exists c; now split).
      clear - Hd I1. induction (concat cl) as [|a l IHl]; [destruct I1|]. cbn in Hd. inversion Hd as [|? ? H1 H2]; subst. destruct I1 as [->|I1]; [|now apply IHl].
      apply H1. apply in_or_app. right. apply in_or_app. left. apply in_or_app. right. now left. }
    assert (Hd2 : NoDup ((c0 ++ [step]) ++ rest)).
    { clear - Hd. induction (concat cl) as [|a l IHl]; [exact Hd|]. apply IHl. now inversion Hd. }
    assert (Ny : ~ In x (c0 ++ [step])).
    { intros H. destruct (In_nth_pos _ x H) as ([|k] & Hk & Ek).
      - destruct (c0 ++ [step]) as [|h t] eqn:Ec; [now destruct c0|]. cbn in Ek, Hhd. congruence.
      - rewrite app_length in Hk. cbn in Hk. rewrite path_nth in Hpath. specialize (Hpath k ltac:(lia)). rewrite Ek in Hpath.
        assert (Hk2 : nth k c0 0 < n).
        { assert (I : In (nth k c0 0) (seq 0 n)) by (eapply Permutation_in; [exact Hp|]; apply in_or_app; right; apply in_or_app; left; apply in_or_app; left; apply nth_In; lia).
          apply in_seq in I. lia. }
        assert (nth k c0 0 = step) by (apply (nth_inj sigma); assumption).
        rewrite <- app_assoc in Hd2. apply (NoDup_remove_2 c0 rest step) in Hd2. apply Hd2, in_or_app. left. subst step. apply nth_In; lia. }
    assert (Hr : In x rest).
    { assert (I : In x (concat cl ++ (c0 ++ [step]) ++ rest)) by (eapply Permutation_in; [symmetry; exact Hp|]; apply in_seq; lia).
      apply in_app_or in I as [I|I]; [contradiction|]. apply in_app_or in I as [I|I]; [contradiction|exact I]. }
    destruct (remove_app x (leaders ++ [start]) rest) as (rest1 & Er & P1).
    { intros H. apply in_app_or in H as [H|[H|[]]]; [apply Nc; now apply Hl|congruence]. } { exact Hr. }
    rewrite <- !app_assoc in Er. cbn [app] in Er. rewrite Er. cbn [bind].
    destruct (IH x ((c0 ++ [step]) ++ [x]) rest1) as (cy' & rest' & E' & C' & H' & P' & L').
    + apply Permutation_length in P1. cbn in P1. lia.
    + exact Hcl.
    + exact Hl.
    + rewrite <- Hp. apply Permutation_app_head. rewrite <- app_assoc. apply Permutation_app_head. cbn. now rewrite P1.
    + exists (c0 ++ [step]). split; [reflexivity|]. apply path_snoc. split; [exact Hpath|reflexivity].
    + destruct c0; exact Hhd.
    + exists cy', rest'. split; [exact E'|]. split; [exact C'|]. split; [exact H'|]. split.
      * rewrite P'. rewrite <- app_assoc. apply Permutation_app_head. cbn. now rewrite P1.
      * apply Permutation_length in P1. cbn in P1. lia. Qed.

Lemma start_loop_ok fuel : forall leaders rest cl parity,
  length rest < fuel -> Forall (cyc sigma) cl -> (forall x, In x leaders -> In x (concat cl)) ->
  Permutation (concat cl ++ rest) (seq 0 n) -> parity = sign_of (flips cl) ->
  exists cl', start_loop fuel sigma (length leaders) (leaders ++ rest) cl parity = Ok (cl', sign_of (flips cl')) /\
    Forall (cyc sigma) cl' /\ Permutation (concat cl') (seq 0 n).
Proof. induction fuel as [|fuel IH]; intros leaders rest cl parity Hfu Hcl Hl Hp Hpar; [lia|]. cbn [start_loop].
  destruct rest as [|start rest].
  - rewrite app_nil_r in *. rewrite (proj2 (nth_error_None leaders (length leaders))) by lia. exists cl. rewrite Hpar. now split.
  - rewrite nth_error_app2, Nat.sub_diag by lia. cbn [nth_error].
    destruct (cycle_loop_ok cl leaders start (S n) start [start] rest) as (cy & rest' & E & C & Hh & P & L).
    + apply Permutation_length in Hp. rewrite app_length, seq_length in Hp. cbn in Hp. lia.
    + exact Hcl. + exact Hl. + exact Hp. + exists []. now split. + reflexivity.
    + rewrite E. cbn [bind].
      assert (X : leaders ++ start :: rest' = (leaders ++ [start]) ++ rest') by (now rewrite <- app_assoc).
      rewrite X. replace (S (length leaders)) with (length (leaders ++ [start])) by (rewrite app_length; cbn; lia).
      apply IH.
      * cbn in Hfu. lia.
      * apply Forall_app. split; [exact Hcl|]. now constructor.
      * rewrite concat_app. cbn. rewrite app_nil_r. intros x Hx. apply in_or_app. apply in_app_or in Hx as [Hx|[<-|[]]]; [left; now apply Hl|right].
        destruct C as [Cn _]. destruct cy; [contradiction|]. now left.
      * rewrite concat_app. cbn. rewrite app_nil_r, <- app_assoc, P. exact Hp.
      * rewrite Hpar. unfold flips. rewrite map_app, list_sum_app. cbn [map list_sum fold_right]. rewrite Nat.add_0_r.
        assert (Hlen : 0 < length cy) by (destruct C as [Cn _]; destruct cy; [contradiction|cbn; lia]).
        replace (Z.of_nat (length cy) - 1)%Z with (Z.of_nat (length cy - 1)) by lia.
        generalize (list_sum (map (fun c => length c - 1) cl)) (length cy - 1). clear. intros a b.
        assert (B : ((-1) ^ Z.of_nat b = sign_of b)%Z).
        { induction b as [|b IHb]; [reflexivity|]. rewrite Nat2Z.inj_succ, Z.pow_succ_r by lia. rewrite IHb. unfold sign_of.
          rewrite Nat.even_succ, <- Nat.negb_even. now destruct (Nat.even b). }
        rewrite B. unfold sign_of. rewrite Nat.even_add. now destruct (Nat.even a), (Nat.even b). Qed.

Lemma list_index_ok x l : In x l -> exists i, list_index x l = Ok i.
Proof. induction l as [|a l IH]; intros H; [destruct H|]. cbn [list_index]. destruct (Nat.eqb_spec a x); [now exists 0|].
  destruct H as [->|H]; [congruence|]. destruct (IH H) as [i ->]. now exists (S i). Qed.
Lemma list_index_err x l : ~ In x l -> list_index x l = Err ValueError.
Proof. induction l as [|a l IH]; intros H; [reflexivity|]. cbn [list_index]. rewrite (proj2 (Nat.eqb_neq a x)) by (intros ->; apply H; now left).
  rewrite IH by (intros Hi; apply H; now right). reflexivity. Qed.

Lemma cyc_is_cycle c : (forall x, In x c -> x < n) -> cyc sigma c -> is_cycle sigma c.
Proof. intros Hr [Hn Hp]. split; [exact Hn|]. intros i Hi. rewrite path_nth in Hp. rewrite nth_err by (apply Hr, nth_In, Hi).
  rewrite Hp by exact Hi. f_equal. destruct (Nat.eq_dec (S i) (length c)) as [E|N].
  - rewrite E. rewrite app_nth2, Nat.sub_diag by lia. replace (i + 1) with (length c) by lia. rewrite Nat.mod_same by lia. now destruct c.
  - rewrite app_nth1 by lia. rewrite Nat.mod_small by lia. f_equal; lia. Qed.

Lemma sign_sg : sign_of (inversions sigma) = if sg sigma then (-1)%Z else 1%Z.
Proof. rewrite inversions_inv. unfold sign_of, sg. rewrite <- Nat.negb_even. now destruct (Nat.even _). Qed.

Lemma cycleDecomp_cyc : exists cl, cycleDecomp sigma = Ok (cl, sign_of (inversions sigma)) /\
  Forall (cyc sigma) cl /\ Permutation (concat cl) (seq 0 n).
Proof. unfold cycleDecomp. destruct (perm_facts sigma Hs) as (Pd & Pr & Pi).
  assert (M : exists r, mapM (fun i => list_index i sigma) (seq 0 n) = Ok r).
  { assert (G : forall l, (forall x, In x l -> x < n) -> exists r, mapM (fun i => list_index i sigma) l = Ok r).
    { induction l as [|a l IH]; intros H; [now exists []|]. cbn [mapM]. destruct (list_index_ok a sigma (Pi a (H a (or_introl eq_refl)))) as [i ->].
      destruct (IH (fun x Hx => H x (or_intror Hx))) as [r ->]. now exists (i :: r). }
    apply G. intros x Hx. apply in_seq in Hx. lia. }
  destruct M as [r ->]. cbn [bind].
  destruct (start_loop_ok (S n) [] (seq 0 n) [] 1%Z) as (cl & E & C & P).
  { rewrite seq_length. lia. } { constructor. } { intros x []. } { reflexivity. } { reflexivity. }
  cbn [length app] in E. rewrite E. exists cl. split; [|now split]. f_equal. f_equal. rewrite sign_sg.
  rewrite (sign_cycles (length (concat cl) + length cl) sigma cl); try assumption.
  - unfold sign_of. rewrite <- Nat.negb_even. now destruct (Nat.even _).
  - lia.
  - eapply Permutation_NoDup; [symmetry; exact P|apply seq_NoDup].
  - intros x Hx. assert (I : In x (seq 0 n)) by (eapply Permutation_in; eassumption). apply in_seq in I. lia.
  - intros k Hk Hni. exfalso. apply Hni. eapply Permutation_in; [symmetry; exact P|]. apply in_seq. lia. Qed.

Lemma cycleDecomp_ok : exists cl, cycleDecomp sigma = Ok (cl, sign_of (inversions sigma)) /\
  Forall (is_cycle sigma) cl /\ Permutation (concat cl) (seq 0 n).
Proof. destruct cycleDecomp_cyc as (cl & E & C & P). exists cl. split; [exact E|]. split; [|exact P].
  apply Forall_forall. intros c Hc. rewrite Forall_forall in C. apply cyc_is_cycle; [|now apply C].
  intros x Hx. assert (I : In x (seq 0 n)) by (eapply Permutation_in; [exact P|apply in_concat; exists c; now split]). apply in_seq in I. lia. Qed.
End Loop.

Lemma cycleDecomp_err sigma : ~ is_permutation sigma -> cycleDecomp sigma = Err ValueError.
Proof. intros H. unfold cycleDecomp.
  assert (G : forall l, (exists x, In x l /\ ~ In x sigma) -> mapM (fun i => list_index i sigma) l = Err ValueError).
  { induction l as [|a l IH]; intros (x & Hx & Hn); [destruct Hx|]. cbn [mapM].
    destruct (in_dec Nat.eq_dec a sigma) as [I|N].
    - destruct (list_index_ok a sigma I) as [i ->]. cbn [bind]. rewrite IH; [reflexivity|]. destruct Hx as [->|Hx]; [contradiction|]. now exists x.
    - now rewrite list_index_err. }
  rewrite G; [reflexivity|].
  destruct (Forall_dec (fun x => In x sigma) (fun x => in_dec Nat.eq_dec x sigma) (seq 0 (length sigma))) as [A|A].
  - exfalso. apply H. unfold is_permutation. symmetry. apply NoDup_Permutation_bis; [apply seq_NoDup|rewrite seq_length; lia|].
    rewrite Forall_forall in A. exact A.
  - apply neg_Forall_Exists_neg in A; [|intros; apply in_dec, Nat.eq_dec]. apply Exists_exists in A. exact A. Qed.

(** ** parity is multiplicative *)
Lemma swap_ind (P : list nat -> Prop) nn : P (seq 0 nn) ->
  (forall l i j, is_permutation l -> length l = nn -> i < nn -> j < nn -> i <> j -> P (swap l i j) -> P l) ->
  forall l, is_permutation l -> length l = nn -> P l.
Proof. intros P0 Pst.
  assert (W : forall m l k, is_permutation l -> length l = nn -> k + m = nn -> (forall i, i < k -> nth i l 0 = i) -> P l).
  { induction m as [|m IH]; intros l k Hp Hl Hk Hf.
    - assert (E : l = seq 0 nn); [|now rewrite E]. apply list_nth_ext; [now rewrite seq_length|]. intros i Hi. rewrite seq_nth by lia. apply Hf. lia.
    - destruct (perm_facts l Hp) as (Pd & Pr & Pi). destruct (In_nth_pos l k (Pi k ltac:(lia))) as (j & Hj & Ej).
      destruct (Nat.eq_dec j k) as [->|N].
      + apply (IH l (S k)); try assumption; [lia|]. intros i Hi. destruct (Nat.eq_dec i k) as [->|]; [exact Ej|apply Hf; lia].
      + apply (Pst l k j Hp Hl); try lia. apply (IH (swap l k j) (S k)).
        * unfold is_permutation. rewrite length_swap. etransitivity; [apply swap_perm; lia|exact Hp].
        * now rewrite length_swap.
        * lia.
        * intros i Hi. rewrite nth_swap by lia. destruct (Nat.eqb_spec i k) as [->|]; [exact Ej|].
          destruct (Nat.eqb_spec i j) as [->|]; [|apply Hf; lia]. exfalso. assert (j < k) by lia. rewrite (Hf j) in Ej by lia. lia. }
  intros l Hp Hl. apply (W nn l 0 Hp Hl); [lia|]. intros i Hi. lia. Qed.

Lemma nth_compose s t i : i < length t -> nth i (compose s t) 0 = nth (nth i t 0) s 0.
Proof. intros H. unfold compose. rewrite (nth_indep _ 0 ((fun i => nth i s 0) 0)) by (rewrite map_length; exact H). now rewrite (map_nth (fun i => nth i s 0)). Qed.
Lemma compose_seq s : compose s (seq 0 (length s)) = s.
Proof. apply list_nth_ext; [unfold compose; now rewrite map_length, seq_length|]. intros k Hk. unfold compose in Hk. rewrite map_length, seq_length in Hk.
  rewrite nth_compose by (rewrite seq_length; exact Hk). now rewrite seq_nth. Qed.

Lemma compose_perm s t : is_permutation s -> is_permutation t -> length s = length t -> is_permutation (compose s t).
Proof. intros Hs Ht Hl. unfold is_permutation.
  assert (L : length (compose s t) = length s) by (unfold compose; rewrite map_length; congruence).
  rewrite L. transitivity s; [|exact Hs]. transitivity (compose s (seq 0 (length s))); [|rewrite compose_seq; reflexivity].
  unfold compose. apply Permutation_map. rewrite Hl. exact Ht. Qed.

Lemma sg_compose s : is_permutation s -> forall t, is_permutation t -> length t = length s -> sg (compose s t) = xorb (sg s) (sg t).
Proof. intros Hs. apply swap_ind.
  - rewrite compose_seq, sg_seq. now destruct (sg s).
  - intros l i j Hp Hl Hi Hj Hn IH.
    assert (C : compose s (swap l i j) = swap (compose s l) i j).
    { apply list_nth_ext; [unfold compose; rewrite length_swap, !map_length; apply length_swap|].
      intros k Hk. unfold compose in Hk. rewrite map_length, length_swap in Hk.
      rewrite nth_compose by (now rewrite length_swap). rewrite !nth_swap by (unfold compose; rewrite ?map_length; exact Hk).
      destruct (k =? i), (k =? j); rewrite nth_compose by lia; reflexivity. }
    rewrite C in IH. destruct (perm_facts l Hp) as (Pd & _ & _).
    assert (Pc : is_permutation (compose s l)) by (apply compose_perm; congruence).
    destruct (perm_facts _ Pc) as (Pcd & _ & _).
    rewrite sg_swap_pos in IH by (try exact Pcd; unfold compose; rewrite ?map_length; lia).
    rewrite (sg_swap_pos l) in IH by (try exact Pd; lia).
    now destruct (sg (compose s l)), (sg s), (sg l). Qed.

Lemma parity_compose s t : is_permutation s -> is_permutation t -> length s = length t ->
  exists c1 c2 c3 p1 p2, cycleDecomp s = Ok (c1, p1) /\ cycleDecomp t = Ok (c2, p2) /\ cycleDecomp (compose s t) = Ok (c3, (p1 * p2)%Z).
Proof. intros Hs Ht Hl. destruct (cycleDecomp_ok s Hs) as (c1 & E1 & _). destruct (cycleDecomp_ok t Ht) as (c2 & E2 & _).
  destruct (cycleDecomp_ok _ (compose_perm s t Hs Ht Hl)) as (c3 & E3 & _).
  exists c1, c2, c3, (sign_of (inversions s)), (sign_of (inversions t)). split; [exact E1|]. split; [exact E2|]. rewrite E3.
  f_equal. f_equal. rewrite !sign_sg, sg_compose by congruence. now destruct (sg s), (sg t). Qed.
