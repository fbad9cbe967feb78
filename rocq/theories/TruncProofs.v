From Coq Require Import Reals Lra Lia.
From Verif Require Import Base BaseLemmas Trunc TruncSpec.
Open Scope R_scope.
Open Scope res_scope.
Open Scope list_scope.

Lemma tiny_pos : 0 < tiny.
Proof. unfold tiny. apply Rinv_0_lt_compat, pow_lt. lra. Qed.

Lemma gaps_length t l : length (gaps t l) = (length l - 1)%nat.
Proof. induction l as [|a [|b l] IH]; [reflexivity|reflexivity|]. cbn [gaps length] in *. rewrite IH. lia. Qed.
Lemma gaps_nth t l : forall i, (S i < length l)%nat -> nth i (gaps t l) 0 = gap_at t (nth i l 0) (nth (i + 1) l 0).
Proof.
  induction l as [|a [|b l] IH]; intros i H; cbn in H; [lia|lia|].
  destruct i as [|i]; [reflexivity|]. cbn [gaps nth]. rewrite IH by (cbn; lia). reflexivity.
Qed.

Lemma gap_gt eps t a b : 0 <= t -> 0 < eps -> 0 <= b -> b <= a ->
  (eps < gap_at t a b <-> t <= a /\ eps * (a + tiny) < a - b).
Proof.
  intros Ht He Hb Hab. pose proof tiny_pos as Hp. unfold gap_at. destruct (Rlt_dec a t) as [h|h].
  - assert (Q : (0 - b) / (0 + tiny) <= 0).
    { unfold Rdiv. assert (0 < / (0 + tiny)) by (apply Rinv_0_lt_compat; lra). nra. }
    destruct (Rlt_dec 1 _); split; intros; lra.
  - set (q := (a - b) / (a + tiny)). assert (Eq : q * (a + tiny) = a - b) by (unfold q; field; lra).
    destruct (Rlt_dec 1 q); [exfalso; nra|]. split; [intros; split; nra|]. intros [_ H].
    apply (Rmult_lt_reg_r (a + tiny)); lra.
Qed.
Lemma gap_lt eps t a b : 0 <= t -> 0 < eps -> 0 <= b -> b <= a ->
  (gap_at t a b < eps <-> ~ (t <= a /\ eps * (a + tiny) <= a - b)).
Proof.
  intros Ht He Hb Hab. pose proof tiny_pos as Hp. unfold gap_at. destruct (Rlt_dec a t) as [h|h].
  - assert (Q : (0 - b) / (0 + tiny) <= 0).
    { unfold Rdiv. assert (0 < / (0 + tiny)) by (apply Rinv_0_lt_compat; lra). nra. }
    destruct (Rlt_dec 1 _); split; intros; lra.
  - set (q := (a - b) / (a + tiny)). assert (Eq : q * (a + tiny) = a - b) by (unfold q; field; lra).
    destruct (Rlt_dec 1 q); [exfalso; nra|]. split; [intros; nra|]. intros H.
    destruct (Rlt_dec q eps) as [|nn]; [assumption|]. exfalso. apply H. split; [lra|]. nra.
Qed.

Lemma scan_Some eps g n i : scan eps g n = Some i -> (i < n)%nat /\ eps < nth i g 0 /\ forall j, (i < j < n)%nat -> nth j g 0 <= eps.
Proof.
  induction n as [|n IH]; cbn; [discriminate|]. destruct (Rlt_dec eps (nth n g 0)) as [h|h].
  - intros [= <-]. repeat split; [lia|assumption|lia].
  - intros H. destruct (IH H) as (A & B & C). repeat split; [lia|assumption|].
    intros j Hj. destruct (Nat.eq_dec j n) as [->|]; [lra|]. apply C. lia.
Qed.
Lemma scan_None eps g n : scan eps g n = None -> forall j, (j < n)%nat -> nth j g 0 <= eps.
Proof.
  induction n as [|n IH]; cbn; [lia|]. destruct (Rlt_dec eps (nth n g 0)) as [h|h]; [discriminate|].
  intros H j Hj. destruct (Nat.eq_dec j n) as [->|]; [lra|]. apply IH; [assumption|lia].
Qed.

Lemma cut_padded {A} (z : A) chi k l : (chi <= length l)%nat -> (k < chi)%nat -> cut z chi k l = padded z l (k + 1) chi.
Proof.
  intros H1 H2. unfold cut, padded. rewrite firstn_firstn, firstn_length.
  replace (Nat.min (k + 1) chi) with (k + 1)%nat by lia. replace (Nat.min chi (length l)) with chi by lia. reflexivity.
Qed.
Lemma cut_full {A} (z : A) chi k l : (chi <= length l)%nat -> (chi <= k)%nat -> cut z chi k l = padded z l chi chi.
Proof.
  intros H1 H2. unfold cut, padded. rewrite firstn_firstn, firstn_length.
  replace (Nat.min (k + 1) chi) with chi by lia. replace (Nat.min chi (length l)) with chi by lia.
  replace (chi - (k + 1))%nat with 0%nat by lia. rewrite Nat.sub_diag. reflexivity.
Qed.
Lemma padded_length {A} (z : A) l n chi : (n <= chi <= length l)%nat -> length (padded z l n chi) = chi.
Proof. intros H. unfold padded. rewrite app_length, firstn_length, repeat_length. lia. Qed.

(** the position found by the code is a good cut of the magnitudes *)
Lemma chi_new_spec eps t m chi : 0 <= t -> 0 < eps -> descending m -> (1 <= chi < length m)%nat ->
  exists k, chi_new eps (gaps t m) chi = Ok k /\
    ((k < chi)%nat \/ k = chi) /\ good_cut eps t m chi (Nat.min (k + 1) chi).
Proof.
  intros Ht He [HS HP] Hc.
  assert (HN : forall i, 0 <= nth i m 0).
  { intros i. destruct (Nat.lt_ge_cases i (length m)); [apply HP, nth_In; assumption|rewrite nth_overflow by assumption; lra]. }
  assert (G1 : forall i, (i < chi)%nat -> (eps < nth i (gaps t m) 0 <-> separated eps t m i)).
  { intros i Hi. rewrite gaps_nth by lia. apply gap_gt; auto. apply HS. lia. }
  assert (G2 : nth (chi - 1) (gaps t m) 0 < eps <-> ~ separated_weakly eps t m (chi - 1)).
  { rewrite gaps_nth by lia. apply gap_lt; auto. apply HS. lia. }
  unfold chi_new. destruct chi as [|c]; [lia|].
  destruct (nth_error (gaps t m) c) as [x|] eqn:Ex.
  2:{ apply nth_error_None in Ex. rewrite gaps_length in Ex. lia. }
  assert (x = nth (S c - 1) (gaps t m) 0) as -> by (apply nth_error_nth with (d := 0) in Ex; rewrite <- Ex; f_equal; lia).
  destruct (Rlt_dec _ eps) as [h|h].
  - destruct (scan eps (gaps t m) (S c)) as [i|] eqn:Es.
    + apply scan_Some in Es. destruct Es as (A & B & C). exists i. split; [reflexivity|]. split; [left; assumption|].
      assert (i <> c) by (intros ->; replace (S c - 1)%nat with c in h by lia; lra).
      replace (Nat.min (i + 1) (S c)) with (i + 1)%nat by lia. split; [lia|]. right. split; [lia|].
      split; [tauto|]. replace (i + 1 - 1)%nat with i by lia. split; [apply G1; [lia|assumption]|].
      intros j Hj Hsep. apply G1 in Hsep; [|lia]. specialize (C j ltac:(lia)). lra.
    + exists (S c). split; [reflexivity|]. split; [auto|]. replace (Nat.min (S c + 1) (S c)) with (S c) by lia.
      split; [lia|]. left. split; [reflexivity|]. right. intros i Hi Hsep. apply G1 in Hsep; [|assumption].
      pose proof (scan_None _ _ _ Es i Hi). lra.
  - exists (S c). split; [reflexivity|]. split; [auto|]. replace (Nat.min (S c + 1) (S c)) with (S c) by lia.
    split; [lia|]. left. split; [reflexivity|]. left.
    pose proof (gap_lt eps t (nth (S c - 1) m 0) (nth (S c - 1 + 1) m 0) Ht He (HN _)) as GL.
    rewrite gaps_nth in h by lia. unfold separated_weakly.
    assert (D : nth (S c - 1 + 1) m 0 <= nth (S c - 1) m 0) by (apply HS; lia).
    specialize (GL D). destruct (Rle_dec t (nth (S c - 1) m 0)) as [a|a]; [|exfalso; apply h, GL; tauto].
    destruct (Rle_dec (eps * (nth (S c - 1) m 0 + tiny)) (nth (S c - 1) m 0 - nth (S c - 1 + 1) m 0)) as [b|b]; [tauto|].
    exfalso. apply h, GL. tauto.
Qed.

Lemma cut_eq {A} (z : A) chi k l : (chi <= length l)%nat -> ((k < chi)%nat \/ k = chi) -> cut z chi k l = padded z l (Nat.min (k + 1) chi) chi.
Proof.
  intros H [Hk|Hk].
  - rewrite cut_padded by assumption. f_equal. lia.
  - rewrite cut_full by lia. f_equal. lia.
Qed.

(** restriction of a descending list *)
Lemma nth_firstn {A} (d : A) n l i : (i < n)%nat -> nth i (firstn n l) d = nth i l d.
Proof. revert l i. induction n as [|n IH]; intros [|x l] [|i] H; cbn; try reflexivity; try lia. apply IH. lia. Qed.
Lemma descending_firstn m n : descending m -> descending (firstn n m).
Proof.
  intros [H1 H2]. split.
  - intros i j H. rewrite firstn_length in H. rewrite !nth_firstn by lia. apply H1. lia.
  - intros x Hx. apply H2. rewrite <- (firstn_skipn n m). apply in_or_app. now left.
Qed.
Lemma good_cut_firstn eps t m chi n : (chi < length m)%nat -> good_cut eps t (firstn (chi + 1) m) chi n -> good_cut eps t m chi n.
Proof.
  intros HL. unfold good_cut, separated, separated_weakly. intros [H0 H]. split; [assumption|].
  assert (E : forall i, (i < chi + 1)%nat -> nth i (firstn (chi + 1) m) 0 = nth i m 0) by (intros; apply nth_firstn; assumption).
  destruct H as [[-> H]|(H1 & H2 & H3 & H4)]; [left|right].
  - split; [reflexivity|]. rewrite !E in H by lia. destruct H as [H|H]; [left; assumption|right].
    intros i Hi. specialize (H i Hi). rewrite !E in H by lia. assumption.
  - rewrite !E in H2, H3 by lia. repeat split; try assumption; try tauto.
    intros i Hi. specialize (H4 i Hi). rewrite !E in H4 by lia. assumption.
Qed.

Section S.
Variable Col : Type.
Variable zcol : Col.
Notation usv := (usv Col).

Lemma svd_keep d U Sv V chi eps t : d = (U, Sv, V) -> 0 <= t -> 0 < eps -> descending Sv ->
  length U = length Sv -> length V = length Sv -> (1 <= chi < length Sv)%nat ->
  exists n, trunc_full Col zcol true d chi eps t = Ok (padded zcol U n chi, padded 0 Sv n chi, padded zcol V n chi) /\ good_cut eps t Sv chi n.
Proof.
  intros -> Ht He HD HU HV Hc. unfold trunc_full, keep_multiplets.
  replace (Nat.ltb chi (length Sv)) with true by (symmetry; apply Nat.ltb_lt; lia). cbn [andb].
  destruct (chi_new_spec eps t (firstn (chi + 1) Sv) chi Ht He (descending_firstn _ _ HD)) as (k & E & Hk & G).
  { rewrite firstn_length. lia. }
  rewrite E. cbn [bind]. exists (Nat.min (k + 1) chi). split; [|apply good_cut_firstn; [lia|assumption]].
  rewrite (cut_eq 0 chi k Sv) by lia. rewrite padded_length by lia. rewrite !cut_eq by lia. reflexivity.
Qed.

Lemma svd_arnoldi_keep dec U Sv V chi eps t : dec (chi + 1)%nat = (U, Sv, V) -> 0 <= t -> 0 < eps -> descending Sv ->
  length U = length Sv -> length V = length Sv -> length Sv = (chi + 1)%nat -> (1 <= chi)%nat ->
  exists n, trunc_arnoldi Col zcol true dec chi eps t = Ok (padded zcol U n chi, padded 0 Sv n chi, padded zcol V n chi) /\ good_cut eps t Sv chi n.
Proof.
  intros HE Ht He HD HU HV HS Hc. unfold trunc_arnoldi. rewrite HE.
  destruct (chi_new_spec eps t Sv chi Ht He HD) as (k & E & Hk & G); [lia|].
  rewrite E. cbn [bind]. exists (Nat.min (k + 1) chi). split; [|assumption].
  rewrite (cut_eq 0 chi k Sv) by lia. rewrite padded_length by lia. rewrite !cut_eq by lia. reflexivity.
Qed.

Lemma eig_keep D U chi eps t : 0 <= t -> 0 < eps -> descending (map Rabs D) ->
  length U = length D -> (1 <= chi < length D)%nat ->
  exists n, trunc_eig Col zcol true (D, U) chi eps t = Ok (padded 0 D n chi, padded zcol U n chi) /\ good_cut eps t (map Rabs D) chi n.
Proof.
  intros Ht He HD HU Hc. unfold trunc_eig.
  replace (Nat.ltb chi (length D)) with true by (symmetry; apply Nat.ltb_lt; lia). cbn [andb].
  rewrite <- firstn_map.
  destruct (chi_new_spec eps t (firstn (chi + 1) (map Rabs D)) chi Ht He (descending_firstn _ _ HD)) as (k & E & Hk & G).
  { rewrite firstn_length, map_length. lia. }
  rewrite E. cbn [bind]. exists (Nat.min (k + 1) chi). split; [|apply good_cut_firstn; [rewrite map_length; lia|assumption]].
  rewrite (cut_eq 0 chi k D) by lia. rewrite padded_length by lia. rewrite !cut_eq by lia. reflexivity.
Qed.

Lemma eig_arnoldi_keep dec D U chi eps t : dec (chi + 1)%nat = (D, U) -> 0 <= t -> 0 < eps -> descending (map Rabs D) ->
  length U = length D -> length D = (chi + 1)%nat -> (1 <= chi)%nat ->
  exists n, trunc_eig_arnoldi Col zcol true dec chi eps t = Ok (padded 0 D n chi, padded zcol U n chi) /\ good_cut eps t (map Rabs D) chi n.
Proof.
  intros HE Ht He HD HU HL Hc. unfold trunc_eig_arnoldi. rewrite HE.
  destruct (chi_new_spec eps t (map Rabs D) chi Ht He HD) as (k & E & Hk & G); [rewrite map_length; lia|].
  rewrite E. cbn [bind]. exists (Nat.min (k + 1) chi). split; [|assumption].
  rewrite (cut_eq 0 chi k D) by lia. rewrite padded_length by lia. rewrite !cut_eq by lia. reflexivity.
Qed.

(** every kept value exceeds every dropped one by the relative gap *)
Lemma cut_separates eps t m chi n i j : 0 <= t -> 0 < eps -> eps <= 1 -> descending m -> (chi < length m)%nat -> good_cut eps t m chi n ->
  (n < chi)%nat -> (i < n)%nat -> (n <= j < length m)%nat -> eps * (nth i m 0 + tiny) < nth i m 0 - nth j m 0.
Proof.
  intros Ht He He1 [HS HP] HL [_ [[-> _]|(_ & _ & [_ H] & _)]] Hn Hi Hj; [lia|].
  replace (n - 1 + 1)%nat with n in H by lia.
  pose proof (HS n j ltac:(lia)). pose proof (HS i (n - 1)%nat ltac:(lia)). nra.
Qed.

(** ** sizes *)
Lemma full_sizes keep U Sv V chi eps t : length U = length Sv -> length V = length Sv -> (1 <= chi)%nat ->
  exists U' S' V', trunc_full Col zcol keep (U, Sv, V) chi eps t = Ok (U', S', V') /\
    length S' = Nat.min chi (length Sv) /\ length U' = length S' /\ length V' = length S'.
Proof.
  intros HU HV Hc. unfold trunc_full. destruct (keep && Nat.ltb chi (length Sv)) eqn:E.
  - apply andb_true_iff in E. destruct E as [_ E]. apply Nat.ltb_lt in E. unfold keep_multiplets.
    destruct (chi_new eps _ chi) as [k|er] eqn:Ek.
    + cbn [bind]. eexists _, _, _. split; [reflexivity|].
      assert (LC : forall A (z : A) n (l : list A), (n <= length l)%nat -> length (cut z n k l) = n).
      { intros A z n l Hl. unfold cut. rewrite app_length, !firstn_length, repeat_length. lia. }
      rewrite !LC; lia.
    + exfalso. unfold chi_new in Ek. destruct chi as [|c]; [lia|].
      destruct (nth_error _ c) eqn:En; [discriminate|]. apply nth_error_None in En. rewrite gaps_length, firstn_length in En. lia.
  - cbn [head]. eexists _, _, _. split; [reflexivity|]. rewrite !firstn_length. lia.
Qed.
Lemma eig_sizes keep D U chi eps t : length U = length D -> (1 <= chi)%nat ->
  exists D' U', trunc_eig Col zcol keep (D, U) chi eps t = Ok (D', U') /\
    length D' = Nat.min chi (length D) /\ length U' = length D'.
Proof.
  intros HU Hc. unfold trunc_eig. destruct (keep && Nat.ltb chi (length D)) eqn:E.
  - apply andb_true_iff in E. destruct E as [_ E]. apply Nat.ltb_lt in E.
    destruct (chi_new eps _ chi) as [k|er] eqn:Ek.
    + cbn [bind]. eexists _, _. split; [reflexivity|].
      assert (LC : forall A (z : A) n (l : list A), (n <= length l)%nat -> length (cut z n k l) = n).
      { intros A z n l Hl. unfold cut. rewrite app_length, !firstn_length, repeat_length. lia. }
      rewrite !LC; lia.
    + exfalso. unfold chi_new in Ek. destruct chi as [|c]; [lia|].
      destruct (nth_error _ c) eqn:En; [discriminate|]. apply nth_error_None in En. rewrite gaps_length, map_length, firstn_length in En. lia.
  - eexists _, _. split; [reflexivity|]. rewrite !firstn_length. lia.
Qed.
Lemma arnoldi_sizes keep dec chi eps t : (forall k, let '(U, Sv, V) := dec k in length U = k /\ length Sv = k /\ length V = k) -> (1 <= chi)%nat ->
  exists U' S' V', trunc_arnoldi Col zcol keep dec chi eps t = Ok (U', S', V') /\
    length S' = chi /\ length U' = chi /\ length V' = chi.
Proof.
  intros HD Hc. unfold trunc_arnoldi. specialize (HD (chi + (if keep then 1 else 0))%nat).
  destruct (dec _) as [[U Sv] V]. destruct HD as (A & B & C). destruct keep.
  - destruct (chi_new eps _ chi) as [k|er] eqn:Ek.
    + cbn [bind]. eexists _, _, _. split; [reflexivity|].
      assert (LC : forall A (z : A) n (l : list A), (n <= length l)%nat -> length (cut z n k l) = n).
      { intros A0 z n l Hl. unfold cut. rewrite app_length, !firstn_length, repeat_length. lia. }
      rewrite !LC; lia.
    + exfalso. unfold chi_new in Ek. destruct chi as [|c]; [lia|].
      destruct (nth_error _ c) eqn:En; [discriminate|]. apply nth_error_None in En. rewrite gaps_length in En. lia.
  - eexists _, _, _. split; [reflexivity|]. lia.
Qed.

Lemma propack_untruncated dec chi extra eps t : (forall k, let '(U, Sv, V) := dec k in length U = k /\ length Sv = k /\ length V = k) ->
  exists U Sv V, trunc_propack Col zcol false dec chi extra eps t = Ok (U, Sv, V) /\ length Sv = (chi + Nat.max extra 1)%nat.
Proof.
  intros HD. unfold trunc_propack. specialize (HD (chi + Nat.max extra 1)%nat). destruct (dec _) as [[U Sv] V].
  cbn [andb]. eexists _, _, _. split; [reflexivity|]. lia.
Qed.

(** without the extra eigenvalue the loop runs over the end unless it leaves early *)
Lemma find_multiplets_end eps t D2 : 0 <= t -> forall k i, length D2 = (i + k)%nat -> (1 <= k)%nat ->
  (forall j, (j < length D2)%nat -> t <= nth j D2 0) ->
  forall l m, find_multiplets eps t D2 (seq i k) l m = Err IndexError.
Proof.
  intros Ht k. induction k as [|k IH]; intros i HL Hk HD l m; [lia|]. cbn [seq find_multiplets].
  destruct (nth_error D2 i) as [a|] eqn:Ea; [|reflexivity].
  destruct (nth_error D2 (i + 1)) as [b|] eqn:Eb; [|reflexivity].
  assert (i + 1 < length D2)%nat by (apply nth_error_Some; congruence).
  assert (t <= b) by (apply nth_error_nth with (d := 0) in Eb; rewrite <- Eb; apply HD; lia).
  destruct (Rlt_dec eps (a - b)); [destruct (Rlt_dec b t); [lra|]|]; apply IH; try lia; assumption.
Qed.
Lemma lobpcg_raises resolve dec D2 U chi eps t : 0 <= t -> dec (chi + 0)%nat = (D2, U) -> length D2 = chi -> (1 <= chi)%nat ->
  (forall j, (j < length D2)%nat -> t <= nth j D2 0) ->
  trunc_lobpcg Col zcol resolve false dec chi eps t = Err IndexError.
Proof.
  intros Ht HE HL Hc HD. unfold trunc_lobpcg. rewrite HE. rewrite find_multiplets_end; auto; lia.
Qed.
End S.

(** the leading chi values inside one multiplet *)
Lemma multiplet_split_example : trunc_full nat 0%nat true ([1; 2; 3]%nat, [1; 1; 1], [4; 5; 6]%nat) 2 (/ 10) 0
  = Ok ([1; 2]%nat, [1; 1], [4; 5]%nat).
Proof.
  unfold trunc_full. cbn [length Nat.ltb Nat.leb andb]. unfold keep_multiplets, chi_new.
  assert (G : gap_at 0 1 1 = 0).
  { unfold gap_at. destruct (Rlt_dec 1 0); [lra|]. destruct (Rlt_dec 1 _) as [h|h]; [reflexivity|].
    unfold Rdiv. rewrite Rminus_eq_0. ring. }
  cbn [firstn gaps Nat.add nth_error]. rewrite !G. destruct (Rlt_dec 0 (/ 10)) as [_|n]; [|lra].
  cbn [scan nth]. destruct (Rlt_dec (/ 10) 0); [lra|]. cbn. reflexivity.
Qed.

Lemma multiplet_cut_example : descending [4; 2; 2; 2; 1] /\
  trunc_full nat 0%nat true ([1; 2; 3; 4; 5]%nat, [4; 2; 2; 2; 1], [1; 2; 3; 4; 5]%nat) 3 (/ 10) 0
  = Ok ([1; 0; 0]%nat, [4; 0; 0], [1; 0; 0]%nat).
Proof.
  split.
  { split; [|cbn; intros x [<-|[<-|[<-|[<-|[<-|[]]]]]]; lra].
    intros i j. cbn [length]. intros H.
    destruct i as [|[|[|[|[|i]]]]]; destruct j as [|[|[|[|[|j]]]]]; cbn; try lra; lia. }
  unfold trunc_full. cbn [length Nat.ltb Nat.leb andb]. unfold keep_multiplets, chi_new.
  assert (G : gap_at 0 2 2 = 0).
  { unfold gap_at. destruct (Rlt_dec 2 0); [lra|]. destruct (Rlt_dec 1 _) as [h|h]; [reflexivity|].
    unfold Rdiv. rewrite Rminus_eq_0. ring. }
  assert (T : tiny <= 1).
  { unfold tiny. rewrite <- Rinv_1. apply Rinv_le_contravar; [lra|]. apply pow_R1_Rle. lra. }
  assert (G2 : / 10 < gap_at 0 4 2) by (apply gap_gt; try lra; split; lra).
  cbn [firstn gaps Nat.add nth_error]. rewrite !G. destruct (Rlt_dec 0 (/ 10)) as [_|n]; [|lra].
  cbn [scan nth]. destruct (Rlt_dec (/ 10) 0); [lra|]. destruct (Rlt_dec (/ 10) (gap_at 0 4 2)); [|lra].
  cbn. reflexivity.
Qed.

Lemma whole_multiplet : exists U V chi eps,
  trunc_full nat 0%nat true (U, [1; 1; 1], V) chi eps 0 = Ok ([1; 2]%nat, [1; 1], [4; 5]%nat) /\
  ~ separated_weakly eps 0 [1; 1; 1] (chi - 1).
Proof.
  exists [1; 2; 3]%nat, [4; 5; 6]%nat, 2%nat, (/ 10). split; [exact multiplet_split_example|].
  unfold separated_weakly. cbn. pose proof tiny_pos. intros [_ H0]. lra.
Qed.
