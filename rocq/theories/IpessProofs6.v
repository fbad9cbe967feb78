(** Linear combinations of symmetric tensors. *)
From Verif Require Import Base BaseLemmas Lattice Tensor TensorLemmas Net NetProofs2 Su3Proofs Su3Proofs4 Plaq Ipess IpessSpec IpessProofs IpessProofs2 IpessProofs5.
From Coq Require Import Ring.
Open Scope string_scope.
Open Scope list_scope.
Open Scope nat_scope.
Open Scope res_scope.

Section P.
Context {K : Type} (k0 k1 : K) (kadd kmul ksub : K -> K -> K) (kopp : K -> K) (im : K) (cj : K -> K).
Hypothesis RT : ring_theory k0 k1 kadd kmul ksub kopp (@eq K).
Add Ring KR : RT.
Notation ten := (tensor K).
Notation at3 := (at3 k0).
Notation sum_to := (sum_to k0 kadd).
Notation irrep := (irrep k0 kopp cj).
Definition dft : ten := mkT [] [].
(** *** stacks *)
Definition shp (x y z : nat) (t : ten) : Prop := twf t /\ tdims t = [x; y; z].
Lemma map_indices {B} (f : list nat -> B) n D : map f (indices (n :: D)) = concat (map (fun m => map (fun ix => f (m :: ix)) (indices D)) (seq 0 n)).
Proof. cbn [indices]. induction (seq 0 n) as [|m l IH]; [reflexivity|]. cbn [flat_map map concat]. rewrite map_app, IH, map_map. reflexivity. Qed.
Lemma nth_all {A} (d : A) l : map (fun i => nth i l d) (seq 0 (length l)) = l.
Proof. apply nth_ext with (d := d) (d' := d); rewrite map_length, seq_length; [reflexivity|]. intros i Hi. rewrite nth_map_lt with (d' := 0) by (rewrite seq_length; exact Hi). now rewrite seq_nth. Qed.
Definition b4 (n x y z : nat) (f : nat -> nat -> nat -> nat -> K) : ten := tbuild [n; x; y; z] (fun ix => match ix with [m; i; j; k] => f m i j k | _ => k0 end).
Lemma stack_ok x y z l : l <> [] -> Forall (shp x y z) l -> stack l = Ok (b4 (length l) x y z (fun m => at3 (nth m l dft))).
Proof. intros Hn H. unfold stack. destruct l as [|t l0] eqn:El; [contradiction|]. rewrite <- El in *.
  assert (Dt : tdims t = [x; y; z]) by (rewrite El in H; inversion H as [|? ? X]; apply X).
  assert (E : forallb (fun x0 => eqb (tdims x0) (tdims t)) l = true).
  { apply forallb_forall. intros t' Ht. apply BaseLemmas.eqb_true. rewrite Forall_forall in H. rewrite Dt. apply (H t' Ht). }
  rewrite E, Dt. f_equal. unfold b4, tbuild. f_equal. rewrite map_indices. f_equal. rewrite <- (nth_all dft l) at 1. rewrite map_map. apply map_ext_in. intros m Hm. apply in_seq in Hm.
  assert (S : shp x y z (nth m l dft)) by (rewrite Forall_forall in H; apply H, nth_In; lia). destruct S as (W & D). pose proof (is_b3 k0 _ _ _ _ W D) as B. rewrite B at 1. unfold b3, tbuild. cbn [tdata].
  apply map_ext_in. intros ix Hix. apply In_indices, in_range_length in Hix. destruct ix as [|i [|j [|k [|]]]]; try discriminate Hix. reflexivity. Qed.
Lemma tel_b4 n x y z f m i j k : m < n -> i < x -> j < y -> k < z -> tel k0 (b4 n x y z f) [m; i; j; k] = f m i j k.
Proof. intros. unfold tel, b4. rewrite tget_tbuild; [reflexivity|]. unfold in_range. repeat constructor; assumption. Qed.
(** *** one combination *)
Notation cof := (coefficient k0).
Lemma combine_ok n x y z c f : tdims c = [n] -> einsum k0 k1 kadd kmul [(c, [0]); (b4 n x y z f, [0; 1; 2; 3])] [1; 2; 3] = Ok (b3 k0 x y z (fun i j k => sum_to n (fun m => kmul (cof c m) (f m i j k)))).
Proof. intros Hc. unfold einsum, summed, label_dims. cbn [flat_map fst snd app]. rewrite Hc. cbn -[tbuild nsum nprod tel Nat.eqb indices b4 b3]. rewrite ?Hc.
  change (tdims (b4 n x y z f)) with [n; x; y; z].
  cbn -[tbuild nsum nprod tel indices b4 b3]. rewrite !Nat.eqb_refl. cbn -[tbuild nsum nprod tel indices b4 b3].
  f_equal. unfold b3. apply build_ext. intros ix Hix. apply In_indices in Hix. pose proof (in_range_length _ _ Hix) as L. destruct ix as [|i [|j [|k [|]]]]; try discriminate L. apply in3 in Hix. cbn [g3].
  unfold sum_to, nsum. f_equal. rewrite map_indices. cbn [indices map]. 
  transitivity (concat (map (fun m => [kmul (cof c m) (f m i j k)]) (seq 0 n))).
  - f_equal. apply map_ext_in. intros m Hm. apply in_seq in Hm. cbn -[tel b4]. f_equal. unfold nprod. cbn [fold_right]. rewrite tel_b4 by lia. unfold tel, coefficient. ring.
  - induction (seq 0 n) as [|m l IH]; [reflexivity|]. cbn. now rewrite IH. Qed.
(** *** irreps *)
Hypothesis CA : forall x y, cj (kadd x y) = kadd (cj x) (cj y).
Hypothesis CM : forall x y, cj (kmul x y) = kmul (cj x) (cj y).
Hypothesis CI : cj im = kopp im.
Notation cj0' := (cj0 k0 k1 kadd kmul ksub kopp cj RT CA).
Definition sg (pg : string) : K -> K := if existsb (String.eqb pg) ["A"; "A_1"] then fun x => x else kopp.
Lemma irrep_sg k pg t : known k pg -> (irrep k pg t <-> if is_bond k then bond_irrep k0 cj (sg pg) t else tri_irrep k0 cj (sg pg) t).
Proof. intros H. unfold IpessSpec.irrep. change (existsb (String.eqb k) ["B_a"; "B_b"; "B_c"]) with (is_bond k).
  destruct H as [(Hk & Hp)|(Hk & Hp)]; cbn [In] in Hk, Hp.
  - assert (E : is_bond k = true) by (destruct Hk as [<-|[<-|[<-|[]]]]; reflexivity). rewrite E. destruct Hp as [<-|[<-|[]]]; reflexivity.
  - assert (E : is_bond k = false) by (destruct Hk as [<-|[<-|[]]]; reflexivity). rewrite E. destruct Hp as [<-|[<-|[]]]; reflexivity. Qed.
Lemma sg_sign pg : sign k0 kadd kmul cj (sg pg).
Proof. unfold sg. destruct (existsb _ _); [apply sign_id|exact (sign_opp k0 k1 kadd kmul ksub kopp cj RT CA)]. Qed.
Lemma sg_other k pg x : known k pg -> sg (other pg) x = sg pg (kopp x).
Proof. intros [(_ & H)|(_ & H)]; cbn [In] in H; destruct H as [<-|[<-|[]]]; cbn; ring. Qed.
Lemma known_other k pg : known k pg -> known k (other pg).
Proof. intros [(Hk & H)|(Hk & H)]; [left|right]; (split; [exact Hk|]); cbn [In] in H; destruct H as [<-|[<-|[]]]; cbn; auto. Qed.
(** functions of three indices with the symmetry of an irrep *)
Definition symf (k pg : string) (f : nat -> nat -> nat -> K) : Prop :=
  if is_bond k then forall s a b, f s b a = sg pg (cj (f s a b)) else (forall a b c, f b c a = f a b c) /\ (forall a b c, f a c b = sg pg (cj (f a b c))).
Lemma symf_irrep k pg t : known k pg -> (irrep k pg t <-> symf k pg (at3 t)).
Proof. intros H. rewrite (irrep_sg k pg t H). unfold symf. destruct (is_bond k); reflexivity. Qed.
Lemma symf_im k pg f : known k pg -> symf k (other pg) f -> symf k pg (fun i j l => kmul im (f i j l)).
Proof. intros Hk H. destruct (sg_sign pg) as (S1 & S2 & S3 & S4 & S5).
  assert (E : forall x, kmul im (sg (other pg) (cj x)) = sg pg (cj (kmul im x))).
  { intros x. rewrite (sg_other k pg _ Hk), CM, CI, <- S4. f_equal. ring. }
  unfold symf in *. destruct (is_bond k); [intros s a b; rewrite H; apply E|]. destruct H as (R & H). split; intros a b c; [now rewrite R|rewrite H; apply E]. Qed.
Lemma sg_sum pg n f : sg pg (cj (sum_to n f)) = sum_to n (fun m => sg pg (cj (f m))).
Proof. destruct (sg_sign pg) as (S1 & S2 & S3 & S4 & S5). unfold IpessSpec.sum_to. induction (seq 0 n) as [|m l IH]; cbn; [rewrite cj0'; exact S5|]. now rewrite CA, S1, IH. Qed.
Lemma symf_comb k pg n c fs : (forall m, cj (cof c m) = cof c m) -> length fs = n -> Forall (symf k pg) fs -> symf k pg (combination k0 kadd kmul n c fs).
Proof. intros C L H. destruct (sg_sign pg) as (S1 & S2 & S3 & S4 & S5).
  assert (G : forall m, m < n -> symf k pg (nth m fs (fun _ _ _ => k0))) by (intros m Hm; rewrite Forall_forall in H; apply H, nth_In; lia).
  assert (E : forall m x, kmul (cof c m) (sg pg (cj x)) = sg pg (cj (kmul (cof c m) x))) by (intros m x; now rewrite CM, C, S4).
  unfold symf in *. unfold combination. destruct (is_bond k).
  - intros s a b. rewrite sg_sum. apply sum_ext. intros m Hm. rewrite (G m Hm). apply E.
  - split; intros a b d; [apply sum_ext; intros m Hm; now rewrite (proj1 (G m Hm))|]. rewrite sg_sum. apply sum_ext. intros m Hm. rewrite (proj2 (G m Hm)). apply E. Qed.
(** *** the stacked tensors *)
Lemma at3_scl x y z t i j k : shp x y z t -> at3 (tscl kmul im t) i j k = kmul im (at3 t i j k).
Proof. intros _. unfold IpessSpec.at3, tscl. rewrite tget_tmap. destruct (tget t [i; j; k]); cbn; [reflexivity|ring]. Qed.
Lemma shp_scl x y z t : shp x y z t -> shp x y z (tscl kmul im t).
Proof. intros (W & D). split; [apply twf_tmap; exact W|exact D]. Qed.
Notation two_irreps := (two_irreps kmul im).
Lemma length_two k pg l : known k pg -> (forall q t, In (q, t) l -> known k q) -> length (two_irreps pg (other pg) l) = length l.
Proof. intros Hk H. unfold Ipess.two_irreps, with_pg. rewrite app_length, !map_length. induction l as [|[q t] l IH]; [reflexivity|]. cbn [filter fst].
  specialize (IH (fun q t X => H q t (or_intror X))). assert (Q : known k q) by (apply (H q t); left; reflexivity).
  assert (D : String.eqb q pg = true /\ String.eqb q (other pg) = false \/ String.eqb q pg = false /\ String.eqb q (other pg) = true).
  { destruct Hk as [(Hk & Hp)|(Hk & Hp)], Q as [(Qk & Qp)|(Qk & Qp)]; cbn [In] in Hp, Qp.
    - destruct Hp as [<-|[<-|[]]], Qp as [<-|[<-|[]]]; cbn; auto.
    - exfalso. cbn [In] in Hk, Qk. destruct Hk as [<-|[<-|[<-|[]]]], Qk as [X|[X|[]]]; discriminate X.
    - exfalso. cbn [In] in Hk, Qk. destruct Hk as [<-|[<-|[]]], Qk as [X|[X|[X|[]]]]; discriminate X.
    - destruct Hp as [<-|[<-|[]]], Qp as [<-|[<-|[]]]; cbn; auto. }
  destruct D as [(-> & ->)|(-> & ->)]; cbn [length]; lia. Qed.
Lemma nth_ordered x y z pg l m i j k : (forall q t, In (q, t) l -> shp x y z t) -> m < length (two_irreps pg (other pg) l) ->
  at3 (nth m (two_irreps pg (other pg) l) dft) i j k = nth m (ordered k0 kmul im pg l) (fun _ _ _ => k0) i j k.
Proof. intros H Hm. unfold Ipess.two_irreps, ordered, with_pg in *. rewrite app_length, !map_length in Hm. rewrite map_map.
  set (l1 := filter (fun x => String.eqb (fst x) pg) l) in *. set (l2 := filter (fun x => String.eqb (fst x) (other pg)) l) in *.
  destruct (lt_dec m (length l1)) as [H1|H1].
  - rewrite !app_nth1 by (rewrite map_length; exact H1). rewrite !(nth_map_lt) with (d' := ("", dft)) by exact H1. reflexivity.
  - rewrite !app_nth2 by (rewrite map_length; lia). rewrite !map_length. rewrite !(nth_map_lt) with (d' := ("", dft)) by lia. apply (at3_scl x y z).
    assert (I : In (nth (m - length l1) l2 ("", dft)) l2) by (apply nth_In; lia). apply filter_In in I. destruct I as [I _]. destruct (nth (m - length l1) l2 ("", dft)) as [q t]. exact (H q t I). Qed.
Lemma basis_eq k pg l : known k pg -> basis_of kmul im k (Some pg) l = Ok (two_irreps pg (other pg) l).
Proof. intros H. unfold basis_of. destruct H as [(Hk & Hp)|(Hk & Hp)]; cbn [In] in Hk, Hp; destruct Hp as [<-|[<-|[]]].
  1,2: destruct Hk as [<-|[<-|[<-|[]]]]; reflexivity. all: destruct Hk as [<-|[<-|[]]]; reflexivity. Qed.
Lemma ordered_symf k pg l : known k pg -> (forall q t, In (q, t) l -> irrep k q t /\ known k q) -> Forall (symf k pg) (ordered k0 kmul im pg l).
Proof. intros Hk H. unfold ordered. apply Forall_app. split; apply Forall_map, Forall_forall; intros [q t] Hq; apply filter_In in Hq; destruct Hq as [Hq E]; cbn [fst snd] in *; apply String.eqb_eq in E; rewrite E in Hq; destruct (H _ _ Hq) as [I Q].
  - apply symf_irrep; assumption.
  - apply symf_im; [exact Hk|]. apply symf_irrep; assumption. Qed.
Lemma lc_one g coeffs basis : (forall k c, In (k, c) coeffs -> exists pg l x y z, dget g k = Some (Some pg) /\ known k pg /\ dget basis k = Some l /\ l <> [] /\ tdims c = [length l] /\ (forall m, cj (cof c m) = cof c m) /\
    forall q t, In (q, t) l -> known k q /\ irrep k q t /\ twf t /\ tdims t = [x; y; z]) ->
  exists e, build_elem k0 k1 kadd kmul im g coeffs basis = Ok e /\ Forall2 (fun p q => fst q = fst p /\ exists pg l, dget g (fst p) = Some (Some pg) /\ dget basis (fst p) = Some l /\ twf (snd q) /\ irrep (fst p) pg (snd q) /\
    forall i j k, at3 (snd q) i j k = combination k0 kadd kmul (length l) (snd p) (ordered k0 kmul im pg l) i j k) coeffs e.
Proof. induction coeffs as [|[k c] coeffs IH]; intros H; [exists []; split; [reflexivity|constructor]|].
  destruct IH as (e & E & F); [intros; apply H; right; assumption|].
  destruct (H k c (or_introl eq_refl)) as (pg & l & x & y & z & Eg & Hk & El & Hl & Dc & Rc & Hb). unfold build_elem in *. cbn [mapM fst snd].
  rewrite (proj2 (dget_exn_ok _ _ _) El). cbn [bind]. rewrite Eg, (basis_eq _ _ _ Hk). cbn [bind].
  assert (Ln : length (two_irreps pg (other pg) l) = length l) by (apply (length_two k pg); [exact Hk|intros q t X; apply (Hb q t X)]).
  assert (Sh : forall q t, In (q, t) l -> shp x y z t) by (intros q t X; apply (Hb q t X)).
  rewrite (stack_ok x y z).
  3: { unfold Ipess.two_irreps, with_pg. apply Forall_app. split; [|apply Forall_map]; apply Forall_map, Forall_forall; intros [q t] X; apply filter_In in X; destruct X as [X _]; cbn [snd]; [exact (Sh q t X)|apply shp_scl; exact (Sh q t X)]. }
  2: { intros X. rewrite X in Ln. destruct l; [contradiction|discriminate Ln]. }
  cbn [bind]. rewrite Ln, (combine_ok _ x y z c _ Dc). cbn [bind]. rewrite E. cbn [bind]. eexists. split; [reflexivity|]. constructor; [|exact F]. cbn [fst snd]. split; [reflexivity|]. exists pg, l.
  set (ts := two_irreps pg (other pg) l) in *.
  assert (V : forall i j d, at3 (b3 k0 x y z (fun i j k => sum_to (length l) (fun m => kmul (cof c m) (at3 (nth m ts dft) i j k)))) i j d = combination k0 kadd kmul (length l) c (ordered k0 kmul im pg l) i j d).
  { intros i j d. rewrite at3_b3.
    - unfold combination. apply (sum_ext k0 kadd). intros m Hm. f_equal. apply (nth_ordered x y z); [exact Sh|fold ts; lia].
    - intros a b e' Ho. apply (sum_zero k0 k1 kadd kmul ksub kopp RT). intros m Hm. assert (S : shp x y z (nth m ts dft)).
      { assert (I : In (nth m ts dft) ts) by (apply nth_In; lia). revert I. unfold ts, Ipess.two_irreps, with_pg. intros I. apply in_app_iff in I. destruct I as [I|I].
        - apply in_map_iff in I. destruct I as ([q t] & <- & X). apply filter_In in X. exact (Sh q t (proj1 X)).
        - apply in_map_iff in I. destruct I as (t1 & <- & X). apply in_map_iff in X. destruct X as ([q t] & <- & X). apply filter_In in X. apply shp_scl. exact (Sh q t (proj1 X)). }
      rewrite (zout_at k0 _ x y z (proj1 S) (proj2 S)) by exact Ho. ring. }
  split; [exact Eg|]. split; [exact El|]. split; [apply twf_tbuild|]. split; [|exact V].
  apply (symf_irrep k pg _ Hk).
  assert (Q : symf k pg (combination k0 kadd kmul (length l) c (ordered k0 kmul im pg l))).
  { apply symf_comb; [exact Rc| |apply ordered_symf; [exact Hk|intros q t X; destruct (Hb q t X) as (A1 & A2 & _); auto]].
    rewrite <- Ln. unfold ts, Ipess.two_irreps, with_pg, ordered. now rewrite !app_length, !map_length. }
  unfold symf in *. destruct (is_bond k); [intros; rewrite !V; apply Q|]. split; intros; rewrite !V; apply Q. Qed.
End P.
