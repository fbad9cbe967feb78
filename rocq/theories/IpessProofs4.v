(** Symmetrised, noisy and enlarged states of the kagome iPESS. *)
From Verif Require Import Base BaseLemmas Lattice Tensor TensorLemmas Net NetProofs2 Su3Proofs Su3Proofs4 Plaq Ipess IpessSpec IpessProofs IpessProofs2 IpessProofs3.
From Coq Require Import Ring.
Open Scope string_scope.
Open Scope list_scope.
Open Scope nat_scope.
Open Scope res_scope.

Section P.
Context {K : Type} (k0 k1 : K) (kadd kmul ksub : K -> K -> K) (kopp : K -> K) (kdiv : K -> K -> K) (half third : K) (cj : K -> K) (amax : list K -> K).
Hypothesis RT : ring_theory k0 k1 kadd kmul ksub kopp (@eq K).
Add Ring KR : RT.
Notation ten := (tensor K).
Notation elts := (dict string ten).
Notation at3 := (at3 k0).
Notation onsite := (onsite k0 k1 kadd kmul kdiv amax).
Notation mk_pg := (mk_pg k0 k1 kadd kmul ksub kdiv half third cj amax).
Notation to_pg := (to_pg k0 kadd kmul ksub half third cj).
Notation add_noise := (add_noise k0 k1 kadd kmul ksub kdiv half third cj amax).
Notation extend_pg := (extend_pg k0 k1 kadd kmul ksub kdiv half third cj amax).
Notation is_onsite := (is_onsite k0 kadd kmul kdiv amax).
Notation amplitude := (amplitude k0 kadd kmul).
Notation all_amplitudes := (all_amplitudes k0 kadd kmul).
Notation made_symmetric := (made_symmetric k0 kadd kmul kopp cj ksub half third).
Notation finish := (finish k0 k1 kadd kmul kdiv amax).
Notation st := (@pgstate K).
Lemma SR : semi_ring_theory k0 k1 kadd kmul (@eq K).
Proof. constructor; intros; ring. Qed.

(** *** from tensors to states *)
Notation site_of := (site_of k0 kadd kmul kdiv amax).
Lemma finish_ok ud bs g e F pa pb pc D : tensors_of ud bs e = Some F -> usable F pa pb pc D -> exists s, finish ud bs g e = Ok s /\ sud s = ud /\ sbs s = bs /\ pgs s = g /\ elem s = e /\ site_of s F pa pb pc D.
Proof. intros H U. destruct (site_ok k0 k1 kadd kmul kdiv amax SR F pa pb pc D (cellA F) U) as (A & EA & IA); [repeat split|].
  unfold IpessProofs3.finish. rewrite H, EA. cbn [bind]. eexists. split; [reflexivity|]. unfold IpessSpec.site_of. cbn [sud sbs pgs elem ipess sites]. repeat (split; [reflexivity|]).
  split; [exact H|]. split; [exact U|]. split; [eexists; split; [reflexivity|repeat split]|]. eexists. split; [reflexivity|exact IA]. Qed.
Lemma refinish_ok s e F pa pb pc D : tensors_of (sud s) (sbs s) e = Some F -> usable F pa pb pc D -> exists s', rebuild k0 k1 kadd kmul kdiv amax s e = Ok s' /\ sud s' = sud s /\ sbs s' = sbs s /\ pgs s' = pgs s /\ elem s' = e /\ site_of s' F pa pb pc D.
Proof. intros H U. destruct (site_ok k0 k1 kadd kmul kdiv amax SR F pa pb pc D (cellB F) U) as (A & EA & IA); [repeat split|].
  rewrite (rebuild_eq _ _ _ _ _ _ s e F H). unfold refinish. rewrite H, EA. cbn [bind]. eexists. split; [reflexivity|]. unfold IpessSpec.site_of. cbn [sud sbs pgs elem ipess sites]. repeat (split; [reflexivity|]).
  split; [exact H|]. split; [exact U|]. split; [eexists; split; [reflexivity|repeat split]|]. eexists. split; [reflexivity|exact IA]. Qed.
Definition shapes (e e' : elts) : Prop := forall k t, dget e k = Some t -> exists t', dget e' k = Some t' /\ twf t' /\ tdims t' = tdims t.
Lemma shapes_usable e e' ud bs F pa pb pc D : shapes e e' -> tensors_of ud bs e = Some F -> usable F pa pb pc D -> exists F', tensors_of ud bs e' = Some F' /\ usable F' pa pb pc D.
Proof. intros S H U. unfold tensors_of in *. destruct (dget e "T_u") as [u|] eqn:E1; [|discriminate H]. destruct (dget e (if ud then _ else _)) as [d|] eqn:E2; [|discriminate H].
  destruct (dget e (if bs then _ else "B_a")) as [a|] eqn:E3; [|discriminate H]. destruct (dget e (if bs then _ else "B_b")) as [b|] eqn:E4; [|discriminate H]. destruct (dget e "B_c") as [c|] eqn:E5; [|discriminate H].
  injection H as <-. destruct (S _ _ E1) as (u' & -> & W1 & D1), (S _ _ E2) as (d' & -> & W2 & D2), (S _ _ E3) as (a' & -> & W3 & D3), (S _ _ E4) as (b' & -> & W4 & D4), (S _ _ E5) as (c' & -> & W5 & D5).
  eexists. split; [reflexivity|]. destruct U as ((_ & X1 & X2 & X3 & X4 & X5) & Y). cbn [t_u t_d b_a b_b b_c] in *. split; [|exact Y]. split; [cbn; tauto|]. cbn [t_u t_d b_a b_b b_c]. rewrite D1, D2, D3, D4, D5. auto. Qed.
Lemma given_tensors (ud bs : bool) (u c d a b : ten) : tensors_of ud bs (given ud bs u c d a b) = Some (mk5 u (if ud then u else d) (if bs then c else a) (if bs then c else b) c).
Proof. destruct ud, bs; reflexivity. Qed.
Lemma well_given (ud bs : bool) (u c d a b : ten) pa pb pc D : usable (mk5 u (if ud then u else d) (if bs then c else a) (if bs then c else b) c) pa pb pc D -> well (given ud bs u c d a b).
Proof. intros (((W1 & W2 & W3 & W4 & W5) & D1 & D2 & D3 & D4 & D5) & _) k t H. cbn [t_u t_d b_a b_b b_c] in *.
  apply dget_In in H. destruct ud, bs; cbn [given app In] in H;
  repeat (destruct H as [H|H]; [injection H as <- <-; split; [assumption|eexists; eexists; cbn; eassumption]|]); destruct H.
  Unshelve. all: exact 0. Qed.
Section Sym.
Hypothesis H2 : kadd half half = k1.
Hypothesis H3 : kadd third (kadd third third) = k1.
Hypothesis CA : forall x y, cj (kadd x y) = kadd (cj x) (cj y).
Hypothesis CM : forall x y, cj (kmul x y) = kmul (cj x) (cj y).
Hypothesis CC : forall x, cj (cj x) = x.
Hypothesis CH : cj half = half.
Lemma pj_projected k pg t i j l : known k pg -> pj kadd kmul kopp half third cj k pg (at3 t) i j l = projected k0 kadd kmul cj ksub half third k pg t i j l.
Proof. intros H. unfold pj, projected. change (existsb (String.eqb k) ["B_a"; "B_b"; "B_c"]) with (is_bond k).
  destruct H as [(Hk & Hp)|(Hk & Hp)]; cbn [In] in Hk, Hp.
  - assert (E : is_bond k = true) by (destruct Hk as [<-|[<-|[<-|[]]]]; reflexivity). rewrite E. unfold pbond. destruct Hp as [<-|[<-|[]]]; cbn [existsb orb String.eqb Ascii.eqb Bool.eqb]; ring.
  - assert (E : is_bond k = false) by (destruct Hk as [<-|[<-|[]]]; reflexivity). rewrite E. unfold ptri, rotm. destruct Hp as [<-|[<-|[]]]; cbn [existsb orb String.eqb Ascii.eqb Bool.eqb]; ring. Qed.
Lemma to_pg_made g e : well e -> NoDup (dkeys g) -> allowed g -> exists e', to_pg g e = Ok e' /\ dkeys e' = dkeys e /\ forall k t, dget e k = Some t -> exists t', dget e' k = Some t' /\ made_symmetric g k t t'.
Proof. intros W N A. destruct (to_pg_ok k0 k1 kadd kmul ksub kopp half third cj RT H2 H3 CA CM CC CH g e W N A) as (e' & E & Ek & H). exists e'. split; [exact E|]. split; [exact Ek|].
  intros k t Ht. destruct (H k t Ht) as (t' & E1 & W1 & D1 & M). exists t'. split; [exact E1|]. split; [exact W1|]. split; [exact D1|].
  destruct (dget g k) as [[pg|]|] eqn:G; [|exact M|exact M]. destruct M as (I & P & Q). split; [exact I|]. split; [|exact Q]. intros i j l. rewrite P. apply pj_projected, A. exact (dget_In _ _ _ G). Qed.
Lemma made_shapes g e e' : (forall k t, dget e k = Some t -> exists t', dget e' k = Some t' /\ made_symmetric g k t t') -> shapes e e'.
Proof. intros H k t E. destruct (H k t E) as (t' & E' & W & D & _). eauto. Qed.
Lemma named_of (g : pg_groups) : (forall k o, In (k, o) g -> In k names) -> named g = true.
Proof. intros H. unfold named. apply forallb_forall. intros k Hk. unfold dkeys in Hk. apply in_map_iff in Hk. destruct Hk as ([x o] & <- & Hx). apply existsb_exists. exists x. split; [exact (H _ _ Hx)|apply String.eqb_refl]. Qed.
Lemma state_ok (ud bs : bool) (u c d a b : ten) od oa ob g pa pb pc D (sym : bool) :
  usable (mk5 u (if ud then u else d) (if bs then c else a) (if bs then c else b) c) pa pb pc D -> (ud = false -> od = Some d) -> (bs = false -> oa = Some a /\ ob = Some b) ->
  NoDup (dkeys g) -> allowed g -> (forall k o, In (k, o) g -> In k names) ->
  exists s F, mk_pg u c od oa ob ud bs (Some g) sym = Ok s /\ sud s = ud /\ sbs s = bs /\ pgs s = g /\ site_of s F pa pb pc D /\ dkeys (elem s) = dkeys (given ud bs u c d a b) /\
    forall k t, dget (given ud bs u c d a b) k = Some t -> exists t', dget (elem s) k = Some t' /\ (if sym then made_symmetric g k t t' else t' = t).
Proof. intros U O1 O2 N A Nm. rewrite (mk_eq _ _ _ _ _ _ _ _ _ _ _ _ _ _ _ d a b) by assumption. cbn [gdef]. rewrite (named_of g Nm). cbn [py_assert bind].
  pose proof (given_tensors ud bs u c d a b) as T. destruct sym.
  - destruct (to_pg_made g _ (well_given _ _ _ _ _ _ _ _ _ _ _ U) N A) as (e' & E & Ek & M). rewrite E. cbn [bind].
    destruct (shapes_usable _ _ _ _ _ _ _ _ _ (made_shapes _ _ _ M) T U) as (F' & T' & U'). destruct (finish_ok ud bs g e' F' pa pb pc D T' U') as (s & Es & S1 & S2 & S3 & S4 & S5).
    exists s, F'. rewrite S4. auto 10.
  - cbn [bind]. destruct (finish_ok ud bs g _ _ pa pb pc D T U) as (s & Es & S1 & S2 & S3 & S4 & S5). eexists s, _. rewrite S4. repeat (split; [eassumption|]). split; [reflexivity|]. eauto. Qed.
Lemma parts_projected k t i j l : In k ["B_a"; "B_b"; "B_c"] -> kadd (projected k0 kadd kmul cj ksub half third k "A" t i j l) (projected k0 kadd kmul cj ksub half third k "B" t i j l) = at3 t i j l.
Proof. intros Hk. rewrite <- !pj_projected by (left; split; [exact Hk|cbn; auto]). unfold pj. assert (E : is_bond k = true) by (destruct Hk as [<-|[<-|[<-|[]]]]; reflexivity). rewrite E.
  cbn [String.eqb Ascii.eqb Bool.eqb]. exact (parts_bond k0 k1 kadd kmul ksub kopp half cj RT H2 (at3 t) i j l). Qed.
(** *** noise *)
Lemma dget_mapval (e : elts) (h : string -> ten -> ten) k : dget (map (fun p => (fst p, h (fst p) (snd p))) e) k = option_map (h k) (dget e k).
Proof. induction e as [|[x t] e IH]; [reflexivity|]. cbn [map dget fst snd]. destruct (eq_dec k x) as [->|Hn]; [reflexivity|exact IH]. Qed.
Lemma noise_ok s F pa pb pc D noise rnd : site_of s F pa pb pc D -> well (elem s) -> NoDup (dkeys (elem s)) -> NoDup (dkeys (pgs s)) -> allowed (pgs s) ->
  (forall k t, dget (elem s) k = Some t -> twf (rnd k) /\ tdims (rnd k) = tdims t) ->
  exists s' F', add_noise s noise rnd = Ok s' /\ sud s' = sud s /\ sbs s' = sbs s /\ pgs s' = pgs s /\ site_of s' F' pa pb pc D /\ dkeys (elem s') = dkeys (elem s) /\
    forall k t, dget (elem s) k = Some t -> exists t1 t', dget (elem s') k = Some t' /\ made_symmetric (pgs s) k t1 t' /\ twf t1 /\ tdims t1 = tdims t /\
      forall i j l, at3 t1 i j l = kadd (at3 t i j l) (match tget (rnd k) [i; j; l] with Some x => kmul noise (ksub x half) | None => k0 end).
Proof. intros (T & U & _) W Ne N A R. unfold Ipess.add_noise.
  set (h := fun k t => tadd kadd t (tmap (fun x => kmul noise (ksub x half)) (rnd k))).
  rewrite (mapM_Ok_map _ (fun p => (fst p, h (fst p) (snd p)))).
  2: { intros [k t] Hin. cbn [fst snd]. destruct (R k t (In_dget _ _ _ Ne Hin)) as (_ & D1). unfold same. cbn [tmap tdims]. rewrite (proj2 (BaseLemmas.eqb_true _ _) (eq_sym D1)). reflexivity. }
  cbn [bind]. set (e1 := map _ (elem s)).
  assert (G : forall k t, dget (elem s) k = Some t -> dget e1 k = Some (h k t) /\ twf (h k t) /\ tdims (h k t) = tdims t /\ forall i j l, at3 (h k t) i j l = kadd (at3 t i j l) (match tget (rnd k) [i; j; l] with Some x => kmul noise (ksub x half) | None => k0 end)).
  { intros k t E. unfold e1. rewrite dget_mapval, E. split; [reflexivity|]. destruct (R k t E) as (Wr & Dr). destruct (W k t E) as (Wt & p & n & Dt).
    assert (Z : exists x y z, tdims t = [x; y; z]) by (destruct (is_bond k); eauto). destruct Z as (x & y & z & Z). rewrite Z in Dr.
    assert (Eh : h k t = b3 k0 x y z (fun i j l => kadd (at3 t i j l) (kmul noise (ksub (at3 (rnd k) i j l) half)))).
    { unfold h, tadd. rewrite (is_b3 k0 t x y z Wt Z) at 1. rewrite (is_b3 k0 (rnd k) x y z Wr Dr) at 1. rewrite tmap_b3, tzip_b3. reflexivity. }
    rewrite Eh. split; [apply twf_tbuild|]. split; [symmetry; exact Z|]. intros i j l. unfold IpessSpec.at3 at 1.
    assert (Dc : {i < x /\ j < y /\ l < z} + {~ (i < x /\ j < y /\ l < z)}).
    { destruct (lt_dec i x); [|right; tauto]. destruct (lt_dec j y); [|right; tauto]. destruct (lt_dec l z); [left; tauto|right; tauto]. }
    destruct Dc as [Dc|Dc].
    - unfold b3. rewrite tget_tbuild by (apply in3; exact Dc). cbn [g3]. f_equal. unfold IpessSpec.at3. destruct (tget_Some (rnd k) [i; j; l] Wr) as [v ->]; [rewrite Dr; apply in3; exact Dc|reflexivity].
    - unfold IpessSpec.at3. rewrite !tget_None; [ring|exact Wr|rewrite Dr, in3; exact Dc|exact Wt|rewrite Z, in3; exact Dc|apply twf_tbuild|cbn; rewrite in3; exact Dc]. }
  assert (W1 : well e1).
  { intros k t E. unfold e1 in E. rewrite dget_mapval in E. destruct (dget (elem s) k) as [t0|] eqn:E0; [|discriminate E]. injection E as <-. destruct (G k t0 E0) as (_ & Wh & Dh & _). split; [exact Wh|].
    destruct (W k t0 E0) as (_ & p & n & Dt). exists p, n. congruence. }
  destruct (to_pg_made (pgs s) e1 W1 N A) as (e' & E & Ek & M). rewrite E. cbn [bind].
  assert (S : shapes (elem s) e').
  { intros k t E0. destruct (G k t E0) as (E1 & _ & Dh & _). destruct (M k _ E1) as (t' & E' & Wt & Dt & _). exists t'. split; [exact E'|]. split; [exact Wt|congruence]. }
  destruct (shapes_usable _ _ _ _ _ _ _ _ _ S T U) as (F' & T' & U'). destruct (refinish_ok s e' F' pa pb pc D T' U') as (s' & Es & S1 & S2 & S3 & S4 & S5).
  exists s', F'. rewrite S4. repeat (split; [assumption|]). split; [rewrite Ek; unfold e1, dkeys; rewrite map_map; reflexivity|].
  intros k t E0. destruct (G k t E0) as (E1 & Wh & Dh & Vh). destruct (M k _ E1) as (t' & E' & Mt). exists (h k t), t'. auto 10. Qed.
End Sym.
End P.
