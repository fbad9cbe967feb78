(** Enlarging the bonds of a kagome iPESS; linear combinations. *)
From Verif Require Import Base BaseLemmas Lattice Tensor TensorLemmas Net NetProofs2 Su3Proofs Su3Proofs4 Plaq Ipess IpessSpec IpessProofs IpessProofs2 IpessProofs3 IpessProofs4.
From Coq Require Import Ring.
Open Scope string_scope.
Open Scope list_scope.
Open Scope nat_scope.
Open Scope res_scope.

Section P.
Context {K : Type} (k0 k1 : K) (kadd kmul ksub : K -> K -> K) (kopp : K -> K) (kdiv : K -> K -> K) (half third : K) (cj : K -> K) (amax : list K -> K).
Hypothesis RT : ring_theory k0 k1 kadd kmul ksub kopp (@eq K).
Add Ring KR : RT.
Notation ten := (tensor K).
Notation elts := (dict string ten).
Notation at3 := (at3 k0).
Notation extend_pg := (extend_pg k0 k1 kadd kmul ksub kdiv half third cj amax).
Notation amplitude := (amplitude k0 kadd kmul).
Notation all_amplitudes := (all_amplitudes k0 kadd kmul).
Notation site_of := (site_of k0 kadd kmul kdiv amax).
Notation enlarge := (enlarge k0).

(** *** sums *)
Lemma sum_zero n f : (forall i, i < n -> f i = k0) -> sum_to k0 kadd n f = k0.
Proof. intros H. unfold sum_to. rewrite (map_ext_in _ (fun _ => k0)); [|intros i Hi; apply in_seq in Hi; apply H; lia]. induction (seq 0 n) as [|x l IH]; cbn; [reflexivity|]. rewrite IH. ring. Qed.
Lemma sum_ext n f g : (forall i, i < n -> f i = g i) -> sum_to k0 kadd n f = sum_to k0 kadd n g.
Proof. intros H. unfold sum_to. f_equal. apply map_ext_in. intros i Hi. apply in_seq in Hi. apply H; lia. Qed.
Lemma sum_app l1 l2 : fold_right kadd k0 (l1 ++ l2) = kadd (fold_right kadd k0 l1) (fold_right kadd k0 l2).
Proof. induction l1 as [|x l IH]; cbn; [ring|]. rewrite IH. ring. Qed.
Lemma sum_more D n f : D <= n -> (forall i, D <= i -> f i = k0) -> sum_to k0 kadd n f = sum_to k0 kadd D f.
Proof. intros H Z. unfold sum_to. replace n with (D + (n - D)) by lia. rewrite seq_app, map_app, sum_app. cbn [Nat.add].
  replace (fold_right kadd k0 (map f (seq D (n - D)))) with k0; [ring|]. rewrite (map_ext_in _ (fun _ => k0)); [|intros i Hi; apply in_seq in Hi; apply Z; lia].
  clear -RT. induction (seq D (n - D)) as [|x l IH]; cbn; [reflexivity|]. rewrite <- IH. ring. Qed.
Lemma amp_ext (F F' : five) D u v w a b c d : (forall i j k, at3 (t_u F') i j k = at3 (t_u F) i j k) -> (forall i j k, at3 (t_d F') i j k = at3 (t_d F) i j k) ->
  (forall i j k, at3 (b_a F') i j k = at3 (b_a F) i j k) -> (forall i j k, at3 (b_b F') i j k = at3 (b_b F) i j k) -> (forall i j k, at3 (b_c F') i j k = at3 (b_c F) i j k) ->
  amplitude F' D D D D u v w a b c d = amplitude F D D D D u v w a b c d.
Proof. intros H1 H2 H3 H4 H5. unfold IpessSpec.amplitude. do 4 (apply sum_ext; intros ? _). now rewrite H1, H2, H3, H4, H5. Qed.
Lemma amp_more F pa pb pc D n u v w a b c d : usable F pa pb pc D -> D <= n -> amplitude F n n n n u v w a b c d = amplitude F D D D D u v w a b c d.
Proof. intros (((W1 & W2 & W3 & W4 & W5) & D1 & D2 & D3 & D4 & D5) & _) Hn.
  pose proof (zout_at k0 _ _ _ _ W1 D1) as Z1. pose proof (zout_at k0 _ _ _ _ W2 D3) as Z2. unfold zout in *. unfold IpessSpec.amplitude.
  rewrite (sum_more D n) by (try exact Hn; intros i Hi; do 3 (apply sum_zero; intros ? _); rewrite Z1 by lia; ring). apply sum_ext; intros i _.
  rewrite (sum_more D n) by (try exact Hn; intros j Hj; do 2 (apply sum_zero; intros ? _); rewrite Z2 by lia; ring). apply sum_ext; intros j _.
  rewrite (sum_more D n) by (try exact Hn; intros k Hk; do 1 (apply sum_zero; intros ? _); rewrite Z2 by lia; ring). apply sum_ext; intros k _.
  rewrite (sum_more D n) by (try exact Hn; intros l Hl; rewrite Z2 by lia; ring). reflexivity. Qed.
Lemma amp_out F pa pb pc D u v w a b c d : usable F pa pb pc D -> ~ (a < D /\ b < D /\ c < D /\ d < D) -> amplitude F D D D D u v w a b c d = k0.
Proof. intros (((W1 & W2 & W3 & W4 & W5) & D1 & D2 & D3 & D4 & D5) & _) H.
  pose proof (zout_at k0 _ _ _ _ W1 D1) as Z1. pose proof (zout_at k0 _ _ _ _ W4 D4) as Z4. pose proof (zout_at k0 _ _ _ _ W3 D5) as Z3. unfold zout in *. unfold IpessSpec.amplitude.
  apply sum_zero; intros i _. apply sum_zero; intros j _. apply sum_zero; intros k _. apply sum_zero; intros l _.
  assert (C : ~ (a < D /\ b < D) \/ ~ c < D \/ ~ d < D) by lia. destruct C as [C|[C|C]]; [rewrite (Z1 i a b) by tauto|rewrite (Z4 v k c) by tauto|rewrite (Z3 w l d) by tauto]; ring. Qed.
Section Max.
(** only the elements that do not vanish matter for the largest modulus *)
Hypothesis AM : forall l l', l <> [] -> l' <> [] -> (forall x, x <> k0 -> (In x l <-> In x l')) -> amax l = amax l'.
Lemma all_more F F' pa pb pc D n : usable F pa pb pc D -> D <= n -> (forall u v w a b c d, amplitude F' n n n n u v w a b c d = amplitude F D D D D u v w a b c d) ->
  amax (all_amplitudes F' pa pb pc n) = amax (all_amplitudes F pa pb pc D).
Proof. intros U Hn H.
  assert (Ne : forall G m, D <= m -> all_amplitudes G pa pb pc m <> []).
  { intros G m Hm E. apply (f_equal (@length K)) in E. unfold IpessSpec.all_amplitudes in E. rewrite map_length, length_indices in E. destruct U as (_ & A1 & A2 & A3 & A4). cbn in E.
    repeat (apply Nat.eq_mul_0 in E; destruct E as [E|E]; [lia|]). lia. }
  apply AM; [apply Ne; exact Hn|apply Ne; lia|]. intros x Hx. unfold IpessSpec.all_amplitudes. rewrite !in_map_iff. split; intros (ix & E & Hi); apply In_indices in Hi; pose proof (in_range_length _ _ Hi) as L;
    destruct ix as [|u [|v [|w [|a [|b [|c [|d [|]]]]]]]]; try discriminate L; exists [u; v; w; a; b; c; d].
  - rewrite H in E. split; [exact E|]. apply In_indices. unfold in_range in *. do 7 (let X := fresh "X" in inversion Hi as [|? ? ? ? X Hi']; clear Hi; rename Hi' into Hi).
    assert (C : a < D /\ b < D /\ c < D /\ d < D).
    { destruct (lt_dec a D), (lt_dec b D), (lt_dec c D), (lt_dec d D); try tauto; exfalso; apply Hx; rewrite <- E; apply (amp_out F pa pb pc D u v w a b c d U); tauto. }
    destruct C as (? & ? & ? & ?). repeat constructor; assumption.
  - rewrite H. split; [exact E|]. apply In_indices. unfold in_range in *. do 7 (let X := fresh "X" in inversion Hi as [|? ? ? ? X Hi']; clear Hi; rename Hi' into Hi).
    repeat constructor; try assumption; eapply Nat.lt_le_trans; eassumption. Qed.
(** *** enlarged tensors *)
Lemma enlarge_ok (t : ten) x y z x' y' z' : twf t -> tdims t = [x; y; z] -> x <= x' -> y <= y' -> z <= z' ->
  exists t', enlarge [x'; y'; z'] [x; y; z] t = Ok t' /\ twf t' /\ tdims t' = [x'; y'; z'] /\ forall i j k, at3 t' i j k = at3 t i j k.
Proof. intros W E X Y Z. unfold Ipess.enlarge. rewrite (proj2 (BaseLemmas.eqb_true _ _) E). eexists. split; [reflexivity|]. split; [apply twf_tbuild|]. split; [reflexivity|].
  intros i j k. assert (Ee : tbuild [x'; y'; z'] (fun ix => Plaq.el k0 t ix) = b3 k0 x' y' z' (at3 t)).
  { apply build_ext. intros ix Hix. apply In_indices, in_range_length in Hix. destruct ix as [|? [|? [|? [|]]]]; try discriminate Hix. reflexivity. }
  rewrite Ee. apply at3_b3. intros i' j' k' H. apply (zout_at k0 t x y z W E). lia. Qed.
Lemma aux_ok (cell : elts) (F : five) pa pb pc D : holds cell F -> usable F pa pb pc D -> aux_dim [((0, 0)%Z, cell)] = Ok D.
Proof. intros (E1 & E2 & _) ((_ & D1 & _ & D3 & _) & _). unfold aux_dim, dget_exn. cbn [mapM snd]. rewrite E1, E2. cbn [bind]. rewrite D1, D3. cbn [concat app].
  assert (N : nodup Nat.eq_dec [D; D; D; D; D; D] = [D]) by (cbn; destruct (Nat.eq_dec D D); [reflexivity|contradiction]). rewrite N. reflexivity. Qed.
Lemma extend_ok s F pa pb pc D n : site_of s F pa pb pc D -> named (pgs s) = true -> D <= n ->
  exists s' F' A', extend_pg s n = Ok s' /\ sud s' = sud s /\ sbs s' = sbs s /\ pgs s' = pgs s /\ site_of s' F' pa pb pc n /\
    (forall i j k, at3 (t_u F') i j k = at3 (t_u F) i j k /\ at3 (t_d F') i j k = at3 (t_d F) i j k /\ at3 (b_a F') i j k = at3 (b_a F) i j k /\ at3 (b_b F') i j k = at3 (b_b F) i j k /\ at3 (b_c F') i j k = at3 (b_c F) i j k) /\
    sites s' = [((0, 0)%Z, A')] /\ tdims A' = [pc * (pb * pa); n; n; n; n] /\
    forall u v w a b c d, u < pc -> v < pb -> w < pa -> a < n -> b < n -> c < n -> d < n ->
      tget A' [u * (pb * pa) + (v * pa + w); a; b; c; d] = Some (kdiv (amplitude F D D D D u v w a b c d) (amax (all_amplitudes F pa pb pc D))).
Proof. intros (T & U & (cell & Ec & Hc) & _) Nm Hn. unfold Ipess.extend_pg. rewrite Ec, (aux_ok cell F pa pb pc D Hc U). cbn [bind]. rewrite (proj2 (Nat.leb_le _ _) Hn). cbn [py_assert bind].
  pose proof U as (((W1 & W2 & W3 & W4 & W5) & D1 & D5 & D2 & D4 & D3) & Pos).
  destruct (enlarge_ok _ D D D n n n W1 D1 Hn Hn Hn) as (u' & E1 & Wu & Du & Au).
  destruct (enlarge_ok _ D D D n n n W2 D2 Hn Hn Hn) as (d' & E2 & Wd & Dd & Ad).
  destruct (enlarge_ok _ pa D D pa n n W3 D3 (le_n _) Hn Hn) as (a' & E3 & Wa & Da & Aa).
  destruct (enlarge_ok _ pb D D pb n n W4 D4 (le_n _) Hn Hn) as (b' & E4 & Wb & Db & Ab).
  destruct (enlarge_ok _ pc D D pc n n W5 D5 (le_n _) Hn Hn) as (c' & E5 & Wc & Dc & Ac).
  assert (S3 : size (b_a F) 0 = pa) by (unfold size; now rewrite D3). assert (S4 : size (b_b F) 0 = pb) by (unfold size; now rewrite D4). assert (S5 : size (b_c F) 0 = pc) by (unfold size; now rewrite D5).
  unfold tensors_of in T. destruct (dget (elem s) "T_u") as [tu|] eqn:G1; [|discriminate T]. destruct (dget (elem s) (if sud s then _ else _)) as [td|] eqn:G2; [|discriminate T].
  destruct (dget (elem s) (if sbs s then _ else "B_a")) as [ba|] eqn:G3; [|discriminate T]. destruct (dget (elem s) (if sbs s then _ else "B_b")) as [bb|] eqn:G4; [|discriminate T].
  destruct (dget (elem s) "B_c") as [bc|] eqn:G5; [|discriminate T]. injection T as <-. cbn [t_u t_d b_a b_b b_c] in *.
  unfold dget_exn at 1. rewrite G1. cbn [bind]. rewrite E1. cbn [bind]. unfold dget_exn at 1. rewrite G5. cbn [bind]. rewrite S5, E5. cbn [bind].
  set (F' := mk5 u' (if sud s then u' else d') (if sbs s then c' else a') (if sbs s then c' else b') c').
  assert (At : forall i j k, at3 (t_u F') i j k = at3 tu i j k /\ at3 (t_d F') i j k = at3 td i j k /\ at3 (b_a F') i j k = at3 ba i j k /\ at3 (b_b F') i j k = at3 bb i j k /\ at3 (b_c F') i j k = at3 bc i j k).
  { intros i j k. cbn [F' t_u t_d b_a b_b b_c]. split; [apply Au|]. split; [destruct (sud s); [|apply Ad]|].
    { rewrite G1 in G2. injection G2 as <-. apply Au. }
    destruct (sbs s); [rewrite G5 in G3, G4; injection G3 as <-; injection G4 as <-|]; auto. }
  assert (U' : usable F' pa pb pc n).
  { split; [|lia]. unfold fitting. cbn [F' t_u t_d b_a b_b b_c].
    destruct (sud s); [rewrite G1 in G2; injection G2 as <-|]; (destruct (sbs s); [rewrite G5 in G3, G4; injection G3 as <-; injection G4 as <-|]);
      repeat split; try assumption; congruence. }
  match goal with |- exists s' G A', ?x = Ok s' /\ _ => assert (EX : x = mk_pg k0 k1 kadd kmul ksub kdiv half third cj amax u' c' (if sud s then None else Some d') (if sbs s then None else Some a') (if sbs s then None else Some b') (sud s) (sbs s) (Some (pgs s)) false) end.
  { unfold dget_exn. destruct (sud s); [|rewrite G2; cbn [bind]; rewrite E2]; (destruct (sbs s); [|rewrite G3, G4; cbn [bind]; rewrite S3, S4, E3, E4]); reflexivity. }
  rewrite EX, (mk_eq _ _ _ _ _ _ _ _ _ _ _ _ _ _ _ d' a' b') by (intros ->; auto). cbn [gdef]. rewrite Nm. cbn [py_assert bind].
  destruct (finish_ok k0 k1 kadd kmul ksub kopp kdiv amax RT (sud s) (sbs s) (pgs s) _ F' pa pb pc n (given_tensors (sud s) (sbs s) u' c' d' a' b') U') as (s' & Es & P1 & P2 & P3 & P4 & P5).
  pose proof P5 as (_ & _ & _ & (A' & EA & (WA & DA & VA))). exists s', F', A'. repeat (split; [assumption|]). intros u v w a b c d Hu Hv Hw Ha Hb Hc' Hd.
  assert (Q : forall u v w a b c d, amplitude F' n n n n u v w a b c d = amplitude (mk5 tu td ba bb bc) D D D D u v w a b c d).
  { intros. rewrite <- (amp_more _ _ _ _ _ n _ _ _ _ _ _ _ U Hn). apply amp_ext; intros; cbn [t_u t_d b_a b_b b_c]; apply At. }
  rewrite VA by assumption. rewrite Q, (all_more _ _ _ _ _ _ _ U Hn Q). reflexivity. Qed.
Lemma extend_final s F pa pb pc D n : site_of s F pa pb pc D -> groups_ok (pgs s) -> D <= n ->
  exists s' F' A', extend_pg s n = Ok s' /\ sud s' = sud s /\ sbs s' = sbs s /\ pgs s' = pgs s /\ site_of s' F' pa pb pc n /\
    (forall i j k, at3 (t_u F') i j k = at3 (t_u F) i j k /\ at3 (t_d F') i j k = at3 (t_d F) i j k /\ at3 (b_a F') i j k = at3 (b_a F) i j k /\ at3 (b_b F') i j k = at3 (b_b F) i j k /\ at3 (b_c F') i j k = at3 (b_c F) i j k) /\
    sites s' = [((0, 0)%Z, A')] /\ tdims A' = [pc * (pb * pa); n; n; n; n] /\
    forall u v w a b c d, u < pc -> v < pb -> w < pa -> a < n -> b < n -> c < n -> d < n ->
      tget A' [u * (pb * pa) + (v * pa + w); a; b; c; d] = Some (kdiv (amplitude F D D D D u v w a b c d) (amax (all_amplitudes F pa pb pc D))) /\
      (~ (a < D /\ b < D /\ c < D /\ d < D) -> amplitude F D D D D u v w a b c d = k0).
Proof. intros S (_ & _ & Nm) Hn. destruct (extend_ok s F pa pb pc D n S (named_of (pgs s) Nm) Hn) as (s' & F' & A' & E & P1 & P2 & P3 & P4 & P5 & P6 & P7 & P8).
  exists s', F', A'. do 8 (split; [assumption|]). intros u v w a b c d Hu Hv Hw Ha Hb Hc Hd. split; [apply P8; assumption|]. destruct S as (_ & U & _). intros X. exact (amp_out F pa pb pc D u v w a b c d U X). Qed.
End Max.
(** IPESS_KAGOME_GENERIC *)
Lemma extend_generic_never d n r : extend_generic k0 d n <> Ok r.
Proof. unfold extend_generic. destruct (aux_dim d); cbn [bind]; [|discriminate]. destruct (py_assert _); cbn [bind]; [|discriminate]. destruct (mapM _ d); cbn [bind]; discriminate. Qed.
(** *** linear combinations *)
Lemma lc_never im ud bs g coeffs basis r : ud = false \/ bs = false -> lc_update k0 k1 kadd kmul kdiv im amax ud bs g coeffs basis <> Ok r.
Proof. intros H. unfold lc_update. destruct (build_elem _ _ _ _ _ _ _ _) as [e|]; cbn [bind]; [|discriminate].
  destruct (dget_exn e "T_u"); cbn [bind]; [|discriminate]. destruct (dget_exn e "B_c"); cbn [bind]; [|discriminate].
  destruct ud.
  - destruct H as [H| ->]; [discriminate H|]. cbn [bind]. destruct (dget_exn e "B_b"); cbn [bind]; [|discriminate]. destruct (dget_exn e "B_a"); cbn [bind]; [|discriminate]. destruct (onsite _ _ _ _ _ _ _); cbn [bind app]; discriminate.
  - destruct (dget_exn e "T_d"); cbn [bind]; [|discriminate]. destruct (if bs then _ else _); cbn [bind]; [|discriminate]. destruct (onsite _ _ _ _ _ _ _); cbn [bind app]; discriminate. Qed.
End P.
