(** States of the kagome iPESS with point groups. *)
From Verif Require Import Base BaseLemmas Lattice Tensor TensorLemmas Net Plaq Ipess IpessSpec IpessProofs IpessProofs2.
From Coq Require Import Ring.
Open Scope string_scope.
Open Scope list_scope.
Open Scope nat_scope.
Open Scope res_scope.

Section P.
Context {K : Type} (k0 k1 : K) (kadd kmul ksub : K -> K -> K) (kopp : K -> K) (kdiv : K -> K -> K) (half third : K) (cj : K -> K) (amax : list K -> K).
Notation ten := (tensor K).
Notation elts := (dict string ten).
Notation onsite := (onsite k0 k1 kadd kmul kdiv amax).
Notation build := (build_onsite_tensors k0 k1 kadd kmul kdiv amax).
Notation mk_pg := (mk_pg k0 k1 kadd kmul ksub kdiv half third cj amax).
Notation to_pg := (to_pg k0 kadd kmul ksub half third cj).
Notation rebuild := (rebuild k0 k1 kadd kmul kdiv amax).
Notation load_checkpoint := (load_checkpoint k0 k1 kadd kmul kdiv amax).
Notation read_pg := (read_pg k0 k1 kadd kmul ksub kdiv half third cj amax).
Notation write_pg := (write_pg k0 k1 kadd kmul ksub kdiv half third cj amax).
Notation to_PG_symmetric := (to_PG_symmetric k0 k1 kadd kmul ksub kdiv half third cj amax).
Notation is_onsite := (is_onsite k0 kadd kmul kdiv amax).
Notation st := (@pgstate K).

Definition cellA (F : @five K) : elts := [("T_u", t_u F); ("T_d", t_d F); ("B_c", b_c F); ("B_a", b_a F); ("B_b", b_b F)].
Definition cellB (F : @five K) : elts := [("T_u", t_u F); ("T_d", t_d F); ("B_a", b_a F); ("B_b", b_b F); ("B_c", b_c F)].
Lemma cell_same F : onsite (cellA F) = onsite (cellB F). Proof. reflexivity. Qed.
Notation base := (@given K).
(** the end of the constructor *)
Definition finish (ud bs : bool) (g : pg_groups) (e : elts) : res st :=
  match tensors_of ud bs e with Some F => A <- onsite (cellA F) ;; Ok (mkPG ud bs e g [((0, 0)%Z, cellA F)] [((0, 0)%Z, A)]) | None => Err KeyError end.
Definition gdef (g : option pg_groups) : pg_groups := match g with Some g => g | None => [] end.
Lemma finish_eq (ud bs : bool) (g : pg_groups) (e : elts) : (tu <- dget_exn e "T_u" ;; td <- dget_exn e (if ud then "T_u" else "T_d") ;; bc <- dget_exn e "B_c" ;;
  ba <- dget_exn e (if bs then "B_c" else "B_a") ;; bb <- dget_exn e (if bs then "B_c" else "B_b") ;;
  let ip := [((0, 0)%Z, [("T_u", tu); ("T_d", td); ("B_c", bc); ("B_a", ba); ("B_b", bb)])] in
  s <- build ip ;; Ok (mkPG ud bs e g ip s)) = finish ud bs g e.
Proof. unfold finish, tensors_of, dget_exn, build_onsite_tensors. 
  destruct (dget e "T_u"); [|reflexivity]. cbn [bind]. destruct (dget e (if ud then "T_u" else "T_d")); [|reflexivity]. cbn [bind].
  destruct (dget e "B_c"); cbn [bind]; [|now destruct (dget e (if bs then "B_c" else "B_a")), (dget e (if bs then "B_c" else "B_b"))].
  destruct (dget e (if bs then "B_c" else "B_a")); [|reflexivity]. cbn [bind]. destruct (dget e (if bs then "B_c" else "B_b")); [|reflexivity]. cbn [bind mapM snd fst].
  unfold cellA. cbn [t_u t_d b_a b_b b_c]. now destruct (onsite _). Qed.
Definition named (g : pg_groups) : bool := forallb (fun k => existsb (String.eqb k) names) (dkeys g).
Lemma mk_eq u c od oa ob d a b ud bs g sym : (ud = false -> od = Some d) -> (bs = false -> oa = Some a /\ ob = Some b) ->
  mk_pg u c od oa ob ud bs g sym = (_ <- py_assert (named (gdef g)) ;; e <- (if sym then to_pg (gdef g) (base ud bs u c d a b) else Ok (base ud bs u c d a b)) ;; finish ud bs (gdef g) e).
Proof. intros H1 H2. unfold Ipess.mk_pg. change (match g with Some g => g | None => [] end) with (gdef g). fold (named (gdef g)).
  assert (E : (e <- (if ud then Ok [("T_u", u); ("B_c", c)] else match od with Some t => Ok (dset [("T_u", u); ("B_c", c)] "T_d" t) | None => Err AssertionError end) ;;
    (if bs then Ok e else match oa, ob with Some a, Some b => Ok (dset (dset e "B_a" a) "B_b" b) | _, _ => Err AssertionError end)) = Ok (base ud bs u c d a b)).
  { destruct ud; [|rewrite (H1 eq_refl)]; (destruct bs; [|destruct (H2 eq_refl) as [-> ->]]); reflexivity. }
  match goal with |- bind ?x ?k = _ => transitivity (bind (e <- x ;; (if bs then Ok e else match oa, ob with Some a, Some b => Ok (dset (dset e "B_a" a) "B_b" b) | _, _ => Err AssertionError end))
    (fun e => _ <- py_assert (named (gdef g)) ;; e <- (if sym then to_pg (gdef g) e else Ok e) ;; finish ud bs (gdef g) e)) end.
  - destruct (if ud then _ else _); [|reflexivity]. cbn [bind]. destruct (if bs then _ else _); [|reflexivity]. cbn [bind].
    destruct (py_assert _); [|reflexivity]. cbn [bind]. destruct (if sym then _ else _); [|reflexivity]. cbn [bind]. apply finish_eq.
  - rewrite E. reflexivity. Qed.
(** *** errors of the constructor, success *)
Lemma mk_inv u c od oa ob ud bs g sym s : mk_pg u c od oa ob ud bs g sym = Ok s -> exists d a b, (ud = false -> od = Some d) /\ (bs = false -> oa = Some a /\ ob = Some b).
Proof. unfold Ipess.mk_pg. intros H.
  assert (X : ud = true \/ exists d, od = Some d) by (destruct ud; [auto|]; destruct od; [eauto|discriminate H]).
  assert (Y : bs = true \/ exists a b, oa = Some a /\ ob = Some b).
  { destruct (if ud then _ else _) in H; [|discriminate H]. cbn [bind] in H. destruct bs; [auto|]. destruct oa; [|discriminate H]. destruct ob; [eauto|discriminate H]. }
  destruct X as [X|(d & X)], Y as [Y|(a & b & Y)].
  - exists u, u, u. split; congruence.
  - exists u, a, b. split; [congruence|auto].
  - exists d, u, u. split; [auto|congruence].
  - exists d, a, b. auto. Qed.
(** *** keys are kept *)
Lemma to_pg_keys g e e' : to_pg g e = Ok e' -> dkeys e' = dkeys e.
Proof. unfold Ipess.to_pg. 
  assert (G : forall acc, (forall k, In k (dkeys e) -> In k (dkeys acc)) -> foldM (pg_step k0 kadd kmul ksub half third cj e) g acc = Ok e' -> dkeys e' = dkeys acc).
  { induction g as [|[k o] g IH]; intros acc Hk H; cbn [foldM] in H; [now injection H as <-|].
    assert (S : forall acc', pg_step k0 kadd kmul ksub half third cj e acc (k, o) = Ok acc' -> dkeys acc' = dkeys acc).
    { clear H IH. intros acc'. unfold pg_step. cbn [snd fst]. destruct o as [pg|]; [|intros E; now injection E as <-].
      destruct (dget e k) as [t|] eqn:Et.
      - assert (Ka : In k (dkeys acc)) by (apply Hk, dget_Some_key; eauto).
        destruct (is_bond k); [destruct (sym_bond k0 kadd kmul ksub half cj pg t) as [r|]; cbn [bind]; [|discriminate]|cbn [bind]];
        (destruct (is_tri k); [destruct (sym_tri k0 kadd kmul ksub half third cj pg t) as [r'|]; cbn [bind]; [|discriminate]|]); intros E; injection E as <-; rewrite ?dkeys_dset_old; try assumption; try reflexivity.
        rewrite dkeys_dset_old; assumption.
      - destruct (is_bond k); cbn [bind]; destruct (is_tri k); intros E; now injection E as <-. }
    destruct (pg_step k0 kadd kmul ksub half third cj e acc (k, o)) as [acc'|]; [|discriminate H]. cbn [bind] in H.
    rewrite (IH acc'); [apply S; reflexivity| |exact H]. intros x Hx. rewrite (S _ eq_refl). apply Hk; exact Hx. }
  intros H. apply (G e); [auto|exact H]. Qed.
(** *** the elementary tensors of a state, in their order *)
Lemma keys_base ud bs u c d a b e : dkeys e = dkeys (base ud bs u c d a b) -> exists u' c' d' a' b', e = base ud bs u' c' d' a' b'.
Proof. unfold given. destruct ud, bs; cbn; intros H; repeat (destruct e as [|[? ?] e]; cbn in H; [discriminate H|]; injection H; clear H; intros H ->); destruct e; try discriminate H; try discriminate.
  - exists t, t0, t, t, t. reflexivity.
  - exists t, t0, t, t1, t2. reflexivity.
  - exists t, t0, t1, t, t. reflexivity.
  - exists t, t0, t1, t2, t3. reflexivity. Qed.
(** a state made by the constructor: its elementary tensors, its point groups and the rest from these *)
Definition made (s : st) : Prop := named (pgs s) = true /\ (exists u c d a b, elem s = base (sud s) (sbs s) u c d a b) /\ finish (sud s) (sbs s) (pgs s) (elem s) = Ok s.
Lemma finish_fields ud bs g e s : finish ud bs g e = Ok s -> sud s = ud /\ sbs s = bs /\ pgs s = g /\ elem s = e.
Proof. unfold finish. destruct (tensors_of ud bs e) as [F|]; [|discriminate]. destruct (onsite (cellA F)); [|discriminate]. cbn. intros E. injection E as <-. auto. Qed.
Lemma mk_made u c od oa ob ud bs g sym s : mk_pg u c od oa ob ud bs g sym = Ok s -> made s /\ sud s = ud /\ sbs s = bs /\ pgs s = gdef g.
Proof. intros H. destruct (mk_inv _ _ _ _ _ _ _ _ _ _ H) as (d & a & b & H1 & H2). rewrite (mk_eq _ _ _ _ _ d a b) in H by assumption.
  unfold py_assert in H. destruct (named (gdef g)) eqn:N; [|discriminate H]. cbn [bind] in H.
  destruct (if sym then _ else _) as [e|] eqn:E in H; [|discriminate H]. cbn [bind] in H. destruct (finish_fields _ _ _ _ _ H) as (<- & <- & F3 & F4).
  unfold made. rewrite F3, F4, N. split; [|auto]. split; [reflexivity|]. split; [|exact H].
  apply (keys_base _ _ u c d a b). destruct sym; [apply (to_pg_keys _ _ _ E)|now injection E as <-]. Qed.
Lemma read_made s : made s -> read_pg (mkF (sud s) (sbs s) (pgs s) (elem s)) = Ok s.
Proof. intros (N & (u & c & d & a & b & E) & F). unfold Ipess.read_pg. cbn [f_elem f_ud f_bs f_pgs]. rewrite E in *.
  assert (M1 : dmem (base (sud s) (sbs s) u c d a b) "UP_T" = false) by (destruct (sud s), (sbs s); reflexivity). rewrite M1. cbn [andb bind].
  match goal with |- context [py_assert ?x] => assert (M2 : x = true) by (destruct (sud s), (sbs s); reflexivity); rewrite M2 end. cbn [py_assert bind].
  transitivity (mk_pg u c (if sud s then None else Some d) (if sbs s then None else Some a) (if sbs s then None else Some b) (sud s) (sbs s) (Some (pgs s)) false).
  { destruct (sud s), (sbs s); reflexivity. }
  rewrite (mk_eq _ _ _ _ _ d a b).
  - cbn [gdef]. rewrite N. cbn [py_assert bind]. exact F.
  - intros ->. reflexivity.
  - intros ->. auto. Qed.
Lemma sym_made s ud bs g s' : to_PG_symmetric s ud bs g = Ok s' -> made s'.
Proof. unfold Ipess.to_PG_symmetric. intros H. repeat match type of H with bind ?x _ = _ => destruct x; cbn [bind] in H; [|discriminate H] end. exact (proj1 (mk_made _ _ _ _ _ _ _ _ _ _ H)). Qed.
Lemma io_ok u c od oa ob ud bs g sym s : mk_pg u c od oa ob ud bs g sym = Ok s ->
  (exists f, write_pg s false = Ok f /\ read_pg f = Ok s) /\
  (forall s', to_PG_symmetric s None None None = Ok s' -> exists f, write_pg s true = Ok f /\ read_pg f = Ok s').
Proof. intros H. destruct (mk_made _ _ _ _ _ _ _ _ _ _ H) as (M & _). split.
  - eexists. split; [reflexivity|]. apply read_made; exact M.
  - intros s' E. unfold Ipess.write_pg. rewrite E. cbn [bind]. eexists. split; [reflexivity|]. apply read_made. exact (sym_made _ _ _ _ _ E). Qed.
(** *** rebuild *)
Definition refinish (s : st) (e : elts) : res st :=
  match tensors_of (sud s) (sbs s) e with Some F => A <- onsite (cellB F) ;; Ok (mkPG (sud s) (sbs s) e (pgs s) [((0, 0)%Z, cellB F)] [((0, 0)%Z, A)]) | None => Err KeyError end.
Lemma rebuild_eq s e F : tensors_of (sud s) (sbs s) e = Some F -> rebuild s e = refinish s e.
Proof. intros H. unfold refinish. rewrite H. unfold tensors_of in H. unfold Ipess.rebuild, dget_exn, build_onsite_tensors.
  destruct (dget e "T_u") eqn:E0; [|discriminate H]. destruct (dget e (if sud s then "T_u" else "T_d")) eqn:E1; [|discriminate H]. destruct (dget e (if sbs s then "B_c" else "B_a")) eqn:E2; [|discriminate H].
  destruct (dget e (if sbs s then "B_c" else "B_b")) eqn:E3; [|discriminate H]. destruct (dget e "B_c") eqn:E4; [|discriminate H]. injection H as <-. cbn [bind].
  destruct (sud s); [rewrite E0 in E1|rewrite E1]; (destruct (sbs s); [rewrite E4 in E2, E3|rewrite E2, E3]); cbn [bind mapM fst snd]; unfold cellB; cbn [t_u t_d b_a b_b b_c dset eq_dec EqDec_string string_dec bind];
  repeat match goal with H : Some _ = Some _ |- _ => injection H as -> end;
  match goal with |- bind (bind (bind ?x _) _) _ = bind ?y _ => change x with y; now destruct y end. Qed.
Lemma checkpoint_ok s s' : made s' -> sud s = sud s' -> sbs s = sbs s' ->
  exists s'', load_checkpoint s (elem s') = Ok s'' /\ elem s'' = elem s' /\ sites s'' = sites s' /\ pgs s'' = pgs s /\ sud s'' = sud s /\ sbs s'' = sbs s /\
    exists F cell, tensors_of (sud s) (sbs s) (elem s') = Some F /\ ipess s'' = [((0, 0)%Z, cell)] /\ holds cell F.
Proof. intros (N & (u & c & d & a & b & E) & F) E1 E2. unfold Ipess.load_checkpoint.
  assert (M1 : dmem (elem s') "BOND_S" = false) by (rewrite E; destruct (sud s'), (sbs s'); reflexivity). rewrite M1. cbn [andb].
  assert (M2 : dmem (elem s') "BOND_S1" = false) by (rewrite E; destruct (sud s'), (sbs s'); reflexivity). rewrite M2. cbn [andb bind].
  unfold finish in F. rewrite <- E1, <- E2 in F. destruct (tensors_of (sud s) (sbs s) (elem s')) as [G|] eqn:T; [|discriminate F].
  rewrite (rebuild_eq _ _ G T). unfold refinish. rewrite T, <- cell_same. destruct (onsite (cellA G)) as [A|]; [|discriminate F]. cbn [bind] in F |- *. injection F as F.
  eexists. split; [reflexivity|]. rewrite <- F. cbn [elem sites pgs sud sbs ipess]. repeat (split; [reflexivity|]).
  exists G, (cellB G). split; [reflexivity|]. split; [reflexivity|]. repeat split. Qed.
Lemma checkpoint_final u c od oa ob g sym s' s : mk_pg u c od oa ob (sud s) (sbs s) g sym = Ok s' ->
  exists s'', load_checkpoint s (elem s') = Ok s'' /\ elem s'' = elem s' /\ sites s'' = sites s' /\ pgs s'' = pgs s /\ sud s'' = sud s /\ sbs s'' = sbs s /\
    exists F cell, tensors_of (sud s) (sbs s) (elem s') = Some F /\ ipess s'' = [((0, 0)%Z, cell)] /\ holds cell F.
Proof. intros H. destruct (mk_made _ _ _ _ _ _ _ _ _ _ H) as (M & E1 & E2 & _). apply checkpoint_ok; [exact M|now rewrite E1|now rewrite E2]. Qed.
Lemma checkpoint_legacy s p : dmem p "BOND_S" = false -> dmem p "UP_T" = true -> dmem p "BOND_S1" = true -> dmem p "BOND_S2" = true -> dmem p "BOND_S3" = true -> load_checkpoint s p = Err NameError.
Proof. intros H0 H1 H2 H3 H4. unfold Ipess.load_checkpoint. rewrite H0, H2, H1, H3, H4. cbn [andb]. unfold dget_exn.
  unfold dmem in H1, H2. destruct (dget p "UP_T"); [|discriminate]. destruct (dget p "BOND_S1"); [|discriminate]. cbn [bind].
  destruct (dmem p "DOWN_T") eqn:E; cbn [andb]; [|reflexivity]. unfold dmem in E. destruct (dget p "DOWN_T"); [|discriminate]. destruct (negb (sud s)); reflexivity. Qed.

(** *** on-site tensors *)
Hypothesis SR : semi_ring_theory k0 k1 kadd kmul (@eq K).
Lemma site_ok F pa pb pc D cell : usable F pa pb pc D -> holds cell F -> exists A, onsite cell = Ok A /\ is_onsite F pa pb pc D A.
Proof. intros (HF & HD & H1 & H2 & H3) (E1 & E2 & E3 & E4 & E5).
  destruct (onsite_ok k0 k1 kadd kmul kdiv amax SR F pa pb pc D D D D D D D D HF cell E1 E2 E3 E4 E5) as (A & EA & WA & DA & HA).
  - cbn. repeat (apply Nat.neq_mul_0; split); lia.
  - exists A. split; [exact EA|]. split; [exact WA|]. split; [exact DA|]. exact HA. Qed.
End P.
