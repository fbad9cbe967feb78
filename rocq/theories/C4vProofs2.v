From Verif Require Import Base BaseLemmas Tensor TensorLemmas TensorIO Extend C4v C4vSpec C4vProofs.
From Coq Require Import Ring.
Open Scope list_scope.
Open Scope nat_scope.

Lemma all_irreps r : In r irreps4.
Proof. destruct r; cbn; auto 10. Qed.
Lemma rname_inj r q : rname r = rname q -> r = q.
Proof. destruct r, q; cbn; congruence. Qed.
Lemma NoDup_irreps : NoDup irreps4.
Proof. repeat constructor; cbn; intuition discriminate. Qed.
Lemma inb_spec l r : inb l r = true <-> In (rname r) l.
Proof. unfold inb. destruct (in_dec string_dec (rname r) l); split; intros; [assumption|reflexivity|discriminate|contradiction]. Qed.

Section Ring.
Context {K : Type} (zero one : K) (add mul sub : K -> K -> K) (opp : K -> K) (half : K).
Variable Rth : ring_theory zero one add mul sub opp (@eq K).
Variable Hhalf : add half half = one.
Add Ring KR : Rth.
Variable iter_set : list string -> list string.
Variable Hset : set_order iter_set.
Notation el := (el zero).
Notation sgn := (sgn opp).
Notation tbin := (tbin zero).
Notation projection := (projection zero add mul opp half).
Notation transforms := (transforms zero opp).
Notation make := (make_c4v_symm zero half add sub mul iter_set).
Notation projections := (projections zero half add sub mul).
Notation formula := (formula zero).
Notation lsum := (lsum zero add).
Notation projector := (projector zero add mul opp half).

Definition code (r : irrep) : tensor K -> res (tensor K) :=
  match r with A1 => make_A1 zero half add mul | A2 => make_A2 zero half add sub mul | B1 => make_B1 zero half add sub mul | B2 => make_B2 zero half add sub mul end.
Lemma code_formula r : exists F, formula (code r) F /\ (r <> B2 -> F = projection r).
Proof. destruct r; cbn [code].
  - exists (projection A1). split; [eapply formula_A1; eassumption|auto].
  - exists (projection A2). split; [eapply formula_A2; eassumption|auto].
  - exists (projection B1). split; [eapply formula_B1; eassumption|auto].
  - destruct (b2_formula zero one add mul sub opp half Rth) as (F & HF & _). exists F. split; [exact HF|congruence]. Qed.
Lemma code_ok r p D A : onsite p D A -> exists C, code r A = Ok C /\ onsite p D C.
Proof. intros H. destruct (code_formula r) as (F & HF & _). destruct (HF p D A H) as (C & E & HC & _). eauto. Qed.
Lemma code_dget r : dget projections (rname r) = Some (code r).
Proof. destruct r; reflexivity. Qed.

Lemma single r : iter_set [rname r] = [rname r].
Proof. destruct (Hset [rname r]) as [N I]. destruct (iter_set [rname r]) as [|a [|b l]].
  - destruct (proj2 (I (rname r)) (or_introl eq_refl)).
  - destruct (proj1 (I a) (or_introl eq_refl)) as [<-|[]]. reflexivity.
  - destruct (proj1 (I a) (or_introl eq_refl)) as [<-|[]], (proj1 (I b) (or_intror (or_introl eq_refl))) as [<-|[]].
    inversion_clear N as [|? ? H _]. exfalso. apply H. now left. Qed.

Lemma zeros_onsite p D (A : tensor K) : onsite p D A -> onsite p D (tzeros zero (tdims A)).
Proof. intros [_ DA]. split; [apply twf_tzeros|exact DA]. Qed.
Lemma zeros_el p D (A : tensor K) s x : onsite p D A -> s < p -> bonds D x -> el (tzeros zero (tdims A)) s x = zero.
Proof. intros [_ DA] Hs Hx. unfold C4vSpec.el. rewrite DA, tget_tzeros by (now apply bonds_range). reflexivity. Qed.

(** the loop of make_c4v_symm over known irreps *)
Lemma fold_sum rs p D A : onsite p D A -> forall S, onsite p D S -> exists C,
  foldM (fun S irrep => bind (dget_exn projections irrep) (fun f => bind (f A) (fun B => tbin add S B))) (map rname rs) S = Ok C /\ onsite p D C /\
  exists Cs, (forall r, code r A = Ok (Cs r) /\ onsite p D (Cs r)) /\
  forall s x, s < p -> bonds D x -> el C s x = fold_right (fun r acc => add (el (Cs r) s x) acc) (el S s x) (rev rs).
Proof. intros HA.
  assert (HCs : exists Cs, forall r, code r A = Ok (Cs r) /\ onsite p D (Cs r)).
  { destruct (code_ok A1 p D A HA) as (c1 & ? & ?), (code_ok A2 p D A HA) as (c2 & ? & ?), (code_ok B1 p D A HA) as (c3 & ? & ?), (code_ok B2 p D A HA) as (c4 & ? & ?).
    exists (fun r => match r with A1 => c1 | A2 => c2 | B1 => c3 | B2 => c4 end). intros []; auto. }
  destruct HCs as [Cs HCs]. intros S HS.
  cut (exists C, foldM (fun S irrep => bind (dget_exn projections irrep) (fun f => bind (f A) (fun B => tbin add S B))) (map rname rs) S = Ok C /\ onsite p D C /\
    forall s x, s < p -> bonds D x -> el C s x = fold_right (fun r acc => add (el (Cs r) s x) acc) (el S s x) (rev rs)).
  { intros (C & E & HC & G). exists C. split; [exact E|]. split; [exact HC|]. exists Cs. split; assumption. }
  revert S HS. induction rs as [|r rs IH]; intros S HS.
  - exists S. split; [reflexivity|]. split; [exact HS|reflexivity].
  - cbn [map foldM]. unfold dget_exn at 1. rewrite code_dget. cbn [bind]. destruct (HCs r) as [-> Hr]. cbn [bind].
    destruct (tbin_onsite zero add p D S (Cs r) HS Hr) as (S' & -> & HS' & G'). cbn [bind].
    destruct (IH S' HS') as (C & E & HC & G). exists C. split; [exact E|]. split; [exact HC|]. intros s x Hs Hx.
    rewrite G, G' by assumption. cbn [rev]. rewrite fold_right_app. cbn [fold_right]. f_equal. ring. Qed.

Lemma lsum_perm f rs rs' : Permutation rs rs' -> lsum f rs = lsum f rs'.
Proof. induction 1; cbn in *; [reflexivity|now f_equal|ring|congruence]. Qed.


Lemma order_irreps l : known l -> exists rs, iter_set l = map rname rs /\ Permutation rs (filter (inb l) irreps4).
Proof. intros Hk. destruct (Hset l) as [N I].
  assert (Hm : exists rs, iter_set l = map rname rs).
  { assert (Hall : forall i, In i (iter_set l) -> exists r, i = rname r) by (intros i Hi; apply Hk, I, Hi).
    clear N I. induction (iter_set l) as [|a o IH]; [now exists []|].
    destruct (Hall a (or_introl eq_refl)) as [r ->]. destruct IH as [rs ->]; [intros; apply Hall; now right|]. now exists (r :: rs). }
  destruct Hm as [rs E]. exists rs. split; [exact E|]. rewrite E in N, I. apply NoDup_map_inv in N.
  apply NoDup_Permutation; [exact N|apply NoDup_filter, NoDup_irreps|]. intros r. rewrite filter_In, inb_spec.
  split.
  - intros Hr. split; [apply all_irreps|]. apply I. now apply in_map.
  - intros [_ Hr]. apply I in Hr. apply in_map_iff in Hr as (q & Eq & Hq). now apply rname_inj in Eq as ->. Qed.

Lemma make_known l p D A : known l -> onsite p D A -> exists C, make l A = Ok C /\ onsite p D C /\
  exists Cs, (forall r, code r A = Ok (Cs r) /\ onsite p D (Cs r)) /\
  forall s x, s < p -> bonds D x -> el C s x = lsum (fun r => el (Cs r) s x) (filter (inb l) irreps4).
Proof. intros Hk HA. destruct (order_irreps l Hk) as (rs & E & P). unfold make_c4v_symm. rewrite E.
  assert (F : forallb (fun i => dmem projections i) (map rname rs) = true).
  { apply forallb_forall. intros i Hi. apply in_map_iff in Hi as (r & <- & _). destruct r; reflexivity. }
  rewrite F. cbn [py_assert bind].
  destruct (fold_sum rs p D A HA _ (zeros_onsite p D A HA)) as (C & -> & HC & Cs & HCs & G).
  exists C. split; [reflexivity|]. split; [exact HC|]. exists Cs. split; [exact HCs|]. intros s x Hs Hx. rewrite G by assumption.
  rewrite (zeros_el p D) by assumption. apply (lsum_perm (fun r => el (Cs r) s x)). rewrite <- P. symmetry. apply Permutation_rev. Qed.

Lemma filter_single r : filter (inb [rname r]) irreps4 = [r].
Proof. destruct r; reflexivity. Qed.
Lemma known_single r : known [rname r].
Proof. intros i [<-|[]]. eauto. Qed.

(** one irrep: the same as calling the projection *)
Lemma make_single r p D A : onsite p D A -> make [rname r] A = code r A.
Proof. intros HA. destruct (make_known [rname r] p D A (known_single r) HA) as (C & -> & HC & Cs & HCs & G). destruct (HCs r) as [-> Hr]. f_equal.
  apply (onsite_ext zero p D); try assumption. intros. rewrite G by (try assumption; now apply bonds_mk). rewrite filter_single. cbn. ring. Qed.

Lemma make_projector r : r <> B2 -> projector r (make [rname r]).
Proof. intros N. eapply formula_projector; try eassumption. destruct (code_formula r) as (F & HF & E). rewrite <- (E N).
  intros p D A HA. rewrite (make_single r p D A HA). apply HF. exact HA. Qed.

Lemma make_sum l p D A : known l -> onsite p D A -> exists C, make l A = Ok C /\ onsite p D C /\
  exists Cs, (forall r, make [rname r] A = Ok (Cs r)) /\
  forall s x, s < p -> bonds D x -> el C s x = lsum (fun r => el (Cs r) s x) (filter (inb l) irreps4).
Proof. intros Hk HA. destruct (make_known l p D A Hk HA) as (C & E & HC & Cs & HCs & G). exists C. split; [exact E|]. split; [exact HC|].
  exists Cs. split; [|exact G]. intros r. rewrite (make_single r p D A HA). apply HCs. Qed.

Lemma make_unknown l A : ~ known l -> (forall i, In i l -> In i (map rname irreps4) \/ ~ In i (map rname irreps4)) -> make l A = Err AssertionError.
Proof. intros Hk Hd. unfold make_c4v_symm.
  assert (F : forallb (fun i => dmem projections i) (iter_set l) = false).
  { destruct (forallb _ (iter_set l)) eqn:E; [|reflexivity]. exfalso. apply Hk. rewrite forallb_forall in E. intros i Hi.
    specialize (E i (proj2 (proj2 (Hset l) i) Hi)). destruct (dget projections i) as [f|] eqn:G; [|unfold dmem in E; rewrite G in E; discriminate].
    assert (G' : In i (dkeys projections)) by (apply dget_Some_key; eauto). clear G; rename G' into G. cbn in G. decompose [or] G; try contradiction; subst i; [now exists A1|now exists A2|now exists B1|now exists B2]. }
  now rewrite F. Qed.
Lemma make_rejects l A i : In i l -> ~ In i (map rname irreps4) -> make l A = Err AssertionError.
Proof. intros Hi Hn. apply make_unknown.
  - intros Hk. destruct (Hk i Hi) as [r ->]. apply Hn, in_map, all_irreps.
  - intros j _. destruct (in_dec string_dec j (map rname irreps4)); auto. Qed.

(** ** idempotence *)
Definition pj (r : irrep) (v : sym -> K) : K :=
  mul (mul half (mul half half)) (fold_right (fun g acc => add (sgn (chi r g) (v g)) acc) zero group).
Lemma pj_add r v w : pj r (fun g => add (v g) (w g)) = add (pj r v) (pj r w).
Proof. unfold pj, group, fold_right. destruct r; unfold chi, C4vSpec.sgn; cbn [refl shift negb Nat.even Nat.odd]; ring. Qed.
Lemma pj_zero r : pj r (fun _ => zero) = zero.
Proof. unfold pj, group, fold_right. destruct r; unfold chi, C4vSpec.sgn; cbn [refl shift negb Nat.even Nat.odd]; ring. Qed.
Lemma pj_ext r v w : (forall g, In g group -> v g = w g) -> pj r v = pj r w.
Proof. intros H. unfold pj, group, fold_right. rewrite !H by (cbn; auto 10). reflexivity. Qed.
Lemma proj_lin r C s x (Cs : irrep -> tensor K) rs : (forall g, In g group -> el C s (moved g x) = lsum (fun q => el (Cs q) s (moved g x)) rs) ->
  projection r C s x = lsum (fun q => projection r (Cs q) s x) rs.
Proof. intros H. change (projection r C s x) with (pj r (fun g => el C s (moved g x))). rewrite (pj_ext _ _ _ H). clear H.
  induction rs as [|q rs IH]; unfold C4vSpec.lsum in *; cbn [fold_right] in *; [apply pj_zero|].
  rewrite pj_add, IH. reflexivity. Qed.

Lemma make_idem l p D A C : known l -> ~ In "B2"%string l -> onsite p D A -> make l A = Ok C -> make l C = Ok C.
Proof. intros Hk Hb HA E. destruct (make_known l p D A Hk HA) as (C' & E' & HC & Cs & HCs & G). assert (C' = C) by congruence. subst C'. clear E'.
  destruct (make_known l p D C Hk HC) as (C2 & -> & HC2 & Cs2 & HCs2 & G2). f_equal. symmetry.
  apply (onsite_ext zero p D); try assumption. intros s u l' d r' Hs Hu Hl Hd Hr. pose proof (bonds_mk D u l' d r' Hu Hl Hd Hr) as Hx. set (x := [u; l'; d; r']) in *.
  rewrite G2, G by assumption.
  assert (HB : forall q, In q (filter (inb l) irreps4) -> q <> B2) by (intros q Hq ->; apply filter_In in Hq as [_ Hq]; apply inb_spec in Hq; exact (Hb Hq)).
  assert (HP : forall q, q <> B2 -> forall s x, s < p -> bonds D x -> el (Cs q) s x = projection q A s x).
  { intros q Hq s0 x0 Hs0 Hx0. destruct (code_formula q) as (F & HF & EF). destruct (HF p D A HA) as (X & EX & _ & GX). destruct (HCs q) as [E1 _].
    rewrite E1 in EX. injection EX; intros <-. rewrite GX by assumption. now rewrite EF. }
  assert (HP2 : forall q, q <> B2 -> forall s x, s < p -> bonds D x -> el (Cs2 q) s x = projection q C s x).
  { intros q Hq s0 x0 Hs0 Hx0. destruct (code_formula q) as (F & HF & EF). destruct (HF p D C HC) as (X & EX & _ & GX). destruct (HCs2 q) as [E1 _].
    rewrite E1 in EX. injection EX; intros <-. rewrite GX by assumption. now rewrite EF. }
  assert (HT : forall q, q <> B2 -> forall g, In g group -> el (Cs q) s (moved g x) = sgn (chi q g) (el (Cs q) s x)).
  { intros q Hq g Hg. rewrite !HP by (try assumption; now apply moved_bonds). eapply proj_moved; eassumption. }
  assert (HL : forall q, In q (filter (inb l) irreps4) -> el (Cs2 q) s x = el (Cs q) s x).
  { intros q Hq. rewrite HP2 by auto. rewrite (proj_lin q C s x Cs (filter (inb l) irreps4)) by (intros g Hg; apply G; [exact Hs|now apply moved_bonds]).
    assert (N : NoDup (filter (inb l) irreps4)) by (apply NoDup_filter, NoDup_irreps).
    assert (Hfix : projection q (Cs q) s x = el (Cs q) s x) by (eapply proj_fix; [eassumption|eassumption|apply HT; auto]).
    assert (Horth : forall q', In q' (filter (inb l) irreps4) -> q <> q' -> projection q (Cs q') s x = zero) by (intros q' Hq' Nq; eapply proj_orth; [eassumption|exact Nq|apply HT; auto]).
    clear HT HP HP2 G G2 HB. revert Hq N Horth. generalize (filter (inb l) irreps4). intros rs Hq N Horth. induction rs as [|a rs IH]; [destruct Hq|].
    inversion_clear N as [|? ? Na N']. unfold C4vSpec.lsum in *. cbn [fold_right]. destruct Hq as [->|Hq].
    - rewrite Hfix. assert (Z : fold_right (fun r acc => add (projection q (Cs r) s x) acc) zero rs = zero).
      { clear IH N'. induction rs as [|b rs IH]; [reflexivity|]. cbn [fold_right].
        rewrite (Horth b) by (try (cbn; auto); intros ->; apply Na; now left). rewrite IH; [ring| |].
        - intros q' [Hq'|Hq']; [apply Horth; now left|apply Horth; cbn; auto].
        - intros Hq'. apply Na. now right. }
      rewrite Z. ring.
    - rewrite (Horth a) by (try (now left); intros ->; contradiction). rewrite IH by (try assumption; intros; apply Horth; cbn; auto). ring. }
  clear - HL. induction (filter (inb l) irreps4) as [|a rs IH]; [reflexivity|]. unfold C4vSpec.lsum in *. cbn [fold_right].
  rewrite HL by (now left). rewrite IH by (intros; apply HL; now right). reflexivity. Qed.

(** ** B2 *)
Lemma B2_zero p D A : onsite p D A -> transforms B2 A -> make ["B2"%string] A = Ok (tzeros zero (tdims A)).
Proof. intros HA HT. change ["B2"%string] with [rname B2]. rewrite (make_single B2 p D A HA). cbn [code].
  destruct (b2_formula zero one add mul sub opp half Rth) as (F & HF & HZ & _). destruct (HF p D A HA) as (C & -> & HC & G). f_equal.
  apply (onsite_ext zero p D); [exact HC|now apply (zeros_onsite p D)|]. intros s u l d r Hs Hu Hl Hd Hr. pose proof (bonds_mk D u l d r Hu Hl Hd Hr) as Hx.
  rewrite G by assumption. rewrite (zeros_el p D) by assumption. apply (HZ D); [exact Hx|]. intros g Hg. destruct HA as [_ DA]. now apply (HT p D DA). Qed.
Lemma B2_odd p D A : onsite p D A -> exists C, make ["B2"%string] A = Ok C /\ onsite p D C /\
  forall s x, s < p -> bonds D x -> el C s (moved {| refl := false; shift := 2 |} x) = opp (el C s x).
Proof. intros HA. change ["B2"%string] with [rname B2]. rewrite (make_single B2 p D A HA). cbn [code].
  destruct (b2_formula zero one add mul sub opp half Rth) as (F & HF & _ & HO). destruct (HF p D A HA) as (C & -> & HC & G).
  exists C. split; [reflexivity|]. split; [exact HC|]. intros s x Hs Hx. rewrite !G by first [assumption | apply moved_bonds; [assumption|cbn; auto]].
  destruct (bonds4 _ _ Hx) as (u & l & d & r & -> & _). apply HO. Qed.

(** ** to_ipeps_c4v *)
Variable normalized : ten K -> ten K.
Notation to_c4v := (to_ipeps_c4v zero half add sub mul iter_set normalized).

Lemma to_c4v_real c p D A : onsite p D A -> exists C, to_c4v [(c, TReal A)] false = Ok (TReal C) /\ onsite p D C /\ transforms A1 C /\ (transforms A1 A -> C = A).
Proof. intros HA. destruct (make_projector A1 ltac:(discriminate) p D A HA) as (C & E & HC & T & _ & Fx). exists C.
  unfold to_ipeps_c4v. change ["A1"%string] with [rname A1]. rewrite E. cbn [bind]. auto. Qed.

Lemma tcplx_onsite p D A B : onsite p D A -> onsite p D B -> exists C, tcplx zero A B = Ok C /\ onsite p D C /\ tmap fst C = A /\ tmap snd C = B.
Proof. intros [WA DA] [WB DB]. unfold tcplx. rewrite DA, DB, bdims_same. cbn [bind]. eexists. split; [reflexivity|].
  split; [split; [apply twf_tbuild|reflexivity]|]. split; apply tensor_ext; try assumption; try (apply twf_tmap, twf_tbuild); try (cbn; congruence);
    intros ix Hix; rewrite tget_tmap, tget_tbuild by exact Hix; cbn [option_map fst snd]; rewrite bcast_same by exact Hix; unfold tval.
  - destruct (tget_Some A ix WA ltac:(rewrite DA; exact Hix)) as [v ->]. reflexivity.
  - destruct (tget_Some B ix WB ltac:(rewrite DB; exact Hix)) as [v ->]. reflexivity. Qed.
Lemma cplx_ext p D (A B : tensor (K * K)) : onsite p D A -> onsite p D B -> tmap fst A = tmap fst B -> tmap snd A = tmap snd B -> A = B.
Proof. intros [WA DA] [WB DB] H1 H2. destruct A as [dA a], B as [dB b]. unfold tmap in *. cbn in *. subst dA dB. injection H1 as Ea. injection H2 as Eb. f_equal.
  clear - Ea Eb. revert b Ea Eb. induction a as [|[x y] a IH]; intros [|[x' y'] b] H1 H2; cbn in *; try discriminate; [reflexivity|].
  injection H1 as E1 E2. injection H2 as E3 E4. subst. f_equal. auto. Qed.

Lemma to_c4v_cplx c p D A : onsite p D A -> exists C, to_c4v [(c, TCplx A)] false = Ok (TCplx C) /\ onsite p D C /\
  transforms A1 (tmap fst C) /\ transforms A2 (tmap snd C) /\ (transforms A1 (tmap fst A) -> transforms A2 (tmap snd A) -> C = A).
Proof. intros HA. assert (H1 : onsite p D (tmap fst A)) by (destruct HA; split; [now apply twf_tmap|assumption]).
  assert (H2 : onsite p D (tmap snd A)) by (destruct HA; split; [now apply twf_tmap|assumption]).
  destruct (make_projector A1 ltac:(discriminate) p D _ H1) as (X & EX & HX & TX & _ & FX).
  destruct (make_projector A2 ltac:(discriminate) p D _ H2) as (Y & EY & HY & TY & _ & FY).
  destruct (tcplx_onsite p D X Y HX HY) as (C & EC & HC & C1 & C2). exists C.
  unfold to_ipeps_c4v. change ["A1"%string] with [rname A1]. change ["A2"%string] with [rname A2]. rewrite EX. cbn [bind]. rewrite EY. cbn [bind]. rewrite EC. cbn [bind].
  split; [reflexivity|]. split; [exact HC|]. rewrite C1, C2. split; [exact TX|]. split; [exact TY|]. intros T1 T2.
  apply (cplx_ext p D); try assumption; [rewrite C1; auto|rewrite C2; auto]. Qed.
End Ring.
