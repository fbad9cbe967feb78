(** The step of the C4v algorithm from a symmetric environment, and runs. *)
From Verif Require Import Base BaseLemmas Tensor TensorLemmas Net NetSpec NetProofs NetProofs2 NetProofs3 Corners CornersSpec CornersProofs NetSym Extend C4v C4vProofs CtmC4v CtmC4vSpec CtmC4vProofs CtmC4vProofs2 CtmC4vProofs3.
From Coq Require Import Ring ArithRing Field_theory Field.
Open Scope list_scope.
Open Scope nat_scope.
Open Scope res_scope.

Section R.
Context {K : Type} (z o half : K) (add mul sub : K -> K -> K) (opp : K -> K) (div : K -> K -> K) (inv : K -> K)
  (cj vabs : K -> K) (is0 : K -> bool) (vnorm : bool -> list K -> K).
Hypothesis L : scalar_laws z o half add mul sub opp div inv cj vabs is0 vnorm.
Notation ten := (tensor K).
Notation entry := (entry z).
Let SR := SRL z o half add mul sub opp div inv cj vabs is0 vnorm L.
Notation cjz := (cjz z o half add mul sub opp div inv cj vabs is0 vnorm L).
Notation cjo := (cjo z o half add mul sub opp div inv cj vabs is0 vnorm L).
Notation cjadd := (sl_cj_add _ _ _ _ _ _ _ _ _ _ _ _ _ L).
Notation cjmul := (sl_cj_mul _ _ _ _ _ _ _ _ _ _ _ _ _ L).
Notation cjcj := (sl_cj_cj _ _ _ _ _ _ _ _ _ _ _ _ _ L).
Notation isc D := (is_contraction D z o add mul).
Notation move_sl := (ctm_MOVE_sl z o half add mul div cj vabs is0 vnorm).
Notation move_dl := (ctm_MOVE_dl z o half add mul div cj vabs is0 vnorm).
Notation move_qr := (ctm_MOVE_QR_sl z o half add mul div cj vabs is0 vnorm).
Notation sym := (symmetrize z half add mul cj).
Notation normalize := (move_normalize div vabs is0 vnorm).
Notation good := (good_decomp cj).

(** P^+ M P, computed by two matrix products *)
Lemma triple n m P M : shaped [n; m] P -> shaped [n; n] M ->
  exists y, (x <- tensordot z o add mul (tmap cj P) M [0] [0] ;; tensordot z o add mul x P [1] [0]) = Ok y /\
    isc (fun k => if k <? 2 then n else m) [(tmap cj P, [V 0; V 2]); (M, [V 0; V 1]); (P, [V 1; V 3])] [V 2; V 3] y.
Proof. intros [WP DP] WM. pose (DS := fun k => if k <? 2 then n else m). pose (net3 := [(tmap cj P, [V 0; V 2]); (M, [V 0; V 1]); (P, [V 1; V 3])]).
  assert (HF : fits DS net3).
  { unfold net3. repeat (apply Forall_cons; [cbn [fst snd]; split|]); try exact (proj1 WM); try exact (proj2 WM); try exact DP; try exact WP; [now apply twf_tmap|apply Forall_nil]. }
  assert (R0 := fits_leaf z o add mul SR DS net3 0 HF ltac:(cbn; lia)). assert (R1 := fits_leaf z o add mul SR DS net3 1 HF ltac:(cbn; lia)).
  assert (R2 := fits_leaf z o add mul SR DS net3 2 HF ltac:(cbn; lia)). cbn [nth map fst snd net3] in R0, R1, R2.
  eapply (one_rep z o add mul SR DS net3 [(0, [V 0; V 2]); (1, [V 0; V 1]); (2, [V 1; V 3])] [V 2; V 3]);
      [step ltac:(eapply (rep_dot _ _ _ _ SR); [exact R0|exact R1|calc_some]); cdotr SR R2|check|reflexivity]. Qed.
(** ** the step *)
Section Step.
Variables chi d Dn : nat.
Notation n := (chi * (Dn * Dn)).
Notation DC := (dims_corner chi d Dn).
Lemma new_corner C T a P M l : isc DC (net_corner cj C T a) out_corner M -> diagonalizes z cj o add mul n chi M l P -> length l = chi ->
  isc DC (net_new_corner cj C T a P) [V 13; V 14] (diag z l).
Proof. intros HM [[WP DP] HD] Hl.
  pose (DS := fun k => if k <? 2 then n else chi). pose (net3 := [(tmap cj P, [V 0; V 2]); (M, [V 0; V 1]); (P, [V 1; V 3])]).
  assert (WM : shaped [n; n] M) by (destruct HM as (W & E & _); split; [exact W|exact E]).
  assert (X := triple n chi P M (Logic.conj WP DP) WM).
  destruct X as (y & Ey & Hy).
  assert (y = diag z l).
  { apply (rep_eq z o add mul SR DS (env_of net3) _ _ _ _ (rep_of_contraction z o add mul DS net3 (env_of net3) [(0, [V 0; V 2]); (1, [V 0; V 1]); (2, [V 1; V 3])] [V 2; V 3] y Hy eq_refl)
      (rep_of_contraction z o add mul DS net3 (env_of net3) [(0, [V 0; V 2]); (1, [V 0; V 1]); (2, [V 1; V 3])] [V 2; V 3] (diag z l) HD eq_refl)); vm_compute; reflexivity. }
  subst y.
  pose (net := net_new_corner cj C T a P).
  assert (F5 : rep z o add mul DC (env_of net) (mkS [F (V 5) (FF 9 11); V 13] [] [(5, [F (V 5) (FF 9 11); V 13])]) (tmap cj P)).
  { apply (rep_leaf z o add mul SR); [reflexivity|now apply twf_tmap|exact DP]. }
  assert (F6 : rep z o add mul DC (env_of net) (mkS [F (V 4) (FF 10 12); V 14] [] [(6, [F (V 4) (FF 10 12); V 14])]) P).
  { apply (rep_leaf z o add mul SR); [reflexivity|exact WP|exact DP]. }
  pose (fac := [(0, [V 0; V 1]); (1, [V 4; V 1; FF 2 3]); (2, [V 0; V 5; FF 6 7]); (3, [V 8; V 2; V 6; V 9; V 10]); (4, [V 8; V 3; V 7; V 11; V 12])]).
  assert (FM : rep z o add mul DC (env_of net) (mkS out_corner (to_sum fac out_corner) fac) M) by exact (rep_of_contraction z o add mul DC _ (env_of net) fac out_corner M HM eq_refl).
  let v := eval vm_compute in (to_sum fac out_corner) in change (to_sum fac out_corner) with v in FM.
  unfold out_corner, fac in FM.
  assert (Y : exists y, (x <- tensordot z o add mul (tmap cj P) M [0] [0] ;; tensordot z o add mul x P [1] [0]) = Ok y /\ isc DC net [V 13; V 14] y).
  { eapply (one_rep z o add mul SR DC net [(0, [V 0; V 1]); (1, [V 4; V 1; FF 2 3]); (2, [V 0; V 5; FF 6 7]); (3, [V 8; V 2; V 6; V 9; V 10]); (4, [V 8; V 3; V 7; V 11; V 12]); (5, [F (V 5) (FF 9 11); V 13]); (6, [F (V 4) (FF 10 12); V 14])] [V 13; V 14]);
      [step ltac:(eapply (rep_dot _ _ _ _ SR); [exact F5|exact FM|calc_some]); cdotr SR F6|check|reflexivity]. }
  destruct Y as (y & Ey' & Hy'). rewrite Ey in Ey'. injection Ey' as <-. exact Hy'. Qed.

Lemma step_sl decomp inf a C T C' T' : c4v_site z cj d Dn a -> symmetric_env z cj chi Dn (C, T) ->
  (forall M l P, hermitian z cj n M -> decomp M chi = Ok (l, P) -> real_values cj chi l /\ diagonalizes z cj o add mul n chi M l P) ->
  move_sl decomp inf chi a (C, T) = Ok (C', T') ->
  exists P nC nT, isc DC (net_new_corner cj C T a P) [V 13; V 14] nC /\ isc (dims_row chi d Dn) (net_row cj T a P) out_row nT /\
    vabs (entry nC [0; 0]) <> z /\ vnorm inf (tdata nT) <> z /\
    C' = tmap (fun x => div x (vabs (entry nC [0; 0]))) nC /\ T' = tmap (fun x => div x (vnorm inf (tdata nT))) nT.
Proof. intros Ha [HC HT] HD H. cbn [fst snd] in HC, HT. unfold ctm_MOVE_sl in H.
  destruct (corner_ok z o add mul cj SR chi d Dn C T a (proj1 HC) (proj1 HT) (proj1 Ha)) as (M & E1 & _ & HM). rewrite E1 in H. cbn [bind] in H.
  apply bind_ok in H. destruct H as ([l P] & EM & H). cbn [fst snd] in H.
  assert (HH := corner_herm z o add mul cj SR cjz cjo cjadd cjmul cjcj chi d Dn C T a M HC HT Ha HM).
  destruct (HD M l P HH EM) as [Hl HP]. apply bind_ok in H. destruct H as (nT & EN & H).
  destruct (absorb_any z o half add mul sub opp div inv cj vabs is0 vnorm L chi d Dn a T P nT (proj1 Ha) (proj1 HT) (or_introl EN)) as (_ & _ & HN).
  replace (mkT [n; chi] (tdata P)) with P in HN by (destruct HP as [[_ E] _]; destruct P; cbn in *; now subst).
  assert (HR := row_herm z o add mul cj SR cjz cjo cjadd cjmul cjcj chi d Dn T a P nT HT Ha HN).
  destruct (symmetrize_ok z o half add mul sub opp div inv cj vabs is0 vnorm L nT chi (Dn * Dn) (proj1 HR)) as (t & ES & _ & HS).
  rewrite (HS HR) in ES. rewrite ES in H. cbn [bind] in H. rewrite tdiag_diag in H.
  apply (normalize_inv z o half add mul sub opp div inv cj vabs is0 vnorm L) in H. destruct H as (N1 & N2 & E). injection E as -> ->.
  exists P, (diag z l), nT. split; [exact (new_corner C T a P M l HM HP (proj1 Hl))|]. auto. Qed.

(** ** only hermitian matrices are decomposed *)
Lemma move_agree decomp decomp' inf a e : c4v_site z cj d Dn a -> symmetric_env z cj chi Dn e ->
  (forall M, hermitian z cj n M -> decomp M chi = decomp' M chi) ->
  move_sl decomp inf chi a e = move_sl decomp' inf chi a e.
Proof. destruct e as [C T]. intros Ha [HC HT] HD. cbn [fst snd] in HC, HT. unfold ctm_MOVE_sl.
  destruct (corner_ok z o add mul cj SR chi d Dn C T a (proj1 HC) (proj1 HT) (proj1 Ha)) as (M & E1 & _ & HM). rewrite E1. cbn [bind].
  rewrite HD; [reflexivity|]. exact (corner_herm z o add mul cj SR cjz cjo cjadd cjmul cjcj chi d Dn C T a M HC HT Ha HM). Qed.

Section Runs.
Variables (qr : ten -> res ten) (inf : bool) (fpcm useQR : nat -> bool) (fpcm_move : nat -> ten * ten -> res (ten * ten)) (conv : nat -> ten * ten -> bool).
Notation its decomp := (iterations z o half add mul div cj vabs is0 vnorm decomp inf chi qr fpcm useQR fpcm_move conv).
Notation its_dl decomp := (iterations_dl z o half add mul div cj vabs is0 vnorm decomp inf chi fpcm fpcm_move conv).
Hypothesis noQR : forall i, useQR i = false.

Lemma its_agree decomp decomp' a : c4v_site z cj d Dn a -> (forall i, fpcm i = false) -> good chi decomp ->
  (forall M, hermitian z cj n M -> decomp M chi = decomp' M chi) -> forall is e, symmetric_env z cj chi Dn e ->
  its decomp a is e = its decomp' a is e.
Proof. intros Ha NF HG HD. induction is as [|i is IH]; intros e He; cbn [iterations]; [reflexivity|].
  unfold iteration. rewrite NF, noQR. cbn [bind]. rewrite <- (move_agree decomp decomp' inf a e Ha He HD).
  destruct (move_sl decomp inf chi a e) as [e'|] eqn:E; cbn [bind]; [|reflexivity].
  destruct (conv i e'); [reflexivity|]. apply IH.
  apply (move_sl_sym z o half add mul sub opp div inv cj vabs is0 vnorm L decomp inf chi d Dn a e e' (proj1 Ha) (proj1 (proj2 He)) HG E). Qed.

Definition result (e : ten * ten) : Prop := symmetric_env z cj chi Dn e /\ diagonal z chi (fst e) /\ vabs (entry (fst e) [0; 0]) = o.
Definition keeps : Prop := forall i e e', fpcm_move i e = Ok e' -> shaped [chi; chi] (fst e) -> shaped [chi; chi; Dn * Dn] (snd e) ->
  shaped [chi; chi] (fst e') /\ shaped [chi; chi; Dn * Dn] (snd e').
Lemma move_dl_sym decomp a e e' : shaped [d; Dn; Dn; Dn; Dn] a -> shaped [chi; chi] (fst e) -> shaped [chi; chi; Dn * Dn] (snd e) ->
  good chi decomp -> move_dl decomp inf chi a e = Ok e' -> result e'.
Proof. intros Ha HC HT HG H. apply (move_dl_sl z o half add mul sub opp div inv cj vabs is0 vnorm L decomp inf chi d Dn a e Ha HC HT) in H.
  exact (move_sl_sym z o half add mul sub opp div inv cj vabs is0 vnorm L decomp inf chi d Dn a e e' Ha HT HG H). Qed.
Lemma its_sym decomp a : shaped [d; Dn; Dn; Dn; Dn] a -> keeps -> good chi decomp ->
  forall is e e', shaped [chi; chi] (fst e) -> shaped [chi; chi; Dn * Dn] (snd e) -> its decomp a is e = Ok e' -> is <> [] -> result e'.
Proof. intros Ha HK HG. induction is as [|i is IH]; intros e e' HC HT H N; [congruence|]. cbn [iterations] in H.
  apply bind_ok in H. destruct H as (e1 & E1 & H). unfold iteration in E1. rewrite noQR in E1. apply bind_ok in E1. destruct E1 as (e0 & E0 & E1).
  assert (S0 : shaped [chi; chi] (fst e0) /\ shaped [chi; chi; Dn * Dn] (snd e0)).
  { destruct (fpcm i); [exact (HK i e e0 E0 HC HT)|]. injection E0 as <-. auto. }
  assert (R1 := move_sl_sym z o half add mul sub opp div inv cj vabs is0 vnorm L decomp inf chi d Dn a e0 e1 Ha (proj2 S0) HG E1).
  destruct (conv i e1); [injection H as <-; exact R1|]. destruct is as [|j is]; [cbn in H; injection H as <-; exact R1|].
  refine (IH e1 e' _ _ H ltac:(discriminate)); [exact (proj1 (proj1 (proj1 R1)))|exact (proj1 (proj2 (proj1 R1)))]. Qed.
Lemma its_dl_sl decomp a : shaped [d; Dn; Dn; Dn; Dn] a -> keeps -> good chi decomp ->
  forall is e, shaped [chi; chi] (fst e) -> shaped [chi; chi; Dn * Dn] (snd e) -> forall e', its_dl decomp a is e = Ok e' <-> its decomp a is e = Ok e'.
Proof. intros Ha HK HG. induction is as [|i is IH]; intros e HC HT e'; cbn [iterations iterations_dl]; [reflexivity|].
  unfold iteration, iteration_dl, env_c4v. rewrite noQR. destruct (if fpcm i then fpcm_move i e else Ok e) as [e0|] eqn:E0; cbn [bind]; [|split; discriminate].
  assert (S0 : shaped [chi; chi] (fst e0) /\ shaped [chi; chi; Dn * Dn] (snd e0)).
  { destruct (fpcm i); [exact (HK i e e0 E0 HC HT)|]. injection E0 as <-. auto. }
  assert (Q := move_dl_sl z o half add mul sub opp div inv cj vabs is0 vnorm L decomp inf chi d Dn a e0 Ha (proj1 S0) (proj2 S0)).
  destruct (move_dl decomp inf chi a e0) as [e1|] eqn:E1.
  - rewrite (proj1 (Q e1) eq_refl). cbn [bind].
    assert (R1 := move_dl_sym decomp a e0 e1 Ha (proj1 S0) (proj2 S0) HG E1).
    destruct (conv i e1); [reflexivity|]. apply IH; [exact (proj1 (proj1 (proj1 R1)))|exact (proj1 (proj2 (proj1 R1)))].
  - destruct (move_sl decomp inf chi a e0) as [e2|] eqn:E2; cbn [bind]; [|split; discriminate]. assert (X := proj2 (Q e2) eq_refl); discriminate X. Qed.
End Runs.

(** ** QR *)
Lemma qr_T qr inf a e e' : shaped [d; Dn; Dn; Dn; Dn] a -> shaped [chi; chi; Dn * Dn] (snd e) ->
  move_qr inf chi qr a e = Ok e' -> row_hermitian z cj chi (Dn * Dn) (snd e').
Proof. destruct e as [C T]. cbn [snd]. intros Ha HT H. unfold ctm_MOVE_QR_sl in H.
  repeat (apply bind_ok in H; let x := fresh "x" in let E := fresh "E" in destruct H as (x & E & H)).
  match goal with E : absorb_sl _ _ _ _ _ _ _ _ _ = Ok _ |- _ => destruct (absorb_any z o half add mul sub opp div inv cj vabs is0 vnorm L chi d Dn a T _ _ Ha HT (or_introl E)) as (_ & _ & HN) end.
  apply row_shape in HN.
  match goal with E : symmetrize _ _ _ _ _ _ = Ok _ |- _ => destruct (symmetrize_ok z o half add mul sub opp div inv cj vabs is0 vnorm L _ chi (Dn * Dn) HN) as (t & ES & HS & _); rewrite ES in E; injection E as <- end.
  apply (normalize_inv z o half add mul sub opp div inv cj vabs is0 vnorm L) in H. destruct H as (N1 & N2 & ->). cbn [snd].
  apply (tdiv_row z o half add mul sub opp div inv cj vabs is0 vnorm L); [exact N2|apply (sl_norm_real _ _ _ _ _ _ _ _ _ _ _ _ _ L)|exact HS]. Qed.

Definition DS (k : nat) : nat := if k <? 2 then n else chi.
Definition swS (k : nat) : nat := match k with 0 => 1 | 1 => 0 | 2 => 3 | 3 => 2 | _ => k end.
Lemma swS_inv l : swS (swS l) = l.
Proof. do 4 (destruct l as [|l]; [reflexivity|]). reflexivity. Qed.
Lemma swS_dim l : DS (swS l) = DS l.
Proof. do 4 (destruct l as [|l]; [reflexivity|]). reflexivity. Qed.
Lemma qr_corner M P : (forall x, cj x = x) -> hermitian z cj n M -> shaped [n; chi] P ->
  exists nC, (Pt <- permute z P [1; 0] ;; x <- tensordot z o add mul Pt M [1] [0] ;; tensordot z o add mul x P [1] [0]) = Ok nC /\ hermitian z cj chi nC.
Proof. intros Hr HM [WP DP].
  pose (net3 := [(P, [V 0; V 2]); (M, [V 0; V 1]); (P, [V 1; V 3])]).
  assert (HF : fits DS net3).
  { unfold net3. destruct HM as [[WM DM] _]. repeat (apply Forall_cons; [cbn [fst snd]; split|]); try exact WM; try exact DM; try exact DP; try exact WP. apply Forall_nil. }
  assert (X : exists y, (Pt <- permute z P [1; 0] ;; x <- tensordot z o add mul Pt M [1] [0] ;; tensordot z o add mul x P [1] [0]) = Ok y /\ isc DS net3 [V 2; V 3] y).
  { assert (R0 := fits_leaf z o add mul SR DS net3 0 HF ltac:(cbn; lia)). assert (R1 := fits_leaf z o add mul SR DS net3 1 HF ltac:(cbn; lia)).
    assert (R2 := fits_leaf z o add mul SR DS net3 2 HF ltac:(cbn; lia)). cbn [nth map fst snd net3] in R0, R1, R2.
    eapply (one_rep z o add mul SR DS net3 [(0, [V 0; V 2]); (1, [V 0; V 1]); (2, [V 1; V 3])] [V 2; V 3]);
      [step ltac:(eapply rep_perm; [exact R0|calc_some]); step ltac:(cdotr SR R1); cdotr SR R2|check|reflexivity]. }
  destruct X as (y & Ey & Hy). exists y. split; [exact Ey|].
  pose (fac0 := [(0, [V 0; V 2]); (1, [V 0; V 1]); (2, [V 1; V 3])]).
  assert (R : rep z o add mul DS (env_of net3) (mkS [V 2; V 3] _ _) y) by exact (rep_of_contraction z o add mul DS net3 (env_of net3) fac0 [V 2; V 3] y Hy eq_refl).
  pose (fac' := [(2, [V 0; V 2]); (1, [V 1; V 0]); (0, [V 1; V 3])]).
  assert (R' := R). apply (rep_conj z o add mul cj cjz cjo cjadd cjmul DS (env_of net3) (env_of net3) _ fac') in R'.
  2:{ intros k. cbn. tauto. }
  2:{ cbn [s_fac fac0]. unfold fac'. repeat apply Forall2_cons; [..|apply Forall2_nil]; intros s; cbn [fst snd map lval env_of net3 nth].
      - apply Hr. - rewrite (herm_total z cj cjz n M HM (s 0)), cjcj. reflexivity. - apply Hr. }
  cbn [s_out s_bnd] in R'.
  assert (Q := rep_perm z o add mul DS _ _ [1; 0] _ _ R' eq_refl). destruct Q as (M' & EP & RP).
  apply (rep_ren z o add mul DS _ swS) in RP; [|intros k l E; rewrite <- (swS_inv k), E; apply swS_inv|exact swS_dim].
  assert (M' = y). { apply (rep_eq z o add mul SR DS _ _ _ _ _ RP R); vm_compute; reflexivity. }
  subst M'. apply (herm_of_permute z cj cjz); [|exact EP]. destruct Hy as (W & E & _). split; [exact W|exact E]. Qed.
Lemma qr_real qr inf a e e' : (forall x, cj x = x) -> c4v_site z cj d Dn a -> symmetric_env z cj chi Dn e ->
  (forall h P, qr h = Ok P -> shaped [n; chi] P) ->
  move_qr inf chi qr a e = Ok e' -> symmetric_env z cj chi Dn e' /\ vabs (entry (fst e') [0; 0]) = o.
Proof. destruct e as [C T]. intros Hr Ha [HC HT] HQ H. cbn [fst snd] in HC, HT. assert (H0 := H). unfold ctm_MOVE_QR_sl in H.
  destruct (corner_ok z o add mul cj SR chi d Dn C T a (proj1 HC) (proj1 HT) (proj1 Ha)) as (M & E1 & _ & HM). rewrite E1 in H. cbn [bind] in H.
  assert (HH := corner_herm z o add mul cj SR cjz cjo cjadd cjmul cjcj chi d Dn C T a M HC HT Ha HM).
  do 3 (apply bind_ok in H; destruct H as (? & _ & H)). apply bind_ok in H. destruct H as (P & EP & H). apply HQ in EP.
  destruct (qr_corner M P Hr HH EP) as (nC & EC & HN).
  apply bind_ok in H. destruct H as (Pt & E3 & H). rewrite E3 in EC. cbn [bind] in EC.
  apply bind_ok in H. destruct H as (x' & E4 & H). rewrite E4 in EC. cbn [bind] in EC. rewrite EC in H. cbn [bind] in H.
  apply bind_ok in H. destruct H as (nT & E5 & H). apply bind_ok in H. destruct H as (t & E6 & H).
  destruct (absorb_any z o half add mul sub opp div inv cj vabs is0 vnorm L chi d Dn a T _ _ (proj1 Ha) (proj1 HT) (or_introl E5)) as (_ & _ & HT2).
  apply row_shape in HT2. destruct (symmetrize_ok z o half add mul sub opp div inv cj vabs is0 vnorm L _ chi (Dn * Dn) HT2) as (t' & ES & HS & _). rewrite ES in E6. injection E6 as <-.
  destruct (normalized_sym z o half add mul sub opp div inv cj vabs is0 vnorm L inf chi (Dn * Dn) _ _ _ HN HS H) as (A & B & _ & E). split; [split; assumption|exact E]. Qed.
End Step.
End R.
