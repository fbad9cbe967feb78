From Verif Require Import Base BaseLemmas Lattice LatticeSpec Tensor TensorLemmas CtmSpec Net NetSpec NetProofs NetProofs2 UnrollProofs Weights WeightsSpec.
From Coq Require Import Ring Permutation.
Open Scope Z_scope.
Open Scope list_scope.
Open Scope res_scope.

Lemma dmem_spec {A B} `{EqDec A} (d : dict A B) k : dmem d k = true <-> In k (dkeys d).
Proof. unfold dmem. split.
  - destruct (dget d k) as [v|] eqn:E; [|discriminate]. intros _. apply dget_Some_key. eauto.
  - intros I. apply dget_Some_key in I. destruct I as [v ->]. reflexivity. Qed.
Lemma cneg_cneg d : cneg (cneg d) = d.
Proof. destruct d as [x y]. unfold cneg. cbn. f_equal; lia. Qed.
Lemma cadd_neg v d : cadd (cadd v d) (cneg d) = v.
Proof. destruct v as [x y], d as [a b]. unfold cneg, cadd. cbn. f_equal; lia. Qed.
Lemma four_neg d : In d four -> In (cneg d) four.
Proof. intros [<-|[<-|[<-|[<-|[]]]]]; cbn; tauto. Qed.
Lemma four_neq d : In d four -> cneg d <> d.
Proof. intros [<-|[<-|[<-|[<-|[]]]]]; cbn; discriminate. Qed.
Lemma dind d : In d four -> dget_exn dxy_w_to_ind d = Ok (leg_of d).
Proof. intros [<-|[<-|[<-|[<-|[]]]]]; reflexivity. Qed.

Section Gen.
Context {K : Type} (z o : K).
Variables (st : ipeps (tensor K)) (sites : dict coord (tensor K)) (f : coord -> coord).
Hypothesis HS : is_state st sites f.
Hypothesis H5 : forall k t, In (k, t) sites -> length (tdims t) = 5%nat.

Definition dim (k d : coord) : nat := match dget sites k with Some t => nth (leg_of d) (tdims t) 0%nat | None => 0%nat end.
Lemma site_dim k d : In k (dkeys sites) -> In d four ->
  exists t, ipeps_site st k = Ok t /\ tsize t (leg_of d) = Ok (dim k d).
Proof. destruct HS as (E1 & E2 & HN & HT & HF & _). intros Hk Hd. unfold ipeps_site. rewrite E1, E2, (HF k Hk). cbn.
  unfold dget_exn, dim. destruct (proj1 (dget_Some_key sites k) Hk) as [t Ht]. rewrite Ht. exists t. split; [reflexivity|].
  unfold tsize. assert (L : length (tdims t) = 5%nat) by (apply (H5 k); now apply dget_In).
  destruct (nth_error (tdims t) (leg_of d)) eqn:E; [f_equal; symmetry; now apply nth_error_nth|].
  apply nth_error_None in E. rewrite L in E. destruct Hd as [<-|[<-|[<-|[<-|[]]]]]; cbn in E; lia. Qed.

Definition partner (w : coord * coord) : coord * coord := (f (cadd (fst w) (snd w)), cneg (snd w)).
Definition good (w : coord * coord) : Prop := In (fst w) (dkeys sites) /\ In (snd w) four.
Lemma partner_good w : good w -> good (partner w).
Proof. intros [A B]. split; cbn; [apply HS|now apply four_neg]. Qed.
Lemma partner_inv w : good w -> partner (partner w) = w.
Proof. destruct HS as (E1 & E2 & HN & HT & HF & HC). intros [A B]. destruct w as [k d]. unfold partner. cbn [fst snd] in *.
  rewrite cneg_cneg. f_equal. rewrite (HC (f (cadd k d)) (cadd k d) (cneg d)) by (apply HF, HT). rewrite cadd_neg. now apply HF. Qed.
Lemma partner_neq w : good w -> partner w <> w.
Proof. intros [A B] E. destruct w as [k d]. unfold partner in E. cbn in E. injection E as _ E. exact (four_neq d B E). Qed.

Definition okpair (w : coord * coord) : Prop := dim (fst w) (snd w) = dim (fst (partner w)) (snd (partner w)).
Record inv_w (ws : weights) : Prop := {
  iw_nd : NoDup (dkeys ws);
  iw_good : forall w, In w (dkeys ws) -> good w /\ okpair w;
  iw_partner : forall w, In w (dkeys ws) -> In (partner w) (dkeys ws);
  iw_val : forall w W, dget ws w = Some W -> W = eye z o (dim (fst w) (snd w)) }.

Lemma step ws c d : inv_w ws -> good (c, d) ->
  (exists ws', generate_step z o st ws (c, (d, leg_of d)) = Ok ws' /\ inv_w ws' /\ okpair (c, d) /\
     (forall w, In w (dkeys ws') <-> In w (dkeys ws) \/ w = (c, d) \/ w = partner (c, d)))
  \/ generate_step z o st ws (c, (d, leg_of d)) = Err AssertionError /\ ~ okpair (c, d).
Proof. intros I G. destruct G as [Gc Gd]. cbn [fst snd] in Gc, Gd. assert (G : good (c, d)) by (split; assumption). assert (GP := partner_good _ G).
  unfold generate_step. assert (E2 : i_v2s st (cadd c d) = Ok (f (cadd c d))) by apply HS. rewrite E2. cbn [bind].
  change (f (cadd c d), cneg d) with (partner (c, d)).
  destruct (dmem ws (c, d)) eqn:M1.
  - cbn. left. exists ws. apply dmem_spec in M1. split; [reflexivity|]. split; [exact I|]. split; [now apply (iw_good _ I)|].
    intros w. split; [tauto|]. intros [X|[->| ->]]; [exact X|exact M1|now apply (iw_partner _ I)].
  - assert (N1 : ~ In (c, d) (dkeys ws)) by (rewrite <- dmem_spec; congruence).
    destruct (dmem ws (partner (c, d))) eqn:M2.
    + exfalso. apply N1. apply dmem_spec in M2. rewrite <- (partner_inv _ G). now apply (iw_partner _ I).
    + assert (N2 : ~ In (partner (c, d)) (dkeys ws)) by (rewrite <- dmem_spec; congruence).
      cbn [negb andb fst snd]. destruct (site_dim c d Gc Gd) as (a & Ea & Sa). destruct GP as [GPc GPd].
      destruct (site_dim _ _ GPc GPd) as (b & Eb & Sb).
      rewrite Ea. cbn [bind]. rewrite (dind d Gd). cbn [bind]. rewrite Sa. cbn [bind]. rewrite Eb. cbn [bind].
      change (cneg d) with (snd (partner (c, d))). rewrite (dind _ GPd). cbn [bind]. rewrite Sb. cbn [bind].
      destruct (Nat.eqb_spec (dim c d) (dim (fst (partner (c, d))) (snd (partner (c, d))))) as [Q|Q].
      2:{ right. split; [reflexivity|exact Q]. }
      left. cbn [py_assert bind]. eexists. split; [reflexivity|].
      assert (NP := partner_neq _ G).
      assert (Keys : forall w, In w (dkeys (dset (dset ws (c, d) (eye z o (dim c d))) (partner (c, d)) (eye z o (dim c d)))) <-> In w (dkeys ws) \/ w = (c, d) \/ w = partner (c, d)).
      { intros w. rewrite !dkeys_dset. tauto. }
      split; [|split; [exact Q|exact Keys]].
      constructor.
      * apply NoDup_dset, NoDup_dset, I.
      * intros w Hw. apply Keys in Hw. destruct Hw as [X|[->| ->]]; [now apply (iw_good _ I)|split; [exact G|exact Q]|].
        split; [now apply partner_good|]. unfold okpair. rewrite partner_inv by exact G. symmetry. exact Q.
      * intros w Hw. apply Keys in Hw. apply Keys. destruct Hw as [X|[->| ->]]; [left; now apply (iw_partner _ I)|tauto|].
        rewrite partner_inv by exact G. tauto.
      * intros w W HW. rewrite dget_dset in HW. destruct (eq_dec w (partner (c, d))) as [->|X].
        -- injection HW as <-. now rewrite <- Q.
        -- rewrite dget_dset in HW. destruct (eq_dec w (c, d)) as [->|Y]; [injection HW as <-; reflexivity|]. now apply (iw_val _ I). Qed.

Lemma loop l ws : inv_w ws -> (forall p, In p l -> exists c d, p = (c, (d, leg_of d)) /\ good (c, d)) ->
  (exists ws', foldM (generate_step z o st) l ws = Ok ws' /\ inv_w ws' /\
     (forall w, In w (dkeys ws) -> In w (dkeys ws')) /\
     forall c d, In (c, (d, leg_of d)) l -> In (c, d) (dkeys ws'))
  \/ foldM (generate_step z o st) l ws = Err AssertionError /\ exists w, good w /\ ~ okpair w.
Proof. revert ws; induction l as [|p l IH]; intros ws I Hl.
  - left. exists ws. split; [reflexivity|]. split; [exact I|]. split; [auto|intros ? ? []].
  - destruct (Hl p (or_introl eq_refl)) as (c & d & -> & G). cbn [foldM].
    destruct (step ws c d I G) as [(ws1 & E & I1 & _ & Kx)|[E N]]; rewrite E; cbn [bind].
    2:{ right. split; [reflexivity|]. eauto. }
    destruct (IH ws1 I1) as [(ws2 & E2 & I2 & M & C)|X]; [intros q Hq; apply Hl; now right| |now right].
    left. exists ws2. split; [exact E2|]. split; [exact I2|]. split; [intros w Hw; apply M, Kx; tauto|].
    intros c' d' [X|X]; [|now apply C]. injection X as -> -> _. apply M, Kx. tauto. Qed.

Lemma loop_list : forall p, In p (flat_map (fun c => map (fun di => (c, di)) dxy_w_to_ind) (dkeys sites)) <-> exists c d, p = (c, (d, leg_of d)) /\ good (c, d).
Proof. intros p. rewrite in_flat_map. split.
  - intros (c & Hc & Hp). cbn in Hp. unfold good. cbn [fst snd].
    destruct Hp as [<-|[<-|[<-|[<-|[]]]]]; [exists c, (0, -1)|exists c, (-1, 0)|exists c, (0, 1)|exists c, (1, 0)]; (split; [reflexivity|]); (split; [exact Hc|cbn; tauto]).
  - intros (c & d & -> & Hc & Hd). exists c. split; [exact Hc|]. cbn in Hd. destruct Hd as [<-|[<-|[<-|[<-|[]]]]]; cbn; tauto. Qed.

Lemma generated : (forall w, good w -> okpair w) ->
  exists ws, generate_weights z o st = Ok ws /\ NoDup (dkeys ws) /\ (forall w, In w (dkeys ws) <-> good w) /\
    forall k d, In k (dkeys sites) -> In d four -> dget ws (k, d) = Some (eye z o (dim k d)).
Proof. intros HM. unfold generate_weights. assert (E1 : i_sites st = Some sites) by apply HS. rewrite E1.
  destruct (loop (flat_map (fun c => map (fun di => (c, di)) dxy_w_to_ind) (dkeys sites)) []) as [(ws & E & I & _ & C)|(_ & w & G & N)].
  - constructor; cbn; [constructor|tauto|tauto|discriminate].
  - intros p Hp. now apply loop_list.
  - exists ws. split; [exact E|]. split; [apply I|].
    assert (A : forall w, In w (dkeys ws) <-> good w).
    { intros w. split; [apply I|]. intros G. destruct w as [c d]. apply C, loop_list. eauto. }
    split; [exact A|]. intros k d Hk Hd. destruct (proj1 (dget_Some_key ws (k, d))) as [W HW]; [apply A; split; assumption|].
    rewrite HW. f_equal. now apply (iw_val _ I) in HW.
  - exfalso. exact (N (HM w G)). Qed.
Lemma rejected : (exists w, good w /\ ~ okpair w) -> generate_weights z o st = Err AssertionError.
Proof. intros (w & G & N). unfold generate_weights. assert (E1 : i_sites st = Some sites) by apply HS. rewrite E1.
  destruct (loop (flat_map (fun c => map (fun di => (c, di)) dxy_w_to_ind) (dkeys sites)) []) as [(ws & E & I & _ & C)|(E & _)].
  - constructor; cbn; [constructor|tauto|tauto|discriminate].
  - intros p Hp. now apply loop_list.
  - exfalso. apply N. apply (iw_good _ I). destruct w as [c d]. apply C, loop_list. eauto.
  - exact E. Qed.

Lemma weight_at ws v d : In d four -> weight st ws (v, d) = dget_exn ws (f v, d).
Proof. intros Hd. unfold weight. replace (existsb _ _) with true.
  - cbn [py_assert bind]. assert (E2 : i_v2s st v = Ok (f v)) by apply HS. now rewrite E2.
  - symmetry. apply existsb_exists. exists d. split; [exact Hd|]. unfold eqb. destruct (eq_dec d d); congruence. Qed.
End Gen.
