(** Starting environments of whole states: the options of init_env. *)
From Verif Require Import Base BaseLemmas Lattice Tensor TensorLemmas Net NetSpec NetProofs NetProofs2 NetProofs3 Extend Corners CornersSpec CtmC4v EnvInit EnvInitSpec EnvInitProofs EnvInitProofs2 EnvInitProofs3.
From Verif Require Ctm ExtendSpec ExtendProofs.
From Coq Require Import Ring.
Open Scope list_scope.
Open Scope nat_scope.
Open Scope res_scope.

Section P.
Context {K : Type} (z o : K) (add mul div : K -> K -> K) (cj : K -> K) (is0 : K -> bool).
Notation ten := (tensor K).
Notation envt := (Ctm.envt ten).
Notation getC := (Ctm.getC ten).
Notation getT := (Ctm.getT ten).
Variable amax : ten -> K.
Variable cv : K -> K.
Hypothesis Hcv : forall x, cv x = x.
Hypothesis SR : semi_ring_theory z o add mul eq.
Variable empty : list nat -> ten.
Hypothesis Hempty : forall dims, tdims (empty dims) = dims.
Variable rnd : coord * coord -> list nat -> ten.

Section Whole.
Variables (st : ipeps ten) (sites : dict coord ten) (P : ten -> Prop).
Hypothesis HW : whole st sites P.
Lemma whole_site v : exists A, ipeps_site st v = Ok A /\ P A.
Proof. destruct HW as (Hs & _ & Hv & HP). destruct (Hv v) as (k & A & Hk & HA). exists A. unfold ipeps_site, dget_exn. rewrite Hs, Hk. cbn. rewrite HA. split; [reflexivity|].
  apply (HP k). now apply dget_In. Qed.
Hypothesis HC : consistent st.
Lemma site_shift v k d : i_v2s st v = Ok k -> ipeps_site st (cadd v d) = ipeps_site st (cadd k d).
Proof. intros Hk. unfold ipeps_site. destruct (i_sites st); [|reflexivity]. now rewrite (HC v k d Hk). Qed.
Lemma built_keys get ds Q : (forall c d, In c (dkeys sites) -> In d ds -> exists A t, ipeps_site st (cadd c d) = Ok A /\ get c d = Ok t /\ Q d A t) -> built st get ds Q.
Proof. intros H v d Hd. destruct HW as (Hs & _ & Hv & HP). destruct (Hv v) as (k & A0 & Hk & HA).
  destruct (H k d) as (A & t & EA & Et & HQ); [apply dget_Some_key; now exists A0|exact Hd|].
  exists k, A, t. split; [exact Hk|]. split; [now rewrite (site_shift v k d Hk)|]. split; [exact Et|exact HQ]. Qed.
Lemma first_site : exists c0 A0 l, i_sites st = Some ((c0, A0) :: l) /\ sites = (c0, A0) :: l /\ P A0.
Proof. destruct HW as (Hs & Hne & _ & HP). destruct sites as [|[c0 A0] l]; [contradiction|]. exists c0, A0, l. split; [exact Hs|]. split; [reflexivity|]. apply (HP c0). now left. Qed.
End Whole.

Lemma init_ctmrg st sites chi e : whole st sites site5 -> consistent st ->
  (forall v d A, In d (corner_dirs ++ edge_dirs) -> ipeps_site st (cadd v d) = Ok A -> nonzero z o add mul amax is0 Traced d A (tmap cj A)) ->
  exists e', init_env z o add mul div cj is0 amax cv rnd "CTMRG" st chi e = Ok e' /\
    built st (getC e') corner_dirs (fun d A t => is_start z o add mul div amax Traced chi d A (tmap cj A) t) /\
    built st (getT e') edge_dirs (fun d A t => is_start z o add mul div amax Traced chi d A (tmap cj A) t).
Proof. intros HW HC HN. destruct (first_site st sites site5 HW) as (c0 & A0 & l & Hs & _ & [_ L0]). unfold init_env. rewrite Hs. cbn [bind]. unfold rank. rewrite L0. cbn [Nat.eqb andb String.eqb Ascii.eqb Bool.eqb].
  destruct (init_pbc_ok z o add mul div cj is0 amax cv Hcv SR st chi e sites (proj1 HW)) as (e' & E & H).
  { intros c Hc d Hd. destruct (whole_site st sites site5 HW (cadd c d)) as (A & EA & VA). exists A. split; [exact EA|]. split; [exact VA|]. now apply (HN c). }
  exists e'. split; [exact E|]. split; apply (built_keys st sites site5 HW HC); intros c d Hc Hd; now apply (H c Hc). Qed.

Lemma init_obc st sites chi e : whole st sites (fun A => site5 A \/ site4 A) -> consistent st ->
  (forall v d A, In d (corner_dirs ++ edge_dirs) -> ipeps_site st (cadd v d) = Ok A -> obc_ready z o add mul amax is0 d A) ->
  exists e', init_env z o add mul div cj is0 amax cv rnd "CTMRG_OBC" st chi e = Ok e' /\
    built st (getC e') corner_dirs (obc_tensor z o add mul div amax chi) /\
    built st (getT e') edge_dirs (obc_tensor z o add mul div amax chi).
Proof. intros HW HC HN. destruct (first_site st sites _ HW) as (c0 & A0 & l & Hs & _ & _). unfold init_env. rewrite Hs. cbn [bind].
  replace ((rank A0 =? 4) && _) with false by (cbn; now rewrite andb_false_r). cbn [String.eqb Ascii.eqb Bool.eqb].
  destruct (init_obc_ok z o add mul div cj is0 amax cv Hcv SR st chi e sites (proj1 HW)) as (e' & E & H).
  { intros c d Hc Hd. destruct (whole_site st sites _ HW (cadd c d)) as (A & EA & VA). exists A. split; [exact EA|]. now apply (HN c). }
  exists e'. split; [exact E|]. split; apply (built_keys st sites _ HW HC); intros c d Hc Hd; now apply (H c Hc). Qed.

(** ** ENV(chi, state) *)
Lemma new_env_fold chi (pw : nat -> nat) l e0 : (forall c A, In (c, A) l -> 4 <= rank A) ->
  Forall (fun kt : coord * coord * ten => tdims (snd kt) = [chi; chi]) (Ctm.eC e0) ->
  exists e, foldM (fun e (cs : coord * ten) => let '(c, s) := cs in
        if rank s <? 4 then Err IndexError else
        let e := set_T e c (0, -1)%Z (empty [chi; pw (size_end s 4); chi]) in
        let e := set_T e c (-1, 0)%Z (empty [chi; chi; pw (size_end s 3)]) in
        let e := set_T e c (0, 1)%Z (empty [pw (size_end s 2); chi; chi]) in
        let e := set_T e c (1, 0)%Z (empty [chi; pw (size_end s 1); chi]) in
        Ok (fold_left (fun e d => set_C e c d (empty [chi; chi])) [(-1, -1); (-1, 1); (1, -1); (1, 1)]%Z e)) l e0 = Ok e /\
    Forall (fun kt : coord * coord * ten => tdims (snd kt) = [chi; chi]) (Ctm.eC e) /\
    (forall c d, In c (map fst l) -> In d corner_dirs -> getC e c d = Ok (empty [chi; chi])) /\
    (NoDup (map fst l) -> forall c A d, In (c, A) l -> In d edge_dirs ->
       getT e c d = Ok (empty (start_dims chi d (inward d) (fun k => pw (size_end A (4 - opposite k)))))) /\
    (forall c, ~ In c (map fst l) -> same_at e0 e c).
Proof. clear -Hempty. assert (FS : forall (d : dict (coord * coord) ten) k t, tdims t = [chi; chi] -> Forall (fun kt : coord * coord * ten => tdims (snd kt) = [chi; chi]) d -> Forall (fun kt : coord * coord * ten => tdims (snd kt) = [chi; chi]) (dset d k t)).
  { intros d k t Ht. induction d as [|[k' t'] d IH]; intros Hd; cbn; [constructor; [exact Ht|constructor]|]. inversion Hd; subst. destruct (eq_dec k k'); constructor; auto. }
  revert e0. induction l as [|[c s] l IH]; intros e0 HR H0.
  - exists e0. split; [reflexivity|]. split; [exact H0|]. split; [intros c d []|]. split; [intros _ c A d []|]. intros c _ d. split; reflexivity.
  - assert (R := HR c s (or_introl eq_refl)). cbn [foldM]. replace (rank s <? 4) with false by (symmetry; apply Nat.ltb_ge; exact R). cbn [bind].
    match goal with |- context [foldM _ l ?e] => destruct (IH e (fun c A H => HR c A (or_intror H))) as (e2 & E2 & F2 & C2 & T2 & S2) end.
    { cbn [fold_left set_C set_T Ctm.eC]. repeat (apply FS; [apply Hempty|]). exact H0. }
    exists e2. split; [exact E2|]. split; [exact F2|]. cbn [map fst fold_left] in *. split; [|split].
    + intros c' d Hc Hd. destruct (in_dec eq_dec c' (map fst l)) as [Hi|Hi]; [now apply C2|]. destruct Hc as [<-|Hc]; [|contradiction].
      rewrite (proj1 (S2 c Hi d)). destruct Hd as [<-|[<-|[<-|[<-|[]]]]]; gets; reflexivity.
    + intros Hn c' A d [E|Hc] Hd; [|now apply T2; [now inversion Hn| |]]. apply pair_equal_spec in E as [<- <-].
      inversion Hn as [|? ? Hi Hn']; subst. rewrite (proj2 (S2 c Hi d)). destruct Hd as [<-|[<-|[<-|[<-|[]]]]]; gets; reflexivity.
    + cbn [In]. intros c' Hc d. destruct (S2 c' ltac:(tauto) d) as [-> ->]. assert (c <> c') by tauto. gets. now split. Qed.
Lemma new_env_ok st sites chi : whole st sites (fun A => site5 A \/ site4 A) ->
  exists e, new_env empty st chi = Ok e /\
    Forall (fun kt : coord * coord * ten => tdims (snd kt) = [chi; chi]) (Ctm.eC e) /\
    (forall c d, In c (dkeys sites) -> In d corner_dirs -> getC e c d = Ok (empty [chi; chi])) /\
    (whole st sites site5 -> NoDup (dkeys sites) -> forall c A d, In (c, A) sites -> In d edge_dirs -> exists t, getT e c d = Ok t /\ tdims t = blank_dims chi d A) /\
    (whole st sites site4 -> NoDup (dkeys sites) -> forall c A d, In (c, A) sites -> In d edge_dirs -> exists t, getT e c d = Ok t /\ tdims t = blank_dims1 chi d A).
Proof. intros HW. destruct (first_site st sites _ HW) as (c0 & A0 & l & Hs & Es & _). unfold new_env. rewrite Hs. 
  match goal with |- context [foldM _ _ ?e0] => destruct (new_env_fold chi (fun n => if 4 <? rank A0 then sq n else n) sites e0) as (e & E & F & C & T & _) end.
  { intros c A HA. destruct HW as (_ & _ & _ & HP). unfold rank. destruct (HP c A HA) as [[_ ->]|[_ ->]]; lia. }
  { constructor. }
  rewrite <- Es. exists e. split; [exact E|]. split; [exact F|]. split; [exact C|].
  assert (I0 : In (c0, A0) sites) by (rewrite Es; now left).
  split; intros HW' Hn c A d HA Hd; specialize (T Hn c A d HA Hd); eexists; (split; [exact T|]); rewrite Hempty; destruct HW' as (_ & _ & _ & HP).
  all: destruct (HP c0 A0 I0) as [_ L0], (HP c A HA) as [_ LA]; unfold size_end, rank, size; rewrite L0, LA; unfold blank_dims, blank_dims1, bd, bd1; clear - LA Hd;
    destruct A as [dims ?]; cbn [tdims] in *; repeat (destruct dims as [|? dims]; try discriminate LA);
    destruct Hd as [<-|[<-|[<-|[<-|[]]]]]; cbn; reflexivity. Qed.

(** ** PROD *)
Lemma init_product st sites chi e : 0 < chi -> whole st sites (fun A => site5 A \/ site4 A) -> consistent st -> new_env empty st chi = Ok e ->
  (forall v d A, In d edge_dirs -> ipeps_site st (cadd v d) = Ok A -> prod_ready z o add mul amax is0 cj d A) ->
  exists e', init_env z o add mul div cj is0 amax cv rnd "PROD" st chi e = Ok e' /\
    built st (getC e') corner_dirs (fun _ _ t => is_unit_corner z o chi t) /\
    built st (getT e') edge_dirs (prod_tensor z o add mul div amax cj chi).
Proof. intros Hchi HW HC EN HN. destruct (first_site st sites _ HW) as (c0 & A0 & l & Hs & _ & _). unfold init_env. rewrite Hs. cbn [bind].
  replace ((rank A0 =? 4) && _) with false by (cbn; now rewrite andb_false_r). cbn [String.eqb Ascii.eqb Bool.eqb].
  destruct (new_env_ok st sites chi HW) as (e0 & E0 & F & C & _). assert (e0 = e) by congruence. subst e0.
  destruct (init_prod_ok z o add mul div cj is0 amax cv Hcv SR st chi Hchi e sites (proj1 HW)) as (e' & E & HC' & HT').
  { intros c d Hc Hd. destruct (whole_site st sites _ HW (cadd c d)) as (A & EA & VA). exists A. split; [exact EA|]. now apply (HN c). }
  { exact F. }
  { intros c d Hc Hd. eexists. now apply C. }
  exists e'. split; [exact E|]. split; apply (built_keys st sites _ HW HC); intros c d Hc Hd; [|now apply HT'].
  destruct (whole_site st sites _ HW (cadd c d)) as (A & EA & _). destruct (HC' c d Hc Hd) as (t & Et & Ht). now exists A, t. Qed.
Lemma init_rank4 typ st sites chi e : whole st sites site4 -> ~ In typ ["PROD"; "CTMRG_OBC"; "RANDOM"]%string ->
  init_env z o add mul div cj is0 amax cv rnd typ st chi e = Err RuntimeError.
Proof. intros HW Ht. destruct (first_site st sites _ HW) as (c0 & A0 & l & Hs & _ & [_ L]). unfold init_env. rewrite Hs. cbn [bind]. unfold rank. rewrite L. cbn [Nat.eqb andb].
  replace (existsb _ _) with false; [reflexivity|]. symmetry. apply Bool.not_true_is_false. intros H. apply existsb_exists in H as (x & Hx & E). apply String.eqb_eq in E. subst. contradiction. Qed.
Lemma init_other typ st sites chi e : whole st sites site5 -> ~ In typ ["PROD"; "CTMRG_OBC"; "RANDOM"; "CTMRG"]%string ->
  init_env z o add mul div cj is0 amax cv rnd typ st chi e = Err ValueError.
Proof. intros HW Ht. destruct (first_site st sites _ HW) as (c0 & A0 & l & Hs & _ & [_ L]). unfold init_env. rewrite Hs. cbn [bind]. unfold rank. rewrite L. cbn [Nat.eqb andb].
  cbn in Ht. repeat match goal with |- context [String.eqb typ ?s] => destruct (String.eqb_spec typ s) as [->|]; [exfalso; tauto|] end. reflexivity. Qed.
Lemma init_const st sites chi e : whole st sites site5 -> init_env z o add mul div cj is0 amax cv rnd "CONST" st chi e = Err ValueError.
Proof. intros HW. apply (init_other "CONST" st sites chi e HW). cbn. intuition discriminate. Qed.
Lemma dget_map (f : coord * coord -> ten -> ten) (l : dict (coord * coord) ten) k t : dget l k = Some t -> dget (map (fun kt => (fst kt, f (fst kt) (snd kt))) l) k = Some (f k t).
Proof. induction l as [|[k' t'] l IH]; cbn; [discriminate|]. destruct (eq_dec k k') as [->|]; [|exact IH]. intros E. now injection E as ->. Qed.
Lemma init_rnd st sites chi e : whole st sites (fun _ => True) ->
  exists e', init_env z o add mul div cj is0 amax cv rnd "RANDOM" st chi e = Ok e' /\
    (forall c d t, getC e c d = Ok t -> getC e' c d = Ok (rnd (c, d) (tdims t))) /\
    (forall c d t, getT e c d = Ok t -> getT e' c d = Ok (rnd (c, d) (tdims t))).
Proof. intros HW. destruct (first_site st sites _ HW) as (c0 & A0 & l & Hs & _ & _). unfold init_env. rewrite Hs. cbn [bind].
  replace ((rank A0 =? 4) && _) with false by (cbn; now rewrite andb_false_r). cbn [String.eqb Ascii.eqb Bool.eqb].
  eexists. split; [reflexivity|]. unfold init_random, Ctm.getC, Ctm.getT, dget_exn. cbn [Ctm.eC Ctm.eT]. split; intros c d t.
  - destruct (dget (Ctm.eC e) (c, d)) as [u|] eqn:E; [|discriminate]. intros H. injection H as <-. now rewrite (dget_map (fun k u => rnd k (tdims u)) _ _ _ E).
  - destruct (dget (Ctm.eT e) (c, d)) as [u|] eqn:E; [|discriminate]. intros H. injection H as <-. now rewrite (dget_map (fun k u => rnd k (tdims u)) _ _ _ E). Qed.

(** ** init_prod_overlap *)
Lemma fold_edges (f : envt -> coord -> res envt) (Q : coord -> coord -> ten -> Prop) keys :
  (forall e c, In c keys -> exists e', f e c = Ok e' /\ Ctm.eC e' = Ctm.eC e /\ (forall d, In d edge_dirs -> exists t, getT e' c d = Ok t /\ Q c d t) /\ forall c', c' <> c -> same_at e e' c') ->
  forall e, exists e', foldM f keys e = Ok e' /\ Ctm.eC e' = Ctm.eC e /\ (forall c d, In c keys -> In d edge_dirs -> exists t, getT e' c d = Ok t /\ Q c d t) /\ forall c, ~ In c keys -> same_at e e' c.
Proof. clear. induction keys as [|c keys IH]; intros H e.
  - exists e. split; [reflexivity|]. split; [reflexivity|]. split; [intros c d []|]. intros c _ d. split; reflexivity.
  - destruct (H e c (or_introl eq_refl)) as (e1 & E1 & C1 & T1 & S1). destruct (IH (fun e c Hc => H e c (or_intror Hc)) e1) as (e2 & E2 & C2 & T2 & S2).
    exists e2. split; [cbn; rewrite E1; exact E2|]. split; [congruence|]. split.
    + intros c' d [<-|Hc'] Hd; [|now apply T2]. destruct (in_dec eq_dec c keys) as [Hi|Hi]; [now apply T2|].
      destruct (T1 d Hd) as (t & Et & Ht). exists t. split; [|exact Ht]. now rewrite (proj2 (S2 c Hi d)).
    + intros c' Hc' d. cbn in Hc'. destruct (S2 c' ltac:(tauto) d) as [-> ->]. apply S1. intros ->. tauto. Qed.
Section Overlap.
Variables (st1 st2 : ipeps ten) (chi : nat).
Hypothesis Hchi : 0 < chi.
Notation isc D net out M := (is_contraction D z o add mul net out M).
Notation overlap_nonzero := (overlap_nonzero z o add mul amax is0 cj).
Lemma overlap_vector_ok d l l' out i c A1 A2 : In d edge_dirs -> ipeps_site st1 (cadd c d) = Ok A1 -> ipeps_site st2 (cadd c d) = Ok A2 -> overlap_nonzero d A1 A2 ->
  (exists M, (a <- einsum2 z o add mul l l' out A1 (conj cj A2) ;; view a [sq (size A1 i)]) = Ok M /\ isc (bd A1) (layers Traced (facing d) A1 (conj cj A2)) (fused (facing d)) M) ->
  exists a n, overlap_vector z o add mul div cj is0 amax st1 st2 c d l l' out i = Ok a /\ size a 0 = n /\
    forall dims t, dims = map (fun k => if facing d k then n else chi) (filter (inward d) sides) -> is_line z d dims a t -> is_product z o add mul (unit_scale div amax) chi d A1 (tmap cj A2) t.
Proof. clear rnd Hempty empty. intros Hd H1 H2 HN (M & EM & HM). exists (unit_scale div amax M), (size M 0). unfold overlap_vector. rewrite H1, H2. cbn [bind]. rewrite <- bind_bind, EM. cbn [bind].
  split; [apply normalize_ok; exact (HN M HM)|]. split; [reflexivity|]. intros dims t E Ht. exists M. split; [exact HM|].
  replace (start_dims chi d (inward d) (fun k => bd A1 (1 + k) * bd A1 (5 + k))) with dims; [exact Ht|].
  rewrite E. unfold start_dims, size. rewrite (proj1 (proj2 HM)). cbn in Hd. repeat (destruct Hd as [<-|Hd]; [reflexivity|]). contradiction. Qed.
Lemma overlap_site_ok e c :
  (forall d, In d edge_dirs -> exists A1 A2, ipeps_site st1 (cadd c d) = Ok A1 /\ ipeps_site st2 (cadd c d) = Ok A2 /\ site5 A1 /\ twf A2 /\ tdims A2 = tdims A1 /\ overlap_nonzero d A1 A2) ->
  exists e', overlap_site z o add mul div cj is0 amax cv st1 st2 chi e c = Ok e' /\ Ctm.eC e' = Ctm.eC e /\
    (forall d, In d edge_dirs -> exists t, getT e' c d = Ok t /\ exists A1 A2, ipeps_site st1 (cadd c d) = Ok A1 /\ ipeps_site st2 (cadd c d) = Ok A2 /\
       is_product z o add mul (unit_scale div amax) chi d A1 (tmap cj A2) t) /\ forall c', c' <> c -> same_at e e' c'.
Proof. clear rnd Hempty empty. intros HR.
  destruct (HR (0, -1)%Z) as (A5 & B5 & L5 & M5 & V5 & W5 & D5 & N5); [cbn; tauto|].
  destruct (HR (-1, 0)%Z) as (A6 & B6 & L6 & M6 & V6 & W6 & D6 & N6); [cbn; tauto|].
  destruct (HR (0, 1)%Z) as (A7 & B7 & L7 & M7 & V7 & W7 & D7 & N7); [cbn; tauto|].
  destruct (HR (1, 0)%Z) as (A8 & B8 & L8 & M8 & V8 & W8 & D8 & N8); [cbn; tauto|].
  unfold overlap_site.
  destruct (overlap_vector_ok (0, -1)%Z "miefg" "miebg" "fb" 3 c A5 B5 ltac:(cbn; tauto) L5 M5 N5) as (a5 & n5 & -> & X5 & P5);
    [apply prod_U; [exact SR|exact V5|apply twf_conj, W5|exact D5]|].
  cbn [bind]. rewrite X5. destruct (put_line_ok z cv Hcv chi Hchi (0, -1)%Z [chi; n5; chi] 1 a5) as (t5 & -> & I5); [rewrite <- X5; left; repeat split|].
  assert (S5 := P5 _ t5 eq_refl I5). cbn [bind].
  destruct (overlap_vector_ok (-1, 0)%Z "meifg" "meifc" "gc" 4 c A6 B6 ltac:(cbn; tauto) L6 M6 N6) as (a6 & n6 & -> & X6 & P6);
    [apply prod_L; [exact SR|exact V6|apply twf_conj, W6|exact D6]|].
  cbn [bind]. rewrite X6. destruct (put_line_ok z cv Hcv chi Hchi (-1, 0)%Z [chi; chi; n6] 2 a6) as (t6 & -> & I6); [rewrite <- X6; right; left; repeat split|].
  assert (S6 := P6 _ t6 eq_refl I6). cbn [bind].
  destruct (overlap_vector_ok (0, 1)%Z "mefig" "mafig" "ea" 1 c A7 B7 ltac:(cbn; tauto) L7 M7 N7) as (a7 & n7 & -> & X7 & P7);
    [apply prod_D; [exact SR|exact V7|apply twf_conj, W7|exact D7]|].
  cbn [bind]. rewrite X7. destruct (put_line_ok z cv Hcv chi Hchi (0, 1)%Z [n7; chi; chi] 0 a7) as (t7 & -> & I7); [rewrite <- X7; right; right; left; repeat split|].
  assert (S7 := P7 _ t7 eq_refl I7). cbn [bind].
  destruct (overlap_vector_ok (1, 0)%Z "mefgi" "mebgi" "fb" 2 c A8 B8 ltac:(cbn; tauto) L8 M8 N8) as (a8 & n8 & -> & X8 & P8);
    [apply prod_R; [exact SR|exact V8|apply twf_conj, W8|exact D8]|].
  cbn [bind]. rewrite X8. destruct (put_line_ok z cv Hcv chi Hchi (1, 0)%Z [chi; n8; chi] 1 a8) as (t8 & -> & I8); [rewrite <- X8; right; right; right; repeat split|].
  assert (S8 := P8 _ t8 eq_refl I8). cbn [bind].
  eexists. split; [reflexivity|]. split; [reflexivity|]. split.
  - intros d H. cbn in H. repeat (destruct H as [<-|H]; [eexists; split; [gets; reflexivity|eexists; eexists; split; [eassumption|split; [eassumption|assumption]]]|]). contradiction.
  - intros c' Hc d. split; gets; reflexivity. Qed.
Lemma init_overlap sites1 sites2 e : whole st1 sites1 site5 -> whole st2 sites2 site5 -> consistent st1 -> same_period st1 st2 -> same_dims st1 st2 ->
  new_env empty st1 chi = Ok e ->
  (forall v d A1 A2, In d edge_dirs -> ipeps_site st1 (cadd v d) = Ok A1 -> ipeps_site st2 (cadd v d) = Ok A2 -> overlap_nonzero d A1 A2) ->
  exists e', init_prod_overlap z o add mul div cj is0 amax cv st1 st2 chi e = Ok e' /\
    built st1 (getC e') corner_dirs (fun _ _ t => is_unit_corner z o chi t) /\
    built_overlap st1 st2 (getT e') edge_dirs (fun d A1 A2 t => is_product z o add mul (unit_scale div amax) chi d A1 (tmap cj A2) t).
Proof. clear rnd. intros W1 W2 HC HP HD EN HN. assert (W1' : whole st1 sites1 (fun A => site5 A \/ site4 A)).
  { destruct W1 as (H1 & H2 & H3 & H4). split; [exact H1|]. split; [exact H2|]. split; [exact H3|]. intros k A HA. left. now apply (H4 k). }
  destruct (new_env_ok st1 sites1 chi W1') as (e0 & E0 & F & C & _). assert (e0 = e) by congruence. subst e0.
  unfold init_prod_overlap. destruct (unit_corners_ok z o chi Hchi e F) as (e1 & -> & ET & G1). cbn [bind]. unfold sites_of. rewrite (proj1 W1). cbn [bind].
  destruct (fold_edges (overlap_site z o add mul div cj is0 amax cv st1 st2 chi) (fun c d t => exists A1 A2, ipeps_site st1 (cadd c d) = Ok A1 /\ ipeps_site st2 (cadd c d) = Ok A2 /\
       is_product z o add mul (unit_scale div amax) chi d A1 (tmap cj A2) t) (dkeys sites1)) with (e := e1) as (e2 & E2 & C2 & T2 & _).
  { intros e' c Hc. apply overlap_site_ok. intros d Hd. destruct (whole_site st1 sites1 _ W1 (cadd c d)) as (A1 & EA1 & V1). destruct (whole_site st2 sites2 _ W2 (cadd c d)) as (A2 & EA2 & V2).
    exists A1, A2. split; [exact EA1|]. split; [exact EA2|]. split; [exact V1|]. split; [apply V2|]. split; [exact (HD _ _ _ EA1 EA2)|]. exact (HN c d A1 A2 Hd EA1 EA2). }
  exists e2. split; [exact E2|]. split.
  - apply (built_keys st1 sites1 _ W1 HC). intros c d Hc Hd. destruct (whole_site st1 sites1 _ W1 (cadd c d)) as (A & EA & _).
    destruct (G1 c d _ (C c d Hc Hd)) as (t & Et & Ht). exists A, t. split; [exact EA|]. split; [|exact Ht]. unfold Ctm.getC in *. now rewrite C2.
  - intros v d Hd. destruct W1 as (Hs & _ & Hv & HP1). destruct (Hv v) as (k & A0 & Hk & HA).
    destruct (T2 k d) as (t & Et & A1 & A2 & EA1 & EA2 & Ht); [apply dget_Some_key; now exists A0|exact Hd|].
    exists k, A1, A2, t. split; [exact Hk|]. split; [now rewrite (site_shift st1 HC v k d Hk)|]. split; [|now split].
    unfold ipeps_site in EA2 |- *. destruct (i_sites st2); [|discriminate EA2]. now rewrite (HP v k d Hk). Qed.
End Overlap.
End P.
