(** Starting environments with open boundaries, and product environments. *)
From Verif Require Import Base BaseLemmas Lattice Tensor TensorLemmas Net NetSpec NetProofs NetProofs2 NetProofs3 Extend Corners CornersSpec CtmC4v EnvInit EnvInitSpec EnvInitProofs EnvInitProofs2.
From Verif Require Ctm ExtendSpec ExtendProofs.
From Coq Require Import Ring.
Open Scope list_scope.
Open Scope nat_scope.
Open Scope res_scope.

Definition ls_of (d : coord) (dims : list nat) : list leg_copy :=
  map (fun kn => if facing d (fst kn) then Kept (snd kn) else Bdry (snd kn)) (combine (filter (inward d) sides) dims).
Lemma start_dims_ls chi d n : start_dims chi d (inward d) n = map (lc_new chi) (ls_of d (map n (filter (inward d) sides))).
Proof. unfold start_dims, ls_of. induction (filter (inward d) sides) as [|k l IH]; [reflexivity|]. cbn [map combine fst snd]. rewrite IH. f_equal. now destruct (facing d k). Qed.

Section P.
Context {K : Type} (z o : K) (add mul div : K -> K -> K) (cj : K -> K) (is0 : K -> bool).
Notation ten := (tensor K).
Notation envt := (Ctm.envt ten).
Notation getC := (Ctm.getC ten).
Notation getT := (Ctm.getT ten).
Variable amax : ten -> K.
Variable cv : K -> K.
Hypothesis Hcv : forall x, cv x = x.
Hypothesis SR : semi_ring_theory z o add mul eq.
Notation copy := (copy_block z cv).
Notation isc D := (is_contraction D z o add mul).

(** the tensors around c as demanded by Q *)
Definition has (st : ipeps ten) (QC QT : coord -> ten -> ten -> Prop) c (e : envt) : Prop :=
  (forall d, In d corner_dirs -> exists A t, ipeps_site st (cadd c d) = Ok A /\ getC e c d = Ok t /\ QC d A t) /\
  (forall d, In d edge_dirs -> exists A t, ipeps_site st (cadd c d) = Ok A /\ getT e c d = Ok t /\ QT d A t).
Lemma has_ext st QC QT c e e' : same_at e e' c -> has st QC QT c e -> has st QC QT c e'.
Proof. intros H [H1 H2]. split; intros d Hd.
  - destruct (H1 d Hd) as (A & t & EA & ET & HS). exists A, t. split; [exact EA|]. split; [|exact HS]. now rewrite (proj1 (H d)).
  - destruct (H2 d Hd) as (A & t & EA & ET & HS). exists A, t. split; [exact EA|]. split; [|exact HS]. now rewrite (proj2 (H d)). Qed.

Section Obc.
Variables (st : ipeps ten) (chi : nat).
Notation obc_tensor := (obc_tensor z o add mul div amax chi).
Notation obc_ready := (obc_ready z o add mul amax is0).
Lemma obc_matrix_ok d (A : ten) s out1 l l' out2 ix : obc_ready d A ->
  (site5 A -> exists M, (a <- einsum2 z o add mul l l' out2 A A ;; view a (map (fun i => sq (size A i)) ix)) = Ok M /\ isc (bd A) (layers Summed (inward d) A A) (fused (inward d)) M) ->
  (site4 A -> exists M, einsum1 z o add mul s out1 A = Ok M /\ isc (bd1 A) (bare A) (legs1 (inward d)) M) ->
  exists a, obc_matrix z o add mul div is0 amax A s out1 l l' out2 ix = Ok a /\ twf a /\ length (tdims a) = length (filter (inward d) sides) /\
    forall t, ExtendSpec.padded z a (map (lc_new chi) (ls_of d (tdims a))) t -> obc_tensor d A t.
Proof. intros HR H5 H4. unfold obc_matrix, rank. destruct HR as [[V HN]|[V HN]].
  - destruct (H5 V) as (M & EM & HM). rewrite (proj2 V). cbn [Nat.eqb]. rewrite EM. cbn [bind].
    exists (unit_scale div amax M). split; [now apply normalize_ok, HN|]. split; [apply twf_scale, HM|].
    assert (Hd : tdims (unit_scale div amax M) = map (fun k => bd A (1 + k) * bd A (5 + k)) (filter (inward d) sides)).
    { cbn [unit_scale tmap tdims]. rewrite (proj1 (proj2 HM)). unfold fused. now rewrite map_map. }
    split; [rewrite Hd, map_length; reflexivity|]. intros t Ht. split; [intros _|intros [_ B]; rewrite (proj2 V) in B; discriminate B].
    exists M. split; [exact HM|]. rewrite start_dims_ls, <- Hd. exact Ht.
  - destruct (H4 V) as (M & EM & HM). rewrite (proj2 V). cbn [Nat.eqb]. rewrite EM. cbn [bind].
    exists (unit_scale div amax M). split; [now apply normalize_ok, HN|]. split; [apply twf_scale, HM|].
    assert (Hd : tdims (unit_scale div amax M) = map (fun k => bd1 A (1 + k)) (filter (inward d) sides)).
    { cbn [unit_scale tmap tdims]. rewrite (proj1 (proj2 HM)). unfold legs1. now rewrite map_map. }
    split; [rewrite Hd, map_length; reflexivity|]. intros t Ht. split; [intros [_ B]; rewrite (proj2 V) in B; discriminate B|intros _].
    exists M. split; [exact HM|]. rewrite start_dims_ls, <- Hd. exact Ht. Qed.
Lemma obc_C_ok d s l l' ix c e A : In d corner_dirs -> ipeps_site st (cadd c d) = Ok A -> obc_ready d A ->
  (site5 A -> exists M, (a <- einsum2 z o add mul l l' "eafb" A A ;; view a (map (fun i => sq (size A i)) ix)) = Ok M /\ isc (bd A) (layers Summed (inward d) A A) (fused (inward d)) M) ->
  (site4 A -> exists M, einsum1 z o add mul s "ef" A = Ok M /\ isc (bd1 A) (bare A) (legs1 (inward d)) M) ->
  getC e c d = Ok (tzeros z [chi; chi]) ->
  exists t, obc_C z o add mul div is0 amax cv st chi c d s l l' ix e = Ok (set_C e c d t) /\ obc_tensor d A t.
Proof. intros Hd HA HR H5 H4 HC. destruct (obc_matrix_ok d A s "ef" l l' "eafb" ix HR H5 H4) as (a & Ea & Wa & La & Pa).
  destruct (copy_legs z cv Hcv a chi (ls_of d (tdims a)) Wa) as (t & Et & Pt).
  { unfold ls_of. rewrite map_map. cbn in Hd. clear -La Hd. destruct a as [da ?]. cbn in *.
    repeat (destruct Hd as [<-|Hd]; [cbn in *; destruct da as [|x [|y [|]]]; try discriminate La; reflexivity|]). contradiction. }
  exists t. split; [|now apply Pa]. unfold obc_C. rewrite HA. cbn [bind]. rewrite Ea. cbn [bind]. rewrite HC. cbn [bind]. clear Pa Pt.
  cbn in Hd. repeat (destruct Hd as [<-|Hd]; [unfold size; destruct a as [da la]; cbn in La |- *; destruct da as [|x [|y [|]]]; try discriminate La; cbn in Et |- *; rewrite Et; reflexivity|]). contradiction. Qed.
Lemma obc_T_ok d s l l' ix c A ls' : In d edge_dirs -> ipeps_site st (cadd c d) = Ok A -> obc_ready d A ->
  (site5 A -> exists M, (a <- einsum2 z o add mul l l' "eafbgc" A A ;; view a (map (fun i => sq (size A i)) ix)) = Ok M /\ isc (bd A) (layers Summed (inward d) A A) (fused (inward d)) M) ->
  (site4 A -> exists M, einsum1 z o add mul s "efg" A = Ok M /\ isc (bd1 A) (bare A) (legs1 (inward d)) M) ->
  (forall x y w, ls_of d [x; y; w] = ls' x y w) ->
  exists a x y w t, obc_T z o add mul div is0 amax st c d s l l' ix = Ok a /\ size a 0 = x /\ size a 1 = y /\ size a 2 = w /\
    copy (tzeros z (map (lc_new chi) (ls' x y w))) a (map (lc_slice chi) (ls' x y w)) = Ok t /\ obc_tensor d A t.
Proof. intros Hd HA HR H5 H4 Hls. destruct (obc_matrix_ok d A s "efg" l l' "eafbgc" ix HR H5 H4) as (a & Ea & Wa & La & Pa).
  assert (H3 : length (tdims a) = 3) by (rewrite La; cbn in Hd; repeat (destruct Hd as [<-|Hd]; [reflexivity|]); contradiction).
  destruct (tdims a) as [|x [|y [|w [|]]]] eqn:Da; try discriminate H3.
  destruct (copy_legs z cv Hcv a chi (ls_of d [x; y; w]) Wa) as (t & Et & Pt).
  { rewrite Da. unfold ls_of. rewrite map_map. cbn in Hd. clear -Hd. repeat (destruct Hd as [<-|Hd]; [reflexivity|]). contradiction. }
  exists a, x, y, w, t. unfold obc_T, size. rewrite HA, Da. cbn [bind nth]. rewrite <- Hls. split; [exact Ea|]. repeat (split; [reflexivity|]). split; [exact Et|]. now apply Pa. Qed.

Lemma obc_site_ok e c : (forall d, In d (corner_dirs ++ edge_dirs) -> exists A, ipeps_site st (cadd c d) = Ok A /\ obc_ready d A) ->
  exists e', obc_site z o add mul div is0 amax cv st chi e c = Ok e' /\ has st obc_tensor obc_tensor c e' /\ forall c', c' <> c -> same_at e e' c'.
Proof. intros HR.
  destruct (HR (-1, -1)%Z) as (A1 & L1 & V1); [cbn; tauto|].
  destruct (HR (1, -1)%Z) as (A2 & L2 & V2); [cbn; tauto|].
  destruct (HR (1, 1)%Z) as (A3 & L3 & V3); [cbn; tauto|].
  destruct (HR (-1, 1)%Z) as (A4 & L4 & V4); [cbn; tauto|].
  destruct (HR (0, -1)%Z) as (A5 & L5 & V5); [cbn; tauto|].
  destruct (HR (-1, 0)%Z) as (A6 & L6 & V6); [cbn; tauto|].
  destruct (HR (0, 1)%Z) as (A7 & L7 & V7); [cbn; tauto|].
  destruct (HR (1, 0)%Z) as (A8 & L8 & V8); [cbn; tauto|].
  unfold obc_site.
  destruct (obc_C_ok (-1, -1)%Z "ijef" "mijef" "mklab" [3; 4] c (zero_corners z chi e c) A1 ltac:(cbn; tauto) L1 V1) as (t1 & -> & S1);
    [intros V; apply obc_LU; [exact SR|exact V|apply V|reflexivity]|apply one_LU, SR|gets; apply zero_corners_ok; cbn; tauto|].
  cbn [bind].
  destruct (obc_C_ok (1, -1)%Z "iefj" "miefj" "mkabl" [2; 3] c (set_C (zero_corners z chi e c) c (-1, -1)%Z t1) A2 ltac:(cbn; tauto) L2 V2) as (t2 & -> & S2);
    [intros V; apply obc_RU; [exact SR|exact V|apply V|reflexivity]|apply one_RU, SR|gets; apply zero_corners_ok; cbn; tauto|].
  cbn [bind].
  destruct (obc_C_ok (1, 1)%Z "efij" "mefij" "mabkl" [1; 2] c (set_C (set_C (zero_corners z chi e c) c (-1, -1)%Z t1) c (1, -1)%Z t2) A3 ltac:(cbn; tauto) L3 V3) as (t3 & -> & S3);
    [intros V; apply obc_RD; [exact SR|exact V|apply V|reflexivity]|apply one_RD, SR|gets; apply zero_corners_ok; cbn; tauto|].
  cbn [bind].
  destruct (obc_C_ok (-1, 1)%Z "eijf" "meijf" "maklb" [1; 4] c (set_C (set_C (set_C (zero_corners z chi e c) c (-1, -1)%Z t1) c (1, -1)%Z t2) c (1, 1)%Z t3) A4 ltac:(cbn; tauto) L4 V4) as (t4 & -> & S4);
    [intros V; apply obc_LD; [exact SR|exact V|apply V|reflexivity]|apply one_LD, SR|gets; apply zero_corners_ok; cbn; tauto|].
  cbn [bind].
  destruct (obc_T_ok (0, -1)%Z "iefg" "miefg" "mkabc" [2; 3; 4] c A5 (fun x y w => [Bdry x; Kept y; Bdry w]) ltac:(cbn; tauto) L5 V5) as (a5 & x5 & y5 & w5 & t5 & -> & X5 & Y5 & W5 & Q5 & S5);
    [intros V; apply obc_U; [exact SR|exact V|apply V|reflexivity]|apply one_U, SR|reflexivity|].
  cbn [bind]. cbn [map lc_new lc_slice] in Q5. rewrite ?X5, ?Y5, ?W5, Q5. cbn [bind].
  destruct (obc_T_ok (-1, 0)%Z "eifg" "meifg" "makbc" [1; 3; 4] c A6 (fun x y w => [Bdry x; Bdry y; Kept w]) ltac:(cbn; tauto) L6 V6) as (a6 & x6 & y6 & w6 & t6 & -> & X6 & Y6 & W6 & Q6 & S6);
    [intros V; apply obc_L; [exact SR|exact V|apply V|reflexivity]|apply one_L, SR|reflexivity|].
  cbn [bind]. cbn [map lc_new lc_slice] in Q6. rewrite ?X6, ?Y6, ?W6, Q6. cbn [bind].
  destruct (obc_T_ok (0, 1)%Z "efig" "mefig" "mabkc" [1; 2; 4] c A7 (fun x y w => [Kept x; Bdry y; Bdry w]) ltac:(cbn; tauto) L7 V7) as (a7 & x7 & y7 & w7 & t7 & -> & X7 & Y7 & W7 & Q7 & S7);
    [intros V; apply obc_D; [exact SR|exact V|apply V|reflexivity]|apply one_D, SR|reflexivity|].
  cbn [bind]. cbn [map lc_new lc_slice] in Q7. rewrite ?X7, ?Y7, ?W7, Q7. cbn [bind].
  destruct (obc_T_ok (1, 0)%Z "efgi" "mefgi" "mabck" [1; 2; 3] c A8 (fun x y w => [Bdry x; Kept y; Bdry w]) ltac:(cbn; tauto) L8 V8) as (a8 & x8 & y8 & w8 & t8 & -> & X8 & Y8 & W8 & Q8 & S8);
    [intros V; apply obc_R; [exact SR|exact V|apply V|reflexivity]|apply one_R, SR|reflexivity|].
  cbn [bind]. cbn [map lc_new lc_slice] in Q8. rewrite ?X8, ?Y8, ?W8, Q8. cbn [bind].
  eexists. split; [reflexivity|]. split; [split|].
  - intros d H. cbn in H. repeat (destruct H as [<-|H]; [eexists; eexists; split; [eassumption|split; [gets; reflexivity|assumption]]|]). contradiction.
  - intros d H. cbn in H. repeat (destruct H as [<-|H]; [eexists; eexists; split; [eassumption|split; [gets; reflexivity|assumption]]|]). contradiction.
  - intros c' Hc d. destruct (zero_corners_other z chi e c c' Hc d) as [Z1 Z2]. split; gets; assumption. Qed.
Lemma init_obc_ok e sites : i_sites st = Some sites -> (forall c d, In c (dkeys sites) -> In d (corner_dirs ++ edge_dirs) -> exists A, ipeps_site st (cadd c d) = Ok A /\ obc_ready d A) ->
  exists e', init_from_ipeps_obc z o add mul div is0 amax cv st chi e = Ok e' /\ forall c, In c (dkeys sites) -> has st obc_tensor obc_tensor c e'.
Proof. intros Hs HR. unfold init_from_ipeps_obc, sites_of. rewrite Hs. cbn [bind].
  destruct (fold_sites (obc_site z o add mul div is0 amax cv st chi) (has st obc_tensor obc_tensor) (dkeys sites) (has_ext _ _ _)
    (fun e c Hc => obc_site_ok e c (fun d => HR c d Hc)) e) as (e' & E & H & _).
  exists e'. split; [exact E|exact H]. Qed.
End Obc.

Section Prod.
Variables (st : ipeps ten) (chi : nat).
Hypothesis Hchi : 0 < chi.
Lemma put_line_ok d dims f (a : ten) :
  (d = (0, -1)%Z /\ dims = [chi; size a 0; chi] /\ f = 1) \/ (d = (-1, 0)%Z /\ dims = [chi; chi; size a 0] /\ f = 2) \/
  (d = (0, 1)%Z /\ dims = [size a 0; chi; chi] /\ f = 0) \/ (d = (1, 0)%Z /\ dims = [chi; size a 0; chi] /\ f = 1) ->
  exists t, put_line z cv dims f a = Ok t /\ is_line z d dims a t.
Proof. intros H. assert (Hb : existsb (fun k => negb (k =? f) && (nth k dims 0 =? 0)) (seq 0 (length dims)) = false).
  { assert (E : (chi =? 0) = false) by (apply Nat.eqb_neq; lia).
    repeat destruct H as [(-> & -> & ->)|H]; [| | |destruct H as (-> & -> & ->)]; cbn; rewrite ?E; reflexivity. }
  unfold put_line. rewrite Hb. eexists. split; [reflexivity|]. split; [apply twf_tbuild|]. split; [reflexivity|].
  intros ix Hx. rewrite tget_tbuild by (unfold in_range; clear -Hx; induction Hx; constructor; assumption). rewrite Hcv. f_equal.
  repeat destruct H as [(-> & -> & ->)|H]; [| | |destruct H as (-> & -> & ->)];
  inversion Hx as [|i ? ix1 ? H1 H2]; subst; inversion H2 as [|j ? ix2 ? H3 H4]; subst; inversion H4 as [|k ? ix3 ? H5 H6]; subst; inversion H6; subst; reflexivity. Qed.

Notation prod_tensor := (prod_tensor z o add mul div amax cj chi).
Notation prod_ready := (prod_ready z o add mul amax is0 cj).
Lemma prod_vector_ok d out1 l l' out2 c A : In d edge_dirs -> ipeps_site st (cadd c d) = Ok A -> prod_ready d A ->
  (site5 A -> exists M, (a <- einsum2 z o add mul l l' out2 A (conj cj A) ;; view a [sq (size a 0)]) = Ok M /\ isc (bd A) (layers Traced (facing d) A (conj cj A)) (fused (facing d)) M) ->
  (site4 A -> exists M, einsum1 z o add mul "uldr" out1 A = Ok M /\ isc (bd1 A) (bare A) (legs1 (facing d)) M) ->
  exists a n, prod_vector z o add mul cj st c d out1 l l' out2 = Ok a /\ size a 0 = n /\
    (d <> (0, -1)%Z -> normalize div is0 amax a = Ok (unit_scale div amax a)) /\
    forall dims t, dims = map (fun k => if facing d k then n else chi) (filter (inward d) sides) -> is_line z d dims (prod_scale div amax d a) t -> prod_tensor d A t.
Proof. intros Hd HA [HR HN] H5 H4. unfold prod_vector. rewrite HA. cbn [bind]. unfold rank. destruct HR as [V|V].
  - destruct (H5 V) as (M & EM & HM). exists M, (size M 0). rewrite (proj2 V). cbn [Nat.eqb]. split; [exact EM|]. split; [reflexivity|].
    split; [intros Hne; apply normalize_ok; exact (proj1 (HN Hne) M HM V)|].
    intros dims t E Ht. split; [intros _|intros [_ B]; rewrite (proj2 V) in B; discriminate B]. exists M. split; [exact HM|].
    replace (start_dims chi d (inward d) (fun k => bd A (1 + k) * bd A (5 + k))) with dims; [exact Ht|].
    rewrite E. unfold start_dims, size. rewrite (proj1 (proj2 HM)). cbn in Hd.
    repeat (destruct Hd as [<-|Hd]; [reflexivity|]). contradiction.
  - destruct (H4 V) as (M & EM & HM). exists M, (size M 0). rewrite (proj2 V). cbn [Nat.eqb]. split; [exact EM|]. split; [reflexivity|].
    split; [intros Hne; apply normalize_ok; exact (proj2 (HN Hne) M HM V)|].
    intros dims t E Ht. split; [intros [_ B]; rewrite (proj2 V) in B; discriminate B|intros _]. exists M. split; [exact HM|].
    replace (start_dims chi d (inward d) (fun k => bd1 A (1 + k))) with dims; [exact Ht|].
    rewrite E. unfold start_dims, size. rewrite (proj1 (proj2 HM)). cbn in Hd.
    repeat (destruct Hd as [<-|Hd]; [reflexivity|]). contradiction. Qed.
Lemma scale_size (a : ten) : size (unit_scale div amax a) 0 = size a 0.
Proof. reflexivity. Qed.

Lemma prod_site_ok e c : (forall d, In d edge_dirs -> exists A, ipeps_site st (cadd c d) = Ok A /\ prod_ready d A) ->
  exists e', prod_site z o add mul div cj is0 amax cv st chi e c = Ok e' /\ Ctm.eC e' = Ctm.eC e /\
    (forall d, In d edge_dirs -> exists A t, ipeps_site st (cadd c d) = Ok A /\ getT e' c d = Ok t /\ prod_tensor d A t) /\ forall c', c' <> c -> same_at e e' c'.
Proof. intros HR.
  destruct (HR (0, -1)%Z) as (A5 & L5 & V5); [cbn; tauto|].
  destruct (HR (-1, 0)%Z) as (A6 & L6 & V6); [cbn; tauto|].
  destruct (HR (0, 1)%Z) as (A7 & L7 & V7); [cbn; tauto|].
  destruct (HR (1, 0)%Z) as (A8 & L8 & V8); [cbn; tauto|].
  unfold prod_site.
  destruct (prod_vector_ok (0, -1)%Z "d" "miefg" "miebg" "fb" c A5 ltac:(cbn; tauto) L5 V5) as (a5 & n5 & -> & X5 & N5 & P5);
    [intros V; apply prod_U'; [exact SR|exact V|apply twf_conj, V|reflexivity]|apply one_prod_U, SR|].
  cbn [bind]. rewrite X5.
  destruct (put_line_ok (0, -1)%Z [chi; n5; chi] 1 a5) as (t5 & -> & I5); [rewrite <- X5; left; repeat split|].
  assert (S5 := P5 _ t5 eq_refl I5). cbn [bind].
  destruct (prod_vector_ok (-1, 0)%Z "r" "meifg" "meifc" "gc" c A6 ltac:(cbn; tauto) L6 V6) as (a6 & n6 & -> & X6 & N6 & P6);
    [intros V; apply prod_L'; [exact SR|exact V|apply twf_conj, V|reflexivity]|apply one_prod_L, SR|].
  cbn [bind]. rewrite (N6 ltac:(discriminate)). cbn [bind]. rewrite scale_size. rewrite X6.
  destruct (put_line_ok (-1, 0)%Z [chi; chi; n6] 2 (unit_scale div amax a6)) as (t6 & -> & I6); [rewrite <- X6; right; left; repeat split|].
  assert (S6 := P6 _ t6 eq_refl I6). cbn [bind].
  destruct (prod_vector_ok (0, 1)%Z "u" "mefig" "mafig" "ea" c A7 ltac:(cbn; tauto) L7 V7) as (a7 & n7 & -> & X7 & N7 & P7);
    [intros V; apply prod_D'; [exact SR|exact V|apply twf_conj, V|reflexivity]|apply one_prod_D, SR|].
  cbn [bind]. rewrite (N7 ltac:(discriminate)). cbn [bind]. rewrite scale_size. rewrite X7.
  destruct (put_line_ok (0, 1)%Z [n7; chi; chi] 0 (unit_scale div amax a7)) as (t7 & -> & I7); [rewrite <- X7; right; right; left; repeat split|].
  assert (S7 := P7 _ t7 eq_refl I7). cbn [bind].
  destruct (prod_vector_ok (1, 0)%Z "l" "mefgi" "mebgi" "fb" c A8 ltac:(cbn; tauto) L8 V8) as (a8 & n8 & -> & X8 & N8 & P8);
    [intros V; apply prod_R'; [exact SR|exact V|apply twf_conj, V|reflexivity]|apply one_prod_R, SR|].
  cbn [bind]. rewrite (N8 ltac:(discriminate)). cbn [bind]. rewrite scale_size. rewrite X8.
  destruct (put_line_ok (1, 0)%Z [chi; n8; chi] 1 (unit_scale div amax a8)) as (t8 & -> & I8); [rewrite <- X8; right; right; right; repeat split|].
  assert (S8 := P8 _ t8 eq_refl I8). cbn [bind].
  eexists. split; [reflexivity|]. split; [reflexivity|]. split.
  - intros d H. cbn in H. repeat (destruct H as [<-|H]; [eexists; eexists; split; [eassumption|split; [gets; reflexivity|assumption]]|]). contradiction.
  - intros c' Hc d. split; gets; reflexivity. Qed.

Lemma unit_corner_ok (t : ten) : tdims t = [chi; chi] -> exists t', unit_corner z o t = Ok t' /\ is_unit_corner z o chi t'.
Proof. intros E. unfold unit_corner. rewrite E. assert (E0 : (chi =? 0) = false) by (apply Nat.eqb_neq; lia). rewrite E0. cbn [orb].
  eexists. split; [reflexivity|]. split; [apply twf_tbuild|]. split; [reflexivity|]. intros i j Hi Hj.
  rewrite tget_tbuild by (repeat constructor; assumption). f_equal. destruct i as [|i], j as [|j]; reflexivity. Qed.
Lemma unit_corners_ok (e : envt) : Forall (fun kt => tdims (snd kt) = [chi; chi]) (Ctm.eC e) ->
  exists e', unit_corners z o e = Ok e' /\ Ctm.eT e' = Ctm.eT e /\
    forall c d t, getC e c d = Ok t -> exists t', getC e' c d = Ok t' /\ is_unit_corner z o chi t'.
Proof. intros H. unfold unit_corners.
  assert (G : exists C, mapM (fun kt => t <- unit_corner z o (snd kt) ;; Ok (fst kt, t)) (Ctm.eC e) = Ok C /\
    forall k t, dget (Ctm.eC e) k = Some t -> exists t', dget C k = Some t' /\ is_unit_corner z o chi t').
  { induction (Ctm.eC e) as [|[k t] l IH]; [exists []; split; [reflexivity|discriminate]|].
    inversion H as [|? ? H1 H2]; subst. destruct (IH H2) as (C & EC & GC). destruct (unit_corner_ok t H1) as (t' & Et & Ht).
    exists ((k, t') :: C). cbn [mapM fst snd]. rewrite Et. cbn [bind]. rewrite EC. cbn [bind]. split; [reflexivity|].
    intros k' u Hu. cbn in Hu |- *. destruct (eq_dec k' k); [exists t'; split; [reflexivity|exact Ht]|exact (GC _ _ Hu)]. }
  destruct G as (C & EC & GC). rewrite EC. cbn [bind]. eexists. split; [reflexivity|]. split; [reflexivity|].
  intros c d t Ht. unfold Ctm.getC, dget_exn in *. cbn. destruct (dget (Ctm.eC e) (c, d)) as [u|] eqn:E; [|discriminate].
  destruct (GC _ _ E) as (t' & -> & U). exists t'. split; [reflexivity|exact U]. Qed.
Lemma init_prod_ok e sites : i_sites st = Some sites -> (forall c d, In c (dkeys sites) -> In d edge_dirs -> exists A, ipeps_site st (cadd c d) = Ok A /\ prod_ready d A) ->
  Forall (fun kt => tdims (snd kt) = [chi; chi]) (Ctm.eC e) -> (forall c d, In c (dkeys sites) -> In d corner_dirs -> exists t, getC e c d = Ok t) ->
  exists e', init_prod z o add mul div cj is0 amax cv st chi e = Ok e' /\
    (forall c d, In c (dkeys sites) -> In d corner_dirs -> exists t, getC e' c d = Ok t /\ is_unit_corner z o chi t) /\
    (forall c d, In c (dkeys sites) -> In d edge_dirs -> exists A t, ipeps_site st (cadd c d) = Ok A /\ getT e' c d = Ok t /\ prod_tensor d A t).
Proof. intros Hs HR HC HG. unfold init_prod. destruct (unit_corners_ok e HC) as (e1 & -> & ET & G1). cbn [bind]. unfold sites_of. rewrite Hs. cbn [bind].
  pose (ok := fun c (e' : envt) => (forall d, In d corner_dirs -> getC e' c d = getC e1 c d) /\
    forall d, In d edge_dirs -> exists A t, ipeps_site st (cadd c d) = Ok A /\ getT e' c d = Ok t /\ prod_tensor d A t).
  assert (G : forall l e0, (forall c, In c l -> In c (dkeys sites)) -> Ctm.eC e0 = Ctm.eC e1 ->
    exists e', foldM (prod_site z o add mul div cj is0 amax cv st chi) l e0 = Ok e' /\ Ctm.eC e' = Ctm.eC e1 /\
      (forall c, In c l -> forall d, In d edge_dirs -> exists A t, ipeps_site st (cadd c d) = Ok A /\ getT e' c d = Ok t /\ prod_tensor d A t) /\ forall c, ~ In c l -> same_at e0 e' c).
  { induction l as [|c l IH]; intros e0 Hl E0.
    - exists e0. split; [reflexivity|]. split; [exact E0|]. split; [intros c []|]. intros c _ d. split; reflexivity.
    - destruct (prod_site_ok e0 c (fun d => HR c d (Hl c (or_introl eq_refl)))) as (e2 & E2 & C2 & T2 & S2).
      destruct (IH e2 (fun c' H' => Hl c' (or_intror H')) (eq_trans C2 E0)) as (e3 & E3 & C3 & T3 & S3).
      exists e3. split; [cbn; rewrite E2; exact E3|]. split; [exact C3|]. split.
      + intros c' [<-|Hc'] d Hd; [|now apply T3]. destruct (in_dec eq_dec c l) as [Hi|Hi]; [now apply T3|].
        destruct (T2 d Hd) as (A & t & EA & Et & HT). exists A, t. split; [exact EA|]. split; [|exact HT]. now rewrite (proj2 (S3 c Hi d)).
      + intros c' Hc' d. cbn in Hc'. destruct (S3 c' ltac:(tauto) d) as [-> ->]. apply S2. intros ->. tauto. }
  destruct (G (dkeys sites) e1 (fun _ H => H) eq_refl) as (e2 & E2 & C2 & T2 & _). exists e2. split; [exact E2|]. split.
  - intros c d Hc Hd. destruct (HG c d Hc Hd) as (t & Ht). destruct (G1 c d t Ht) as (t' & Et' & U). exists t'. split; [|exact U].
    unfold Ctm.getC in *. rewrite C2. exact Et'.
  - intros c d Hc Hd. exact (T2 c Hc d Hd). Qed.
End Prod.
End P.
