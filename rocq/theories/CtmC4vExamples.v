(** Concrete moves over the Gaussian rationals. *)
From Verif Require Import Base BaseLemmas Tensor TensorLemmas Net NetSpec GaussQ Corners CornersSpec CtmC4v CtmC4vSpec CtmC4vProofs2 CtmC4vProofs3 CtmC4vProofs4.
From Coq Require Import QArith Qcanon Field_theory.
Open Scope list_scope.
Open Scope nat_scope.
Open Scope res_scope.

Definition qabs (x : Qc) : Qc := if Qclt_le_dec x 0 then Qcopp x else x.
Definition gabs (x : gq) : gq := ((qabs (fst x) + qabs (snd x))%Qc, 0%Qc).
Definition gis0 (x : gq) : bool := gq_eqb x gq_z.
Definition gnorm (b : bool) (l : list gq) : gq := fold_right (fun x s => gq_add (gabs x) s) gq_z l.
Definition ghalf : gq := gq_half 1 0.

Lemma qabs_nonneg x : (0 <= qabs x)%Qc.
Proof. unfold qabs. destruct (Qclt_le_dec x 0) as [H|H]; [|exact H]. apply Qcle_minus_iff. replace (- x + - 0)%Qc with (0 + - x)%Qc by ring.
  apply -> Qcle_minus_iff. now apply Qclt_le_weak. Qed.
Lemma qabs_pos x : (0 <= x)%Qc -> qabs x = x.
Proof. intros H. unfold qabs. destruct (Qclt_le_dec x 0) as [H'|H']; [|reflexivity]. exfalso. exact (Qclt_not_le _ _ H' H). Qed.
Lemma qabs_neg x : (x <= 0)%Qc -> qabs x = (- x)%Qc.
Proof. intros H. unfold qabs. destruct (Qclt_le_dec x 0) as [H'|H']; [reflexivity|]. assert (E : x = 0%Qc) by now apply Qcle_antisym. subst. reflexivity. Qed.
Lemma qabs_mul x y : (0 <= y)%Qc -> qabs (x * y) = (qabs x * y)%Qc.
Proof. intros Hy. destruct (Qclt_le_dec x 0) as [H|H].
  - rewrite (qabs_neg x) by now apply Qclt_le_weak. rewrite qabs_neg; [ring|].
    replace 0%Qc with (0 * y)%Qc by ring. apply Qcmult_le_compat_r; [now apply Qclt_le_weak|exact Hy].
  - rewrite (qabs_pos x H). apply qabs_pos. replace 0%Qc with (0 * y)%Qc by ring. now apply Qcmult_le_compat_r. Qed.
Lemma qinv_nonneg s : (0 <= s)%Qc -> s <> 0%Qc -> (0 <= / s)%Qc.
Proof. intros H N. destruct (Qclt_le_dec (/ s) 0) as [H'|H']; [|exact H']. exfalso. apply Qclt_le_weak in H'.
  assert (X : (/ s * s <= 0 * s)%Qc) by now apply Qcmult_le_compat_r. rewrite Qcmult_inv_l in X by exact N. rewrite Qcmult_0_l in X.
  exact (Qclt_not_le 0 1 ltac:(reflexivity) X). Qed.
Lemma g_laws : scalar_laws gq_z gq_o ghalf gq_add gq_mul gq_sub gq_opp gq_div gq_inv gq_cj gabs gis0 gnorm.
Proof. constructor.
  - exact gq_field.
  - apply gq_eqb_true. reflexivity.
  - intros x. unfold gis0. split; [apply gq_eqb_true|]. intros ->. reflexivity.
  - intros [a b] [c d]. unfold gq_cj, gq_add. cbn. f_equal. ring.
  - intros [a b] [c d]. unfold gq_cj, gq_mul. cbn. f_equal; ring.
  - intros [a b]. unfold gq_cj. cbn. f_equal. ring.
  - intros [a b]. reflexivity.
  - intros [a b] H. unfold gabs in *. cbn [fst snd] in *. set (s := (qabs a + qabs b)%Qc) in *.
    assert (Hs : s <> 0%Qc) by (intros E; apply H; rewrite E; reflexivity).
    assert (Ps : (0 <= / s)%Qc). { apply qinv_nonneg; [|exact Hs]. unfold s. replace 0%Qc with (0 + 0)%Qc by ring. apply Qcplus_le_compat; apply qabs_nonneg. }
    assert (E : gq_div (a, b) (s, 0%Qc) = ((a * / s)%Qc, (b * / s)%Qc)).
    { unfold gq_div, gq_inv, gq_mul, gq_n. cbn [fst snd]. f_equal; field; repeat split; assumption || (intros X; apply Hs; destruct (Qcmult_integral _ _ ltac:(transitivity (s * s + 0 * 0)%Qc; [ring|exact X])); assumption). }
    rewrite E. cbn [fst snd]. rewrite !qabs_mul by exact Ps. unfold gq_o. f_equal. transitivity (s * / s)%Qc; [unfold s; ring|]. now apply Qcmult_inv_r.
  - intros b l. induction l as [|x l IH]; [reflexivity|]. cbn. change (fold_right _ _ l) with (gnorm b l). unfold gq_cj, gq_add in *. cbn [fst snd gabs] in *.
    assert (E := f_equal snd IH). cbn in E. f_equal. rewrite <- E at 2. ring. Qed.

(** one spin state, bond dimension one, corners of dimension two *)
Definition g (n d : Z) : gq := gq_div (gq_int n 0) (gq_int d 0).
Definition gi (n d : Z) : gq := gq_div (gq_int 0 n) (gq_int d 0).
Definition a1 : tensor gq := mkT [1;1;1;1;1] [gq_o].
Definition C1 : tensor gq := mkT [2;2] [gq_o; gq_z; gq_z; gq_o].
(** P diag(2, 1) P^+ for P = [[3, 4i], [4i, 3]]/5 *)
Definition T1 : tensor gq := mkT [2;2;1] [g 34 25; gi (-12) 25; gi 12 25; g 41 25].
Definition P1 : tensor gq := mkT [2;2] [g 3 5; gi (-4) 5; gi (-4) 5; g 3 5].
Definition dec1 (M : tensor gq) (chi : nat) : res (list gq * tensor gq) := Ok ([gq_int 4 0; gq_int 1 0], P1).
Definition gmove := ctm_MOVE_sl gq_z gq_o ghalf gq_add gq_mul gq_div gq_cj gabs gis0 gnorm.
Definition gmove_dl := ctm_MOVE_dl gq_z gq_o ghalf gq_add gq_mul gq_div gq_cj gabs gis0 gnorm.
Definition gmove_qr := ctm_MOVE_QR_sl gq_z gq_o ghalf gq_add gq_mul gq_div gq_cj gabs gis0 gnorm.
Definition teqb (t u : tensor gq) : bool :=
  (if list_eq_dec Nat.eq_dec (tdims t) (tdims u) then true else false) && (length (tdata t) =? length (tdata u)) &&
  forallb (fun p => gq_eqb (fst p) (snd p)) (combine (tdata t) (tdata u)).
Lemma teqb_true t u : teqb t u = true -> t = u.
Proof. destruct t as [ds l], u as [es m]. unfold teqb. cbn [tdims tdata]. rewrite !andb_true_iff. intros [[H1 H2] H3]. destruct (list_eq_dec Nat.eq_dec ds es); [subst|discriminate]. f_equal.
  apply Nat.eqb_eq in H2. revert m H2 H3. induction l as [|x l IH]; intros [|y m] H2 H3; try discriminate; [reflexivity|]. cbn in *. rewrite andb_true_iff in H3. destruct H3 as [H3 H4].
  f_equal; [now apply gq_eqb_true|]. apply IH; [lia|exact H4]. Qed.
Definition is_env (r : res (tensor gq * tensor gq)) (C T : tensor gq) : bool :=
  match r with Ok (C', T') => teqb C' C && teqb T' T | _ => false end.
Lemma is_env_true r C T : is_env r C T = true -> r = Ok (C, T).
Proof. destruct r as [[C' T']|]; [|discriminate]. cbn. rewrite andb_true_iff. intros [H1 H2]. now rewrite (teqb_true _ _ H1), (teqb_true _ _ H2). Qed.
Definition C1' : tensor gq := mkT [2;2] [gq_o; gq_z; gq_z; g 1 4].
Definition T1' : tensor gq := mkT [2;2;1] [g 2 3; gq_z; gq_z; g 1 3].
Lemma ex_move : gmove dec1 false 2 a1 (C1, T1) = Ok (C1', T1').
Proof. apply is_env_true. vm_compute. reflexivity. Qed.
Lemma ex_move_dl : gmove_dl dec1 false 2 a1 (C1, T1) = Ok (C1', T1').
Proof. apply is_env_true. vm_compute. reflexivity. Qed.
Lemma ex_site : c4v_site gq_z gq_cj 1 1 a1.
Proof. split; [split; reflexivity|]. intros s u l w r H0 H1 H2 H3 H4.
  assert (s = 0) by lia. assert (u = 0) by lia. assert (l = 0) by lia. assert (w = 0) by lia. assert (r = 0) by lia. subst.
  split; apply gq_eqb_true; vm_compute; reflexivity. Qed.
Lemma herm2 (M : tensor gq) : shaped [2;2] M ->
  gq_eqb (entry gq_z M [0;0]) (gq_cj (entry gq_z M [0;0])) && gq_eqb (entry gq_z M [0;1]) (gq_cj (entry gq_z M [1;0])) &&
  gq_eqb (entry gq_z M [1;0]) (gq_cj (entry gq_z M [0;1])) && gq_eqb (entry gq_z M [1;1]) (gq_cj (entry gq_z M [1;1])) = true -> hermitian gq_z gq_cj 2 M.
Proof. intros S H. rewrite !andb_true_iff in H. destruct H as [[[A B] C] D]. split; [exact S|]. intros i j Hi Hj.
  destruct i as [|[|]]; [..|lia]; (destruct j as [|[|]]; [..|lia]); now apply gq_eqb_true. Qed.
Lemma row2 (T : tensor gq) : shaped [2;2;1] T ->
  gq_eqb (entry gq_z T [0;0;0]) (gq_cj (entry gq_z T [0;0;0])) && gq_eqb (entry gq_z T [0;1;0]) (gq_cj (entry gq_z T [1;0;0])) &&
  gq_eqb (entry gq_z T [1;0;0]) (gq_cj (entry gq_z T [0;1;0])) && gq_eqb (entry gq_z T [1;1;0]) (gq_cj (entry gq_z T [1;1;0])) = true -> row_hermitian gq_z gq_cj 2 1 T.
Proof. intros S H. rewrite !andb_true_iff in H. destruct H as [[[A B] C] D]. split; [exact S|]. intros i j k Hi Hj Hk. assert (k = 0) by lia. subst k.
  destruct i as [|[|]]; [..|lia]; (destruct j as [|[|]]; [..|lia]); now apply gq_eqb_true. Qed.
Lemma ex_env : symmetric_env gq_z gq_cj 2 1 (C1, T1).
Proof. split; [apply herm2; [split; reflexivity|vm_compute; reflexivity]|apply row2; [split; reflexivity|vm_compute; reflexivity]]. Qed.
Definition M1 : tensor gq := mkT [2;2] [g 52 25; gi 36 25; gi (-36) 25; g 73 25].
Lemma ex_corner : c2x2_sl gq_z gq_o gq_add gq_mul gq_cj a1 C1 T1 = Ok M1.
Proof. destruct (c2x2_sl gq_z gq_o gq_add gq_mul gq_cj a1 C1 T1) as [M|] eqn:E; [|exfalso; vm_compute in E; discriminate E].
  f_equal. apply teqb_true. replace M with (match c2x2_sl gq_z gq_o gq_add gq_mul gq_cj a1 C1 T1 with Ok M => M | _ => M end) by now rewrite E.
  vm_compute. reflexivity. Qed.
Lemma ex_diagonalizes : diagonalizes gq_z gq_cj gq_o gq_add gq_mul 2 2 M1 [gq_int 4 0; gq_int 1 0] P1.
Proof. split; [split; reflexivity|].
  destruct (triple gq_z gq_o ghalf gq_add gq_mul gq_sub gq_opp gq_div gq_inv gq_cj gabs gis0 gnorm g_laws 2 2 P1 M1) as (y & E & H); [split; reflexivity|split; reflexivity|].
  replace (diag gq_z [gq_int 4 0; gq_int 1 0]) with y; [exact H|]. apply teqb_true.
  assert (X : match (x <- tensordot gq_z gq_o gq_add gq_mul (tmap gq_cj P1) M1 [0] [0];; tensordot gq_z gq_o gq_add gq_mul x P1 [1] [0]) with
    Ok y => teqb y (diag gq_z [gq_int 4 0; gq_int 1 0]) | _ => false end = true) by (vm_compute; reflexivity).
  rewrite E in X. exact X. Qed.
Lemma ex_values : real_values gq_cj 2 [gq_int 4 0; gq_int 1 0].
Proof. split; [reflexivity|]. repeat constructor; apply gq_eqb_true; vm_compute; reflexivity. Qed.
(** vectors that are not orthogonal: the corner is the same, the half-row tensor is hermitian and complex *)
Definition P2 : tensor gq := mkT [2;2] [gq_o; gq_int 0 1; gq_z; gq_int 1 1].
Definition dec2 (M : tensor gq) (chi : nat) : res (list gq * tensor gq) := Ok ([gq_int 4 0; gq_int 1 0], P2).
Lemma ex_move2 : match gmove dec2 false 2 a1 (C1, T1) with Ok (C, T) => teqb C C1' && negb (gq_eqb (entry gq_z T [0;1;0]) (entry gq_z T [1;0;0])) | _ => false end = true.
Proof. vm_compute. reflexivity. Qed.

(** a site tensor A1 + i A2 *)
Definition ring_value (u l w r : nat) : gq :=
  let rot x y v s := (u =? x) && (l =? y) && (w =? v) && (r =? s) in
  let any x y v s := rot x y v s || rot y v s x || rot v s x y || rot s x y v in
  gq_int (Z.of_nat (u + l + w + r)) (if any 0 0 1 2 then 1 else if any 0 0 2 1 then -1 else 0).
Definition a3 : tensor gq := tbuild [1;3;3;3;3] (fun ix => match ix with [_; u; l; w; r] => ring_value u l w r | _ => gq_z end).
Lemma ex_site3 : c4v_site gq_z gq_cj 1 3 a3.
Proof. split; [split; [apply twf_tbuild|reflexivity]|].
  assert (X : forallb (fun u => forallb (fun l => forallb (fun w => forallb (fun r =>
      gq_eqb (ring_value u l w r) (gq_cj (ring_value l u r w)) && gq_eqb (ring_value u l w r) (gq_cj (ring_value w l u r))) (seq 0 3)) (seq 0 3)) (seq 0 3)) (seq 0 3) = true) by (vm_compute; reflexivity).
  intros s u l w r H0 H1 H2 H3 H4. rewrite forallb_forall in X. specialize (X u ltac:(apply in_seq; lia)).
  rewrite forallb_forall in X. specialize (X l ltac:(apply in_seq; lia)). rewrite forallb_forall in X. specialize (X w ltac:(apply in_seq; lia)).
  rewrite forallb_forall in X. specialize (X r ltac:(apply in_seq; lia)). rewrite andb_true_iff in X. destruct X as [X Y].
  apply gq_eqb_true in X. apply gq_eqb_true in Y. unfold a3. rewrite !entry_tbuild by (apply in_range5; auto). auto. Qed.
Definition C3 : tensor gq := mkT [1;1] [gq_o].
Definition T3 : tensor gq := mkT [1;1;9] (map (fun k => gq_int (Z.of_nat (k mod 4)) 0) (seq 0 9)).
(** its enlarged corner is not real *)
Lemma ex_corner3 : match c2x2_sl gq_z gq_o gq_add gq_mul gq_cj a3 C3 T3 with
  Ok M => gq_eqb (entry gq_z M [2;1]) (gq_int 1480 70) | _ => false end = true.
Proof. vm_compute. reflexivity. Qed.

(** ** the QR move *)
Definition Tq : tensor gq := mkT [2;2;1] [gq_int 3 0; gq_int 0 4; gq_int 0 (-4); gq_int 1 0].
(** the matrix that is factorized: its columns are the rows of T *)
Definition hq : tensor gq := mkT [2;2] [gq_int 3 0; gq_int 0 (-4); gq_int 0 4; gq_int 1 0].
Definition Qq : tensor gq := mkT [2;2] [g 3 5; gi 4 5; gi 4 5; g 3 5].
Definition Rq : tensor gq := mkT [2;2] [g 5 1; gi (-16) 5; gq_z; g (-13) 5].
Definition qrq (h : tensor gq) : res (tensor gq) := if teqb h hq then Ok Qq else Err RuntimeError.
Definition Cq : tensor gq := mkT [2;2] [g (-1) 1; gi 104 47; gi 904 47; g (-247) 47].
Lemma ex_env_q : symmetric_env gq_z gq_cj 2 1 (C1, Tq).
Proof. split; [apply herm2; [split; reflexivity|vm_compute; reflexivity]|apply row2; [split; reflexivity|vm_compute; reflexivity]]. Qed.
Lemma qr_ok : match tensordot gq_z gq_o gq_add gq_mul Qq Rq [1] [0], tensordot gq_z gq_o gq_add gq_mul (tmap gq_cj Qq) Qq [0] [0] with
  | Ok x, Ok y => teqb x hq && teqb y (diag gq_z [gq_o; gq_o]) | _, _ => false end = true.
Proof. vm_compute. reflexivity. Qed.
Lemma qr_move : match gmove_qr false 2 qrq a1 (C1, Tq) with Ok (C, T) => teqb C Cq | _ => false end = true.
Proof. vm_compute. reflexivity. Qed.
Lemma qr_refuted : exists qr Q R h a e C' T',
  c4v_site gq_z gq_cj 1 1 a /\ symmetric_env gq_z gq_cj 2 1 e /\
  (forall h' P, qr h' = Ok P -> h' = h /\ P = Q) /\
  tensordot gq_z gq_o gq_add gq_mul Q R [1] [0] = Ok h /\
  tensordot gq_z gq_o gq_add gq_mul (tmap gq_cj Q) Q [0] [0] = Ok (diag gq_z [gq_o; gq_o]) /\
  (forall i j, j < i < 2 -> entry gq_z R [i; j] = gq_z) /\
  gmove_qr false 2 qr a e = Ok (C', T') /\ entry gq_z C' [0; 1] <> gq_cj (entry gq_z C' [1; 0]).
Proof. destruct (gmove_qr false 2 qrq a1 (C1, Tq)) as [[C' T']|] eqn:E; [|assert (X := qr_move); rewrite E in X; discriminate X].
  assert (EC : C' = Cq) by (assert (X := qr_move); rewrite E in X; now apply teqb_true). subst C'.
  exists qrq, Qq, Rq, hq, a1, (C1, Tq), Cq, T'. split; [exact ex_site|]. split; [exact ex_env_q|]. split.
  { intros h' P. unfold qrq. destruct (teqb h' hq) eqn:EH; [|discriminate]. intros H. injection H as <-. split; [now apply teqb_true|reflexivity]. }
  assert (X := qr_ok). destruct (tensordot gq_z gq_o gq_add gq_mul Qq Rq [1] [0]) as [x|]; [|discriminate X].
  destruct (tensordot gq_z gq_o gq_add gq_mul (tmap gq_cj Qq) Qq [0] [0]) as [y|]; [|discriminate X]. apply andb_true_iff in X. destruct X as [X1 X2].
  split; [f_equal; now apply teqb_true|]. split; [f_equal; now apply teqb_true|]. split.
  { intros i j [H1 H2]. destruct i as [|[|]]; [lia| |lia]. assert (j = 0) by lia. subst j. reflexivity. }
  split; [exact E|]. apply gq_eqb_false. vm_compute. reflexivity. Qed.

(** ** random environments *)
Definition rC : tensor gq := mkT [2;2] [gq_o; gq_int 1 1; gq_int (-1) 1; gq_o].
Definition rT : tensor gq := mkT [2;2;1] [gq_o; gq_o; gq_z; gq_o].
Lemma random_env : match init_random gq_z ghalf gq_add gq_mul gq_cj rC rT with Ok (C, T) => teqb C C1 && teqb T rT | _ => false end = true.
Proof. vm_compute. reflexivity. Qed.
Lemma random_corner : match c2x2_sl gq_z gq_o gq_add gq_mul gq_cj a1 C1 rT with Ok M => negb (gq_eqb (entry gq_z M [1;0]) (gq_cj (entry gq_z M [0;1]))) | _ => false end = true.
Proof. vm_compute. reflexivity. Qed.
Lemma random_refuted : exists a rC rT C T M, c4v_site gq_z gq_cj 1 1 a /\
  init_random gq_z ghalf gq_add gq_mul gq_cj rC rT = Ok (C, T) /\ c2x2_sl gq_z gq_o gq_add gq_mul gq_cj a C T = Ok M /\
  entry gq_z M [1;0] <> gq_cj (entry gq_z M [0;1]).
Proof. assert (X := random_env). destruct (init_random gq_z ghalf gq_add gq_mul gq_cj rC rT) as [[C T]|] eqn:E; [|discriminate X].
  apply andb_true_iff in X. destruct X as [X1 X2]. apply teqb_true in X1. apply teqb_true in X2. subst.
  assert (Y := random_corner). destruct (c2x2_sl gq_z gq_o gq_add gq_mul gq_cj a1 C1 rT) as [M|] eqn:EM; [|discriminate Y].
  exists a1, rC, rT, C1, rT, M. split; [exact ex_site|]. split; [exact E|]. split; [exact EM|]. apply gq_eqb_false. apply negb_true_iff. exact Y. Qed.
