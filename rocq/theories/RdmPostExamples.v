(** Concrete density matrices over the Gaussian rationals. *)
From Verif Require Import Base BaseLemmas Tensor TensorLemmas Net NetSpec GaussQ CtmC4vSpec CtmC4vProofs2 CtmC4vProofs3 CtmC4vExamples RdmPost RdmPostSpec RdmPostProofs.
From Coq Require Import QArith Qcanon Field_theory.
Open Scope list_scope.
Open Scope nat_scope.
Open Scope res_scope.

Definition gnn (x : gq) : Prop := snd x = 0%Qc /\ (0 <= fst x)%Qc.
Definition glt0 (x : gq) : bool := if Qclt_le_dec (fst x) 0 then true else false.
(** abs(x.imag)/(abs(x.real)+eps) > eps *)
Definition geps : Qc := Q2Qc (1 # 100000000).
Definition gimag (x : gq) : bool := if Qclt_le_dec (geps * (qabs (fst x) + geps)) (qabs (snd x)) then true else false.
Lemma qsq (a : Qc) : (0 <= a * a)%Qc.
Proof. destruct (Qclt_le_dec a 0) as [H|H].
  - replace (a * a)%Qc with (qabs a * qabs a)%Qc. 2:{ rewrite (qabs_neg a) by now apply Qclt_le_weak. ring. }
    replace 0%Qc with (0 * qabs a)%Qc by ring. apply Qcmult_le_compat_r; apply qabs_nonneg.
  - replace 0%Qc with (0 * a)%Qc by ring. now apply Qcmult_le_compat_r. Qed.
Lemma qplus_nn (a b : Qc) : (0 <= a -> 0 <= b -> 0 <= a + b)%Qc.
Proof. intros Ha Hb. replace 0%Qc with (0 + 0)%Qc by ring. now apply Qcplus_le_compat. Qed.
Lemma real_snd (x : gq) : gq_cj x = x -> snd x = 0%Qc.
Proof. destruct x as [a b]. unfold gq_cj. cbn. intros E. injection E as E.
  assert (X : (b + b)%Qc = 0%Qc) by (rewrite <- E at 1; ring).
  transitivity ((Q2Qc (1 # 2)) * (b + b))%Qc; [|rewrite X; ring]. transitivity ((Q2Qc (1 # 2) + Q2Qc (1 # 2)) * b)%Qc; [|ring].
  replace (Q2Qc (1 # 2) + Q2Qc (1 # 2))%Qc with 1%Qc by (apply Qc_is_canon; reflexivity). ring. Qed.
Lemma g_order : order_laws gq_z gq_o ghalf gq_add gq_mul gq_sub gq_opp gq_div gq_inv gq_cj gis0 glt0 gnn.
Proof. constructor.
  - exact gq_field.
  - apply gq_eqb_true. reflexivity.
  - intros x. unfold gis0. split; [apply gq_eqb_true|]. intros ->. reflexivity.
  - intros [a b] [c d]. unfold gq_cj, gq_add. cbn. f_equal. ring.
  - intros [a b] [c d]. unfold gq_cj, gq_mul. cbn. f_equal; ring.
  - intros [a b]. unfold gq_cj. cbn. f_equal. ring.
  - intros [a b] [c d] [H1 H2] [H3 H4]. unfold gnn, gq_add in *. cbn in *. subst. split; [ring|now apply qplus_nn].
  - intros [a b] [c d] [H1 H2] [H3 H4]. unfold gnn, gq_mul in *. cbn in *. subst. split; [ring|].
    replace (a * c - 0 * 0)%Qc with (a * c)%Qc by ring. replace 0%Qc with (0 * c)%Qc by ring. now apply Qcmult_le_compat_r.
  - intros [a b]. unfold gnn, gq_mul, gq_cj. cbn. split; [ring|]. replace (a * a - b * - b)%Qc with (a * a + b * b)%Qc by ring. apply qplus_nn; apply qsq.
  - intros [a b] [H1 _]. unfold gq_cj. cbn in *. subst. reflexivity.
  - intros x Hx. apply real_snd in Hx. unfold glt0, gnn. destruct (Qclt_le_dec (fst x) 0) as [H|H].
    + split; [discriminate|]. intros [_ H']. exfalso. exact (Qclt_not_le _ _ H H').
    + split; [now split|reflexivity]. Qed.
Lemma g_imag_real x : gq_cj x = x -> gimag x = false.
Proof. intros H. apply real_snd in H. unfold gimag. rewrite H. destruct (Qclt_le_dec _ _) as [X|X]; [|reflexivity]. exfalso. apply (Qclt_not_le _ _ X).
  replace (qabs 0) with 0%Qc by reflexivity. assert (P : (0 <= geps)%Qc) by (unfold geps; intros Y; discriminate Y).
  replace 0%Qc with (0 * (qabs (fst x) + geps))%Qc by ring. apply Qcmult_le_compat_r; [exact P|]. apply qplus_nn; [apply qabs_nonneg|exact P]. Qed.

Notation gspd := (sym_pos_def_rdm gq_z gq_o ghalf gq_add gq_mul gq_div gq_cj gis0 gimag glt0).
Notation gspd_ab := (sym_pos_def_rdm_abelian gq_z ghalf gq_add gq_mul gq_div gq_cj gis0 gimag).
Definition tis (r : res (tensor gq)) (t : tensor gq) : bool := match r with Ok u => teqb u t | _ => false end.
Lemma tis_true r t : tis r t = true -> r = Ok t.
Proof. destruct r; [|discriminate]. cbn. intros H. now rewrite (teqb_true _ _ H). Qed.
(** an eigh that knows one matrix *)
Definition knows (H : tensor gq) (D : list gq) (U : tensor gq) (M : tensor gq) : res (list gq * tensor gq) :=
  if teqb M H then Ok (D, U) else Err RuntimeError.
Definition spec2 (H : tensor gq) (D : list gq) (U : tensor gq) : bool :=
  forallb (fun ij => gq_eqb (entry gq_z H [fst ij; snd ij])
     (sum_list gq_z gq_add (map (fun k => gq_mul (entry gq_z U [fst ij; k]) (gq_mul (nth k D gq_z) (gq_cj (entry gq_z U [snd ij; k])))) (seq 0 2))))
   [(0,0);(0,1);(1,0);(1,1)] && forallb (fun x => gq_eqb (gq_cj x) x) D.
Lemma knows_good H D U : tdims H = [2; 2] -> length D = 2 -> twf U -> tdims U = [2; 2] -> spec2 H D U = true ->
  good_eigh gq_z gq_add gq_mul gq_cj (knows H D U).
Proof. intros DH LD WU DU HS n M D' U' HM E. unfold knows in E. destruct (teqb M H) eqn:EM; [|discriminate]. injection E as <- <-. apply teqb_true in EM. subst M.
  assert (n = 2). { destruct HM as [[_ X] _]. rewrite DH in X. now injection X. } subst n.
  unfold spec2 in HS. apply andb_true_iff in HS. destruct HS as [HS HR].
  split; [exact LD|]. split; [apply Forall_forall; intros x Hx; rewrite forallb_forall in HR; now apply gq_eqb_true, HR|]. split; [exact WU|]. split; [exact DU|].
  intros i j Hi Hj. rewrite forallb_forall in HS. apply gq_eqb_true. apply (HS (i, j)).
  destruct i as [|[|]]; destruct j as [|[|]]; cbn; auto; lia. Qed.

(** a matrix that is not hermitian *)
Definition Mx : tensor gq := mkT [2;2] [gq_int 3 0; gq_int 0 2; gq_z; gq_o].
Definition Rx : tensor gq := mkT [2;2] [g 3 4; gi 1 4; gi (-1) 4; g 1 4].
Lemma ex_value eigh : gspd eigh true false Mx = Ok Rx.
Proof. apply tis_true. vm_compute. reflexivity. Qed.
Lemma ex_square : square [2] Mx.
Proof. split; reflexivity. Qed.
(** eigenvalues -1, 2 *)
Definition Hn : tensor gq := mkT [2;2] [g 23 25; g (-36) 25; g (-36) 25; g 2 25].
Definition Un : tensor gq := mkT [2;2] [g 3 5; g (-4) 5; g 4 5; g 3 5].
Definition Dn : list gq := [gq_int (-1) 0; gq_int 2 0].
Definition Rn : tensor gq := mkT [2;2] [g 16 25; g (-12) 25; g (-12) 25; g 9 25].
Lemma ex_good : good_eigh gq_z gq_add gq_mul gq_cj (knows Hn Dn Un).
Proof. apply knows_good; reflexivity || (vm_compute; reflexivity). Qed.
Lemma ex_pos : gspd (knows Hn Dn Un) false true Hn = Ok Rn.
Proof. apply tis_true. vm_compute. reflexivity. Qed.
(** the same with complex eigenvectors *)
Definition Hc : tensor gq := mkT [2;2] [g 23 25; gi 36 25; gi (-36) 25; g 2 25].
Definition Uc : tensor gq := mkT [2;2] [g 3 5; gi 4 5; gi 4 5; g 3 5].
Lemma ex_good_c : good_eigh gq_z gq_add gq_mul gq_cj (knows Hc Dn Uc).
Proof. apply knows_good; reflexivity || (vm_compute; reflexivity). Qed.
Lemma herm2 (H : tensor gq) : twf H -> tdims H = [2; 2] ->
  forallb (fun ij => gq_eqb (entry gq_z H [fst ij; snd ij]) (gq_cj (entry gq_z H [snd ij; fst ij]))) [(0,0);(0,1);(1,0);(1,1)] = true -> hermitian_op gq_z gq_cj [2] H.
Proof. intros W DH HB. split; [split; [exact W|exact DH]|]. intros ix iy Hx Hy. inversion Hx as [|? i ? ? Hi Hx']; subst. inversion Hx'; subst. inversion Hy as [|? j ? ? Hj Hy']; subst. inversion Hy'; subst.
  rewrite forallb_forall in HB. apply gq_eqb_true. apply (HB (i, j)). destruct i as [|[|]]; destruct j as [|[|]]; cbn; auto; lia. Qed.
Definition tr2 (t : tensor gq) := trace_op gq_z gq_add [2] t.
Lemma bad_complex : exists eigh M D U, good_eigh gq_z gq_add gq_mul gq_cj eigh /\ hermitian_op gq_z gq_cj [2] M /\
  trace_op gq_z gq_add [2] M = gq_o /\ eigh M = Ok (D, U) /\ gspd eigh true true M = Err RuntimeError.
Proof. exists (knows Hc Dn Uc), Hc, Dn, Uc. split; [exact ex_good_c|]. split; [apply herm2; vm_compute; reflexivity|]. split; [apply gq_eqb_true; vm_compute; reflexivity|]. split; vm_compute; reflexivity. Qed.
(** the trace 2i *)
Definition Mi : tensor gq := mkT [2;2] [gq_int 0 1; gq_z; gq_z; gq_int 0 1].
Lemma bad_trace : exists M, square [2] M /\ trace_op gq_z gq_add [2] M <> gq_z /\ forall eigh c, gspd eigh c false M = Err ZeroDivisionError.
Proof. exists Mi. split; [split; reflexivity|]. split; [apply gq_eqb_false; vm_compute; reflexivity|]. intros eigh c. vm_compute. reflexivity. Qed.
(** - 1 *)
Definition Hm : tensor gq := mkT [2;2] [gq_int (-1) 0; gq_z; gq_z; gq_int (-1) 0].
Definition Um : tensor gq := mkT [2;2] [gq_o; gq_z; gq_z; gq_o].
Definition Dm : list gq := [gq_int (-1) 0; gq_int (-1) 0].
Lemma bad_negative : exists eigh M R, good_eigh gq_z gq_add gq_mul gq_cj eigh /\ hermitian_op gq_z gq_cj [2] M /\ trace_op gq_z gq_add [2] M <> gq_z /\
  gspd eigh false true M = Err ZeroDivisionError /\ gspd eigh false false M = Ok R.
Proof. exists (knows Hm Dm Um), Hm, (mkT [2;2] [ghalf; gq_z; gq_z; ghalf]). split; [apply knows_good; reflexivity || (vm_compute; reflexivity)|]. split; [apply herm2; vm_compute; reflexivity|]. split; [apply gq_eqb_false; vm_compute; reflexivity|].
  split; [vm_compute; reflexivity|]. apply tis_true. vm_compute. reflexivity. Qed.
Lemma bad_abelian : exists M R, hermitian_op gq_z gq_cj [2] M /\ trace_op gq_z gq_add [2] M = gq_o /\ gspd_ab true true M = Ok R /\ ~ positive_op gq_z gq_add gq_mul gq_cj gnn [2] R.
Proof. exists Hn, Hn. split; [apply herm2; vm_compute; reflexivity|]. split; [apply gq_eqb_true; vm_compute; reflexivity|]. split; [apply tis_true; vm_compute; reflexivity|].
  intros H. destruct (H (fun ix => match ix with [0] => g 3 5 | _ => g 4 5 end)) as [_ H']. revert H'. apply Qclt_not_le. vm_compute. reflexivity. Qed.
