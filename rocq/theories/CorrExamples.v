(** Concrete correlation functions; operators that are not the documented ones. *)
From Verif Require Import Base Lattice Tensor TensorLemmas Net NetSpec Corners CornersSpec Rdm RdmSpec RdmExamples Corr CorrSpec GaussQ.
From Verif Require Ctm.
Open Scope list_scope.
Open Scope nat_scope.
Open Scope res_scope.

Definition gst (A : tensor gq) : ipeps (tensor gq) := mk_ipeps (Some [((0, 0)%Z, A)]) 1%Z 1%Z (fun _ => Ok (0, 0)%Z).
Definition genv (Cs Ts : list (tensor gq)) : Ctm.envt (tensor gq) :=
  Ctm.mkE (combine (map (pair (0, 0)%Z) dirs_C) Cs) (combine (map (pair (0, 0)%Z) dirs_T) Ts).
Definition gpick (dirs : list coord) (ts : list (tensor gq)) (d : coord) : tensor gq :=
  match dget (combine dirs ts) d with Some t => t | None => mkT [] [] end.
Lemma gsees A C1 C2 C3 C4 T1 T2 T3 T4 :
  sees (gst A) (genv [C1; C2; C3; C4] [T1; T2; T3; T4]) (fun _ => A) (fun _ => gpick dirs_C [C1; C2; C3; C4]) (fun _ => gpick dirs_T [T1; T2; T3; T4]).
Proof. intros v. exists (0, 0)%Z. repeat split; intros d Hd; repeat (destruct Hd as [<-|Hd]; [reflexivity|]); contradiction Hd. Qed.
Definition gones (dims : list nat) : tensor gq := mkT dims (repeat gq_o (prod_dims dims)).
Definition ints (dims : list nat) (l : list (Z * Z)) : tensor gq := mkT dims (map (fun p => gq_int (fst p) (snd p)) l).
(** the first entry that is not zero; in place of the largest one *)
Definition gmax (t : tensor gq) : gq := fold_right (fun x r => if gq_eqb x gq_z then r else x) gq_z (tdata t).
Lemma first_nonzero l : fold_right (fun x r => if gq_eqb x gq_z then r else x) gq_z l = gq_z -> forall v, In v l -> v = gq_z.
Proof. induction l as [|x l IH]; cbn; [intros _ v []|]. destruct (gq_eqb x gq_z) eqn:E; intros H v Hv.
  - destruct Hv as [<-|Hv]; [now apply gq_eqb_true|exact (IH H v Hv)].
  - exfalso. exact (gq_eqb_false _ _ E H). Qed.
Lemma gmax_ok t : gmax t = gq_z -> forall ix v, tget t ix = Some v -> v = gq_z.
Proof. intros H ix v Hv. apply (first_nonzero (tdata t) H). unfold tget in Hv. apply BaseLemmas.dget_In in Hv. unfold telts in Hv. exact (in_combine_r _ _ _ _ Hv). Qed.

(** the result as a list of numbers *)
Definition gives (r : res (list gq)) (l : list gq) : bool :=
  match r with Ok m => (length m =? length l) && forallb (fun p => gq_eqb (fst p) (snd p)) (combine m l) | Err _ => false end.
Lemma gives_ok r l : gives r l = true -> r = Ok l.
Proof. destruct r as [m|x]; cbn; [|discriminate]. intros H. apply andb_prop in H. destruct H as [HL H]. apply Nat.eqb_eq in HL. f_equal.
  revert l HL H. induction m as [|a m IH]; intros [|b l] HL H; try discriminate HL; [reflexivity|]. cbn in *. apply andb_prop in H. destruct H as [H1 H2].
  f_equal; [now apply gq_eqb_true|apply IH; [now injection HL|exact H2]]. Qed.

(** ** A product state: sites (1, i), S^y on the first and a projector on the second site *)
Definition pA : tensor gq := ints [2; 1; 1; 1; 1] [(1, 0); (0, 1)]%Z.
Definition pC := repeat (gones [1; 1]) 4.
Definition pT := repeat (gones [1; 1; 1]) 4.
Definition pD (k : nat) : nat := if (16 <=? k) && ((k mod 16 =? 8) || (k mod 16 =? 9)) then 2 else 1.
Definition sy : tensor gq := ints [2; 2] [(0, 0); (0, -1); (0, 1); (0, 0)]%Z.
Definition syT : tensor gq := ints [2; 2] [(0, 0); (0, 1); (0, -1); (0, 0)]%Z.
Definition pr : tensor gq := ints [2; 2] [(1, 0); (0, 0); (0, 0); (0, 0)]%Z.
Notation gq_ f := (f gq_z gq_o gq_add gq_mul).
Definition pst := gst pA.
Definition penv := genv pC pT.
Lemma p_sees : sees pst penv (fun _ => pA) (fun _ => gpick dirs_C pC) (fun _ => gpick dirs_T pT).
Proof. exact (gsees _ _ _ _ _ _ _ _ _). Qed.
Lemma p_code : gq_ corrf_1sO1sO gq_cj pst penv gq_div gmax (0, 0)%Z (1, 0)%Z sy (fun _ => pr) 2%Z None = Ok (repeat (gq_half (-1) 0) 3).
Proof. apply gives_ok. vm_compute. reflexivity. Qed.
Definition p_norm n := norm_net gq_cj (fun _ => pA) (fun _ => gpick dirs_C pC) (fun _ => gpick dirs_T pT) (None, None) Right (0, 0)%Z n.
Definition p_corr n O1 O2 := corr_net gq_cj (fun _ => pA) (fun _ => gpick dirs_C pC) (fun _ => gpick dirs_T pT) (None, None) Right (0, 0)%Z n O1 O2.
Lemma p_doc : gq_div (gq_ (value pD) (p_corr 2 sy pr)) (gq_ (value pD) (p_norm 2)) = gq_half 1 0.
Proof. apply gq_eqb_true. vm_compute. reflexivity. Qed.
Lemma p_fits : fits pD (p_norm 2) /\ fits pD (p_corr 2 sy pr) /\ gq_ (value pD) (p_norm 2) <> gq_z.
Proof. split; [|split]; [repeat constructor|repeat constructor|]. apply gq_eqb_false. vm_compute. reflexivity. Qed.
Lemma tr_sy : is_transpose sy syT.
Proof. repeat split. intros i j. destruct i as [|[|i]], j as [|[|j]]; reflexivity. Qed.
Lemma tr_pr : is_transpose pr pr.
Proof. repeat split. intros i j. destruct i as [|[|i]], j as [|[|j]]; reflexivity. Qed.
Lemma operators_refuted : exists st e As Cs Ts D c O1 O2 x, sees st e As Cs Ts /\
  let norm := norm_net gq_cj As Cs Ts (None, None) Right c 2 in let corr := corr_net gq_cj As Cs Ts (None, None) Right c 2 O1 O2 in
  fits D norm /\ fits D corr /\ gq_ (value D) norm <> gq_z /\
  gq_ corrf_1sO1sO gq_cj st e gq_div gmax c (1, 0)%Z O1 (fun _ => O2) 0%Z None = Ok [x] /\
  x <> gq_div (gq_ (value D) corr) (gq_ (value D) norm).
Proof. exists pst, penv, (fun _ => pA), (fun _ => gpick dirs_C pC), (fun _ => gpick dirs_T pT), pD, (0, 0)%Z, sy, pr, (gq_half (-1) 0).
  split; [exact p_sees|]. cbn zeta. fold (p_norm 2). fold (p_corr 2 sy pr). destruct p_fits as (F1 & F2 & F3). split; [exact F1|]. split; [exact F2|]. split; [exact F3|].
  split; [apply gives_ok; vm_compute; reflexivity|]. rewrite p_doc. apply gq_eqb_false. vm_compute. reflexivity. Qed.

(** ** A state with bonds of dimension 2, an environment that is not hermitian, operators that are not symmetric *)
Definition ramp (a b : Z) (dims : list nat) : tensor gq := ints dims (map (fun k => (a * Z.of_nat k + 1, b * Z.of_nat k - 2)%Z) (seq 0 (prod_dims dims))).
Definition qA := ramp 1 (-1) [2; 1; 2; 1; 2].
Definition qC := [ramp 1 1 [2; 1]; ramp 2 1 [1; 1]; ramp 1 2 [1; 1]; ramp (-1) 1 [2; 1]].
Definition qT := [ramp 1 3 [1; 1; 1]; ramp 1 (-2) [1; 4; 1]; ramp 3 1 [1; 1; 1]; ramp 2 1 [2; 2; 4]].
Definition qD (k : nat) : nat := if k <? 16 then 2 else nth (k mod 16) [1; 2; 2; 1; 1; 1; 1; 1; 2; 2] 1.
Definition qO := ramp 1 1 [2; 2].
Definition qO' : tensor gq := ints [2; 2] [(1, -2); (3, 0); (2, -1); (4, 1)]%Z.
Lemma tr_q : is_transpose qO qO'.
Proof. repeat split. intros i j. destruct i as [|[|i]], j as [|[|j]]; reflexivity. Qed.
Lemma q_sees : sees (gst qA) (genv qC qT) (fun _ => qA) (fun _ => gpick dirs_C qC) (fun _ => gpick dirs_T qT).
Proof. exact (gsees _ _ _ _ _ _ _ _ _). Qed.
Definition q_norm n := norm_net gq_cj (fun _ => qA) (fun _ => gpick dirs_C qC) (fun _ => gpick dirs_T qT) (None, None) Right (0, 0)%Z n.
Definition q_corr n O1 O2 := corr_net gq_cj (fun _ => qA) (fun _ => gpick dirs_C qC) (fun _ => gpick dirs_T qT) (None, None) Right (0, 0)%Z n O1 O2.
Lemma q_fits r : r <= 1 -> fits qD (q_norm (r + 2)) /\ fits qD (q_corr (r + 2) qO' qO') /\ gq_ (value qD) (q_norm (r + 2)) <> gq_z.
Proof. intros H. destruct r as [|[|r]]; [| |lia]; (split; [repeat constructor|split; [repeat constructor|apply gq_eqb_false; vm_compute; reflexivity]]). Qed.
