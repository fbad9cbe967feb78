(** Concrete strips; complex environments and operators. *)
From Verif Require Import Base Lattice Tensor TensorLemmas Net NetSpec Corners CornersSpec Corr CorrSpec GaussQ CorrExamples CorrExamples2 CornersExamples CorrC4v CorrC4vSpec NetHom CorrProofs4 CorrC4vProofs4 CorrC4vProofs5.
From Coq Require Import Field.
Open Scope list_scope.
Open Scope nat_scope.
Open Scope res_scope.
Notation gq_ f := (f gq_z gq_o gq_add gq_mul).

(** ** Edges of the two-row strip, T hermitian in its first two indices *)
Definition zC : tensor gi := mkT [2;2] [(2,0);(0,0);(0,0);(1,0)]%Z.
Definition xC : tensor gq := tmap gz zC.
Definition zT : tensor gi := mkT [2;2;1] [(1,0);(0,1); (0,-1);(1,0)]%Z.
Definition xT : tensor gq := tmap gz zT.
Definition xD (k : nat) : nat := if k <? 34 then 2 else 1.
Lemma tr_C : is_transpose xC xC.
Proof. repeat split. intros i j. destruct i as [|[|i]], j as [|[|j]]; reflexivity. Qed.
Lemma xT_hermitian i j k : tget xT [j; i; k] = option_map gq_cj (tget xT [i; j; k]).
Proof. destruct i as [|[|i]], j as [|[|j]], k as [|k]; reflexivity. Qed.
Lemma edges_refuted : exists (C T : tensor gq) D M, is_transpose C C /\ (forall i j k, tget T [j; i; k] = option_map gq_cj (tget T [i; j; k])) /\
  fits D (left_end C T 2 (at_col 0)) /\ gq_ edge_L C T 2 = Ok M /\ ~ gq_ (is_contraction D) (left_end C T 2 (at_col 0)) (rims 2 (at_col 0)) M.
Proof. eexists xC, xT, xD, _. split; [exact tr_C|]. split; [exact xT_hermitian|]. split; [repeat constructor|]. split; [vm_compute; reflexivity|].
  intros (_ & _ & H). specialize (H (fun k => if k =? 33 then 1 else 0)).
  assert (Q : forall b, In b (flat_map bonds (rims 2 (at_col 0))) -> (if b =? 33 then 1 else 0) < xD b).
  { intros b Hb. vm_compute in Hb. repeat (destruct Hb as [<-|Hb]; [vm_compute; lia|]). destruct Hb. }
  specialize (H Q). apply (f_equal (fun x => match x with Some v => gq_eqb (gq_int 0 4) v | None => false end)) in H. vm_compute in H. discriminate H. Qed.

(** ** One-site operators between given edges, with bonds of dimension 2 along the strip *)
Definition za : tensor gi := mkT [2;1;1;1;1] [(1,0); (0,2)]%Z.
Definition sa : tensor gq := tmap gz za.
Definition zl : tensor gi := mkT [2;1;2] [(1,0);(0,1);(2,0);(1,1)]%Z.
Definition sl : tensor gq := tmap gz zl.
Definition zr : tensor gi := mkT [2;1;2] [(1,0);(0,0);(1,-1);(3,0)]%Z.
Definition sr : tensor gq := tmap gz zr.
Definition sD (k : nat) : nat := let m := k mod 32 in if (m =? 0) || (m =? 1) || ((14 <=? m) && (m <=? 17)) then 2 else 1.
Definition s_norm n := norm_of gq_cj xC xT sa 1 (Some (sl, sr)) n.
Definition s_net n := sites_net gq_cj xC xT sa (Some (sl, sr)) n qO' qO'.
Lemma s_fits r : r <= 0 -> fits sD (s_norm (r + 2)) /\ fits sD (s_net (r + 2)) /\ gq_ (value sD) (s_norm (r + 2)) <> gq_z.
Proof. intros H. destruct r as [|r]; [|lia]; (split; [repeat constructor|split; [repeat constructor|apply (nonzero_gz sD _ _ (norm_gz zC zT za 1 (Some (zl, zr)) _)); vm_compute; discriminate]]). Qed.

(** ** A product state between edges of numbers *)
Definition z2 : tensor gi := mkT [1; 1] [(1, 0)%Z].
Definition one2 : tensor gq := tmap gz z2.
Definition z3 : tensor gi := mkT [1; 1; 1] [(1, 0)%Z].
Definition one3 : tensor gq := tmap gz z3.
Definition zd : tensor gi := mkT [2;1;1;1;1] [(1,0); (0,1)]%Z.
Definition da : tensor gq := tmap gz zd.
Definition dD (k : nat) : nat := let m := k mod 32 in if (14 <=? m) && (m <=? 17) then 2 else 1.
Lemma dD_pos k : dD k <> 0.
Proof. unfold dD. destruct (_ && _); discriminate. Qed.
Lemma tr_one : is_transpose one2 one2.
Proof. repeat split. intros i j. destruct i as [|i], j as [|j]; reflexivity. Qed.
Lemma refl_one : is_reflection one3 one3.
Proof. split; [reflexivity|]. split; [reflexivity|]. split; [now exists 1, 1, 1|]. intros i j k. destruct i as [|i], j as [|j], k as [|k]; reflexivity. Qed.
Definition zP : tensor gi := mkT [2; 2; 2; 2] (map (fun k => (Z.of_nat k + 1, 0)%Z) (seq 0 16)).
Definition swapped (t : tensor gi) : tensor gi := tbuild [2; 2; 2; 2] (fun ix => match ix with [k; l; i; j] => entry g0 t [i; j; k; l] | _ => g0 end).
Definition dP : tensor gq := tmap gz zP.
Definition dP' : tensor gq := tmap gz (swapped zP).
Lemma tr_dP : is_transpose2 dP dP'.
Proof. split; [reflexivity|]. split; [reflexivity|]. split; [now exists 2, 2, 2, 2|]. intros i j k l.
  destruct i as [|[|i]]; [| |destruct k as [|[|k]], l as [|[|l]]; reflexivity];
  (destruct j as [|[|j]]; [| |destruct k as [|[|k]], l as [|[|l]]; reflexivity]); destruct k as [|[|k]], l as [|[|l]]; reflexivity. Qed.
Lemma real_all (t : tensor gq) : Forall (fun x => gq_cj x = x) (tdata t) -> real gq_cj t.
Proof. intros H ix v Hv. unfold tget in Hv. apply BaseLemmas.dget_In in Hv. unfold telts in Hv. rewrite Forall_forall in H. apply H. exact (in_combine_r _ _ _ _ Hv). Qed.
Lemma dP_dimer : dimer gq_cj dP dP'.
Proof. split; [exists 2; split; [lia|reflexivity]|]. split; [|exact tr_dP]. apply real_all. repeat (constructor; [apply gq_eqb_true; vm_compute; reflexivity|]). constructor. Qed.
Lemma triv_real : svd_real gq_z gq_add gq_mul gq_cj triv_svd.
Proof. intros m n Hn W Hd _. destruct (triv_exact m n Hn W Hd) as (u & s & v & E & H1 & H2 & H3 & H4 & H5 & H6). exists u, s, v. repeat (split; [assumption|]). split; [|exact H6].
  unfold triv_svd in E. injection E as _ _ <-. intros ix x Hx. rewrite Hd in Hx. cbn [nth] in Hx. unfold delta in Hx.
  assert (R := tget_range _ _ _ (twf_tbuild _ _) Hx). rewrite tget_tbuild in Hx by exact R. injection Hx as <-. destruct ix as [|i [|j [|k ix]]]; try (apply gq_eqb_true; reflexivity). destruct (i =? j); apply gq_eqb_true; reflexivity. Qed.
Definition d_norm h n := norm_of gq_cj one2 one3 da h None n.
Definition d_row n := row_net gq_cj one2 one3 da n dP' dP'.
Definition d_column n := column_net gq_cj one2 one3 da n dP' dP'.
Lemma d_row_fits r : r <= 1 -> fits dD (d_norm 1 (r + 4)) /\ fits dD (d_row (r + 4)) /\ gq_ (value dD) (d_norm 1 (r + 4)) <> gq_z.
Proof. intros H. destruct r as [|[|r]]; [| |lia]; (split; [repeat constructor|split; [repeat constructor|apply (nonzero_gz dD _ _ (norm_gz z2 z3 zd 1 None _)); vm_compute; discriminate]]). Qed.
Lemma d_column_fits r : r <= 1 -> fits dD (d_norm 2 (r + 2)) /\ fits dD (d_column (r + 2)) /\ gq_ (value dD) (d_norm 2 (r + 2)) <> gq_z.
Proof. intros H. destruct r as [|[|r]]; [| |lia]; (split; [repeat constructor|split; [repeat constructor|apply (nonzero_gz dD _ _ (norm_gz z2 z3 zd 2 None _)); vm_compute; discriminate]]). Qed.

(** ** complex operators: diag(1, 0) on the first, 1 + sigma^y (with the sign of the other order) on the second site *)
Definition hA : tensor gi := mkT [2;2] [(1,0);(0,0);(0,0);(0,0)]%Z.
Definition hB : tensor gi := mkT [2;2] [(1,0);(0,1);(0,-1);(1,0)]%Z.
Definition zH : tensor gi := tbuild [2;2;2;2] (fun ix => match ix with [i; j; k; l] => gmul (entry g0 hA [i; k]) (entry g0 hB [j; l]) | _ => g0 end).
Definition hP : tensor gq := tmap gz zH.
Definition hP' : tensor gq := tmap gz (swapped zH).
Definition hM : tensor gq := ints [4;4] [(1,0);(0,1);(0,-1);(1,0); (0,0);(0,0);(0,0);(0,0); (0,0);(0,0);(0,0);(0,0); (0,0);(0,0);(0,0);(0,0)]%Z.
Definition hU : tensor gq := delta 4.
Definition hS : list gq := [gq_int 2 0; gq_z; gq_z; gq_z].
Definition hV : tensor gq := mkT [4;4] (map (fun p => gq_half (fst p) (snd p))
  [(1,0);(1,0);(1,0);(1,0); (0,-1);(0,1);(0,-1);(0,1); (0,1);(0,-1);(0,-1);(0,1); (1,0);(1,0);(-1,0);(-1,0)]%Z).
Definition h_svd (m : tensor gq) : res (tensor gq * list gq * tensor gq) := Ok (hU, hS, hV).
Lemma tr_hP : is_transpose2 hP hP'.
Proof. split; [reflexivity|]. split; [reflexivity|]. split; [now exists 2, 2, 2, 2|]. intros i j k l.
  destruct i as [|[|i]]; [| |destruct k as [|[|k]], l as [|[|l]]; reflexivity];
  (destruct j as [|[|j]]; [| |destruct k as [|[|k]], l as [|[|l]]; reflexivity]); destruct k as [|[|k]], l as [|[|l]]; reflexivity. Qed.
Lemma lt4 (P : nat -> Prop) : P 0 -> P 1 -> P 2 -> P 3 -> forall i, i < 4 -> P i.
Proof. intros H0 H1 H2 H3 i Hi. destruct i as [|[|[|[|i]]]]; try assumption. lia. Qed.
Lemma lt44 (P : nat -> nat -> Prop) : (forall i j, In i [0;1;2;3] -> In j [0;1;2;3] -> P i j) -> forall i j, i < 4 -> j < 4 -> P i j.
Proof. intros H i j Hi Hj. apply H; [revert i Hi|revert j Hj]; apply lt4; cbn; tauto. Qed.
Ltac all44 := apply lt44; intros i j Hi Hj; cbn [In] in Hi, Hj; repeat (destruct Hi as [<-|Hi]; [repeat (destruct Hj as [<-|Hj]; [apply gq_eqb_true; vm_compute; reflexivity|]); destruct Hj|]); destruct Hi.
Lemma h_is_svd : gq_ is_svd gq_cj hM hU hS hV.
Proof. split; [|split].
  - split; [reflexivity|]. exists 4, 4. split; [reflexivity|]. all44.
  - split; [reflexivity|]. exists 4, 4. split; [reflexivity|]. all44.
  - exists 4. split; [reflexivity|]. split; [reflexivity|]. split; [reflexivity|]. all44. Qed.
Lemma hM_ok i j k l : i < 2 -> j < 2 -> k < 2 -> l < 2 -> entry gq_z hM [2 * i + k; 2 * j + l] = entry gq_z hP [i; j; k; l].
Proof. intros Hi Hj Hk Hl. destruct i as [|[|i]]; [| |lia]; (destruct j as [|[|j]]; [| |lia]); (destruct k as [|[|k]]; [| |lia]); (destruct l as [|[|l]]; [| |lia]); apply gq_eqb_true; vm_compute; reflexivity. Qed.
Lemma complex_refuted : exists (C T a : tensor gq) D op op' m u s v x,
  is_transpose C C /\ is_reflection T T /\ is_transpose2 op op' /\ tdims op = [2; 2; 2; 2] /\
  (forall i j k l, i < 2 -> j < 2 -> k < 2 -> l < 2 -> entry gq_z m [2 * i + k; 2 * j + l] = entry gq_z op [i; j; k; l]) /\ gq_ is_svd gq_cj m u s v /\
  let svd := fun _ => Ok (u, s, v) in let val := gq_ (value D) in let norm h n := norm_of gq_cj C T a h None n in
  let row := row_net gq_cj C T a 4 op' op' in let col := column_net gq_cj C T a 2 op' op' in
  fits D (norm 1 4) /\ fits D row /\ val (norm 1 4) <> gq_z /\ fits D (norm 2 2) /\ fits D col /\ val (norm 2 2) <> gq_z /\
  gq_ corrf_2sOH2sOH_E1 gq_cj C T a svd gq_div gmax op (fun _ => op) 0%Z = Ok [x] /\ x <> gq_div (val row) (val (norm 1 4)) /\
  gq_ corrf_2sOV2sOV_E2 gq_cj C T a svd gq_div gmax op (fun _ => op) 0%Z = Ok [x] /\ x <> gq_div (val col) (val (norm 2 2)).
Proof. exists one2, one3, da, dD, hP, hP', hM, hU, hS, hV, gq_z. split; [exact tr_one|]. split; [exact refl_one|]. split; [exact tr_hP|]. split; [reflexivity|]. split; [exact hM_ok|]. split; [exact h_is_svd|].
  cbn zeta. split; [repeat constructor|]. split; [repeat constructor|].
  assert (N1 := norm_gz z2 z3 zd 1 None 4). assert (N2 := norm_gz z2 z3 zd 2 None 2). cbn [rl_gz] in N1, N2. assert (R := row_gz z2 z3 zd 4 (swapped zH) (swapped zH)). assert (Q := column_net_gz z2 z3 zd 2 (swapped zH) (swapped zH)).
  split; [apply (nonzero_gz dD _ _ N1); vm_compute; discriminate|]. split; [repeat constructor|]. split; [repeat constructor|]. split; [apply (nonzero_gz dD _ _ N2); vm_compute; discriminate|].
  assert (V1 := is_gz dD _ _ (16, 0)%Z N1 ltac:(vm_compute; reflexivity)). assert (V2 := is_gz dD _ _ (16, 0)%Z N2 ltac:(vm_compute; reflexivity)).
  assert (V3 := is_gz dD _ _ (16, 0)%Z R ltac:(vm_compute; reflexivity)). assert (V4 := is_gz dD _ _ (16, 0)%Z Q ltac:(vm_compute; reflexivity)).
  change (tmap gz z2) with one2 in *. change (tmap gz z3) with one3 in *. change (tmap gz zd) with da in *. change (tmap gz (swapped zH)) with hP' in *. rewrite V1, V2, V3, V4.
  split; [apply gives_ok; vm_compute; reflexivity|]. split; [apply gq_eqb_false; vm_compute; reflexivity|].
  split; [apply gives_ok; vm_compute; reflexivity|]. apply gq_eqb_false; vm_compute; reflexivity. Qed.

(** ** one-site operators enter transposed *)
Lemma order_refuted : exists (C T a : tensor gq) D O1 O2 x, is_transpose C C /\
  let norm := norm_of gq_cj C T a 1 None 2 in let net := sites_net gq_cj C T a None 2 O1 O2 in let val := gq_ (value D) in
  fits D norm /\ fits D net /\ val norm <> gq_z /\
  gq_ corrf_1sO1sO gq_cj C T a gq_div gmax O1 (fun _ => O2) 0%Z None = Ok [x] /\ x <> gq_div (val net) (val norm).
Proof. exists one2, one3, da, dD, sy, pr, (gq_half (-1) 0). split; [exact tr_one|]. cbn zeta. split; [repeat constructor|]. split; [repeat constructor|]. split; [apply gq_eqb_false; vm_compute; reflexivity|].
  split; [apply gives_ok; vm_compute; reflexivity|]. apply gq_eqb_false; vm_compute; reflexivity. Qed.
