(** Concrete kagome states; functions that do not evaluate the documented network. *)
From Verif Require Import Base Lattice Tensor Net NetSpec Corners CornersSpec CornersExamples Rdm RdmSpec RdmExamples RdmKag RdmKagSpec.
From Verif Require Ctm.
Open Scope list_scope.
Open Scope nat_scope.
Open Scope res_scope.

(** kinds of bonds with two states: those of the spins, and those in [l] *)
Definition kD (l : list nat) (w h k : nat) : nat := if memb (k / (S w * S h)) (l ++ [11; 12; 13; 14; 15; 16]) then 2 else 1.
Lemma kD_nz l w h k : kD l w h k <> 0.
Proof. unfold kD. destruct (memb _ _); discriminate. Qed.
Notation kag f := (f g0 g1 gadd gmul gconj 2).
Definition kag0 {A} (f : gi -> gi -> (gi -> gi -> gi) -> (gi -> gi -> gi) -> (gi -> gi) -> A) : A := f g0 g1 gadd gmul gconj.
(** one cell, spins 1/2, bonds of dimension 1 *)
Definition kA := ex_t 1 (-1) [8; 1; 1; 1; 1].
Definition kC := [ex_t 1 1 [1; 1]; ex_t 2 1 [1; 1]; ex_t 1 2 [1; 1]; ex_t (-1) 1 [1; 1]].
Definition kT := [ex_t 1 3 [1; 1; 1]; ex_t 1 (-2) [1; 1; 1]; ex_t 3 1 [1; 1; 1]; ex_t 2 1 [1; 1; 1]].
Definition kop := ex_t 1 2 [8; 8].
Definition kop6 := ex_t 1 2 [2; 2; 2; 2; 2; 2].
Notation kpat w h l c := (kpatch_at gconj (fun _ => kA) (fun _ => pick dirs_C kC) (fun _ => pick dirs_T kT) w h l c).
Lemma k_sees : sees (st1 kA) (env1 kC kT) (fun _ => kA) (fun _ => pick dirs_C kC) (fun _ => pick dirs_T kT).
Proof. exact (sees1 _ _ _ _ _ _ _ _ _). Qed.
Ltac fitsd := repeat (constructor; [split; reflexivity|]); try constructor.
Lemma k_fits c : fits (kD [] 2 2) (kpat 2 2 (named (hasl []) 0 0 ++ named (hasl [sB; sA]) 1 0 ++ named (hasl [sA]) 0 1 ++ named (hasl [sC]) 1 1) c)
  /\ spins (kD [] 2 2) 2 2 2.
Proof. split; [fitsd|]. unfold spins. repeat constructor. Qed.
Lemma k_values :
  (exists M, kag rdm2x2_kagome (st1 kA) (env1 kC kT) (3, -1)%Z [] [sB; sA] [sA] [sC] = Ok M /\ tdims M = repeat 2 8 /\ nth 5 (tdata M) g0 <> nth 6 (tdata M) g0) /\
  (exists M, kag rdm2x1_kagome (st1 kA) (env1 kC kT) (0, 0)%Z [sA; sC] [sB] = Ok M /\ tdims M = repeat 2 6 /\ nth 5 (tdata M) g0 <> nth 6 (tdata M) g0) /\
  (exists M N, kag rdm2x2_dn_triangle (st1 kA) (env1 kC kT) (0, 0)%Z kop = Ok (M, N) /\ tdata M <> tdata N /\ tdata N <> [g0]
     /\ kag rdm2x2_dn_triangle (st1 kA) (env1 kC kT) (0, 0)%Z kop6 = Ok (M, N)) /\
  (exists M, kag0 trace1x1_dn_kagome (st1 kA) (env1 kC kT) (0, 0)%Z kop = Ok M /\ tdata M <> [g0] /\ tdims M = []).
Proof. repeat split.
  - eexists. split; [vm_compute; reflexivity|]. split; [reflexivity|]. vm_compute. discriminate.
  - eexists. split; [vm_compute; reflexivity|]. split; [reflexivity|]. vm_compute. discriminate.
  - eexists _, _. split; [vm_compute; reflexivity|]. split; [vm_compute; discriminate|]. split; [vm_compute; discriminate|]. vm_compute. reflexivity.
  - eexists. split; [vm_compute; reflexivity|]. split; [vm_compute; discriminate|]. reflexivity. Qed.

(** all cells in the product state s_0 = 0, s_1 = 0, s_2 = 1 *)
Definition pA (dims : list nat) (k : nat) : tensor gi := mkT dims (map (fun i => if i =? k then g1 else g0) (seq 0 (prod_dims dims))).
Definition pC := repeat (bt [1; 1]) 4.
Definition pT (l : list nat) : list (tensor gi) := [bt [1; hd 1 l; 1]; bt [1; 1; 1]; bt [hd 1 l; 1; 1]; bt [1; 1; 1]].
Lemma up_order : exists (st : ipeps (tensor gi)) e As Cs Ts c D M, sees st e As Cs Ts /\ spins D 2 2 2 /\
  let l := [up_spin 0; up_spin 1; up_spin 2] in let net := kpatch_at gconj As Cs Ts 2 2 l c in
  fits D net /\ kag rdm2x2_up_triangle_open st e c = Ok M /\ ~ is_contraction D g0 g1 gadd gmul net (kpatch_out 2 2 l) M.
Proof. exists (st1 (pA [8; 1; 1; 1; 1] 1)), (env1 pC (pT [])), (fun _ => pA [8; 1; 1; 1; 1] 1), (fun _ => pick dirs_C pC), (fun _ => pick dirs_T (pT [])), (0, 0)%Z, (kD [] 2 2).
  eexists. split; [exact (sees1 _ _ _ _ _ _ _ _ _)|]. split; [unfold spins; repeat constructor|]. intros l net. split; [fitsd|]. split; [vm_compute; reflexivity|].
  intros (_ & _ & HV). specialize (HV (fun k => if (k =? sket 2 2 2 0 1) || (k =? sbra 2 2 2 0 1) then 1 else 0)).
  assert (HV' := HV ltac:(intros k Hk; vm_compute in Hk; repeat (destruct Hk as [<-|Hk]; [vm_compute; lia|]); contradiction Hk)). clear HV.
  match type of HV' with _ = Some ?x => assert (E : x = g1) by (vm_compute; reflexivity); rewrite E in HV' end. vm_compute in HV'. discriminate HV'. Qed.
Lemma trace_keyerror : exists (st : ipeps (tensor gi)) e As Cs Ts c D Op, sees st e As Cs Ts /\ spins D 2 1 1 /\
  fits D (kpatch_at gconj As Cs Ts 1 1 down c ++ op_net 1 1 false Op) /\ kag0 trace1x1_dn_kagome st e c Op = Err KeyError.
Proof. exists (st1 kA), (env1 kC kT), (fun _ => kA), (fun _ => pick dirs_C kC), (fun _ => pick dirs_T kT), (1, 0)%Z, (kD [] 1 1), kop.
  split; [exact k_sees|]. split; [unfold spins; repeat constructor|]. split; [fitsd|]. vm_compute. reflexivity. Qed.
(** vertical bonds of dimension 2 *)
Lemma rdm1x1_scrambled : exists (st : ipeps (tensor gi)) e As Cs Ts c D M, sees st e As Cs Ts /\ spins D 2 1 1 /\
  let l := named (hasl [sA; sB; sC]) 0 0 in let net := kpatch_at gconj As Cs Ts 1 1 l c in
  fits D net /\ i_v2s st c = Ok c /\ kag rdm1x1_kagome st e c [sA; sB; sC] = Ok M /\ ~ is_contraction D g0 g1 gadd gmul net (kpatch_out 1 1 l) M.
Proof. exists (st1 (pA [8; 2; 1; 2; 1] 4)), (env1 pC (pT [4])), (fun _ => pA [8; 2; 1; 2; 1] 4), (fun _ => pick dirs_C pC), (fun _ => pick dirs_T (pT [4])), (0, 0)%Z, (kD [2; 3] 1 1).
  eexists. split; [exact (sees1 _ _ _ _ _ _ _ _ _)|]. split; [unfold spins; repeat constructor|]. intros l net. split; [fitsd|]. split; [reflexivity|]. split; [vm_compute; reflexivity|].
  intros (_ & _ & HV). specialize (HV (fun k => if (k =? sket 1 1 2 0 0) || (k =? sbra 1 1 2 0 0) then 1 else 0)).
  assert (HV' := HV ltac:(intros k Hk; vm_compute in Hk; repeat (destruct Hk as [<-|Hk]; [vm_compute; lia|]); contradiction Hk)). clear HV.
  match type of HV' with _ = Some ?x => assert (E : x = g1) by (vm_compute; reflexivity); rewrite E in HV' end. vm_compute in HV'. discriminate HV'. Qed.
