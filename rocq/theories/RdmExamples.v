(** Concrete states and environments; functions that do not evaluate the documented network. *)
From Verif Require Import Base Lattice Tensor Net NetSpec Corners CornersSpec CornersExamples Rdm RdmSpec.
From Verif Require Ctm.
Open Scope list_scope.
Open Scope nat_scope.
Open Scope res_scope.

Definition dirs_C : list coord := [(-1, -1); (1, -1); (1, 1); (-1, 1)]%Z.
Definition dirs_T : list coord := [(0, -1); (1, 0); (0, 1); (-1, 0)]%Z.
(** states with one site, and with two sites one above the other *)
Definition st1 (A : tensor gi) : ipeps (tensor gi) := mk_ipeps (Some [((0, 0)%Z, A)]) 1%Z 1%Z (fun _ => Ok (0, 0)%Z).
Definition env1 (Cs Ts : list (tensor gi)) : Ctm.envt (tensor gi) :=
  Ctm.mkE (combine (map (pair (0, 0)%Z) dirs_C) Cs) (combine (map (pair (0, 0)%Z) dirs_T) Ts).
Definition pick (dirs : list coord) (ts : list (tensor gi)) (d : coord) : tensor gi :=
  match dget (combine dirs ts) d with Some t => t | None => bt [] end.
Lemma sees1 A C1 C2 C3 C4 T1 T2 T3 T4 :
  sees (st1 A) (env1 [C1; C2; C3; C4] [T1; T2; T3; T4]) (fun _ => A) (fun _ => pick dirs_C [C1; C2; C3; C4]) (fun _ => pick dirs_T [T1; T2; T3; T4]).
Proof. intros v. exists (0, 0)%Z. repeat split; intros d Hd; repeat (destruct Hd as [<-|Hd]; [reflexivity|]); contradiction Hd. Qed.

(** one-site state with physical dimension 2, horizontal bonds of dimension 2 and vertical ones of dimension 1 *)
Definition xA := ex_t 1 (-1) [2; 1; 2; 1; 2].
Definition xC := [ex_t 1 1 [2; 1]; ex_t 2 1 [1; 1]; ex_t 1 2 [1; 1]; ex_t (-1) 1 [2; 1]].
Definition xT := [ex_t 1 3 [1; 1; 1]; ex_t 1 (-2) [1; 4; 1]; ex_t 3 1 [1; 1; 1]; ex_t 2 1 [2; 2; 4]].
Definition xD (w h k : nat) : nat := nth (k / (S w * S h)) [2; 2; 1; 1; 2; 2; 1; 1; 2; 1] 1.
Notation sl f := (f g0 g1 gadd gmul gconj).
Lemma x_sees : sees (st1 xA) (env1 xC xT) (fun _ => xA) (fun _ => pick dirs_C xC) (fun _ => pick dirs_T xT).
Proof. exact (sees1 _ _ _ _ _ _ _ _ _). Qed.
Lemma x_fits c : fits (xD 1 1) (patch_at gconj (fun _ => xA) (fun _ => pick dirs_C xC) (fun _ => pick dirs_T xT) 1 1 [(0, 0)] c)
  /\ fits (xD 2 1) (patch_at gconj (fun _ => xA) (fun _ => pick dirs_C xC) (fun _ => pick dirs_T xT) 2 1 [(0, 0); (1, 0)] c).
Proof. split; repeat constructor. Qed.
Lemma x_values :
  (exists M, sl rdm1x1_sl (st1 xA) (env1 xC xT) (0, 0)%Z None = Ok M /\ sl rdm1x1_dl (st1 xA) (env1 xC xT) (0, 0)%Z None = Ok M /\
     tdims M = [2; 2] /\ nth 1 (tdata M) g0 <> gconj (nth 2 (tdata M) g0)) /\
  (exists M, sl rdm2x1_sl (st1 xA) (env1 xC xT) (4, 7)%Z = Ok M /\ tdims M = [2; 2; 2; 2] /\ hd g0 (tdata M) <> g0).
Proof. split; eexists.
  - split; [vm_compute; reflexivity|]. split; [vm_compute; reflexivity|]. split; [reflexivity|]. vm_compute. discriminate.
  - split; [vm_compute; reflexivity|]. split; [reflexivity|]. vm_compute. discriminate. Qed.

(** rdm1x1 in the mode "dl" looks up the environment at the vertex itself *)
Lemma rdm1x1_dl_keyerror : exists (st : ipeps (tensor gi)) e As Cs Ts c D M, sees st e As Cs Ts /\
  fits D (patch_at gconj As Cs Ts 1 1 [(0, 0)] c) /\ sl rdm1x1_sl st e c None = Ok M /\ sl rdm1x1_dl st e c None = Err KeyError.
Proof. exists (st1 xA), (env1 xC xT), (fun _ => xA), (fun _ => pick dirs_C xC), (fun _ => pick dirs_T xT), (1, 0)%Z, (xD 1 1). eexists.
  split; [exact x_sees|]. split; [exact (proj1 (x_fits _))|]. split; [vm_compute; reflexivity|]. vm_compute. reflexivity. Qed.

(** one-site state with vertical bonds of dimension 2 only *)
Definition yA : tensor gi := mkT [1; 2; 1; 2; 1] [(2, 0); (0, 0); (1, 0); (0, 0)]%Z.
Definition yC := repeat (bt [1; 1]) 4.
Definition yT : list (tensor gi) := [mkT [1; 4; 1] [(0, 0); (1, 0); (0, 0); (0, 0)]%Z; bt [1; 1; 1]; mkT [4; 1; 1] [(1, 0); (0, 0); (0, 0); (0, 0)]%Z; bt [1; 1; 1]].
Definition yD (w h k : nat) : nat := nth (k / (S w * S h)) [1; 1; 2; 2] 1.
Definition yM := repeat (bt [1; 1; 1; 1]) 3.
Lemma mpo1x3_wrong : exists (st : ipeps (tensor gi)) e As Cs Ts c D m0 m1 m2 M, sees st e As Cs Ts /\
  let l := [(0, 0); (1, 0); (2, 0)] in let net := patch_at gconj As Cs Ts 3 1 l c ++ mpo_net 3 1 l [m0; m1; m2] in
  fits D net /\ sl mpo1x3 st e c [m0; m1; m2] = Ok M /\ ~ is_contraction D g0 g1 gadd gmul net [] M.
Proof. exists (st1 yA), (env1 yC yT), (fun _ => yA), (fun _ => pick dirs_C yC), (fun _ => pick dirs_T yT), (0, 0)%Z, (yD 3 1), (bt [1; 1; 1; 1]), (bt [1; 1; 1; 1]), (bt [1; 1; 1; 1]).
  exists (mkT [] [(4, 0)%Z]).
  split; [exact (sees1 _ _ _ _ _ _ _ _ _)|]. intros l net. split; [repeat constructor|]. split; [vm_compute; reflexivity|].
  intros (_ & _ & HV). specialize (HV (fun _ => 0) (fun k Hk => False_ind _ Hk)).
  assert (E : sum_over (yD 3 1) g0 gadd (inner net []) (product (yD 3 1) g0 g1 gmul net) (fun _ => 0) = (8, 0)%Z) by (vm_compute; reflexivity).
  rewrite E in HV. discriminate HV. Qed.

(** two sites one above the other, the horizontal bonds of dimension 1 and 2 *)
Definition zst : ipeps (tensor gi) := mk_ipeps (Some [((0, 0)%Z, bt [1; 1; 1; 1; 1]); ((0, 1)%Z, bt [1; 1; 2; 1; 2])]) 1%Z 2%Z (fun c => Ok (0, Z.modulo (snd c) 2)%Z).
Definition zenv : Ctm.envt (tensor gi) := Ctm.mkE
  (combine (map (pair (0, 0)%Z) dirs_C) (repeat (bt [1; 1]) 4) ++ combine (map (pair (0, 1)%Z) dirs_C) (repeat (bt [1; 1]) 4))
  (combine (map (pair (0, 0)%Z) dirs_T) (repeat (bt [1; 1; 1]) 4) ++ combine (map (pair (0, 1)%Z) dirs_T) [bt [1; 1; 1]; bt [1; 4; 1]; bt [1; 1; 1]; bt [1; 1; 4]]).
Definition zev (v : coord) : bool := Z.even (snd v).
Definition zA v := if zev v then bt [1; 1; 1; 1; 1] else bt [1; 1; 2; 1; 2].
Definition zT v d := pick dirs_T (if zev v then repeat (bt [1; 1; 1]) 4 else [bt [1; 1; 1]; bt [1; 4; 1]; bt [1; 1; 1]; bt [1; 1; 4]]) d.
Lemma z_sees : sees zst zenv zA (fun _ => pick dirs_C (repeat (bt [1; 1]) 4)) zT.
Proof. intros [x y]. exists (0, Z.modulo y 2)%Z.
  assert (E : (Z.modulo y 2 = if Z.even y then 0 else 1)%Z) by apply Zmod_even.
  unfold zst, zA, zT, zev, ipeps_site. cbn [i_v2s i_sites snd bind]. rewrite E. destruct (Z.even y);
  (repeat split; intros d Hd; repeat (destruct Hd as [<-|Hd]; [reflexivity|]); contradiction Hd). Qed.
Definition zD (k : nat) : nat := if (k =? hket 1 3 0 1) || (k =? hket 1 3 1 1) || (k =? hbra 1 3 0 1) || (k =? hbra 1 3 1 1) then 2 else 1.
Lemma mpo3x1_raises : exists (st : ipeps (tensor gi)) e As Cs Ts c D m0 m1 m2, sees st e As Cs Ts /\
  let l := [(0, 0); (0, 1); (0, 2)] in fits D (patch_at gconj As Cs Ts 1 3 l c ++ mpo_net 1 3 l [m0; m1; m2]) /\
  sl mpo3x1 st e c [m0; m1; m2] = Err RuntimeError.
Proof. exists zst, zenv, zA, (fun _ => pick dirs_C (repeat (bt [1; 1]) 4)), zT, (0, 0)%Z, zD, (bt [1; 1; 1; 1]), (bt [1; 1; 1; 1]), (bt [1; 1; 1; 1]).
  split; [exact z_sees|]. intros l. split; [repeat constructor|]. vm_compute. reflexivity. Qed.

(** an operator on two neighbouring sites; open sites of a 2x2 patch *)
Definition wA := ex_t 1 2 [2; 1; 1; 1; 1].
Definition wC := [ex_t 1 1 [1; 1]; ex_t 2 1 [1; 1]; ex_t 1 2 [1; 1]; ex_t (-1) 1 [1; 1]].
Definition wT := [ex_t 1 3 [1; 1; 1]; ex_t 1 (-2) [1; 1; 1]; ex_t 3 1 [1; 1; 1]; ex_t 2 1 [1; 1; 1]].
Definition wD (w h k : nat) : nat := nth (k / (S w * S h)) [2; 2] (if k =? mpob w h 1 then 2 else 1).
Definition wm : list (tensor gi) := [ex_t 1 1 [1; 2; 1]; ex_t 1 2 [1; 2; 2]; ex_t 3 1 [2; 2; 1]; ex_t 1 1 [1; 2; 1]].
Lemma w_sees : sees (st1 wA) (env1 wC wT) (fun _ => wA) (fun _ => pick dirs_C wC) (fun _ => pick dirs_T wT).
Proof. exact (sees1 _ _ _ _ _ _ _ _ _). Qed.
Lemma w_fits c : fits (wD 2 1) (patch_at gconj (fun _ => wA) (fun _ => pick dirs_C wC) (fun _ => pick dirs_T wT) 2 1 [(0, 0); (1, 0)] c ++
    mps_net 2 1 [(0, 0); (1, 0)] (drop_first (nth 0 wm (bt []))) (nth 1 wm (bt [])) (nth 2 wm (bt [])) (drop_last (nth 3 wm (bt []))))
  /\ fits (wD 2 2) (patch_at gconj (fun _ => wA) (fun _ => pick dirs_C wC) (fun _ => pick dirs_T wT) 2 2 (named_sites [3; 0]) c).
Proof. split; repeat constructor. Qed.
Lemma w_values :
  (exists R I, sl eval_mpo_rdm2x1 (st1 wA) (env1 wC wT) (0, 0)%Z wm = Ok (R, I) /\ R <> I /\ tdata I <> [g0]) /\
  (exists M, sl rdm2x2_oe (st1 wA) (env1 wC wT) (0, 0)%Z [3; 0] = Ok M /\ tdims M = [2; 2; 2; 2] /\ hd g0 (tdata M) <> g0) /\
  (exists M, sl mpo2x2 (st1 wA) (env1 wC wT) (0, 0)%Z (repeat (ex_t 1 2 [1; 2; 1; 2]) 4) = Ok M /\ tdata M <> [g0]).
Proof. split; [|split].
  - do 2 eexists. split; [vm_compute; reflexivity|]. split; vm_compute; discriminate.
  - eexists. split; [vm_compute; reflexivity|]. split; [reflexivity|]. vm_compute. discriminate.
  - eexists. split; [vm_compute; reflexivity|]. vm_compute. discriminate. Qed.
