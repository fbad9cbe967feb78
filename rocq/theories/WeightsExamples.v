(** Concrete weighted states. *)
From Verif Require Import Base BaseLemmas Lattice LatticeSpec Tilings Tensor CtmSpec CtmExamples Net Weights WeightsSpec.
Open Scope Z_scope.
Open Scope list_scope.

(** two sites in a checkerboard; bonds of dimension 2 and 3 *)
Definition wA : tensor nat := tbuild [1; 1; 2; 1; 3]%nat (fun ix => (1 + nth 2 ix 0 + 2 * nth 4 ix 0)%nat).
Definition wB : tensor nat := tbuild [1; 1; 3; 1; 2]%nat (fun ix => (7 + nth 2 ix 0 + 3 * nth 4 ix 0)%nat).
Definition w_sites : dict coord (tensor nat) := [((0, 0), wA); ((1, 0), wB)].
Definition w_st : ipeps (tensor nat) := mk_ipeps (Some w_sites) 2 2 (fun v => Ok (tiling_bipartite v)).

Lemma bip v : tiling_bipartite v = (0, 0) \/ tiling_bipartite v = (1, 0).
Proof. destruct x_state as (_ & _ & _ & H & _). specialize (H v). cbn in H. destruct H as [H|[H|[]]]; rewrite <- H; auto. Qed.
Lemma w_state : is_state w_st w_sites tiling_bipartite.
Proof. destruct x_state as (_ & _ & H1 & H2 & H3 & H4). split; [reflexivity|]. split; [reflexivity|].
  split; [|split; [|split]]; [exact H1|exact H2|exact H3|exact H4]. Qed.
Lemma w_rank5 : rank5 w_st.
Proof. intros v A. unfold ipeps_site. cbn -[tiling_bipartite]. destruct (bip v) as [-> | ->]; cbn; intros E; injection E as <-; reflexivity. Qed.
(** the neighbours of a site are of the other kind *)
Lemma bip_next v d : In d four -> tiling_bipartite (cadd v d) = (if eqb (tiling_bipartite v) (0, 0) then (1, 0) else (0, 0)).
Proof. intros Hd. destruct x_state as (_ & _ & _ & _ & H3 & H4).
  assert (E : tiling_bipartite v = tiling_bipartite (tiling_bipartite v)) by (destruct (bip v) as [-> | ->]; reflexivity).
  rewrite (H4 _ _ d E). destruct (bip v) as [-> | ->]; destruct Hd as [<-|[<-|[<-|[<-|[]]]]]; reflexivity. Qed.
Lemma w_match : bonds_match w_st.
Proof. intros v d A B Hd. unfold ipeps_site. cbn -[tiling_bipartite]. rewrite (bip_next v d Hd).
  destruct (bip v) as [-> | ->]; cbn; intros E1 E2; injection E1 as <-; injection E2 as <-; destruct Hd as [<-|[<-|[<-|[<-|[]]]]]; reflexivity. Qed.

Definition w_eye (n : nat) : tensor nat := eye 0%nat 1%nat n.
Example w_generated : generate_weights 0%nat 1%nat w_st = Ok
  [(((0, 0), (0, -1)), w_eye 1); (((1, 0), (0, 1)), w_eye 1); (((0, 0), (-1, 0)), w_eye 2); (((1, 0), (1, 0)), w_eye 2);
   (((0, 0), (0, 1)), w_eye 1); (((1, 0), (0, -1)), w_eye 1); (((0, 0), (1, 0)), w_eye 3); (((1, 0), (-1, 0)), w_eye 3)].
Proof. vm_compute. reflexivity. Qed.

(** weights 4 and 9 on the bonds of dimension 2, (1, 16, 25) on those of dimension 3 *)
Definition diag (l : list nat) : tensor nat := tbuild [length l; length l] (fun ix => match ix with [i; j] => if Nat.eqb i j then nth i l 0%nat else 0%nat | _ => 0%nat end).
Definition w_ws : weights (K := nat) :=
  [(((0, 0), (0, -1)), diag [1%nat]); (((1, 0), (0, 1)), diag [1%nat]); (((0, 0), (-1, 0)), diag [4; 9]%nat); (((1, 0), (1, 0)), diag [4; 9]%nat);
   (((0, 0), (0, 1)), diag [1%nat]); (((1, 0), (0, -1)), diag [1%nat]); (((0, 0), (1, 0)), diag [1; 16; 25]%nat); (((1, 0), (-1, 0)), diag [1; 16; 25]%nat)].
Example w_absorbed : exists st', absorb_weights 0%nat 1%nat Nat.add Nat.mul Nat.sqrt w_st w_ws = Ok st' /\
  i_sites st' = Some [((0, 0), mkT [1; 1; 2; 1; 3]%nat [2; 24; 50; 6; 48; 90]%nat); ((1, 0), mkT [1; 1; 3; 1; 2]%nat [14; 30; 64; 132; 90; 180]%nat)].
Proof. eexists. split; [vm_compute; reflexivity|reflexivity]. Qed.

(** a vertical bond of dimensions 2 and 1: no weights *)
Definition w_bad : ipeps (tensor nat) := mk_ipeps (Some [((0, 0), tbuild [1; 2; 1; 1; 1]%nat (fun _ => 1%nat))]) 1 1 (fun _ => Ok (0, 0)).
Example w_refused : generate_weights 0%nat 1%nat w_bad = Err AssertionError.
Proof. vm_compute. reflexivity. Qed.

Definition w_list (k d : coord) : list nat :=
  if Z.eqb (snd d) 0 then (if Bool.eqb (eqb k (0, 0)) (eqb d (-1, 0)) then [4; 9]%nat else [1; 16; 25]%nat) else [1%nat].
Definition w_fun (v d : coord) (i : nat) : nat := nth i (w_list (tiling_bipartite v) d) 0%nat.
(** the hypotheses of C45_absorbed hold for these weights *)
Example w_hypotheses : is_state w_st w_sites tiling_bipartite /\ Nat.sqrt 0 = 0%nat /\ rank5 w_st /\
  (forall v d A n, In d four -> ipeps_site w_st v = Ok A -> nth_error (tdims A) (leg_of d) = Some n ->
     exists W, weight w_st w_ws (v, d) = Ok W /\ is_diag 0%nat n (w_fun v d) W) /\
  (forall v d i, In d four -> w_fun (cadd v d) (cneg d) i = w_fun v d i) /\
  (forall v d i, (Nat.sqrt (w_fun v d i) * Nat.sqrt (w_fun v d i) = w_fun v d i)%nat).
Proof. split; [exact w_state|]. split; [reflexivity|]. split; [exact w_rank5|]. split; [|split].
  - intros v d A n Hd. unfold ipeps_site, w_fun, weight. cbn -[tiling_bipartite dget_exn w_list tdims leg_of].
    destruct (bip v) as [-> | ->]; intros E1 E2; cbn in E1; injection E1 as <-;
      destruct Hd as [<-|[<-|[<-|[<-|[]]]]]; cbn in E2; injection E2 as <-; eexists; (split; [reflexivity|]);
      (split; [reflexivity|]); (split; [reflexivity|]); intros i j Hi Hj;
      repeat (destruct i as [|i]; [|try (exfalso; lia)]); repeat (destruct j as [|j]; [|try (exfalso; lia)]); reflexivity.
  - intros v d i Hd. unfold w_fun. rewrite (bip_next v d Hd).
    destruct (bip v) as [-> | ->]; destruct Hd as [<-|[<-|[<-|[<-|[]]]]]; reflexivity.
  - intros v d i. unfold w_fun, w_list. destruct (Z.eqb (snd d) 0); [destruct (Bool.eqb _ _)|];
      do 3 (destruct i as [|i]; [reflexivity|]); destruct i; reflexivity. Qed.
