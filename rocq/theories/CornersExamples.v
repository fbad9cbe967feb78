(** Concrete tensors with Gaussian integers as entries. *)
From Verif Require Import Base Tensor Net NetSpec Corners CornersSpec CornersProofs4 CornersProofs5.
From Verif Require ExtendProofs2.
From Coq Require Import Ring.
Open Scope list_scope.
Open Scope nat_scope.
Open Scope res_scope.

Notation gi := ExtendProofs2.gi.
Notation g0 := ExtendProofs2.g0.
Notation g1 := ExtendProofs2.g1.
Notation gadd := ExtendProofs2.gadd.
Notation gmul := ExtendProofs2.gmul.
Notation gconj := ExtendProofs2.gconj.
Lemma gi_ring : semi_ring_theory g0 g1 gadd gmul eq.
Proof. constructor; repeat intros [? ?]; unfold ExtendProofs2.gadd, ExtendProofs2.gmul, ExtendProofs2.g0, ExtendProofs2.g1; cbn [fst snd]; f_equal; ring. Qed.

(** the k-th element is (a k + 1) + (b k - 2) i *)
Definition ex_t (a b : Z) (dims : list nat) : tensor gi :=
  mkT dims (map (fun k => (a * Z.of_nat k + 1, b * Z.of_nat k - 2)%Z) (seq 0 (prod_dims dims))).

Definition exD (k : nat) : nat := nth k [2; 1; 1; 1; 1; 1; 2; 2; 2; 1; 2; 1; 2; 2] 1.
Definition exC := ex_t 1 2 [2; 1].
Definition exT1 := ex_t 2 (-1) [1; 1; 1].
Definition exT2 := ex_t 1 (-3) [2; 1; 4].
Definition exA := ex_t 3 1 [2; 1; 2; 1; 2].
Lemma ex_fits : fits exD (net_LU idb 8 exC exT1 exT2 exA (tmap gconj exA)) /\ fits exD (net_LU idb 13 exC exT1 exT2 exA (tmap gconj exA)).
Proof. split; repeat constructor. Qed.
Lemma ex_LU : exists M, c2x2_LU_sl_c g0 g1 gadd gmul gconj exC exT1 exT2 exA false = Ok M
  /\ (a <- double_layer g0 g1 gadd gmul gconj exA ;; c2x2_LU_c g0 g1 gadd gmul exC exT1 exT2 a false) = Ok M
  /\ tdims M = [1; 4] /\ hd g0 (tdata M) = (-115756, -62908)%Z /\ c2x2_LU_sl_c g0 g1 gadd gmul (fun x => x) exC exT1 exT2 exA false <> Ok M.
Proof. eexists. split; [vm_compute; reflexivity|]. split; [vm_compute; reflexivity|]. split; [reflexivity|]. split; [reflexivity|]. vm_compute. discriminate. Qed.

(** one bond of dimension two, all others of dimension one *)
Definition bt (dims : list nat) : tensor gi := mkT dims (repeat g1 (prod_dims dims)).
Lemma right_refuted : exists (D D1 D2 : nat -> nat) (C1 T1 T T2 C2 A P2 Pt2 P1 Pt1 : tensor gi),
  fits D1 (net_C_RIGHT1 C1 T1 Pt1) /\ fits D2 (net_C_RIGHT2 C2 T2 P2) /\ fits D (net_T_RIGHT T Pt2 P1 A (tmap gconj A)) /\
  absorb_RIGHT g0 g1 gadd gmul gconj C1 T1 T T2 C2 A P2 Pt2 P1 Pt1 true = Err RuntimeError /\
  exists r, (a <- double_layer g0 g1 gadd gmul gconj A ;; absorb_RIGHT g0 g1 gadd gmul gconj C1 T1 T T2 C2 a P2 Pt2 P1 Pt1 false) = Ok r.
Proof. exists (fun k => if (k =? 1) || (k =? 2) then 2 else 1), (fun _ => 1), (fun _ => 1),
    (bt [1; 1]), (bt [1; 1; 1]), (bt [1; 4; 1]), (bt [1; 1; 1]), (bt [1; 1]), (bt [1; 1; 1; 1; 2]), (bt [1; 1; 1]), (bt [1; 1; 1]), (bt [1; 1; 1]), (bt [1; 1; 1]).
  split; [repeat constructor|]. split; [repeat constructor|]. split; [repeat constructor|]. split; [vm_compute; reflexivity|].
  eexists. vm_compute. reflexivity. Qed.

(** absorption of a row with bonds of different dimensions *)
Definition exDa (k : nat) : nat := nth k [1; 1; 1; 2; 1; 3; 3; 1; 2; 2; 1; 1; 2] 1.
Definition exPt2 := ex_t 1 1 [1; 4; 1].
Definition exP1 := ex_t 1 (-1) [2; 1; 1].
Definition exT := ex_t 2 1 [1; 1; 2].
Definition exB := ex_t 1 3 [2; 1; 2; 3; 1].
Definition exC1 := ex_t 1 1 [1; 1].
Definition exU := ex_t 1 1 [1; 1; 1].
Lemma ex_UP : fits exDa (net_T_UP exT exPt2 exP1 exB (tmap gconj exB)) /\ fits (fun _ => 1) (net_C_UP1 exC1 exU exU) /\ fits (fun _ => 1) (net_C_UP2 exC1 exU exU) /\
  exists n1 n2 nt, absorb_UP g0 g1 gadd gmul gconj exC1 exU exT exU exC1 exB exU exPt2 exP1 exU true = Ok (n1, n2, nt) /\
  (a <- double_layer g0 g1 gadd gmul gconj exB ;; absorb_UP g0 g1 gadd gmul gconj exC1 exU exT exU exC1 a exU exPt2 exP1 exU false) = Ok (n1, n2, nt) /\
  tdims nt = [1; 9; 1] /\ tdata nt <> repeat g0 9.
Proof. split; [repeat constructor|]. split; [repeat constructor|]. split; [repeat constructor|].
  eexists _, _, _. split; [vm_compute; reflexivity|]. split; [vm_compute; reflexivity|]. split; [reflexivity|]. vm_compute. discriminate. Qed.
