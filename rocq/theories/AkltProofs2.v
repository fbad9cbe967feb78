(** The matrix of S1.S2 for two spins 2 in the ring Z[sqrt 6], and its quartic polynomial. *)
From Verif Require Import Base BaseLemmas Tensor TensorLemmas Su2 Su2Spec Su2Proofs Net Aklt AkltSpec AkltProofs.
From Coq Require Import Reals Lra ZArith.
Open Scope list_scope.

Definition q6 : Type := (Z * Z)%type.
Definition qadd (x y : q6) : q6 := ((fst x + fst y)%Z, (snd x + snd y)%Z).
Definition qmul (x y : q6) : q6 := ((fst x * fst y + 6 * (snd x * snd y))%Z, (fst x * snd y + snd x * fst y)%Z).
Definition qz (n : Z) : q6 := (n, 0%Z).
Definition ev (x : q6) : R := (IZR (fst x) + IZR (snd x) * sqrt 6)%R.
Lemma sqrt66 : (sqrt 6 * sqrt 6 = 6)%R. Proof. apply sqrt_sqrt. lra. Qed.
Lemma ev_add x y : ev (qadd x y) = (ev x + ev y)%R.
Proof. unfold ev, qadd. cbn [fst snd]. rewrite !plus_IZR. ring. Qed.
Lemma ev_mul x y : ev (qmul x y) = (ev x * ev y)%R.
Proof. unfold ev, qmul. cbn [fst snd]. rewrite !plus_IZR, !mult_IZR. ring [sqrt66]. Qed.
Lemma ev_z n : ev (qz n) = IZR n. Proof. unfold ev, qz. cbn. ring. Qed.

(** matrices as lists of rows *)
Definition qsum (l : list q6) : q6 := fold_right qadd (qz 0) l.
Definition qmat : Type := list (list q6).
Definition tab (n : nat) (f : nat -> nat -> q6) : qmat := map (fun i => map (f i) (seq 0 n)) (seq 0 n).
Definition at2 (M : qmat) (i j : nat) : q6 := nth j (nth i M []) (qz 0).
Lemma at2_tab n f i j : (i < n)%nat -> (j < n)%nat -> at2 (tab n f) i j = f i j.
Proof. intros Hi Hj. unfold at2, tab. rewrite (nth_indep _ [] (map (f n) (seq 0 n))) by (now rewrite map_length, seq_length).
  rewrite (map_nth (fun i => map (f i) (seq 0 n))). rewrite (nth_indep _ (qz 0) (f (nth i (seq 0 n) n) n)) by (now rewrite map_length, seq_length).
  rewrite map_nth. now rewrite !seq_nth by assumption. Qed.
Definition qprod (A B : qmat) : qmat := tab 25 (fun i j => qsum (map (fun k => qmul (at2 A i k) (at2 B k j)) (seq 0 25))).
(** the spin-2 operators *)
Definition qsz (i j : nat) : q6 := if Nat.eqb i j then qz (2 - Z.of_nat i) else qz 0.
Definition qc (i : nat) : q6 := match i with 0 => (2%Z, 0%Z) | 1 => (0%Z, 1%Z) | 2 => (0%Z, 1%Z) | 3 => (2%Z, 0%Z) | _ => (0%Z, 0%Z) end.
Definition qsp (i j : nat) : q6 := if Nat.eqb j (S i) then qc i else qz 0.
(** half the product of two ladder operators is in the ring *)
Definition qhalf (x : q6) : q6 := (Z.div2 (fst x), Z.div2 (snd x)).
Definition qlad (i a j b : nat) : q6 := qadd (qmul (qsp i j) (qsp b a)) (qmul (qsp j i) (qsp a b)).
Definition qx (i a j b : nat) : q6 := qadd (qmul (qsz i j) (qsz a b)) (qhalf (qlad i a j b)).
Definition qX : qmat := Eval vm_compute in tab 25 (fun I J => qx (Nat.div I 5) (Nat.modulo I 5) (Nat.div J 5) (Nat.modulo J 5)).
Definition qX2 := Eval vm_compute in qprod qX qX.
Definition qX3 := Eval vm_compute in qprod qX2 qX.
Definition qX4 := Eval vm_compute in qprod qX3 qX.
Definition qH : qmat := Eval vm_compute in tab 25 (fun i j => qadd (qmul (qz 90) (at2 qX i j)) (qadd (qmul (qz 63) (at2 qX2 i j)) (qadd (qmul (qz 14) (at2 qX3 i j)) (at2 qX4 i j)))).
Lemma qX_eq : qX = tab 25 (fun I J => qx (Nat.div I 5) (Nat.modulo I 5) (Nat.div J 5) (Nat.modulo J 5)).
Proof. vm_compute. reflexivity. Qed.
Lemma qX2_eq : qX2 = qprod qX qX. Proof. vm_compute. reflexivity. Qed.
Lemma qX3_eq : qX3 = qprod qX2 qX. Proof. vm_compute. reflexivity. Qed.
Lemma qX4_eq : qX4 = qprod qX3 qX. Proof. vm_compute. reflexivity. Qed.
Lemma qH_eq : qH = tab 25 (fun i j => qadd (qmul (qz 90) (at2 qX i j)) (qadd (qmul (qz 63) (at2 qX2 i j)) (qadd (qmul (qz 14) (at2 qX3 i j)) (at2 qX4 i j)))).
Proof. vm_compute. reflexivity. Qed.
Lemma XH : qprod qX qH = tab 25 (fun i j => qmul (qz 4) (at2 qH i j)).
Proof. vm_compute. reflexivity. Qed.
Lemma H_sym : forallb (fun i => forallb (fun j => eqb (at2 qH i j) (at2 qH j i)) (seq 0 25)) (seq 0 25) = true.
Proof. vm_compute. reflexivity. Qed.
Lemma qlad_even : forallb (fun i => forallb (fun a => forallb (fun j => forallb (fun b => Z.even (fst (qlad i a j b)) && Z.even (snd (qlad i a j b))) (seq 0 5)) (seq 0 5)) (seq 0 5)) (seq 0 5) = true.
Proof. vm_compute. reflexivity. Qed.

Lemma rsum_fold (f : nat -> R) n : rsum n f = fold_right Rplus 0%R (map f (seq 0 n)).
Proof. induction n as [|n IH]; [reflexivity|]. cbn [rsum]. rewrite seq_S, map_app, fold_right_app, IH. cbn.
  generalize (map f (seq 0 n)). induction l as [|x l IHl]; cbn; [lra|]. rewrite <- IHl. lra. Qed.
Lemma ev_qsum l : ev (qsum l) = fold_right Rplus 0%R (map ev l).
Proof. induction l as [|x l IH]; [cbn; apply ev_z|]. cbn [qsum fold_right map]. rewrite ev_add. unfold qsum in IH. now rewrite IH. Qed.
Definition evm (A : qmat) (i j : nat) : R := ev (at2 A i j).
Lemma evm_prod A B : meq 25 (evm (qprod A B)) (mmul 25 (evm A) (evm B)).
Proof. intros i j Hi Hj. unfold evm at 1, qprod. rewrite at2_tab by assumption. rewrite ev_qsum, map_map. unfold mmul. rewrite rsum_fold.
  f_equal. apply map_ext. intros k. apply ev_mul. Qed.

(** the spin operators *)
Lemma zed_q i j : (i < 5)%nat -> zed 5 i j = ev (qsz i j).
Proof. intros Hi. unfold zed, qsz. destruct (Nat.eqb i j); [|rewrite ev_z; reflexivity]. rewrite ev_z, minus_IZR, <- INR_IZR_INZ. unfold spin. simpl (INR 5). lra. Qed.
Lemma sqrt4 : sqrt 4 = 2%R. Proof. replace 4%R with (2 * 2)%R by lra. apply sqrt_square. lra. Qed.
Lemma up_q i j : (i < 5)%nat -> (j < 5)%nat -> Su2Proofs.up 5 i j = ev (qsp i j).
Proof. intros Hi Hj. unfold Su2Proofs.up, qsp. destruct (Nat.eqb_spec j (S i)) as [E|_]; [|rewrite ev_z; reflexivity]. unfold cc.
  destruct i as [|[|[|[|[|]]]]]; try (exfalso; clear -E Hi Hj; Lia.lia); cbn [qc]; unfold ev; cbn [fst snd].
  - replace ((INR 0 + 1) * (INR 5 - 1 - INR 0))%R with 4%R by (simpl; ring). rewrite sqrt4. ring.
  - replace ((INR 1 + 1) * (INR 5 - 1 - INR 1))%R with 6%R by (simpl; ring). ring.
  - replace ((INR 2 + 1) * (INR 5 - 1 - INR 2))%R with 6%R by (simpl; ring). ring.
  - replace ((INR 3 + 1) * (INR 5 - 1 - INR 3))%R with 4%R by (simpl; ring). rewrite sqrt4. ring. Qed.
Lemma dn_q i j : (i < 5)%nat -> (j < 5)%nat -> dn 5 i j = ev (qsp j i).
Proof. intros Hi Hj. now rewrite <- up_q by assumption. Qed.
Lemma ev_half x : Z.even (fst x) && Z.even (snd x) = true -> ev (qhalf x) = (1/2 * ev x)%R.
Proof. intros E. apply andb_true_iff in E as [E1 E2]. unfold ev, qhalf. cbn [fst snd].
  assert (D : forall n, Z.even n = true -> IZR n = (2 * IZR (Z.div2 n))%R).
  { intros n En. rewrite <- mult_IZR. f_equal. pose proof (Z.div2_odd n) as D. rewrite <- Z.negb_even, En in D. change (Z.b2z (negb true)) with 0%Z in D. Lia.lia. }
  rewrite (D _ E1), (D _ E2). lra. Qed.
Lemma x_q i a j b : (i < 5)%nat -> (a < 5)%nat -> (j < 5)%nat -> (b < 5)%nat ->
  ev (qx i a j b) = (zed 5 i j * zed 5 a b + 1/2 * (Su2Proofs.up 5 i j * dn 5 a b + dn 5 i j * Su2Proofs.up 5 a b))%R.
Proof. intros Hi Ha Hj Hb. unfold qx. rewrite ev_add, ev_mul, ev_half.
  - unfold qlad. rewrite ev_add, !ev_mul, !zed_q, !up_q, !dn_q by assumption. reflexivity.
  - pose proof qlad_even as Q. rewrite forallb_forall in Q. specialize (Q i ltac:(apply in_seq; Lia.lia)). rewrite forallb_forall in Q. specialize (Q a ltac:(apply in_seq; Lia.lia)).
    rewrite forallb_forall in Q. specialize (Q j ltac:(apply in_seq; Lia.lia)). rewrite forallb_forall in Q. exact (Q b ltac:(apply in_seq; Lia.lia)). Qed.
