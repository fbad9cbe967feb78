(** The Casimir operators and the permutations of a triangle. *)
From Verif Require Import Base BaseLemmas Tensor TensorLemmas Net Plaq Su3 Su3Spec Su3Num Su3Proofs Su3Proofs2.
From Coq Require Import Ring.
Open Scope list_scope.
Open Scope nat_scope.
Open Scope res_scope.

Definition D6 : list nat := [3; 3; 3; 3; 3; 3].
Fixpoint all2 (l m : list fnum) : bool := match l, m with [], [] => true | x :: l, y :: m => feq x y && all2 l m | _, _ => false end.
Definition teqF (t : tensor fnum) (dims : list nat) (g : list nat -> fnum) : bool := eqb (tdims t) dims && all2 (tdata t) (map g (indices dims)).
Definition reqF (t : res (tensor fnum)) (dims : list nat) (g : list nat -> fnum) : bool := match t with Ok t => teqF t dims g | Err _ => false end.
Definition swF (ix : list nat) : bool := match ix with [i; j; a; b] => (i =? b) && (j =? a) | _ => false end.
Definition idF (ix : list nat) : bool := match ix with [i; j; a; b] => (i =? a) && (j =? b) | _ => false end.
Definition pT : tensor fnum := tbuild [3; 3; 3; 3] (fun ix => dirac f0 f1 (swF ix)).
Definition mvb (p : list nat -> list nat) (ix : list nat) : bool := eqb (firstn 3 ix) (p (skipn 3 ix)).
Notation eF := (einsum f0 f1 fadd fmul).

(** facts about closed tensors *)
Lemma c_c1 : reqF c1F [3; 3; 3; 3] (fun ix => fmul fhalf (fsub (dirac f0 f1 (swF ix)) (fmul fthird (dirac f0 f1 (idF ix))))) = true.
Proof. vm_compute. reflexivity. Qed.
Lemma c_p2 : reqF perm2F [3; 3; 3; 3] (fun ix => dirac f0 f1 (swF ix)) = true.
Proof. vm_compute. reflexivity. Qed.
Lemma c_l : reqF (eF [(pT, [0; 1; 3; 6]); (pT, [6; 2; 4; 5])] [0; 1; 2; 3; 4; 5]) D6 (fun ix => dirac f0 f1 (mvb cyc ix)) = true.
Proof. vm_compute. reflexivity. Qed.
Lemma c_r : reqF (eF [(pT, [0; 1; 3; 6]); (pT, [2; 6; 4; 5])] [0; 2; 1; 3; 4; 5]) D6 (fun ix => dirac f0 f1 (mvb cyc' ix)) = true.
Proof. vm_compute. reflexivity. Qed.
Lemma c_01 : reqF (eF [(pT, [0; 1; 3; 4]); (genF Id3, [2; 5])] [0; 1; 2; 3; 4; 5]) D6 (fun ix => dirac f0 f1 (mvb sw01 ix)) = true.
Proof. vm_compute. reflexivity. Qed.
Lemma c_02 : reqF (eF [(pT, [0; 2; 3; 5]); (genF Id3, [1; 4])] [0; 1; 2; 3; 4; 5]) D6 (fun ix => dirac f0 f1 (mvb sw02 ix)) = true.
Proof. vm_compute. reflexivity. Qed.
Lemma c_12 : reqF (eF [(pT, [1; 2; 4; 5]); (genF Id3, [0; 3])] [0; 1; 2; 3; 4; 5]) D6 (fun ix => dirac f0 f1 (mvb sw12 ix)) = true.
Proof. vm_compute. reflexivity. Qed.

(** C2: the terms with non-vanishing coefficient *)
Definition fsT : list (tensor fnum) := Eval vm_compute in fsF.
Lemma fsT_eq : fsF = fsT. Proof. vm_compute. reflexivity. Qed.
Definition termsF : list (fnum * (tensor fnum * (tensor fnum * tensor fnum))) :=
  Eval vm_compute in filter (fun e => negb (fz (fst e))) (map (fun q => (d_coef f0 f1 fadd fmul (fst q) (fst (snd q)) (snd (snd q)), q)) (triples fsT)).
Lemma termsF_eq : termsF = filter (fun e => negb (fz (fst e))) (map (fun q => (d_coef f0 f1 fadd fmul (fst q) (fst (snd q)) (snd (snd q)), q)) (triples fsT)).
Proof. vm_compute. reflexivity. Qed.
Definition kelF (q : tensor fnum * (tensor fnum * tensor fnum)) (ix : list nat) : fnum :=
  match ix with [i; j; k; a; b; c] => fmul (el f0 (fst q) [i; a]) (fmul (el f0 (fst (snd q)) [j; b]) (el f0 (snd (snd q)) [k; c])) | _ => f0 end.
Definition c2F (ix : list nat) : fnum := fold_left (fun s e => fadd s (fmul (fst e) (kelF (snd e) ix))) termsF f0.
(** 1/4 (P + P^-1) - 1/6 (P_01 + P_12 + P_20) + 1/9 *)
Definition c2S (ix : list nat) : fnum :=
  fadd (fsub (fmul (fmul fhalf fhalf) (fadd (dirac f0 f1 (mvb cyc ix)) (dirac f0 f1 (mvb cyc' ix))))
             (fmul (fmul fhalf fthird) (fadd (fadd (dirac f0 f1 (mvb sw01 ix)) (dirac f0 f1 (mvb sw12 ix))) (dirac f0 f1 (mvb sw02 ix)))))
       (fmul (fmul fthird fthird) (dirac f0 f1 (mvb (fun a => a) ix))).
Lemma c_c2 : forallb (fun ix => feq (c2F ix) (c2S ix)) (indices D6) = true.
Proof. vm_compute. reflexivity. Qed.
