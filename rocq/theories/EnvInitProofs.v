(** The contractions of the starting environments are those of the drawn networks. *)
From Verif Require Import Base BaseLemmas Lattice Tensor TensorLemmas Net NetSpec NetProofs NetProofs2 NetProofs3 Corners CornersSpec CornersProofs RdmProofs EnvInit EnvInitSpec.
From Verif Require Ctm ExtendSpec.
From Coq Require Import Ring ArithRing Permutation.
Open Scope list_scope.
Open Scope nat_scope.
Open Scope res_scope.

Section P.
Context {K : Type} (z o : K) (add mul : K -> K -> K).
Hypothesis SR : semi_ring_theory z o add mul eq.
Notation ten := (tensor K).
Notation isc D := (is_contraction D z o add mul).

Lemma fits_layers cl op (A B : ten) : site5 A -> twf B -> tdims B = tdims A -> fits (bd A) (layers cl op A B).
Proof. intros [WA LA] WB E. destruct A as [dA A], B as [dB B]. cbn in E. subst dB.
  destruct dA as [|p [|u [|l [|d [|r [|]]]]]]; try discriminate LA.
  repeat constructor; cbn; try assumption; destruct cl, (op 0), (op 1), (op 2), (op 3); reflexivity. Qed.
Lemma fits_bare (A : ten) : site4 A -> fits (bd1 A) (bare A).
Proof. intros [WA LA]. destruct A as [dA A]. destruct dA as [|u [|l [|d [|r [|]]]]]; try discriminate LA.
  repeat constructor; assumption. Qed.
Lemma bd_pair (A : ten) k : k < 4 -> bd A (5 + k) = bd A (1 + k).
Proof. intros H. destruct k as [|[|[|[|]]]]; try lia; reflexivity. Qed.

Section Layers.
Variables (A B : ten).
Hypotheses (HA : site5 A) (HB : twf B) (HD : tdims B = tdims A).
Ltac prep cl op := pose proof (fits_layers cl op A B HA HB HD) as HF; pose proof (bd_pair A 0 ltac:(lia)) as E0; pose proof (bd_pair A 1 ltac:(lia)) as E1;
  pose proof (bd_pair A 2 ltac:(lia)) as E2; pose proof (bd_pair A 3 ltac:(lia)) as E3; cbn [Nat.add] in E0, E1, E2, E3;
  generalize dependent (bd A); intros D HF E0 E1 E2 E3;
  expand_net HF; leaves SR HF.
Ltac out_of := match goal with |- exists M, _ /\ is_contraction _ _ _ _ _ _ ?out M => let v := eval vm_compute in out in change out with v end.
Ltac go l := out_of; singleE SR; [unfold einsum2, sq; step ltac:(cein SR); cviewe l|check|reflexivity].

Lemma pbc_LU : exists M, (a <- einsum2 z o add mul "mijef" "mijab" "eafb" A B ;; view a [sq (size A 3); sq (size A 4)]) = Ok M /\
  isc (bd A) (layers Traced (inward (-1, -1)%Z) A B) (fused (inward (-1, -1)%Z)) M.
Proof. prep Traced (inward (-1, -1)%Z). go (fused (inward (-1, -1)%Z)). Qed.
Lemma pbc_RU : exists M, (a <- einsum2 z o add mul "miefj" "miabj" "eafb" A B ;; view a [sq (size A 2); sq (size A 3)]) = Ok M /\
  isc (bd A) (layers Traced (inward (1, -1)%Z) A B) (fused (inward (1, -1)%Z)) M.
Proof. prep Traced (inward (1, -1)%Z). go (fused (inward (1, -1)%Z)). Qed.
Lemma pbc_RD : exists M, (a <- einsum2 z o add mul "mefij" "mabij" "eafb" A B ;; view a [sq (size A 1); sq (size A 2)]) = Ok M /\
  isc (bd A) (layers Traced (inward (1, 1)%Z) A B) (fused (inward (1, 1)%Z)) M.
Proof. prep Traced (inward (1, 1)%Z). go (fused (inward (1, 1)%Z)). Qed.
Lemma pbc_LD : exists M, (a <- einsum2 z o add mul "meijf" "maijb" "eafb" A B ;; view a [sq (size A 1); sq (size A 4)]) = Ok M /\
  isc (bd A) (layers Traced (inward (-1, 1)%Z) A B) (fused (inward (-1, 1)%Z)) M.
Proof. prep Traced (inward (-1, 1)%Z). go (fused (inward (-1, 1)%Z)). Qed.
Lemma pbc_U : exists M, (a <- einsum2 z o add mul "miefg" "miabc" "eafbgc" A B ;; view a [sq (size A 2); sq (size A 3); sq (size A 4)]) = Ok M /\
  isc (bd A) (layers Traced (inward (0, -1)%Z) A B) (fused (inward (0, -1)%Z)) M.
Proof. prep Traced (inward (0, -1)%Z). go (fused (inward (0, -1)%Z)). Qed.
Lemma pbc_L : exists M, (a <- einsum2 z o add mul "meifg" "maibc" "eafbgc" A B ;; view a [sq (size A 1); sq (size A 3); sq (size A 4)]) = Ok M /\
  isc (bd A) (layers Traced (inward (-1, 0)%Z) A B) (fused (inward (-1, 0)%Z)) M.
Proof. prep Traced (inward (-1, 0)%Z). go (fused (inward (-1, 0)%Z)). Qed.
Lemma pbc_D : exists M, (a <- einsum2 z o add mul "mefig" "mabic" "eafbgc" A B ;; view a [sq (size A 1); sq (size A 2); sq (size A 4)]) = Ok M /\
  isc (bd A) (layers Traced (inward (0, 1)%Z) A B) (fused (inward (0, 1)%Z)) M.
Proof. prep Traced (inward (0, 1)%Z). go (fused (inward (0, 1)%Z)). Qed.
Lemma pbc_R : exists M, (a <- einsum2 z o add mul "mefgi" "mabci" "eafbgc" A B ;; view a [sq (size A 1); sq (size A 2); sq (size A 3)]) = Ok M /\
  isc (bd A) (layers Traced (inward (1, 0)%Z) A B) (fused (inward (1, 0)%Z)) M.
Proof. prep Traced (inward (1, 0)%Z). go (fused (inward (1, 0)%Z)). Qed.
Lemma obc_LU : exists M, (a <- einsum2 z o add mul "mijef" "mklab" "eafb" A B ;; view a [sq (size A 3); sq (size A 4)]) = Ok M /\
  isc (bd A) (layers Summed (inward (-1, -1)%Z) A B) (fused (inward (-1, -1)%Z)) M.
Proof. prep Summed (inward (-1, -1)%Z). go (fused (inward (-1, -1)%Z)). Qed.
Lemma obc_RU : exists M, (a <- einsum2 z o add mul "miefj" "mkabl" "eafb" A B ;; view a [sq (size A 2); sq (size A 3)]) = Ok M /\
  isc (bd A) (layers Summed (inward (1, -1)%Z) A B) (fused (inward (1, -1)%Z)) M.
Proof. prep Summed (inward (1, -1)%Z). go (fused (inward (1, -1)%Z)). Qed.
Lemma obc_RD : exists M, (a <- einsum2 z o add mul "mefij" "mabkl" "eafb" A B ;; view a [sq (size A 1); sq (size A 2)]) = Ok M /\
  isc (bd A) (layers Summed (inward (1, 1)%Z) A B) (fused (inward (1, 1)%Z)) M.
Proof. prep Summed (inward (1, 1)%Z). go (fused (inward (1, 1)%Z)). Qed.
Lemma obc_LD : exists M, (a <- einsum2 z o add mul "meijf" "maklb" "eafb" A B ;; view a [sq (size A 1); sq (size A 4)]) = Ok M /\
  isc (bd A) (layers Summed (inward (-1, 1)%Z) A B) (fused (inward (-1, 1)%Z)) M.
Proof. prep Summed (inward (-1, 1)%Z). go (fused (inward (-1, 1)%Z)). Qed.
Lemma obc_U : exists M, (a <- einsum2 z o add mul "miefg" "mkabc" "eafbgc" A B ;; view a [sq (size A 2); sq (size A 3); sq (size A 4)]) = Ok M /\
  isc (bd A) (layers Summed (inward (0, -1)%Z) A B) (fused (inward (0, -1)%Z)) M.
Proof. prep Summed (inward (0, -1)%Z). go (fused (inward (0, -1)%Z)). Qed.
Lemma obc_L : exists M, (a <- einsum2 z o add mul "meifg" "makbc" "eafbgc" A B ;; view a [sq (size A 1); sq (size A 3); sq (size A 4)]) = Ok M /\
  isc (bd A) (layers Summed (inward (-1, 0)%Z) A B) (fused (inward (-1, 0)%Z)) M.
Proof. prep Summed (inward (-1, 0)%Z). go (fused (inward (-1, 0)%Z)). Qed.
Lemma obc_D : exists M, (a <- einsum2 z o add mul "mefig" "mabkc" "eafbgc" A B ;; view a [sq (size A 1); sq (size A 2); sq (size A 4)]) = Ok M /\
  isc (bd A) (layers Summed (inward (0, 1)%Z) A B) (fused (inward (0, 1)%Z)) M.
Proof. prep Summed (inward (0, 1)%Z). go (fused (inward (0, 1)%Z)). Qed.
Lemma obc_R : exists M, (a <- einsum2 z o add mul "mefgi" "mabck" "eafbgc" A B ;; view a [sq (size A 1); sq (size A 2); sq (size A 3)]) = Ok M /\
  isc (bd A) (layers Summed (inward (1, 0)%Z) A B) (fused (inward (1, 0)%Z)) M.
Proof. prep Summed (inward (1, 0)%Z). go (fused (inward (1, 0)%Z)). Qed.
Lemma prod_U : exists M, (a <- einsum2 z o add mul "miefg" "miebg" "fb" A B ;; view a [sq (size A 3)]) = Ok M /\
  isc (bd A) (layers Traced (facing (0, -1)%Z) A B) (fused (facing (0, -1)%Z)) M.
Proof. prep Traced (facing (0, -1)%Z). go (fused (facing (0, -1)%Z)). Qed.
Lemma prod_U' : exists M, (a <- einsum2 z o add mul "miefg" "miebg" "fb" A B ;; view a [sq (size a 0)]) = Ok M /\
  isc (bd A) (layers Traced (facing (0, -1)%Z) A B) (fused (facing (0, -1)%Z)) M.
Proof. prep Traced (facing (0, -1)%Z). go (fused (facing (0, -1)%Z)). Qed.
Lemma prod_L : exists M, (a <- einsum2 z o add mul "meifg" "meifc" "gc" A B ;; view a [sq (size A 4)]) = Ok M /\
  isc (bd A) (layers Traced (facing (-1, 0)%Z) A B) (fused (facing (-1, 0)%Z)) M.
Proof. prep Traced (facing (-1, 0)%Z). go (fused (facing (-1, 0)%Z)). Qed.
Lemma prod_L' : exists M, (a <- einsum2 z o add mul "meifg" "meifc" "gc" A B ;; view a [sq (size a 0)]) = Ok M /\
  isc (bd A) (layers Traced (facing (-1, 0)%Z) A B) (fused (facing (-1, 0)%Z)) M.
Proof. prep Traced (facing (-1, 0)%Z). go (fused (facing (-1, 0)%Z)). Qed.
Lemma prod_D : exists M, (a <- einsum2 z o add mul "mefig" "mafig" "ea" A B ;; view a [sq (size A 1)]) = Ok M /\
  isc (bd A) (layers Traced (facing (0, 1)%Z) A B) (fused (facing (0, 1)%Z)) M.
Proof. prep Traced (facing (0, 1)%Z). go (fused (facing (0, 1)%Z)). Qed.
Lemma prod_D' : exists M, (a <- einsum2 z o add mul "mefig" "mafig" "ea" A B ;; view a [sq (size a 0)]) = Ok M /\
  isc (bd A) (layers Traced (facing (0, 1)%Z) A B) (fused (facing (0, 1)%Z)) M.
Proof. prep Traced (facing (0, 1)%Z). go (fused (facing (0, 1)%Z)). Qed.
Lemma prod_R : exists M, (a <- einsum2 z o add mul "mefgi" "mebgi" "fb" A B ;; view a [sq (size A 2)]) = Ok M /\
  isc (bd A) (layers Traced (facing (1, 0)%Z) A B) (fused (facing (1, 0)%Z)) M.
Proof. prep Traced (facing (1, 0)%Z). go (fused (facing (1, 0)%Z)). Qed.
Lemma prod_R' : exists M, (a <- einsum2 z o add mul "mefgi" "mebgi" "fb" A B ;; view a [sq (size a 0)]) = Ok M /\
  isc (bd A) (layers Traced (facing (1, 0)%Z) A B) (fused (facing (1, 0)%Z)) M.
Proof. prep Traced (facing (1, 0)%Z). go (fused (facing (1, 0)%Z)). Qed.
End Layers.

Section Bare.
Variable A : ten.
Hypothesis HA : site4 A.
Ltac go1 := pose proof (fits_bare A HA) as HF; generalize dependent (bd1 A); intros D HF; expand_net HF; leaves SR HF;
  match goal with |- exists M, _ /\ is_contraction _ _ _ _ _ _ ?out M => let v := eval vm_compute in out in change out with v end;
  singleE SR; [unfold einsum1; cein SR|check|reflexivity].
Lemma one_LU : exists M, einsum1 z o add mul "ijef" "ef" A = Ok M /\ isc (bd1 A) (bare A) (legs1 (inward (-1, -1)%Z)) M.
Proof. go1. Qed.
Lemma one_RU : exists M, einsum1 z o add mul "iefj" "ef" A = Ok M /\ isc (bd1 A) (bare A) (legs1 (inward (1, -1)%Z)) M.
Proof. go1. Qed.
Lemma one_RD : exists M, einsum1 z o add mul "efij" "ef" A = Ok M /\ isc (bd1 A) (bare A) (legs1 (inward (1, 1)%Z)) M.
Proof. go1. Qed.
Lemma one_LD : exists M, einsum1 z o add mul "eijf" "ef" A = Ok M /\ isc (bd1 A) (bare A) (legs1 (inward (-1, 1)%Z)) M.
Proof. go1. Qed.
Lemma one_U : exists M, einsum1 z o add mul "iefg" "efg" A = Ok M /\ isc (bd1 A) (bare A) (legs1 (inward (0, -1)%Z)) M.
Proof. go1. Qed.
Lemma one_L : exists M, einsum1 z o add mul "eifg" "efg" A = Ok M /\ isc (bd1 A) (bare A) (legs1 (inward (-1, 0)%Z)) M.
Proof. go1. Qed.
Lemma one_D : exists M, einsum1 z o add mul "efig" "efg" A = Ok M /\ isc (bd1 A) (bare A) (legs1 (inward (0, 1)%Z)) M.
Proof. go1. Qed.
Lemma one_R : exists M, einsum1 z o add mul "efgi" "efg" A = Ok M /\ isc (bd1 A) (bare A) (legs1 (inward (1, 0)%Z)) M.
Proof. go1. Qed.
Lemma one_prod_U : exists M, einsum1 z o add mul "uldr" "d" A = Ok M /\ isc (bd1 A) (bare A) (legs1 (facing (0, -1)%Z)) M.
Proof. go1. Qed.
Lemma one_prod_L : exists M, einsum1 z o add mul "uldr" "r" A = Ok M /\ isc (bd1 A) (bare A) (legs1 (facing (-1, 0)%Z)) M.
Proof. go1. Qed.
Lemma one_prod_D : exists M, einsum1 z o add mul "uldr" "u" A = Ok M /\ isc (bd1 A) (bare A) (legs1 (facing (0, 1)%Z)) M.
Proof. go1. Qed.
Lemma one_prod_R : exists M, einsum1 z o add mul "uldr" "l" A = Ok M /\ isc (bd1 A) (bare A) (legs1 (facing (1, 0)%Z)) M.
Proof. go1. Qed.
End Bare.
End P.
