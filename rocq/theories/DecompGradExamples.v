(** Concrete cases for C68 and C69. *)
Set Warnings "-notation-overridden,-ambiguous-paths".
From mathcomp Require Import all_ssreflect all_algebra.
Import Order.TTheory GRing.Theory Num.Theory.
From Verif Require Import DecompGrad DecompGradSpec DecompGradProofs DecompGradProofs2 DecompGradProofs3 DecompGradProofs4 DecompGradProofs5.
Set Implicit Arguments.
Unset Strict Implicit.
Unset Printing Implicit Defensive.
Open Scope ring_scope.

Section E.
Variable C : numClosedFieldType.

(** diag(2,1), U turning: a change of 2 *)
Example ex_real : exists gA,
  svd_backward false false (1%:M : 'M[C]_2) (s21 C) (1%:M : 'M[C]_2) 0 (Some (rot2 C)) (Some 0) (Some 0) = Ret gA /\
  change gA (Pmat (s21 C) 0 (rot2 C) 0) = 2%:R.
Proof.
have Hc := curve_at_1 (rot2_anti C) (zero_anti C 2) (@s21_real C) (@zero_real C 1 2).
have Hph: all_real (1%:M : 'M[C]_2) /\ all_real (rot2 C) /\ all_real (rot2 C) /\ all_real (1%:M : 'M[C]_2) /\ all_real (0 : 'M[C]_2) /\ all_real (0 : 'M[C]_2).
  split; first exact: one_real. split; first exact: rot2_real. split; first exact: rot2_real.
  split; first exact: one_real. split; exact: zero_real.
have [gA [E P]] := svd_exact (cplx := false) false Hc (@s21_pos C) (@s21_dist C) (@zero_real C 1 2) Hph.
exists gA; split=> //. by rewrite P !change0l !addr0 rot2_norm.
Qed.

(** complex factors: U turns its phase against V *)
Definition iI : 'M[C]_2 := 'i%:M.
Lemma iI_anti : ctr iI = - iI.
Proof.
apply/matrixP => i j. rewrite ctrE !mxE eq_sym. case: eqP => _; by rewrite ?mulr1n ?mulr0n ?conjCi ?conjC0 ?oppr0.
Qed.
Lemma iI_norm : change iI iI = 2%:R.
Proof.
rewrite /change !big_ord_recl !big_ord0 !mxE /= ?eqxx !(mulr1n, mulr0n, mulr0, addr0, add0r, raddf0) conjCi mulNr -expr2 sqrCi opprK.
by rewrite (Creal_ReP _ (real1 C)) -mulr2n.
Qed.
Example ex_complex : exists gA,
  svd_backward true false (1%:M : 'M[C]_2) (s21 C) (1%:M : 'M[C]_2) 0 (Some iI) (Some 0) (Some (- iI)) = Ret gA /\
  change gA (Pmat (s21 C) 0 iI 0) = 2%:R.
Proof.
have Hc := curve_at_1 iI_anti (zero_anti C 2) (@s21_real C) (@zero_real C 1 2).
have Hph: phase_free (1%:M : 'M[C]_2) iI (1%:M : 'M[C]_2) (- iI).
  move=> l. rewrite -big_split /= big1 // => i _. rewrite !mxE rmorphN mulNr -raddfD /= subrr. exact: raddf0.
have [gA [E P]] := svd_exact (cplx := true) false Hc (@s21_pos C) (@s21_dist C) (@zero_real C 1 2) Hph.
exists gA; split=> //. by rewrite P change0l addr0 change0r addr0 iI_norm.
Qed.

(** eigenvalues 2 and 1, U turning *)
Example ex_eig : change (symeig_backward 0 (s21 C) 1%:M 0 (rot2 C)) (Pmat (s21 C) 0 (rot2 C) (rot2 C)) = 2%:R.
Proof.
rewrite (symeig_exact (eig_at_1 (rot2_anti C) (@s21_real C) (@zero_real C 1 2)) (@s21_dist C) (@zero_real C 1 2)).
  by rewrite change0l add0r rot2_norm.
move=> l. rewrite big1 // => i _. rewrite ReE2 /T2 !rmorphM !conjCK (realE (@rot2_real C i l)) (realE (@one_real C 2 i l)).
by rewrite conjCi mulNr mulrN subrr mul0r.
Qed.

(** integer parts exist whenever every number is below an integer *)
Example ex_trunc : (forall x : C, 0 <= x -> exists n, x < n.+1%:R) -> exists trunc, @is_trunc C trunc.
Proof.
move=> arch.
have ex: forall x : C, exists n, (0 <= x) ==> (x < n.+1%:R).
  move=> x. case H: (0 <= x); last by exists 0%N. have [n Hn] := arch x H. by exists n.
exists (fun x => ex_minn (ex x)) => x x0. case: ex_minnP => n. rewrite x0 /= => lt min. split=> //.
case: n lt min => [|n] lt min; first exact: x0.
rewrite real_leNgt ?realn ?(ger0_real x0) //. apply/negP => H. have := min n H. by rewrite ltnn.
Qed.

(** a column (-1/2, ...) : the largest entry becomes positive *)
Example ex_signs (trunc : C -> nat) : is_trunc trunc ->
  fix_svd_signs trunc (- 1%:M : 'M[C]_1) (1%:M : 'M[C]_1) = (1%:M, - 1%:M).
Proof.
move=> _. rewrite /fix_svd_signs.
have P: forall j, pivot trunc (- 1%:M : 'M[C]_1) j = -1 by move=> j; rewrite pivotE !mxE !ord1 eqxx.
by congr pair; apply/matrixP => i j; rewrite !mxE P normrN normr1 divr1 rmorphN rmorph1 !ord1 eqxx ?mulrNN ?mulrN ?mulr1.
Qed.
Example ex_shapes : forward_cols 3 3 = Ret (3, 3)%N /\ forward_cols 4 3 = Raise RuntimeError /\ forward_cols 4 1 = Ret (4, 4)%N.
Proof. by []. Qed.
End E.
