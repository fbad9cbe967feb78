(** The enlarged corner and the absorbed half-row tensor of the C4v algorithm contract the drawn
    networks and are hermitian. *)
From Verif Require Import Base BaseLemmas Tensor TensorLemmas Net NetSpec NetProofs NetProofs2 NetProofs3 Corners CornersSpec CornersProofs NetSym C4v CtmC4v CtmC4vSpec.
From Coq Require Import Ring ArithRing Field_theory.
Open Scope list_scope.
Open Scope nat_scope.
Open Scope res_scope.

Ltac rd := repeat match goal with
  | |- context [size ?X ?k] => match goal with H : rep _ _ _ _ _ _ _ X |- _ => rewrite (size_rep _ _ _ _ _ _ _ _ H k) end end;
  cbn [nth map ldim s_out Nat.pow FF];
  repeat match goal with |- context [?f ?a ?b ?c ?l] => match f with dims_corner => idtac | dims_row => idtac end;
    let v := eval cbn in (f a b c l) in change (f a b c l) with v end;
  repeat apply cons_eq; try reflexivity; ring.
Ltac cv o_ := eapply (rep_view _ _ _ _ _ _ _ o_); [eassumption|calc_some|rd].
Ltac delta_net n := eval cbv beta delta [net_corner net_new_corner net_row out_corner out_row app] in n.
Ltac leaf SR HF k := let R := fresh "R" in match type of HF with fits ?D ?n =>
  let r := delta_net n in
  let ts := eval vm_compute in (nth k (map snd r) []) in
  let M := eval cbn [nth map fst] in (nth k (map fst r) (mkT [] [])) in
  match type of SR with semi_ring_theory ?z ?o ?add ?mul _ =>
  assert (R : rep z o add mul D (env_of n) (mkS ts [] [(k, ts)]) M) by exact (fits_leaf _ _ _ _ SR D n k HF ltac:(cbn; lia)) end end.
Ltac facs n := let r := delta_net n in
  let l := eval vm_compute in (combine (seq 0 (length r)) (map snd r)) in l.
Ltac both SR := match goal with |- exists M, _ = Ok M /\ _ = Ok M /\ is_contraction ?D _ _ _ _ ?n ?out M =>
  let f := facs n in eapply (two_reps _ _ _ _ SR D n f out) end.
Ltac cdotr SR H := eapply (rep_dot _ _ _ _ SR); [eassumption|exact H|calc_some].
Ltac leaves5 SR HF := leaf SR HF 0; leaf SR HF 1; leaf SR HF 2; leaf SR HF 3; leaf SR HF 4.

Section P.
Context {K : Type} (z o : K) (add mul : K -> K -> K) (cj : K -> K).
Hypothesis SR : semi_ring_theory z o add mul eq.
Variables chi d Dn : nat.
Notation ten := (tensor K).
Notation DC := (dims_corner chi d Dn).
Notation DR := (dims_row chi d Dn).

Lemma fits_corner C T a : shaped [chi; chi] C -> shaped [chi; chi; Dn * Dn] T -> shaped [d; Dn; Dn; Dn; Dn] a ->
  fits DC (net_corner cj C T a).
Proof. intros [W1 E1] [W2 E2] [W3 E3]. unfold net_corner. repeat (apply Forall_cons; [cbn [fst snd]; split; [|cbn; assumption]|]); try assumption.
  - now apply twf_tmap.
  - apply Forall_nil. Qed.
Lemma corner_ok C T a : shaped [chi; chi] C -> shaped [chi; chi; Dn * Dn] T -> shaped [d; Dn; Dn; Dn; Dn] a ->
  exists M, c2x2_sl z o add mul cj a C T = Ok M
    /\ (A <- double_layer z o add mul cj a ;; c2x2_dl z o add mul A C T) = Ok M
    /\ is_contraction DC z o add mul (net_corner cj C T a) out_corner M.
Proof. intros HC HT Ha. assert (HF := fits_corner C T a HC HT Ha). leaves5 SR HF. both SR.
  - unfold c2x2_sl. step ltac:(cdotr SR R0). step ltac:(cdotr SR R1). step ltac:(cv [V 4; V 2; V 3; V 5; V 6; V 7]).
    step ltac:(cdot SR). step ltac:(cdot SR). step cperm. cv [F (V 5) (FF 9 11); F (V 4) (FF 10 12)].
  - step ltac:(unfold double_layer; step ltac:(cein SR); cv [FF 2 3; FF 6 7; FF 9 11; FF 10 12]).
    unfold c2x2_dl. step ltac:(cdotr SR R0). step ltac:(cdotr SR R1). step ltac:(cdot SR). step cperm. cv [F (V 5) (FF 9 11); F (V 4) (FF 10 12)].
  - check. - check. - reflexivity. Qed.

Lemma fits_row T a P : shaped [chi; chi; Dn * Dn] T -> shaped [d; Dn; Dn; Dn; Dn] a -> shaped [chi * (Dn * Dn); chi] P ->
  fits DR (net_row cj T a P).
Proof. intros [W1 E1] [W2 E2] [W3 E3]. unfold net_row. repeat (apply Forall_cons; [cbn [fst snd]; split; [|cbn; assumption]|]); try assumption.
  - now apply twf_tmap.
  - now apply twf_tmap.
  - apply Forall_nil. Qed.
Lemma view_tmap {A B} (f : A -> B) (t : tensor A) dims : view (tmap f t) dims = (x <- view t dims ;; Ok (tmap f x)).
Proof. unfold view, treshape. cbn. rewrite map_length. destruct (_ =? _); reflexivity. Qed.
Lemma row_ok T a P : shaped [chi; chi; Dn * Dn] T -> shaped [d; Dn; Dn; Dn; Dn] a -> shaped [chi * (Dn * Dn); chi] P ->
  exists M, absorb_sl z o add mul cj chi a T P = Ok M
    /\ (A <- double_layer z o add mul cj a ;; absorb_dl z o add mul cj chi A T P) = Ok M
    /\ is_contraction DR z o add mul (net_row cj T a P) out_row M.
Proof. intros HT Ha HP. assert (HF := fits_row T a P HT Ha HP). leaves5 SR HF.
  assert (HS : size T 2 = Dn * Dn) by (unfold size; now rewrite (proj2 HT)).
  assert (V1 := rep_view z o add mul DR (env_of (net_row cj T a P)) _ [V 0; FF 1 2; V 10] _ P [chi; size T 2; chi] R ltac:(cbn; reflexivity)).
  destruct V1 as (P3 & EP & RP); [rewrite HS; reflexivity|].
  assert (V2 := rep_view z o add mul DR (env_of (net_row cj T a P)) _ [V 3; FF 6 7; V 11] _ (tmap cj P) [chi; size T 2; chi] R3 ltac:(cbn; reflexivity)).
  destruct V2 as (Q3 & EQ & RQ); [rewrite HS; reflexivity|].
  rewrite view_tmap, EP in EQ. cbn in EQ. injection EQ as <-.
  both SR.
  - unfold absorb_sl. rewrite EP. cbn [bind]. step ltac:(cdot SR). step ltac:(cv [V 1; V 2; V 10; V 3; V 4; V 5]).
    step ltac:(cdot SR). step ltac:(cdot SR). step cperm. step ltac:(cv [V 10; V 3; FF 6 7; FF 8 9]). step ltac:(cdot SR). cperm.
  - step ltac:(unfold double_layer; step ltac:(cein SR); cv [FF 1 2; FF 4 5; FF 6 7; FF 8 9]).
    unfold absorb_dl. rewrite EP. cbn [bind]. step ltac:(cdot SR). step ltac:(cdot SR). step ltac:(cdot SR). cperm.
  - check. - check. - reflexivity. Qed.
End P.
