(** C29, C30: symmetrization by the point group of the square, groups/pg.py and ipeps/ipeps_c4v.py. *)
From Verif Require Import Base Tensor TensorIO C4v C4vSpec C4vProofs C4vProofs2.
From Coq Require Import Ring QArith Qcanon.
Open Scope list_scope.
Open Scope string_scope.
Open Scope nat_scope.

Definition qhalf : Qc := Q2Qc (1 # 2).
Notation qmake := (make_c4v_symm 0%Qc qhalf Qcplus Qcminus Qcmult (fun l => l)).
(** (u-d)(l-r) transforms like B2; the other tensor has parts in several irreps *)
Definition qz (z : Z) : Qc := Q2Qc (inject_Z z).
Definition ex_B2 : tensor Qc := tbuild [1; 2; 2; 2; 2] (fun ix => match map Z.of_nat ix with [_; u; l; d; r] => qz ((u - d) * (l - r)) | _ => qz 0 end)%Z.
Definition ex_gen : tensor Qc := tbuild [1; 2; 2; 2; 2] (fun ix => match map Z.of_nat ix with [_; u; l; d; r] => qz (8 * u + 4 * l * d + 2 * r) | _ => qz 0 end)%Z.

(** ** C29 *)
Theorem C29_projector_partial :
  forall {K} (zero one : K) add mul sub opp half, ring_theory zero one add mul sub opp (@eq K) -> add half half = one -> forall iter_set, set_order iter_set ->
  forall r, r <> B2 -> forall p D A, onsite p D A -> exists C,
    make_c4v_symm zero half add sub mul iter_set [rname r] A = Ok C /\ onsite p D C /\ transforms zero opp r C /\
    (forall s x, s < p -> bonds D x -> el zero C s x = projection zero add mul opp half r A s x) /\
    (transforms zero opp r A -> C = A).
Proof. exact @make_projector. Qed.
Print Assumptions C29_projector_partial.

(** B2: every tensor that transforms like B2 is mapped to zero, and every result changes sign
    under the half turn, under which tensors of all four irreps are invariant *)
Theorem C29_B2_annihilated :
  forall {K} (zero one : K) add mul sub opp half, ring_theory zero one add mul sub opp (@eq K) -> add half half = one -> forall iter_set, set_order iter_set ->
  forall p D A, onsite p D A ->
    (transforms zero opp B2 A -> make_c4v_symm zero half add sub mul iter_set ["B2"] A = Ok (tzeros zero (tdims A))) /\
    exists C, make_c4v_symm zero half add sub mul iter_set ["B2"] A = Ok C /\ onsite p D C /\
      forall s x, s < p -> bonds D x -> el zero C s (moved {| refl := false; shift := 2 |} x) = opp (el zero C s x).
Proof. exact (fun K z o a m s n h R H it S p D A HA => conj (B2_zero z o a m s n h R H it S p D A HA) (B2_odd z o a m s n h R H it S p D A HA)). Qed.
Print Assumptions C29_B2_annihilated.

Theorem C29_B2_refuted : exists A C, onsite 1 2 A /\ transforms 0%Qc Qcopp B2 A /\ qmake ["B2"] A = Ok C /\ C <> A.
Proof. exists ex_B2, (tzeros (Q2Qc 0) [1; 2; 2; 2; 2]). split; [split; reflexivity|]. split; [|split].
  - intros p D HD g s x Hg Hs Hx. injection HD; intros; subst p D. destruct (bonds4 _ _ Hx) as (u & l & d & r & -> & Hu & Hl & Hd & Hr).
    assert (B : forall i, i < 2 -> i = 0 \/ i = 1) by (intros; lia). assert (s = 0) by lia. subst s.
    destruct (B _ Hu) as [-> | ->], (B _ Hl) as [-> | ->], (B _ Hd) as [-> | ->], (B _ Hr) as [-> | ->];
      cbn [group In] in Hg; decompose [or] Hg; try contradiction; subst g; vm_compute; now f_equal; apply Eqdep_dec.UIP_dec; decide equality.
  - vm_compute. reflexivity.
  - intros E. apply (f_equal (fun t => tget t [0; 1; 1; 0; 0])) in E. vm_compute in E. discriminate E. Qed.
Print Assumptions C29_B2_refuted.

(** ** C30 *)
Theorem C30_sum_of_projections :
  forall {K} (zero one : K) add mul sub opp half, ring_theory zero one add mul sub opp (@eq K) -> add half half = one -> forall iter_set, set_order iter_set ->
  forall l p D A, known l -> onsite p D A -> exists C, make_c4v_symm zero half add sub mul iter_set l A = Ok C /\ onsite p D C /\
  exists Cs, (forall r, make_c4v_symm zero half add sub mul iter_set [rname r] A = Ok (Cs r)) /\
  forall s x, s < p -> bonds D x -> el zero C s x = lsum zero add (fun r => el zero (Cs r) s x) (filter (inb l) irreps4).
Proof. exact @make_sum. Qed.
Print Assumptions C30_sum_of_projections.

Theorem C30_unknown_rejected :
  forall {K} (zero : K) add mul sub half iter_set, set_order iter_set ->
  forall l (A : tensor K) i, In i l -> ~ In i ["A1"; "A2"; "B1"; "B2"] -> make_c4v_symm zero half add sub mul iter_set l A = Err AssertionError.
Proof. exact @make_rejects. Qed.
Print Assumptions C30_unknown_rejected.

Theorem C30_idempotent_partial :
  forall {K} (zero one : K) add mul sub opp half, ring_theory zero one add mul sub opp (@eq K) -> add half half = one -> forall iter_set, set_order iter_set ->
  forall l p D A C, known l -> ~ In "B2" l -> onsite p D A ->
  make_c4v_symm zero half add sub mul iter_set l A = Ok C -> make_c4v_symm zero half add sub mul iter_set l C = Ok C.
Proof. exact @make_idem. Qed.
Print Assumptions C30_idempotent_partial.

Theorem C30_idempotent_refuted : exists A C C', onsite 1 2 A /\ qmake ["B2"] A = Ok C /\ qmake ["B2"] C = Ok C' /\ tget C' [0; 1; 0; 0; 0] <> tget C [0; 1; 0; 0; 0].
Proof. exists ex_gen. eexists. eexists. split; [split; reflexivity|]. split; [vm_compute; reflexivity|]. split; [vm_compute; reflexivity|]. vm_compute. intros E. discriminate E. Qed.
Print Assumptions C30_idempotent_refuted.

(** to_ipeps_c4v, applied before a C4v state is written *)
Theorem C30_state_symmetrized :
  forall {K} (zero one : K) add mul sub opp half, ring_theory zero one add mul sub opp (@eq K) -> add half half = one -> forall iter_set, set_order iter_set ->
  forall normalized c p D,
  (forall A, onsite p D A -> exists C, to_ipeps_c4v zero half add sub mul iter_set normalized [(c, TReal A)] false = Ok (TReal C) /\
    onsite p D C /\ transforms zero opp A1 C /\ (transforms zero opp A1 A -> C = A)) /\
  (forall A, onsite p D A -> exists C, to_ipeps_c4v zero half add sub mul iter_set normalized [(c, TCplx A)] false = Ok (TCplx C) /\
    onsite p D C /\ transforms zero opp A1 (tmap fst C) /\ transforms zero opp A2 (tmap snd C) /\
    (transforms zero opp A1 (tmap fst A) -> transforms zero opp A2 (tmap snd A) -> C = A)).
Proof. exact (fun K z o a m s n h R H it S nrm c p D => conj (to_c4v_real z o a m s n h R H it S nrm c p D) (to_c4v_cplx z o a m s n h R H it S nrm c p D)). Qed.
Print Assumptions C30_state_symmetrized.

(** a tensor without symmetry is changed, and its A1 part is not zero *)
Example C29_example : exists C, qmake ["A1"] ex_gen = Ok C /\ option_map this (tget C [0; 1; 0; 0; 0]) = Some (5 # 2)%Q /\ option_map this (tget ex_gen [0; 1; 0; 0; 0]) = Some (8 # 1)%Q /\
  option_map this (tget C [0; 0; 0; 0; 1]) = Some (5 # 2)%Q.
Proof. eexists. split; [vm_compute; reflexivity|]. vm_compute. auto. Qed.
