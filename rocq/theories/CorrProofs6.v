(** Two-site operators, split by a singular value decomposition. *)
From Verif Require Import Base BaseLemmas Lattice Tensor TensorLemmas Net NetSpec NetProofs NetProofs2 NetProofs3 Corners CornersSpec CornersProofs Rdm RdmSpec RdmProofs Corr CorrSpec CorrProofs.
From Verif Require Ctm.
From Coq Require Import Ring ArithRing Permutation.
Open Scope list_scope.
Open Scope nat_scope.
Open Scope res_scope.

Section P.
Context {K : Type} (z o : K) (add mul : K -> K -> K) (cj : K -> K).
Hypothesis SR : semi_ring_theory z o add mul eq.
Add Ring KR : SR.
Notation ten := (tensor K).
Variable svd : ten -> res (ten * list K * ten).
Hypothesis SV : svd_exact z add mul cj svd.

Definition DD (d L k : nat) : nat := if k =? 4 then L else d.
Lemma pow2 d : d ^ 2 = d * d.
Proof. cbn. lia. Qed.
Ltac dleaf_fits := constructor; [split; [cbn [fst]; assumption|cbn [fst snd map ldim DD Nat.eqb FF]; try assumption]|].
Lemma isc_entry D net out M s v : is_contraction D z o add mul net out M -> (forall l, In l (flat_map bonds out) -> s l < D l) ->
  sum_over D z add (inner net out) (product D z o mul net) s = v -> tget M (map (lval D s) out) = Some v.
Proof. intros (_ & _ & H) Hs E. rewrite (H s Hs). now rewrite E. Qed.

Lemma split_ok op d : d <> 0 -> twf op -> tdims op = [d; d; d; d] ->
  exists l r L, split_op z o add mul cj svd true op = Ok (l, r) /\ L <> 0 /\ twf l /\ twf r /\ tdims l = [d; d; L] /\ tdims r = [d; d; L] /\
  forall a b c e, a < d -> b < d -> c < d -> e < d ->
    tget op [a; b; c; e] = Some (sum_list z add (map (fun k => mul (entry z l [a; c; k]) (entry z r [b; e; k])) (seq 0 L))).
Proof. intros Hd W Hop. unfold split_op. replace (size op 0) with d by (unfold size; now rewrite Hop).
  (* the matrix *)
  assert (X1 : exists M, (m <- permute z op [0; 2; 1; 3] ;; view m [d ^ 2; d ^ 2]) = Ok M /\ is_contraction (DD d 1) z o add mul [(op, [V 0; V 1; V 2; V 3])] [FF 0 2; FF 1 3] M).
  { assert (HF : fits (DD d 1) [(op, [V 0; V 1; V 2; V 3])]) by (constructor; [split; [exact W|exact Hop]|constructor]).
    leaves SR HF. singleE SR; [step cperm; cviewe [FF 0 2; FF 1 3]|check|reflexivity]. all: cbn; lia. }
  destruct X1 as (M & EM & IM). destruct (permute z op [0; 2; 1; 3]) as [m0|?] eqn:E0; [|discriminate EM]. cbn [bind] in EM |- *. rewrite EM. cbn [bind].
  assert (WM := proj1 IM). assert (DM := proj1 (proj2 IM)). cbn in DM.
  destruct (SV M (d * d)) as (u & s & v & ES & Hs & Wu & Wv & Du & Dv & HV); [nia|exact WM|exact DM|].
  rewrite ES. cbn [bind]. set (L := length s) in *. assert (HL : L <> 0) by (subst L; destruct s; [contradiction|cbn; lia]).
  (* left *)
  assert (X2 : exists l, view u [d; d; L] = Ok l /\ is_contraction (DD d L) z o add mul [(u, [FF 0 2; V 4])] [V 0; V 2; V 4] l).
  { assert (HF : fits (DD d L) [(u, [FF 0 2; V 4])]) by (constructor; [split; [exact Wu|exact Du]|constructor]).
    leaves SR HF. singleE SR; [cviewe [V 0; V 2; V 4]|check|reflexivity]. }
  destruct X2 as (l & El & Il). rewrite El. cbn [bind].
  (* right *)
  assert (X3 : exists vt, permute z v [1; 0] = Ok vt /\ is_contraction (DD d L) z o add mul [(v, [FF 1 3; V 4])] [V 4; FF 1 3] vt).
  { assert (HF : fits (DD d L) [(v, [FF 1 3; V 4])]) by (constructor; [split; [exact Wv|exact Dv]|constructor]).
    leaves SR HF. singleE SR; [cperm|check|reflexivity]. }
  destruct X3 as (vt & Ev & Iv). rewrite Ev. cbn [bind].
  assert (WS : twf (mkT [L] s)). { unfold twf. cbn. lia. }
  assert (Wh : twf (conj cj vt)) by (apply twf_tmap; exact (proj1 Iv)).
  assert (X4 : exists r, (x <- einsum z o add mul [(conj cj vt, [0; 1]); (mkT [L] s, [0])] [0; 1] ;; (y <- view x [L; d; d] ;; permute z y [1; 2; 0])) = Ok r
    /\ is_contraction (DD d L) z o add mul [(conj cj vt, [V 4; FF 1 3]); (mkT [L] s, [V 4])] [V 1; V 3; V 4] r).
  { assert (HF : fits (DD d L) [(conj cj vt, [V 4; FF 1 3]); (mkT [L] s, [V 4])]).
    { constructor; [split; [exact Wh|exact (proj1 (proj2 Iv))]|]. constructor; [split; [exact WS|reflexivity]|constructor]. }
    leaves SR HF. singleE SR; [step ltac:(cein SR); step ltac:(cviewe [V 4; V 1; V 3]); cperm|check|reflexivity]. }
  destruct X4 as (r & Er & Ir). destruct (einsum z o add mul [(conj cj vt, [0; 1]); (mkT [L] s, [0])] [0; 1]) as [x|?] eqn:Ex; [|discriminate Er]. cbn [bind] in Er |- *.
  destruct (view x [L; d; d]) as [y|?] eqn:Ey; [|discriminate Er]. cbn [bind] in Er |- *. rewrite Er. cbn [bind].
  exists l, r, L. split; [reflexivity|]. split; [exact HL|]. split; [exact (proj1 Il)|]. split; [exact (proj1 Ir)|].
  split; [exact (proj1 (proj2 Il))|]. split; [exact (proj1 (proj2 Ir))|].
  intros a b c e Ha Hb Hc He.
  pose (sg := fun k4 k => match k with 0 => a | 1 => b | 2 => c | 3 => e | _ => k4 end).
  assert (P : a * d + c < d * d /\ b * d + e < d * d) by nia. destruct P as [P1 P2].
  destruct (tget_Some op [a; b; c; e]) as [w Hw]; [exact W|rewrite Hop; repeat (constructor; [assumption|]); constructor|].
  rewrite Hw. f_equal.
  assert (EM' : entry z M [a * d + c; b * d + e] = w).
  { assert (Y := isc_entry (DD d 1) _ _ M (sg 0) w IM). unfold entry. cbn in Y. rewrite Y; [reflexivity| |].
    - cbn. intros k [<-|[<-|[<-|[<-|[]]]]]; cbn; assumption.
    - cbn. unfold entry. rewrite Hw. ring. }
  rewrite <- EM', HV by assumption. f_equal. apply map_ext_in. intros k Hk. apply in_seq in Hk.
  assert (Rg : forall q, In q [0; 1; 2; 3; 4] -> sg k q < DD d L q).
  { intros q [<-|[<-|[<-|[<-|[<-|[]]]]]]; cbn; lia. }
  assert (Y1 : entry z l [a; c; k] = entry z u [a * d + c; k]).
  { assert (Y := isc_entry (DD d L) _ _ l (sg k) (entry z u [a * d + c; k]) Il). unfold entry at 1. cbn in Y. rewrite Y; [reflexivity| |].
    - intros q Hq. apply Rg. cbn. tauto.
    - ring. }
  assert (Y2 : entry z vt [k; b * d + e] = entry z v [b * d + e; k]).
  { assert (Y := isc_entry (DD d L) _ _ vt (sg k) (entry z v [b * d + e; k]) Iv). unfold entry at 1. cbn in Y. rewrite Y; [reflexivity| |].
    - intros q Hq. apply Rg. cbn. tauto.
    - ring. }
  assert (Y3 : entry z r [b; e; k] = mul (entry z (conj cj vt) [k; b * d + e]) (nth k s z)).
  { assert (Y := isc_entry (DD d L) _ _ r (sg k) (mul (entry z (conj cj vt) [k; b * d + e]) (nth k s z)) Ir). unfold entry at 1. cbn -[conj] in Y. rewrite Y; [reflexivity| |].
    - intros q Hq. apply Rg. cbn. tauto.
    - change (entry z (mkT [L] s) [k]) with (match tget (mkT [L] s) [k] with Some v => v | None => z end).
      rewrite (tget_flat (mkT [L] s) [k] WS) by (constructor; [cbn; lia|constructor]). cbn [tdims tdata flat]. cbn [prod_dims fold_right]. replace (k * 1 + 0) with k by lia.
      rewrite (nth_error_nth' s z) by (fold L; lia). ring. }
  assert (Y4 : entry z (conj cj vt) [k; b * d + e] = cj (entry z v [b * d + e; k])).
  { rewrite <- Y2. unfold entry. unfold conj. rewrite tget_tmap.
    destruct (tget_Some vt [k; b * d + e]) as [x' Hx']; [exact (proj1 Iv)| |rewrite Hx'; reflexivity].
    rewrite (proj1 (proj2 Iv)). constructor; [cbn; lia|]. constructor; [cbn; lia|constructor]. }
  rewrite Y1, Y3, Y4. ring. Qed.
End P.
