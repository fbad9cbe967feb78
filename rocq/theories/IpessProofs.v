(** The on-site tensor of an iPESS cell is the contraction of its five tensors. *)
From Verif Require Import Base BaseLemmas Lattice Tensor TensorLemmas Net NetSpec NetProofs NetProofs2 NetProofs3 Corners CornersSpec CornersProofs RdmProofs EnvInit EnvInitSpec EnvInitProofs Plaq Ipess IpessSpec.
From Coq Require Import Ring ArithRing Field Permutation.
Open Scope string_scope.
Open Scope list_scope.
Open Scope nat_scope.
Open Scope res_scope.

Section P.
Context {K : Type} (k0 k1 : K) (kadd kmul : K -> K -> K) (kdiv : K -> K -> K) (amax : list K -> K).
Hypothesis SR : semi_ring_theory k0 k1 kadd kmul (@eq K).
Notation ten := (tensor K).
Notation isc D := (is_contraction D k0 k1 kadd kmul).
Notation amp := (amplitude k0 kadd kmul).
Notation onsite := (onsite k0 k1 kadd kmul kdiv amax).
Definition dct (F : five) : dict string ten := [("T_u", t_u F); ("T_d", t_d F); ("B_a", b_a F); ("B_b", b_b F); ("B_c", b_c F)].

Section One.
Variables (F : @five K) (pa pb pc Da Db Dc Dd Di Dj Dk Dl : nat).
Hypothesis HF : fitting F pa pb pc Da Db Dc Dd Di Dj Dk Dl.
Definition bdim (l : nat) : nat := nth l [Di; Da; Db; Dj; Dk; pc; Dl; pb; Dc; pa; Dd] 0.
Definition net5 := [(t_u F, [V 0; V 1; V 2]); (b_c F, [V 5; V 3; V 0]); (t_d F, [V 3; V 4; V 6]); (b_b F, [V 7; V 4; V 8]); (b_a F, [V 9; V 6; V 10])].
Definition out5 : list leg := [NetSpec.F (V 5) (NetSpec.F (V 7) (V 9)); V 1; V 2; V 8; V 10].
Lemma fits5 : fits bdim net5.
Proof. destruct HF as ((W1 & W2 & W3 & W4 & W5) & E1 & E2 & E3 & E4 & E5). unfold net5.
  repeat constructor; cbn [fst snd]; try assumption; cbn; assumption. Qed.
Lemma contract5 : exists A0 A1, einsum k0 k1 kadd kmul [(t_u F, [0; 1; 2]); (b_c F, [5; 3; 0]); (t_d F, [3; 4; 6]); (b_b F, [7; 4; 8]); (b_a F, [9; 6; 10])] [5; 7; 9; 1; 2; 8; 10] = Ok A0 /\
  isc bdim net5 (map V [5; 7; 9; 1; 2; 8; 10]) A0 /\
  view A0 [size (b_a F) 0 * size (b_b F) 0 * size (b_c F) 0; size (t_u F) 1; size (t_u F) 2; size (b_b F) 2; size (b_a F) 2] = Ok A1 /\ isc bdim net5 out5 A1.
Proof. pose proof fits5 as H. unfold net5 in *.
  leaf SR H 0. leaf SR H 1. leaf SR H 2. leaf SR H 3. leaf SR H 4.
  edestruct (rep_einsum _ _ _ _ SR bdim) with (ops := [(t_u F, [0; 1; 2]); (b_c F, [5; 3; 0]); (t_d F, [3; 4; 6]); (b_b F, [7; 4; 8]); (b_a F, [9; 6; 10])]) (out := [5; 7; 9; 1; 2; 8; 10]) as (A0 & E0 & Q0).
  { repeat (apply Forall2_cons; [cbn [fst]; eassumption|]); apply Forall2_nil. }
  { cbn [map snd]. vm_compute. reflexivity. }
  assert (HD : [size (b_a F) 0 * size (b_b F) 0 * size (b_c F) 0; size (t_u F) 1; size (t_u F) 2; size (b_b F) 2; size (b_a F) 2] = map (ldim bdim) out5).
  { destruct HF as (_ & D1 & D2 & D3 & D4 & D5). unfold size. rewrite D1, D2, D4, D5. cbn. f_equal. ring. }
  match type of Q0 with rep _ _ _ _ _ ?e ?S0 _ => destruct (rep_view k0 k1 kadd kmul bdim e S0 out5 (mkS out5 (s_bnd S0) (s_fac S0)) A0 _ Q0 eq_refl HD) as (A1 & E1 & Q1) end.
  cbn [s_bnd s_fac] in Q1.
  set (fac := [(0, [V 0; V 1; V 2]); (1, [V 5; V 3; V 0]); (2, [V 3; V 4; V 6]); (3, [V 7; V 4; V 8]); (4, [V 9; V 6; V 10])]) in *.
  exists A0, A1. split; [exact E0|]. split; [refine (rep_contraction _ _ _ _ SR bdim _ _ fac _ _ Q0 _); vm_compute; reflexivity|].
  split; [exact E1|]. refine (rep_contraction _ _ _ _ SR bdim _ _ fac _ _ Q1 _); vm_compute; reflexivity. Qed.
(** the sums written out *)
Notation A7 := [pc; pb; pa; Da; Db; Dc; Dd].
Definition amp7 (ix : list nat) : K := match ix with [u; v; w; a; b; c; d] => amp F Di Dj Dk Dl u v w a b c d | _ => k0 end.
Lemma entry5 out A s : isc bdim net5 out A -> flat_map bonds out = [5; 7; 9; 1; 2; 8; 10] -> (forall l, In l [5; 7; 9; 1; 2; 8; 10] -> s l < bdim l) ->
  tget A (map (lval bdim s) out) = Some (amp F Di Dj Dk Dl (s 5) (s 7) (s 9) (s 1) (s 2) (s 8) (s 10)).
Proof. intros (_ & _ & H) E Hs. rewrite H by (rewrite E; exact Hs). f_equal. unfold inner. rewrite E. clear -SR.
  match goal with |- sum_over _ _ _ ?l _ _ = _ => let l' := eval vm_compute in l in change l with l' end.
  assert (R1 : forall x, kmul x k1 = x) by (intros x; destruct SR; now rewrite SRmul_comm, SRmul_1_l).
  unfold amplitude, sum_to. cbn [sum_over]. unfold sum_list.
  change (bdim 0) with Di. change (bdim 3) with Dj. change (bdim 4) with Dk. change (bdim 6) with Dl.
  f_equal. apply map_ext; intros i. f_equal. apply map_ext; intros j. f_equal. apply map_ext; intros k. f_equal. apply map_ext; intros l.
  unfold product, net5, prod_list. cbn [map fst snd fold_right lval]. rewrite R1. reflexivity. Qed.
Definition at_of (u v w a b c d : nat) (l : nat) : nat := nth l [0; a; b; 0; 0; u; 0; v; c; w; d] 0.
Lemma rng7 u v w a b c d : in_range A7 [u; v; w; a; b; c; d] -> forall l, In l [5; 7; 9; 1; 2; 8; 10] -> at_of u v w a b c d l < bdim l.
Proof. intros H l Hl. cbn [In] in Hl. unfold in_range in H. repeat match goal with H : Forall2 _ (_ :: _) (_ :: _) |- _ => inversion H; clear H; subst end.
  repeat (destruct Hl as [<-|Hl]; [unfold at_of, bdim; cbn [nth]; assumption|]). destruct Hl. Qed.
Lemma onsite_ok e : dget e "T_u" = Some (t_u F) -> dget e "T_d" = Some (t_d F) -> dget e "B_a" = Some (b_a F) -> dget e "B_b" = Some (b_b F) -> dget e "B_c" = Some (b_c F) ->
  prod_dims A7 <> 0 ->
  exists A, onsite e = Ok A /\ twf A /\ tdims A = [pc * (pb * pa); Da; Db; Dc; Dd] /\
    forall u v w a b c d, u < pc -> v < pb -> w < pa -> a < Da -> b < Db -> c < Dc -> d < Dd ->
      tget A [u * (pb * pa) + (v * pa + w); a; b; c; d] = Some (kdiv (amp F Di Dj Dk Dl u v w a b c d) (amax (map amp7 (indices A7)))).
Proof. intros E1 E2 E3 E4 E5 HN. destruct contract5 as (A0 & A1 & H0 & I0 & H1 & I1).
  assert (EA : A0 = tbuild A7 amp7).
  { assert (W0 := proj1 I0). assert (D0 := proj1 (proj2 I0)). apply tensor_ext; [exact W0|apply twf_tbuild|exact D0|].
    intros ix Hix. rewrite D0 in Hix. cbn [map ldim] in Hix. change (in_range A7 ix) in Hix.
    rewrite tget_tbuild by exact Hix. assert (L := in_range_length _ _ Hix).
    destruct ix as [|u [|v [|w [|a [|b [|c [|d [|]]]]]]]]; try discriminate L.
    refine (eq_trans _ (entry5 _ A0 (at_of u v w a b c d) I0 eq_refl _)); [reflexivity|].
    apply rng7; exact Hix. }
  assert (EV : tdata A1 = tdata A0).
  { unfold view, treshape in H1. destruct (_ =? _) in H1; [|discriminate]. now injection H1 as <-. }
  assert (ED : tdata A1 = map amp7 (indices A7)) by (rewrite EV, EA; reflexivity).
  unfold Ipess.onsite, dget_exn. rewrite E1, E2, E3, E4, E5. cbn [bind]. rewrite H0. cbn [bind]. rewrite H1. cbn [bind].
  destruct (tdata A1) as [|x l] eqn:EX.
  { exfalso. apply HN. rewrite <- length_indices. apply (f_equal (@length K)) in ED. rewrite map_length in ED. now rewrite <- ED. }
  rewrite ED. eexists. split; [reflexivity|]. split; [apply twf_tmap, I1|]. split; [exact (proj1 (proj2 I1))|].
  intros u v w a b c d Hu Hv Hw Ha Hb Hc Hd. rewrite tget_tmap.
  assert (Q := entry5 out5 A1 (at_of u v w a b c d) I1 eq_refl (rng7 u v w a b c d ltac:(repeat constructor; assumption))).
  cbn [map lval out5 ldim] in Q. cbn [at_of nth bdim] in Q. change (bdim 7) with pb in Q. change (bdim 9) with pa in Q. 
  match type of Q with tget _ ?i = _ => change i with [u * (pb * pa) + (v * pa + w); a; b; c; d] in Q end. rewrite Q. reflexivity. Qed.
End One.
End P.
