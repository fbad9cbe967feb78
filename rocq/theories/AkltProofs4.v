(** The projector on spin 4, the documented formula, and the rotated operators. *)
From Verif Require Import Base BaseLemmas Tensor TensorLemmas Su2 Su2Spec Su2Proofs Net Aklt AkltSpec AkltProofs AkltProofs2 AkltProofs3.
From Coq Require Import Reals Lra.
Open Scope list_scope.
Open Scope R_scope.

Notation up5 := (Su2Proofs.up 5). Notation zed5 := (zed 5). Notation dn5 := (dn 5).
Lemma xJ5 J : xJ 5 J = (INR J * (INR J + 1) - 12) / 2.
Proof. unfold xJ, spin. replace (INR 5) with 5 by (simpl; ring). lra. Qed.
Lemma quartic_ext m A A' B B' C C' c1 c2 c3 c4 v : meq m A A' -> meq m B B' -> meq m C C' -> seq2 m (quartic m A B C c1 c2 c3 c4 v) (quartic m A' B' C' c1 c2 c3 c4 v).
Proof. intros HA HB HC. unfold quartic. cbv zeta. repeat apply sadd_ext; apply sscale_ext; repeat (apply dot_ext; try assumption); apply s_refl. Qed.
Lemma has_spin_ext m A A' B B' C C' J v : meq m A A' -> meq m B B' -> meq m C C' -> has_spin m A B C J v -> has_spin m A' B' C' J v.
Proof. intros HA HB HC H i a Hi Ha. rewrite <- (H i a Hi Ha). symmetry. apply (total_ext m A A' B B' C C' v v); try assumption. apply s_refl. Qed.
Lemma meq_sym m A B : meq m A B -> meq m B A.
Proof. intros H i j Hi Hj. symmetry. now apply H. Qed.

Lemma half_projector h : meq 25 (fl (mel4 h)) (polyR (fl ss)) -> projector 5 zed5 up5 dn5 4 (fun v => sscale (1/2) (act 5 (mel4 h) v)).
Proof. intros HF K v HK LK i a Hi Ha. unfold sscale. rewrite (act_h h v HF i a Hi Ha).
  rewrite (quartic_eigen 5 zed5 up5 dn5 _ _ _ _ _ v (spin_eigen 5 _ _ _ K v (algebra_explicit 5) HK) i a Hi Ha). rewrite !xJ5. unfold sscale.
  destruct K as [|[|[|[|[|K]]]]]; [| | | | |exfalso; Lia.lia]; cbn [Nat.eqb]; unfold zero; simpl (INR _); field. Qed.
Lemma h_spin4 h v : meq 25 (fl (mel4 h)) (polyR (fl ss)) -> has_spin 5 zed5 up5 dn5 4 (act 5 (mel4 h) v).
Proof. intros HF. apply eigen_spin; [apply algebra_explicit|]. intros i a Hi Ha. rewrite (act_X_h h v HF i a Hi Ha). rewrite xJ5. unfold sscale. f_equal. simpl. lra. Qed.
Lemma h_symmetric h : meq 25 (fl (mel4 h)) (polyR (fl ss)) -> hermitian4 5 (mel4 h).
Proof. intros HF i a j b Hi Ha Hj Hb. assert (H1 : (5 * i + a < 25)%nat) by Lia.lia. assert (H2 : (5 * j + b < 25)%nat) by Lia.lia.
  pose proof (HF _ _ H1 H2) as E1. pose proof (HF _ _ H2 H1) as E2. rewrite (h_sym _ _ H1 H2) in E1. unfold mtrans in E1. rewrite <- E2 in E1.
  unfold fl in E1. now rewrite !div5, !mod5 in E1. Qed.

Lemma aklt_ok : exists h SS Sz Sp Sm, aklt_h 5 = Ok (h, SS) /\ get_op 5 OpSz = Ok Sz /\ get_op 5 OpSp = Ok Sp /\ get_op 5 OpSm = Ok Sm /\
  tdims h = [5; 5; 5; 5]%nat /\ tdims SS = [5; 5; 5; 5]%nat /\
  (forall v, seq2 5 (act 5 (mel4 SS) v) (dot_spins 5 (mel Sz) (mel Sp) (mel Sm) v)) /\
  (forall v, seq2 5 (act 5 (mel4 h) v) (quartic 5 (mel Sz) (mel Sp) (mel Sm) (1/14) (1/20) (1/90) (1/1260) v)) /\
  hermitian4 5 (mel4 h) /\ (forall v, has_spin 5 (mel Sz) (mel Sp) (mel Sm) 4 (act 5 (mel4 h) v)) /\
  projector 5 (mel Sz) (mel Sp) (mel Sm) 4 (fun v => sscale (1/2) (act 5 (mel4 h) v)).
Proof. destruct h_elements as (h & SS & E & Wh & Dh & Ws & Ds & _ & Gs & HF).
  destruct (get_sz 5) as (Sz & Ez & _ & _ & Gz), (get_sp 5) as (Sp & Ep & _ & _ & Gp), (get_sm 5) as (Sm & Em & _ & _ & Gm).
  exists h, SS, Sz, Sp, Sm. do 6 (split; [assumption|]). pose proof (meq_sym _ _ _ Gz) as Gz'. pose proof (meq_sym _ _ _ Gp) as Gp'. pose proof (meq_sym _ _ _ Gm) as Gm'.
  split. { intros v. eapply s_trans; [apply (act_ext 5 _ ss v v Gs (s_refl 5 v))|]. eapply s_trans; [apply act_ss|]. apply dot_ext; try assumption. apply s_refl. }
  split. { intros v. eapply s_trans; [apply (act_h h v HF)|]. now apply quartic_ext. }
  split; [now apply h_symmetric|].
  split. { intros v. apply (has_spin_ext 5 zed5 _ up5 _ dn5); try assumption. now apply h_spin4. }
  intros K v HK LK. apply (half_projector h HF K v); [|exact LK]. now apply (has_spin_ext 5 (mel Sz) _ (mel Sp) _ (mel Sm)). Qed.

(** ** two states *)
Definition up_up (i a : nat) : R := if (Nat.eqb i 0 && Nat.eqb a 0)%bool then 1 else 0.
Lemma h0000 h : meq 25 (fl (mel4 h)) (polyR (fl ss)) -> mel4 h 0 0 0 0 = 2.
Proof. intros HF. pose proof (HF 0%nat 0%nat ltac:(Lia.lia) ltac:(Lia.lia)) as E. rewrite poly_q in E by Lia.lia. unfold fl in E. change (0 / 5)%nat with 0%nat in E. change (0 mod 5)%nat with 0%nat in E.
  rewrite E. unfold mscale, evm. replace (at2 qH 0 0) with (qz 2520) by (vm_compute; reflexivity). rewrite ev_z. lra. Qed.
Lemma h_up h : meq 25 (fl (mel4 h)) (polyR (fl ss)) -> act 5 (mel4 h) up_up 0 0 = 2.
Proof. intros HF. unfold act, up_up. cbn [rsum Nat.eqb andb]. rewrite (h0000 h HF). ring. Qed.
(** the singlet *)
Definition singlet (i a : nat) : R := if Nat.eqb (i + a) 4 then (-1) ^ i else 0.
Lemma singlet_tot : seq2 5 (tot 5 zed5 singlet) zero /\ seq2 5 (tot 5 up5 singlet) zero /\ seq2 5 (tot 5 dn5 singlet) zero.
Proof. assert (G : forall A q, (forall i j, (i < 5)%nat -> (j < 5)%nat -> A i j = ev (q i j)) ->
    (forall i a, (i < 5)%nat -> (a < 5)%nat -> rsum 5 (fun j => ev (q i j) * singlet j a) + rsum 5 (fun b => ev (q a b) * singlet i b) = 0) -> seq2 5 (tot 5 A singlet) zero).
  { intros A q Hq H i a Hi Ha. unfold tot, sadd, on1, on2, zero. rewrite <- (H i a Hi Ha). f_equal; apply rsum_ext; intros k Hk; now rewrite Hq. }
  split; [|split].
  - apply (G _ qsz); [intros; now apply zed_q|]. intros i a Hi Ha.
    destruct i as [|[|[|[|[|]]]]], a as [|[|[|[|[|]]]]]; try (exfalso; Lia.lia); unfold singlet, ev, qsz, qz; cbn; ring.
  - apply (G _ qsp); [intros; now apply up_q|]. intros i a Hi Ha.
    destruct i as [|[|[|[|[|]]]]], a as [|[|[|[|[|]]]]]; try (exfalso; Lia.lia); unfold singlet, ev, qsp, qz, qc; cbn; ring.
  - apply (G _ (fun i j => qsp j i)); [intros; now apply dn_q|]. intros i a Hi Ha.
    destruct i as [|[|[|[|[|]]]]], a as [|[|[|[|[|]]]]]; try (exfalso; Lia.lia); unfold singlet, ev, qsp, qz, qc; cbn; ring. Qed.
Lemma tot_zero A v : seq2 5 v zero -> seq2 5 (tot 5 A v) zero.
Proof. intros H i a Hi Ha. unfold tot, sadd, on1, on2, zero. rewrite !rsum_0; [lra| |]; intros k Hk; rewrite H by assumption; unfold zero; lra. Qed.
Lemma singlet_spin : has_spin 5 zed5 up5 dn5 0 singlet.
Proof. destruct singlet_tot as (H1 & H2 & H3). intros i a Hi Ha. unfold total_spin2, sadd, sscale. rewrite !tot_zero by assumption. unfold zero. simpl. lra. Qed.

Lemma not_projector : exists h SS Sz Sp Sm, aklt_h 5 = Ok (h, SS) /\ get_op 5 OpSz = Ok Sz /\ get_op 5 OpSp = Ok Sp /\ get_op 5 OpSm = Ok Sm /\
  ~ projector 5 (mel Sz) (mel Sp) (mel Sm) 4 (act 5 (mel4 h)).
Proof. destruct h_elements as (h & SS & E & Wh & Dh & Ws & Ds & _ & Gs & HF).
  destruct (get_sz 5) as (Sz & Ez & _ & _ & Gz), (get_sp 5) as (Sp & Ep & _ & _ & Gp), (get_sm 5) as (Sm & Em & _ & _ & Gm).
  exists h, SS, Sz, Sp, Sm. do 4 (split; [assumption|]). intros P. pose proof (h_spin4 h up_up HF) as H4.
  pose proof (P 4%nat _ (has_spin_ext 5 zed5 _ up5 _ dn5 _ _ _ (meq_sym _ _ _ Gz) (meq_sym _ _ _ Gp) (meq_sym _ _ _ Gm) H4) ltac:(Lia.lia) 0%nat 0%nat ltac:(Lia.lia) ltac:(Lia.lia)) as C1.
  pose proof (half_projector h HF 4%nat _ H4 ltac:(Lia.lia) 0%nat 0%nat ltac:(Lia.lia) ltac:(Lia.lia)) as C2. cbn [Nat.eqb] in C1, C2. unfold sscale in C2. rewrite C1 in C2. rewrite (h_up h HF) in C2. lra. Qed.
Lemma documented_not : exists Sz Sp Sm, get_op 5 OpSz = Ok Sz /\ get_op 5 OpSp = Ok Sp /\ get_op 5 OpSm = Ok Sm /\
  forall c, ~ projector 5 (mel Sz) (mel Sp) (mel Sm) 4 (fun v => sscale c (quartic 5 (mel Sz) (mel Sp) (mel Sm) (1/14) (7/10) (7/45) (1/90) v)).
Proof. destruct h_elements as (h & SS & E & Wh & Dh & Ws & Ds & _ & Gs & HF).
  destruct (get_sz 5) as (Sz & Ez & _ & _ & Gz), (get_sp 5) as (Sp & Ep & _ & _ & Gp), (get_sm 5) as (Sm & Em & _ & _ & Gm).
  exists Sz, Sp, Sm. do 3 (split; [assumption|]). intros c P.
  assert (G : forall J v x, has_spin 5 zed5 up5 dn5 J v -> (J < 5)%nat -> xJ 5 J = x ->
    c * ((1/14 * x + 7/10 * (x * x) + 7/45 * (x * x * x) + 1/90 * (x * x * x * x)) * v 0%nat 4%nat) = (if Nat.eqb J 4 then v else zero) 0%nat 4%nat /\
    c * ((1/14 * x + 7/10 * (x * x) + 7/45 * (x * x * x) + 1/90 * (x * x * x * x)) * v 0%nat 0%nat) = (if Nat.eqb J 4 then v else zero) 0%nat 0%nat).
  { intros J v x HJ LJ <-. pose proof (has_spin_ext 5 zed5 _ up5 _ dn5 _ _ _ (meq_sym _ _ _ Gz) (meq_sym _ _ _ Gp) (meq_sym _ _ _ Gm) HJ) as HJ'.
    split; rewrite <- (P J v HJ' LJ) by Lia.lia; unfold sscale at 1;
      rewrite (quartic_ext 5 (mel Sz) zed5 (mel Sp) up5 (mel Sm) dn5 _ _ _ _ v Gz Gp Gm) by Lia.lia;
      rewrite (quartic_eigen 5 zed5 up5 dn5 _ _ _ _ _ v (spin_eigen 5 _ _ _ J v (algebra_explicit 5) HJ)) by Lia.lia; reflexivity. }
  destruct (G 0%nat singlet (-6) singlet_spin ltac:(Lia.lia) ltac:(rewrite xJ5; simpl; lra)) as [G0 _].
  destruct (G 4%nat _ 4 (h_spin4 h up_up HF) ltac:(Lia.lia) ltac:(rewrite xJ5; simpl; lra)) as [_ G4].
  rewrite (h_up h HF) in G4. cbn [Nat.eqb] in G0, G4. rewrite (h_up h HF) in G4. unfold singlet, zero in G0. cbn in G0. lra. Qed.

(** ** the rotated operators *)
Lemma rot_sym_el r : get_rot_op 5 = Ok r -> forall i j, (i < 5)%nat -> (j < 5)%nat -> mel r i j = mel r j i.
Proof. intros Er i j Hi Hj. destruct (get_rot 5) as (r' & Er' & _ & _ & Gr). assert (r' = r) by congruence. subst r'. rewrite !Gr by assumption. unfold rot.
  destruct i as [|[|[|[|[|]]]]], j as [|[|[|[|[|]]]]]; try (exfalso; Lia.lia); cbn; ring. Qed.
Lemma rot_second_el r A i j a b : (i < 5)%nat -> (j < 5)%nat -> (a < 5)%nat -> (b < 5)%nat ->
  mel4 (rot_second 5 r A) i j a b = rsum 5 (fun l => rsum 5 (fun k => mel r j l * mel4 A i l a k * mel r k b)).
Proof. intros. unfold mel4 at 1, rot_second. rewrite tget_tbuild by (now apply in_range4). rewrite rsum_fold. f_equal. apply map_ext. intros l. rewrite rsum_fold. reflexivity. Qed.
Lemma act_rot r A v : get_rot_op 5 = Ok r -> seq2 5 (act 5 (mel4 (rot_second 5 r A)) v) (on2 5 (mtrans (mel r)) (act 5 (mel4 A) (on2 5 (mel r) v))).
Proof. intros Er i j Hi Hj. unfold act at 1.
  transitivity (rsum 5 (fun a => rsum 5 (fun b => rsum 5 (fun l => rsum 5 (fun k => mel r j l * mel4 A i l a k * mel r k b * v a b))))).
  { apply rsum_ext. intros a Ha. apply rsum_ext. intros b Hb. rewrite rot_second_el by assumption. rewrite Rmult_comm, <- rsum_scale. apply rsum_ext. intros l _. rewrite <- rsum_scale. apply rsum_ext. intros. lra. }
  unfold on2 at 1, act, on2, mtrans.
  transitivity (rsum 5 (fun l => rsum 5 (fun a => rsum 5 (fun b => rsum 5 (fun k => mel r j l * mel4 A i l a k * mel r k b * v a b))))).
  { transitivity (rsum 5 (fun a => rsum 5 (fun l => rsum 5 (fun b => rsum 5 (fun k => mel r j l * mel4 A i l a k * mel r k b * v a b))))).
    - apply rsum_ext. intros a _. apply (rsum_swap 5 5 (fun b l => rsum 5 (fun k => mel r j l * mel4 A i l a k * mel r k b * v a b))).
    - apply (rsum_swap 5 5 (fun a l => rsum 5 (fun b => rsum 5 (fun k => mel r j l * mel4 A i l a k * mel r k b * v a b)))). }
  apply rsum_ext. intros l Hl. rewrite (rot_sym_el r Er l j Hl Hj). rewrite <- rsum_scale. apply rsum_ext. intros a _. rewrite <- rsum_scale. rewrite rsum_swap.
  apply rsum_ext. intros k _. rewrite <- Rmult_assoc, <- rsum_scale. apply rsum_ext. intros. lra. Qed.
Lemma bind_ok {A B} (x : res A) (f : A -> res B) y : bind x f = Ok y -> exists a, x = Ok a /\ f a = Ok y.
Proof. destruct x as [a|]; [|discriminate]. intros H. now exists a. Qed.
Lemma bind_eq {A B} (x : res A) (f : A -> res B) a y : x = Ok a -> f a = y -> bind x f = y.
Proof. intros -> <-. reflexivity. Qed.
Lemma aklt_c4v_split pd h SS r : aklt_h pd = Ok (h, SS) -> aklt_SS pd = Ok SS -> get_rot_op pd = Ok r -> aklt_c4v_h pd = Ok (rot_second pd r h, SS, rot_second pd r SS).
Proof. intros E ES Er. unfold aklt_h in E. apply bind_ok in E as (S0 & E0 & E). assert (S0 = SS) by congruence. subst S0.
  apply bind_ok in E as (M & E1 & E). apply bind_ok in E as (h' & E2 & E). apply bind_ok in E as (S' & E3 & E).
  apply (f_equal (fun x => match x with Ok p => p | Err _ => (h, SS) end)) in E. cbn beta iota in E. apply pair_equal_spec in E as [Eh ES']. subst h' S'.
  unfold aklt_c4v_h. apply (bind_eq _ _ _ _ ES). apply (bind_eq _ _ _ _ Er). cbv zeta. apply (bind_eq _ _ _ _ E1). apply (bind_eq _ _ _ _ E2). apply (bind_eq _ _ _ _ E3). reflexivity. Qed.
Lemma rot_dims r A : tdims (rot_second 5 r A) = [5; 5; 5; 5]%nat.
Proof. reflexivity. Qed.
Lemma aklt_c4v_ok : exists h SS h_rot SS_rot r, aklt_h 5 = Ok (h, SS) /\ get_rot_op 5 = Ok r /\ aklt_c4v_h 5 = Ok (h_rot, SS, SS_rot) /\
  tdims h_rot = [5; 5; 5; 5]%nat /\ tdims SS_rot = [5; 5; 5; 5]%nat /\
  (forall v, seq2 5 (act 5 (mel4 h_rot) v) (on2 5 (mtrans (mel r)) (act 5 (mel4 h) (on2 5 (mel r) v)))) /\
  (forall v, seq2 5 (act 5 (mel4 SS_rot) v) (on2 5 (mtrans (mel r)) (act 5 (mel4 SS) (on2 5 (mel r) v)))).
Proof. destruct h_elements as (h & SS & E & Wh & Dh & Ws & Ds & ES & Gs & HF). destruct (get_rot 5) as (r & Er & _ & _ & _).
  exists h, SS, (rot_second 5 r h), (rot_second 5 r SS), r. split; [exact E|]. split; [exact Er|]. split; [exact (aklt_c4v_split 5 h SS r E ES Er)|].
  split; [apply rot_dims|]. split; [apply rot_dims|]. split; intros v; exact (act_rot r _ v Er). Qed.
