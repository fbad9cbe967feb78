(** Proofs about the two-loop recursion in exact arithmetic (C22). *)
From Coq Require Import Reals Lra.
From Verif Require Import Base BaseLemmas Flt Armijo ArmijoProofs Lbfgs LbfgsSpec LbfgsProofs LbfgsProofs2.
Open Scope list_scope.
Open Scope R_scope.

Notation dot := (vdot Rops).

Lemma fold_plus : forall l a, fold_left Rplus l a = a + fold_right Rplus 0 l.
Proof. induction l; intros; cbn; [lra|]. rewrite IHl. lra. Qed.
Lemma dot_def a b : dot a b = fold_right Rplus 0 (map2 Rmult a b).
Proof. unfold vdot. cbn. rewrite fold_plus. lra. Qed.
Lemma dot_cons x y a b : dot (x :: a) (y :: b) = x * y + dot a b.
Proof. rewrite !dot_def. reflexivity. Qed.
Lemma dot_nil_l b : dot [] b = 0. Proof. rewrite dot_def. reflexivity. Qed.
Lemma dot_nil_r a : dot a [] = 0. Proof. rewrite dot_def. destruct a; reflexivity. Qed.
Lemma dot_comm : forall a b, dot a b = dot b a.
Proof. induction a; intros [|y b]; rewrite ?dot_nil_l, ?dot_nil_r; auto. rewrite !dot_cons, IHa. lra. Qed.

Lemma vaxpy_cons c x y a b : vaxpy Rops c (x :: a) (y :: b) = (x + c * y) :: vaxpy Rops c a b.
Proof. reflexivity. Qed.
Lemma vaxpy_length c a b : length a = length b -> length (vaxpy Rops c a b) = length a.
Proof. intros H. unfold vaxpy. rewrite map2_length. lia. Qed.
Lemma dot_axpy_l c : forall a b v, length a = length b -> dot (vaxpy Rops c a b) v = dot a v + c * dot b v.
Proof.
  induction a; intros [|y b] v H; cbn in H; try lia.
  - cbn [vaxpy map2]. rewrite !dot_nil_l. lra.
  - rewrite vaxpy_cons. destruct v; [rewrite !dot_nil_r; lra|]. rewrite !dot_cons, IHa by lia. lra.
Qed.
Lemma dot_axpy_r c a b v : length a = length b -> dot v (vaxpy Rops c a b) = dot v a + c * dot v b.
Proof. intros H. rewrite dot_comm, dot_axpy_l by exact H. rewrite (dot_comm a), (dot_comm b). reflexivity. Qed.
Lemma dot_neg_l : forall a v, dot (vneg Rops a) v = - dot a v.
Proof. induction a; intros [|y v]; cbn [vneg map]; rewrite ?dot_nil_l, ?dot_nil_r; try lra. change (map (fneg Rops) a0) with (vneg Rops a0). rewrite !dot_cons, IHa. cbn. lra. Qed.
Lemma dot_neg_r v a : dot v (vneg Rops a) = - dot v a.
Proof. rewrite dot_comm, dot_neg_l, dot_comm. reflexivity. Qed.
Lemma dot_scale_l c : forall a v, dot (vscale Rops c a) v = c * dot a v.
Proof. induction a; intros [|y v]; cbn [vscale map]; rewrite ?dot_nil_l, ?dot_nil_r; try lra. change (map (fun x => fmul Rops x c) a0) with (vscale Rops c a0). rewrite !dot_cons, IHa. cbn. lra. Qed.

(** the spec's updates are the model's *)
Lemma sub_scale_axpy c : forall a b, vsub Rops a (vscale Rops c b) = vaxpy Rops (- c) a b.
Proof. induction a; intros [|y b]; cbn; auto. f_equal; [lra|]. apply IHa. Qed.
Lemma add_scale_axpy c : forall a b, vadd Rops a (vscale Rops c b) = vaxpy Rops c a b.
Proof. induction a; intros [|y b]; cbn; auto. f_equal; [lra|]. apply IHa. Qed.

Lemma vneg_axpy c : forall a b, vneg Rops (vaxpy Rops c a b) = vaxpy Rops (- c) (vneg Rops a) b.
Proof. induction a; intros [|y b]; cbn; auto. f_equal; [lra|]. apply IHa. Qed.
Lemma vneg_axpy2 c : forall a b, vneg Rops (vaxpy Rops c a b) = vaxpy Rops c (vneg Rops a) (vneg Rops b).
Proof. induction a; intros [|y b]; cbn; auto. f_equal; [lra|]. apply IHa. Qed.
Lemma vneg_scale c : forall a, vneg Rops (vscale Rops c a) = vscale Rops c (vneg Rops a).
Proof. induction a; cbn; auto. f_equal; [lra|]. exact IHa. Qed.

Lemma dot_zero_r n v : dot v (zeros n) = 0.
Proof.
  revert v. induction n; intros [|x v]; [apply dot_nil_l|apply dot_nil_r|apply dot_nil_l|].
  change (zeros (S n)) with (0 :: zeros n). rewrite dot_cons, IHn. lra.
Qed.
Lemma scale_zero c n : vscale Rops c (zeros n) = zeros n.
Proof. induction n; cbn; auto. f_equal; [lra|exact IHn]. Qed.
Lemma axpy_zero_r c : forall a n, length a = n -> vaxpy Rops c a (zeros n) = a.
Proof. induction a; intros [|n] H; cbn in *; try lia; auto. f_equal; [lra|]. apply IHa. lia. Qed.
Lemma axpy_one_zero : forall s n, length s = n -> vaxpy Rops 1 (zeros n) s = s.
Proof. induction s; intros [|n] H; cbn in *; try lia; auto. f_equal; [lra|]. apply IHs. lia. Qed.
Lemma axpy_self : forall y, vaxpy Rops (- (1)) y y = zeros (length y).
Proof. induction y; cbn; auto. f_equal; [lra|exact IHy]. Qed.
Lemma axpy_zero_c : forall a b, length a = length b -> vaxpy Rops 0 a b = a.
Proof. induction a; intros [|y b] H; cbn in *; try lia; auto. f_equal; [lra|]. apply IHa. lia. Qed.
Lemma dot_pos : forall v, 0 <= dot v v.
Proof. induction v; [rewrite dot_nil_l; lra|]. rewrite dot_cons. pose proof (Rle_0_sqr a). unfold Rsqr in H. lra. Qed.
Lemma dot_self_zero : forall v, dot v v = 0 -> v = zeros (length v).
Proof.
  induction v; intros H; [reflexivity|]. rewrite dot_cons in H. pose proof (dot_pos v). pose proof (Rle_0_sqr a). unfold Rsqr in H1.
  assert (a * a = 0) by lra. assert (a = 0) by (apply Rmult_integral in H2; tauto). cbn. subst a. f_equal. apply IHv. lra.
Qed.

(** ** the operator *)
Section Op.
Variable gamma : R.
Notation Hop := (inv_hessian Rops gamma).
Definition rho (y s : list R) : R := 1 / dot y s.

Lemma Hop_cons y s older v :
  Hop ((y, s) :: older) v =
  let c := rho y s * dot s v in
  let r := Hop older (vaxpy Rops (- c) v y) in
  vaxpy Rops (c - rho y s * dot y r) r s.
Proof.
  cbn [inv_hessian]. cbv zeta. rewrite sub_scale_axpy, add_scale_axpy. unfold rho. cbn.
  replace (1 / 1 / dot y s) with (1 / dot y s) by (unfold Rdiv; rewrite Rinv_1; ring). reflexivity.
Qed.


Lemma Hop_length n : forall ps v, sized n ps -> length v = n -> length (Hop ps v) = n.
Proof.
  induction ps as [|[y s] ps IH]; intros v S Hv.
  - cbn. unfold vscale. rewrite map_length. exact Hv.
  - inversion S as [|? ? [Ly Ls] S']; subst. cbn [fst snd] in *. rewrite Hop_cons. cbv zeta.
    set (r := Hop ps _). assert (length r = length v).
    { apply IH; [exact S'|]. apply vaxpy_length. lia. }
    rewrite vaxpy_length by lia. exact H.
Qed.

Lemma Hop_neg n : forall ps v, sized n ps -> length v = n -> Hop ps (vneg Rops v) = vneg Rops (Hop ps v).
Proof.
  induction ps as [|[y s] ps IH]; intros v S Hv.
  - cbn [inv_hessian]. symmetry. apply vneg_scale.
  - inversion S as [|? ? [Ly Ls] S']; subst. cbn [fst snd] in *. rewrite !Hop_cons. cbv zeta.
    rewrite dot_neg_r. set (c := rho y s * dot s v). replace (rho y s * - dot s v) with (- c) by (unfold c; ring).
    replace (vaxpy Rops (- - c) (vneg Rops v) y) with (vneg Rops (vaxpy Rops (- c) v y)) by (apply vneg_axpy).
    rewrite IH; [|exact S'|apply vaxpy_length; lia]. set (r := Hop ps (vaxpy Rops (- c) v y)).
    rewrite vneg_axpy. f_equal. rewrite dot_neg_r. ring.
Qed.

Lemma Hop_zero n : forall ps, sized n ps -> Hop ps (zeros n) = zeros n.
Proof.
  induction ps as [|[y s] ps IH]; intros S.
  - cbn [inv_hessian]. apply scale_zero.
  - inversion S as [|? ? [Ly Ls] S']; subst. cbn [fst snd] in *. rewrite Hop_cons. cbv zeta.
    rewrite dot_zero_r, Rmult_0_r, Ropp_0, axpy_zero_c by (unfold zeros; rewrite repeat_length; reflexivity).
    rewrite IH by exact S'. rewrite dot_zero_r, Rmult_0_r, Rminus_0_r. apply axpy_zero_c. unfold zeros. rewrite repeat_length. lia.
Qed.

(** the newest pair satisfies the secant equation *)
Lemma secant n y s ps : sized n ((y, s) :: ps) -> dot y s <> 0 -> Hop ((y, s) :: ps) y = s.
Proof.
  intros S Hys. inversion S as [|? ? [Ly Ls] S']; subst. cbn [fst snd] in *. rewrite Hop_cons. cbv zeta.
  replace (rho y s * dot s y) with 1 by (unfold rho; rewrite (dot_comm s y); field; exact Hys).
  rewrite axpy_self, (Hop_zero _ _ S'), dot_zero_r, Rmult_0_r, Rminus_0_r. apply axpy_one_zero. lia.
Qed.


Lemma Hop_positive n : 0 < gamma -> forall ps v, sized n ps -> positive_pairs ps -> length v = n -> v <> zeros n ->
  0 < dot v (Hop ps v).
Proof.
  intros Hg. induction ps as [|[y s] ps IH]; intros v S P Hv Hz.
  - cbn [inv_hessian]. rewrite dot_comm, dot_scale_l. pose proof (dot_pos v).
    assert (dot v v <> 0) by (intros E; apply Hz; rewrite <- Hv; apply dot_self_zero; exact E). apply Rmult_lt_0_compat; lra.
  - inversion S as [|? ? [Ly Ls] S']; subst. inversion P as [|? ? Pys P']; subst. cbn [fst snd] in *.
    rewrite Hop_cons. cbv zeta. set (c := rho y s * dot s v). set (q := vaxpy Rops (- c) v y).
    assert (Lq : length q = length v) by (apply vaxpy_length; lia).
    assert (Lr : length (Hop ps q) = length v) by (apply Hop_length; [exact S'|exact Lq]).
    rewrite dot_axpy_r by lia. set (r := Hop ps q) in *.
    assert (Hrho : 0 < rho y s) by (unfold rho; apply Rdiv_lt_0_compat; lra).
    assert (Eq : dot q r = dot v r - c * dot y r) by (unfold q; rewrite dot_axpy_l by lia; ring).
    assert (Es : dot v s = dot s v) by apply dot_comm.
    replace (dot v r + (c - rho y s * dot y r) * dot v s) with (dot q r + rho y s * (dot s v * dot s v))
      by (rewrite Eq, Es; unfold c; ring).
    assert (Sq : 0 <= dot s v * dot s v) by (pose proof (Rle_0_sqr (dot s v)); unfold Rsqr in *; lra).
    assert (0 <= rho y s * (dot s v * dot s v)) by (apply Rmult_le_pos; lra).
    destruct (list_eq_dec Req_EM_T q (zeros (length v))) as [E|E].
    + (* v = c y *)
      assert (Dq : forall u, dot v u = c * dot y u).
      { intros u. assert (dot q u = 0) by (rewrite E, dot_comm; apply dot_zero_r).
        unfold q in H0. rewrite dot_axpy_l in H0 by lia. lra. }
      assert (Hr0 : r = zeros (length v)) by (unfold r; rewrite E; apply Hop_zero; exact S').
      rewrite Hr0, dot_zero_r.
      assert (c <> 0).
      { intros Hc. apply Hz. apply dot_self_zero. rewrite Dq, Hc. ring. }
      assert (dot s v <> 0) by (intros X; apply H0; unfold c; rewrite X; ring).
      assert (0 < dot s v * dot s v) by (pose proof (Rlt_0_sqr (dot s v) H1); unfold Rsqr in *; lra).
      assert (0 < rho y s * (dot s v * dot s v)) by (apply Rmult_lt_0_compat; lra). lra.
    + assert (0 < dot q r) by (apply IH; auto). lra.
Qed.
End Op.

(** ** the two loops *)
Section Loops.
Variables (gamma : R) (ps : list (list R * list R)).
Let dirs := map fst ps.
Let stps := map snd ps.
Let ro := map (fun p => 1 / 1 / dot (fst p) (snd p)) ps.

Lemma forw_split al : forall n m i0 r,
  forw_loop Rops dirs stps ro al (n + m) i0 r =
  bind (forw_loop Rops dirs stps ro al n i0 r) (fun r' => forw_loop Rops dirs stps ro al m (i0 + n)%nat r').
Proof.
  induction n; intros m i0 r; cbn.
  - replace (i0 + 0)%nat with i0 by lia. reflexivity.
  - destruct (getitem dirs i0); cbn; [|reflexivity]. destruct (getitem ro i0); cbn; [|reflexivity].
    destruct (getitem stps i0); cbn; [|reflexivity]. destruct (getitem al i0) as [[a2|]|]; cbn; [|reflexivity|reflexivity].
    rewrite IHn. replace (i0 + S n)%nat with (S (i0 + n)) by lia. reflexivity.
Qed.

Lemma forw_al_ext al al' : forall n i0 r, (forall i, (i < i0 + n)%nat -> nth_error al i = nth_error al' i) ->
  forw_loop Rops dirs stps ro al n i0 r = forw_loop Rops dirs stps ro al' n i0 r.
Proof.
  induction n; intros i0 r H; cbn; [reflexivity|].
  destruct (getitem dirs i0); cbn; [|reflexivity]. destruct (getitem ro i0); cbn; [|reflexivity].
  destruct (getitem stps i0); cbn; [|reflexivity]. unfold getitem at 1 2. rewrite H by lia.
  destruct (nth_error al' i0) as [[a2|]|]; cbn; [|reflexivity|reflexivity]. apply IHn. intros i Hi. apply H. lia.
Qed.

Lemma getitem_map {A B} (f : A -> B) (l : list A) i a : nth_error l i = Some a -> getitem (map f l) i = Ok (f a).
Proof. intros H. unfold getitem. rewrite nth_error_map, H. reflexivity. Qed.

Lemma firstn_S {A} : forall (l : list A) k p, nth_error l k = Some p -> firstn (S k) l = firstn k l ++ [p].
Proof.
  induction l; intros [|k] p H; cbn in *; try discriminate.
  - injection H as ->. reflexivity.
  - f_equal. apply IHl. exact H.
Qed.

Lemma loops_spec : forall k al q, (k <= length ps)%nat -> (k <= length al)%nat ->
  exists al' q', back_loop Rops dirs stps ro k al q = Ok (al', q') /\ length al' = length al /\
    (forall i, (k <= i)%nat -> nth_error al' i = nth_error al i) /\
    forw_loop Rops dirs stps ro al' k 0 (vscale Rops gamma q') = Ok (inv_hessian Rops gamma (rev (firstn k ps)) q).
Proof.
  induction k; intros al q Hk Hal.
  - exists al, q. repeat split; auto.
  - destruct (nth_error ps k) as [[y s]|] eqn:Ep; [|apply nth_error_None in Ep; lia].
    assert (G1 : getitem stps k = Ok s) by exact (getitem_map snd ps k _ Ep).
    assert (G2 : getitem dirs k = Ok y) by exact (getitem_map fst ps k _ Ep).
    assert (G3 : getitem ro k = Ok (1 / 1 / dot y s)) by exact (getitem_map _ ps k _ Ep).
    cbn [back_loop]. rewrite G1, G2, G3. cbn [bind fst snd].
    set (a := fmul Rops (dot s q) (1 / 1 / dot y s)).
    destruct (setitem_ok al k (Some a)) as (al1 & -> & La & Ea & Oa); [lia|]. cbn [bind].
    destruct (IHk al1 (vaxpy Rops (fneg Rops a) q y)) as (al' & q' & -> & Lb & Ob & Fw); [lia|lia|].
    exists al', q'. split; [reflexivity|]. split; [lia|]. split.
    { intros i Hi. rewrite Ob by lia. apply Oa. lia. }
    replace (S k) with (k + 1)%nat at 1 by lia. rewrite forw_split, Fw. cbn [bind].
    rewrite (firstn_S ps k _ Ep), rev_app_distr. cbn [rev app].
    cbn [forw_loop Nat.add]. rewrite G1, G2, G3. cbn [bind fst snd].
    unfold getitem. rewrite Ob, Ea by lia. cbn [bind]. f_equal. rewrite Hop_cons. cbv zeta.
    assert (A : a = rho y s * dot s q) by (unfold a, rho; cbn; unfold Rdiv; rewrite ?Rinv_1; ring).
    unfold rho in *. rewrite <- A. cbn [fneg Rops fsub fmul].
    f_equal. replace (1 / 1 / dot y s) with (1 / dot y s) by (unfold Rdiv; rewrite Rinv_1; ring). ring.
Qed.

Lemma two_loop_spec n al g : sized n ps -> length g = n -> (length ps <= length al)%nat ->
  exists al', two_loop Rops dirs stps ro gamma al g = Ok (vneg Rops (inv_hessian Rops gamma (rev ps) g), al').
Proof.
  intros S Lg Hal. unfold two_loop.
  assert (Ld : length dirs = length ps) by (unfold dirs; apply map_length). rewrite Ld.
  destruct (loops_spec (length ps) al (vneg Rops g)) as (al' & q' & E & _ & _ & Fw); [lia|lia|].
  rewrite E. cbn [bind]. rewrite Fw. cbn [bind]. rewrite firstn_all.
  exists al'. f_equal. f_equal. apply (Hop_neg gamma n); [|exact Lg]. unfold sized in *. apply Forall_rev. exact S.
Qed.
End Loops.

(** ** the direction used by a step *)
Lemma acceptable_pos (y s : list R) : acceptable Rops (y, s) -> 0 < dot y s.
Proof. unfold acceptable. intros H. apply Rltb_true in H. cbn [fst snd fq Rops] in H. lra. Qed.

Lemma vsub_length a b : length a = length b -> length (vsub Rops a b) = length a.
Proof. intros H. unfold vsub. rewrite map2_length. lia. Qed.

Lemma Forall_skipn {A} (P : A -> Prop) : forall k l, Forall P l -> Forall P (skipn k l).
Proof. induction k; intros l H; [exact H|]. destruct H; [constructor|]. apply IHk. exact H0. Qed.

Lemma direction_descends {W} n acc shared l fg (s s' : @pst R W) a l' sh' :
  pre Rops acc shared l a -> p_opt s = bump a ->
  sized n acc -> length fg = n -> fg <> zeros n ->
  (forall pg, m_pg l = Some pg -> length pg = n) -> (forall d, m_d l = Some d -> length d = n) ->
  (forall H, m_H l = Some H -> 0 < H) ->
  direction Rops shared l fg s = (s', inr (l', sh')) ->
  let new := acc ++ (if (o_niter a =? 0)%Z then [] else accepted Rops (last_pair Rops l fg)) in
  exists H, m_H l' = Some H /\ 0 < H /\ sized n new /\
    m_d l' = Some (vneg Rops (inv_hessian Rops H (rev (lastn (hsz a) new)) fg)) /\
    forall d, m_d l' = Some d -> dot fg d < 0.
Proof.
  intros P Es Sz Lg Nz Lpg Ld HH E. cbv zeta. pose proof P as P0. destruct P as (P1 & P2 & P3 & (P4 & P5) & P6).
  assert (FIN : forall new H d, Forall (acceptable Rops) new -> sized n new -> 0 < H -> m_d l' = Some d ->
    d = vneg Rops (inv_hessian Rops H (rev (lastn (hsz a) new)) fg) -> forall d, m_d l' = Some d -> dot fg d < 0).
  { intros new H d Fa Sn Hp Ed -> d' Ed'. assert (d' = vneg Rops (inv_hessian Rops H (rev (lastn (hsz a) new)) fg)) by congruence. subst d'.
    rewrite dot_neg_r. assert (0 < dot fg (inv_hessian Rops H (rev (lastn (hsz a) new)) fg)); [|lra].
    apply (Hop_positive H n); auto.
    - apply Forall_rev. apply Forall_skipn. exact Sn.
    - apply Forall_rev. apply Forall_skipn. eapply Forall_impl; [|exact Fa]. intros [y s0] Ha. apply acceptable_pos. exact Ha. }
  apply direction_value in E. rewrite Es in E. cbn [bump o_niter o_grp] in E. destruct E as [(En & Ed & _ & _ & _ & EH)|(En & E)].
  - assert (Hn : o_niter a = 0%Z) by lia. rewrite Hn. cbn [Z.eqb]. rewrite app_nil_r.
    assert (acc = []).
    { destruct shared; [|lia]. apply P6. exact Hn. }
    subst acc. exists 1. assert (EH1 : m_H l' = Some 1) by (rewrite EH; unfold one; cbn; f_equal; unfold Rdiv; rewrite Rinv_1; ring).
    assert (Ed1 : m_d l' = Some (vneg Rops (inv_hessian Rops 1 (rev (lastn (hsz a) [])) fg))).
    { rewrite Ed. f_equal. unfold lastn. rewrite skipn_nil. cbn [rev inv_hessian]. f_equal.
      clear. induction fg; cbn; auto. f_equal; [lra|exact IHfg]. }
    split; [exact EH1|]. split; [lra|]. split; [constructor|]. split; [exact Ed1|].
    eapply (FIN []); eauto; try lra; constructor.
  - assert (Hn : o_niter a <> 0%Z) by lia. replace (o_niter a =? 0)%Z with false by (symmetry; apply Z.eqb_neq; exact Hn).
    destruct E as (dirs & stps & ro & H & al & al' & d & pg & d0 & t0 & dirs0 & stps0 & ro0 & H0 & A1 & A2 & A3 & A4 & A5 & A6 & A7 & MU & B1 & B2 & B3 & B4 & B5 & TL).
    destruct P5 as [(_ & N & _)|(L1 & L2 & L3)]; [congruence|].
    assert (dirs0 = map fst (lastn (hsz a) acc)) by congruence. subst dirs0.
    assert (stps0 = map snd (lastn (hsz a) acc)) by congruence. subst stps0.
    assert (ro0 = map (fun p => fdiv Rops (fq Rops 1 1) (dot (fst p) (snd p))) (lastn (hsz a) acc)) by congruence. subst ro0.
    set (y := vsub Rops fg pg) in *. set (sv := vscale Rops t0 d0) in *.
    pose proof (memory_update_spec Rops (hsz a) acc H0 y sv ltac:(unfold hsz; lia)) as MU2. cbv zeta in MU2.
    replace (Z.of_nat (hsz a)) with (g_hist (o_grp a)) in MU2 by (unfold hsz; lia). rewrite MU2 in MU.
    assert (NP : accepted Rops (last_pair Rops l fg) = if flt Rops (fq Rops 1 10000000000) (dot y sv) then [(y, sv)] else []).
    { unfold last_pair. rewrite A1, A2, A3. reflexivity. }
    rewrite NP. clear NP. set (new := acc ++ _) in *.
    assert (Ly : length y = n) by (unfold y; rewrite vsub_length; [exact Lg|rewrite (Lpg _ A1); exact Lg]).
    assert (Lsv : length sv = n) by (unfold sv, vscale; rewrite map_length; apply Ld; exact A2).
    assert (Sn : sized n new).
    { unfold new, sized. apply Forall_app. split; [exact Sz|]. destruct (flt Rops _ (dot y sv)); repeat constructor; auto. }
    assert (Fa : Forall (acceptable Rops) new).
    { unfold new. apply Forall_app. split; [exact P4|]. destruct (flt Rops _ (dot y sv)) eqn:Ea; constructor; auto. }
    assert (EqH : H = if flt Rops (fq Rops 1 10000000000) (dot y sv) then fdiv Rops (dot y sv) (dot y y) else H0) by congruence.
    assert (Hpos : 0 < H).
    { rewrite EqH. destruct (flt Rops (fq Rops 1 10000000000) (dot y sv)) eqn:Ea; [|apply HH; exact A7].
      apply Rltb_true in Ea. cbn [fq Rops] in Ea. cbn [fdiv Rops]. apply Rdiv_lt_0_compat; [lra|].
      pose proof (dot_pos y). destruct (Req_dec (dot y y) 0) as [Z|Z]; [|lra].
      apply dot_self_zero in Z. rewrite Z, dot_comm, dot_zero_r in Ea. lra. }
    exists H. split; [exact B4|]. split; [exact Hpos|]. split; [exact Sn|].
    assert (D : d = vneg Rops (inv_hessian Rops H (rev (lastn (hsz a) new)) fg)).
    { assert (dirs = map fst (lastn (hsz a) new)) by congruence.
      assert (stps = map snd (lastn (hsz a) new)) by congruence.
      assert (ro = map (fun p => fdiv Rops (fq Rops 1 1) (dot (fst p) (snd p))) (lastn (hsz a) new)) by congruence.
      subst dirs stps ro.
      destruct (le_dec (length (lastn (hsz a) new)) (length al)) as [Hal|Hal].
      - destruct (two_loop_spec H (lastn (hsz a) new) n al fg) as (al2 & E2); auto; [apply Forall_skipn; exact Sn|].
        match type of TL with ?u = _ => assert (E3 : u = Ok (vneg Rops (inv_hessian Rops H (rev (lastn (hsz a) new)) fg), al2)) by exact E2 end.
        congruence.
      - exfalso. unfold two_loop in TL. rewrite map_length in TL.
        destruct (back_loop Rops _ _ _ (length (lastn (hsz a) new)) al (vneg Rops fg)) as [[al2 q]|] eqn:Eb; [|discriminate].
        clear - Eb Hal. revert Eb. generalize (vneg Rops fg). generalize (lastn (hsz a) new) at 1 2 3.
        intros ps. destruct (length (lastn (hsz a) new)) as [|k]; [lia|]. intros v. cbn [back_loop].
        destruct (getitem (map snd ps) k); [|discriminate]. cbn [bind]. destruct (getitem _ k) in |- *; [|discriminate]. cbn [bind].
        match goal with |- context [setitem al k ?z] => assert (S0 : setitem al k z = Err IndexError) end.
        { assert (Hk : (length al <= k)%nat) by lia. clear - Hk. revert k Hk. induction al; intros [|k] H; cbn in *; auto; try lia. rewrite IHal by lia. reflexivity. }
        rewrite S0. discriminate. }
    split; [congruence|]. eapply (FIN new H d); eauto.
Qed.
