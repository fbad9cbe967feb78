From Coq Require Import Reals Lra Psatz.
From Verif Require Import Base Flt Armijo ArmijoSpec.
Open Scope list_scope.

(** ** any arithmetic *)
Section Any.
Context {F : Type} (o : fops F) {St : Type}.
Variables (phi : F -> M St F) (yastn : bool) (phi0 der amin : F).

Lemma loop_accepted : forall fuel a0 p0 a1 p1 s s' t v,
  armijo_loop o phi yastn phi0 der amin fuel a0 p0 a1 p1 s =
    (s', inr {| ls_stat := LsTrue; ls_alpha := Some t; ls_loss := v |}) ->
  exists s1 w, v = Some w /\ phi t s1 = (s', inr w) /\ fle o w (fadd o phi0 (fmul o (fmul o (fq o 1 10000) t) der)) = true.
Proof.
  induction fuel; intros a0 p0 a1 p1 s s' t v; cbn [armijo_loop]; [discriminate|].
  destruct (flt o amin a1); [|discriminate]. unfold eval_phi. cbv zeta.
  set (a2 := cubic_step _ _ _ _ _ _ _).
  destruct (phi a2 s) as [s1 [e|w]] eqn:E.
  - destruct yastn; [destruct e|]; try discriminate.
  - destruct (sufficient o phi0 der a2 w) eqn:Es.
    + intros H. injection H as <- <- <-. exists s, w. auto.
    + apply IHfuel.
Qed.

Lemma accepted : forall fuel a s s' t v,
  armijo o phi yastn phi0 der amin fuel a s =
    (s', inr {| ls_stat := LsTrue; ls_alpha := Some t; ls_loss := v |}) ->
  exists s1 w, v = Some w /\ phi t s1 = (s', inr w) /\ fle o w (fadd o phi0 (fmul o (fmul o (fq o 1 10000) t) der)) = true.
Proof.
  intros fuel a s s' t v. unfold armijo, eval_phi.
  destruct (phi a s) as [s1 [e|w]] eqn:E.
  - destruct yastn; [destruct e|]; try discriminate.
  - destruct (sufficient o phi0 der a w) eqn:Es.
    + intros H. injection H as <- <- <-. exists s, w. auto.
    + cbv zeta. set (a1 := quad_step _ _ _ _ _).
      destruct (phi a1 s1) as [s2 [e|w']] eqn:E2.
      * destruct yastn; [destruct e|]; try discriminate.
      * destruct (sufficient o phi0 der a1 w') eqn:Es2.
        -- intros H. injection H as <- <- <-. exists s1, w'. auto.
        -- apply loop_accepted.
Qed.

(** the step reported after NoFixedPointError is the one at which it was raised *)
Lemma loop_failed : forall fuel a0 p0 a1 p1 s s' t v,
  armijo_loop o phi yastn phi0 der amin fuel a0 p0 a1 p1 s =
    (s', inr {| ls_stat := LsNoFixedPoint; ls_alpha := t; ls_loss := v |}) ->
  v = None /\ exists s1 a, phi a s1 = (s', inl NoFixedPoint) /\ (feq o a (fq o 0 1) = false -> t = Some a).
Proof.
  induction fuel; intros a0 p0 a1 p1 s s' t v; cbn [armijo_loop]; [discriminate|].
  destruct (flt o amin a1); [|discriminate]. unfold eval_phi. cbv zeta.
  set (a2 := cubic_step _ _ _ _ _ _ _).
  destruct (phi a2 s) as [s1 [e|w]] eqn:E.
  - destruct yastn; [destruct e|]; try discriminate. intros H. injection H as <- <- <-. split; [reflexivity|].
    exists s, a2. split; [exact E|]. intros Hz. cbn. rewrite Hz. reflexivity.
  - destruct (sufficient o phi0 der a2 w) eqn:Es; [discriminate|]. apply IHfuel.
Qed.
Lemma failed : forall fuel a s s' t v,
  armijo o phi yastn phi0 der amin fuel a s =
    (s', inr {| ls_stat := LsNoFixedPoint; ls_alpha := t; ls_loss := v |}) ->
  v = None /\ exists s1 a', phi a' s1 = (s', inl NoFixedPoint) /\ (feq o a' (fq o 0 1) = false -> t = Some a').
Proof.
  intros fuel a s s' t v. unfold armijo, eval_phi.
  destruct (phi a s) as [s1 [e|w]] eqn:E.
  - destruct yastn; [destruct e|]; try discriminate. intros H. injection H as <- <- <-. split; [reflexivity|].
    exists s, a. split; [exact E|]. reflexivity.
  - destruct (sufficient o phi0 der a w) eqn:Es; [discriminate|]. cbv zeta. set (a1 := quad_step _ _ _ _ _).
    destruct (phi a1 s1) as [s2 [e|w']] eqn:E2.
    + destruct yastn; [destruct e|]; try discriminate. intros H. injection H as <- <- <-. split; [reflexivity|].
      exists s1, a1. split; [exact E2|]. intros Hz. cbn. rewrite Hz. reflexivity.
    + destruct (sufficient o phi0 der a1 w') eqn:Es2; [discriminate|]. apply loop_failed.
Qed.

(** without exceptions the two searches agree *)
Definition of_ls (x : St * (exn + ls_result (F := F))) : St * (exn + (option F * F)) :=
  match x with
  | (s, inr r) => (s, inr (ls_alpha r, match ls_loss r with Some v => v | None => phi0 end))
  | (s, inl e) => (s, inl e)
  end.

Hypothesis total : forall a s e, snd (phi a s) <> inl e.

Lemma sgd_loop_same : forall fuel a0 p0 a1 p1 s,
  sgd_armijo_loop o phi phi0 der amin fuel a0 p0 a1 p1 s = of_ls (armijo_loop o phi yastn phi0 der amin fuel a0 p0 a1 p1 s).
Proof.
  induction fuel; intros; cbn [sgd_armijo_loop armijo_loop]; [reflexivity|].
  destruct (flt o amin a1); [|reflexivity]. unfold eval_phi, mbind. cbv zeta.
  set (a2 := cubic_step _ _ _ _ _ _ _).
  pose proof (total a2 s) as T. destruct (phi a2 s) as [s1 [e|w]]; [destruct (T e eq_refl)|].
  destruct (sufficient o phi0 der a2 w); [reflexivity|]. apply IHfuel.
Qed.

Lemma sgd_same : forall fuel a s,
  sgd_armijo o phi phi0 der amin fuel a s = of_ls (armijo o phi yastn phi0 der amin fuel a s).
Proof.
  intros. unfold sgd_armijo, armijo, eval_phi, mbind. cbv zeta.
  pose proof (total a s) as T. destruct (phi a s) as [s1 [e|w]]; [destruct (T e eq_refl)|].
  destruct (sufficient o phi0 der a w); [reflexivity|].
  set (a1 := quad_step _ _ _ _ _).
  pose proof (total a1 s1) as T1. destruct (phi a1 s1) as [s2 [e|w']]; [destruct (T1 e eq_refl)|].
  destruct (sufficient o phi0 der a1 w'); [reflexivity|]. apply sgd_loop_same.
Qed.

Lemma loop_status : forall fuel a0 p0 a1 p1 s s' r,
  armijo_loop o phi yastn phi0 der amin fuel a0 p0 a1 p1 s = (s', inr r) -> ls_stat r = LsTrue.
Proof.
  induction fuel; intros a0 p0 a1 p1 s s' r; cbn [armijo_loop]; [discriminate|].
  destruct (flt o amin a1); [|intros [= <- <-]; reflexivity]. unfold eval_phi. cbv zeta.
  set (a2 := cubic_step _ _ _ _ _ _ _).
  pose proof (total a2 s) as T. destruct (phi a2 s) as [s1 [e|w]]; [destruct (T e eq_refl)|].
  destruct (sufficient o phi0 der a2 w); [intros [= <- <-]; reflexivity|]. apply IHfuel.
Qed.

Lemma armijo_status : forall fuel a s s' r,
  armijo o phi yastn phi0 der amin fuel a s = (s', inr r) -> ls_stat r = LsTrue.
Proof.
  intros fuel a s s' r. unfold armijo, eval_phi. cbv zeta.
  pose proof (total a s) as T. destruct (phi a s) as [s1 [e|w]]; [destruct (T e eq_refl)|].
  destruct (sufficient o phi0 der a w); [intros [= <- <-]; reflexivity|].
  set (a1 := quad_step _ _ _ _ _).
  pose proof (total a1 s1) as T1. destruct (phi a1 s1) as [s2 [e|w']]; [destruct (T1 e eq_refl)|].
  destruct (sufficient o phi0 der a1 w'); [intros [= <- <-]; reflexivity|]. apply loop_status.
Qed.
End Any.

(** ** extended reals *)
Open Scope R_scope.
Notation kappa := (9997 / 10000).

Lemma Rltb_true x y : Rltb x y = true <-> x < y.
Proof. unfold Rltb. destruct (Rlt_dec x y); split; intros; auto; try discriminate; contradiction. Qed.
Lemma Rltb_false x y : Rltb x y = false <-> y <= x.
Proof. unfold Rltb. destruct (Rlt_dec x y); split; intros; auto; try discriminate; try lra. Qed.
Lemma Reqb_true x y : Reqb x y = true <-> x = y.
Proof. unfold Reqb. destruct (Req_EM_T x y); split; intros; auto; try discriminate; contradiction. Qed.

Lemma ext_le_fin x y : ext_le (Fin x) (Fin y) = true <-> x <= y.
Proof.
  unfold ext_le; cbn. rewrite Bool.orb_true_iff, Rltb_true, Reqb_true. lra.
Qed.
Lemma ext_le_fin_false x y : ext_le (Fin x) (Fin y) = false <-> y < x.
Proof.
  destruct (ext_le (Fin x) (Fin y)) eqn:E.
  - apply ext_le_fin in E. split; [discriminate|lra].
  - split; auto. intros _. apply Rnot_le_lt. intros H. apply ext_le_fin in H. congruence.
Qed.

Lemma ext_div_fin x y : y <> 0 -> ext_div (Fin x) (Fin y) = Fin (x / y).
Proof. intros H. cbn. destruct (Req_EM_T y 0); [contradiction|reflexivity]. Qed.

Section Fin.
Variables (phi0 der : R).
Hypothesis Hder : der < 0.

Lemma sufficient_fin a v : sufficient Eops (Fin phi0) (Fin der) (Fin a) (Fin v) = true <-> decreases_enough phi0 der a v.
Proof. unfold sufficient, c1, decreases_enough; cbn [fq fle fadd fmul Eops ext_mul ext_add]. rewrite ext_le_fin.
  replace (1 / 10000 * a * der) with (/10000 * a * der) by lra. reflexivity. Qed.
Lemma insufficient_fin a v : sufficient Eops (Fin phi0) (Fin der) (Fin a) (Fin v) = false -> phi0 + / 10000 * a * der < v.
Proof.
  intros H. apply Rnot_le_lt. intros L. apply sufficient_fin in L. congruence.
Qed.
Lemma insufficient_inf a v : sufficient Eops (Fin phi0) (Fin der) (Fin a) v = false -> v = PInf \/ v = NaN \/ exists r, v = Fin r.
Proof. destruct v; cbn; eauto. discriminate. Qed.

(** the quadratic step lies in (0, 0.6 alpha0] when the first step was rejected *)
Lemma quad_fin a0 p0 : 0 < a0 -> phi0 + / 10000 * a0 * der < p0 ->
  exists a1, quad_step Eops (Fin phi0) (Fin der) (Fin a0) (Fin p0) = Fin a1 /\ 0 < a1 <= 6/10 * a0 /\
    kappa * - der * a0 <= p0 - phi0 - der * a0.
Proof.
  intros Ha Hp. unfold quad_step. cbn -[Rdiv Rmult]. unfold ext_sub; cbn -[Rdiv Rmult].
  set (f := p0 + - phi0 + - (der * a0)).
  assert (Hf : 9999/10000 * (- der * a0) < f) by (unfold f; nra).
  assert (Hg : 0 < - der * a0) by nra.
  destruct (Req_EM_T (2/1) 0); [lra|]. cbn -[Rdiv Rmult]. destruct (Req_EM_T f 0); [lra|].
  eexists. split; [reflexivity|]. assert (0 < f) by lra. split; [split|].
  - apply Rdiv_lt_0_compat; [|assumption]. apply Rdiv_lt_0_compat; [|lra].
    replace (- der * (a0 * a0)) with ((- der * a0) * a0) by ring. apply Rmult_lt_0_compat; assumption.
  - apply Rmult_le_reg_r with f; [assumption|]. unfold Rdiv at 1. rewrite Rmult_assoc, Rinv_l by lra.
    replace (- der * (a0 * a0) / (2/1) * 1) with ((- der * a0) * a0 / 2) by lra. nra.
  - unfold f in *. nra.
Qed.

(** the trial value at the cubic step *)
Lemma cubic_bounds g A B x : 0 < g -> 0 < x -> A <> 0 -> kappa * g <= B * x + A * (x * x) ->
  0 < (- B + sqrt (Rabs (B * B - 3 / 1 * A * - g))) / (3 / 1 * A) <= 13/10 * x.
Proof.
  intros Hg Hx HA HI.
  assert (E : 3 / 1 * A = 3 * A) by lra. rewrite E. clear E.
  replace (B * B - 3 * A * - g) with (B * B + 3 * A * g) by lra.
  assert (P : 0 < A * A) by nra.
  destruct (Rtotal_order A 0) as [Hn|[Hz|Hp]]; [|contradiction|].
  - (* A < 0 *)
    assert (HB : kappa * g - A * (x * x) <= B * x) by lra.
    assert (Hxx : 0 < x * x) by nra.
    assert (HBx : 0 < B * x) by nra.
    assert (HB0 : 0 < B) by (apply Rmult_lt_reg_r with x; lra).
    assert (D : 4 * kappa * g * (- A) <= B * B).
    { pose proof (Rle_0_sqr (B + 2 * A * x)) as Sq. unfold Rsqr in Sq.
      assert (Pr : 0 <= - A * (B * x + A * (x * x) - kappa * g)) by (apply Rmult_le_pos; lra).
      lra. }
    assert (Ag : 0 < g * - A) by nra.
    assert (D0 : 0 < B * B + 3 * A * g) by nra.
    rewrite Rabs_right by lra. set (d := B * B + 3 * A * g) in *.
    assert (S2 : sqrt d * sqrt d = d) by (apply sqrt_sqrt; lra).
    assert (S0 : 0 < sqrt d) by (apply sqrt_lt_R0; assumption).
    assert (SB : sqrt d < B).
    { apply Rnot_le_lt. intros L. assert (B * B <= sqrt d * sqrt d) by (apply Rmult_le_compat; lra). unfold d in *; nra. }
    assert (Q : (- B + sqrt d) / (3 * A) = (B - sqrt d) / (3 * - A)) by (field; lra).
    rewrite Q. split; [apply Rdiv_lt_0_compat; lra|].
    apply Rmult_le_reg_r with (3 * - A); [lra|]. unfold Rdiv at 1. rewrite Rmult_assoc, Rinv_l by lra.
    rewrite Rmult_1_r.
    destruct (Rle_dec (B + 39/10 * A * x) 0) as [Hc|Hc]; [lra|].
    apply Rnot_le_lt in Hc.
    assert (L : (B + 39/10 * A * x) * (B + 39/10 * A * x) <= d).
    { assert (H39 : 0 < (B + 39/10 * A * x) * x) by nra.
      assert (H1 : - (39/10) * (A * (x * x)) <= B * x) by nra.
      assert (H2 : 3 * g <= 39/10 * (B * x)) by nra.
      assert (H3 : 3 * g <= 78/10 * (B * x) + 1521/100 * (A * (x * x))) by nra.
      unfold d. replace ((B + 39/10 * A * x) * (B + 39/10 * A * x)) with (B * B + A * (78/10 * (B * x) + 1521/100 * (A * (x * x)))) by field.
      nra. }
    assert (B + 39/10 * A * x <= sqrt d).
    { apply Rnot_lt_le. intros L2. assert (sqrt d * sqrt d < (B + 39/10 * A * x) * (B + 39/10 * A * x)) by (apply Rmult_gt_0_lt_compat; lra). lra. }
    lra.
  - (* A > 0 *)
    assert (D0 : 0 < B * B + 3 * A * g) by nra.
    rewrite Rabs_right by lra. set (d := B * B + 3 * A * g) in *.
    assert (S2 : sqrt d * sqrt d = d) by (apply sqrt_sqrt; lra).
    assert (S0 : 0 < sqrt d) by (apply sqrt_lt_R0; assumption).
    assert (SB : B < sqrt d).
    { destruct (Rle_dec B 0); [lra|]. apply Rnot_le_lt. intros L.
      assert (sqrt d * sqrt d <= B * B) by (apply Rmult_le_compat; lra). assert (0 < A * g) by nra. unfold d in *; lra. }
    split; [apply Rdiv_lt_0_compat; lra|].
    apply Rmult_le_reg_r with (3 * A); [lra|]. unfold Rdiv at 1. rewrite Rmult_assoc, Rinv_l by lra.
    rewrite Rmult_1_r.
    assert (H0 : 0 < (B + A * x) * x) by nra. assert (H1 : 0 < B + A * x) by (apply Rmult_lt_reg_r with x; lra).
    assert (Ax : 0 < A * x) by nra.
    assert (L : d <= (B + 39/10 * A * x) * (B + 39/10 * A * x)).
    { unfold d. replace ((B + 39/10 * A * x) * (B + 39/10 * A * x)) with (B * B + A * (78/10 * (B * x) + 1521/100 * (A * (x * x)))) by field.
      assert (3 * g <= 78/10 * (B * x) + 1521/100 * (A * (x * x))) by nra. nra. }
    assert (sqrt d <= B + 39/10 * A * x).
    { apply Rnot_lt_le. intros L2.
      assert ((B + 39/10 * A * x) * (B + 39/10 * A * x) < sqrt d * sqrt d) by (apply Rmult_gt_0_lt_compat; lra). lra. }
    lra.
Qed.

(** invariant of the loop on finite values *)
Definition inv (a0 p0 a1 p1 : R) : Prop :=
  0 < a1 /\ a1 <= 6/10 * a0 /\ kappa * - der * a1 <= p1 - phi0 - der * a1.

Lemma cubic_fin a0 p0 a1 p1 : inv a0 p0 a1 p1 ->
  let a2 := cubic_step Eops (Fin phi0) (Fin der) (Fin a0) (Fin p0) (Fin a1) (Fin p1) in
  a2 = NaN \/ exists r, a2 = Fin r /\ 0 < r <= 13/10 * a1.
Proof.
  intros (H1 & H2 & H3). unfold cubic_step. cbv zeta. unfold Eops; cbn [fq fadd fsub fmul fdiv fneg fabs fsqrt].
  unfold ext_sub. cbn [ext_mul ext_neg ext_add].
  set (fac := a0 * a0 * (a1 * a1) * (a1 + - a0)).
  assert (Hfac : fac <> 0).
  { unfold fac. apply Rmult_integral_contrapositive; split; [|lra].
    apply Rmult_integral_contrapositive; split; nra. }
  rewrite !(fun x => ext_div_fin x fac Hfac). cbn [ext_mul ext_neg ext_add].
  set (B := (- (a0 * a0 * a0) * _ + _) / fac). set (A := (a0 * a0 * _ + _) / fac). cbn [ext_mul ext_neg ext_add ext_abs ext_sqrt].
  assert (HI : kappa * - der <= B * a1 + A * (a1 * a1)).
  { assert (E : B * (a1 * a1) + A * (a1 * a1 * a1) = p1 - phi0 - der * a1).
    { unfold A, B, fac. field. repeat split; lra. }
    apply Rmult_le_reg_r with a1; [assumption|]. nra. }
  set (dd := Rabs _). destruct (Rlt_dec dd 0) as [Hlt|_].
  { exfalso. unfold dd in Hlt. pose proof (Rabs_pos (B * B + - (3/1 * A * der))). lra. }
  cbn [ext_add]. unfold ext_div. destruct (Req_EM_T (3/1 * A) 0) as [Hz|Hz].
  - left. assert (HA : A = 0) by lra.
    assert (HB : 0 < B). { rewrite HA in HI. apply Rmult_lt_reg_r with a1; [assumption|]. nra. }
    destruct (Req_EM_T (- B + sqrt dd) 0) as [Hq|Hq]; [reflexivity|]. exfalso. apply Hq.
    unfold dd. rewrite HA. replace (B * B + - (3/1 * 0 * der)) with (B * B) by lra.
    rewrite Rabs_right by nra. rewrite sqrt_square by lra. lra.
  - right. eexists; split; [reflexivity|]. unfold dd.
    replace (B * B + - (3/1 * A * der)) with (B * B - 3/1 * A * - (- der)) by lra.
    apply cubic_bounds; [lra|assumption|intros ->; lra|assumption].
Qed.

Lemma safeguard_any a1 a2 : 0 < a1 ->
  safeguard Eops (Fin a1) a2 = Fin (a1 / 2) \/ safeguard Eops (Fin a1) a2 = NaN.
Proof.
  intros H. unfold safeguard. destruct a2 as [r| | |]; unfold Eops; cbn [fq flt fsub fdiv]; unfold ext_sub, ext_div;
    destruct (Req_EM_T (2/1) 0); try lra; cbn [ext_neg ext_add ext_lt].
  - destruct (Req_EM_T a1 0); [lra|]. cbn [ext_neg ext_add ext_lt].
    destruct (Rltb (a1 / (2/1)) (a1 + - r)) eqn:E1; cbn [orb]; [left; f_equal; lra|].
    apply Rltb_false in E1.
    assert (E2 : Rltb (1/1 + - (r / a1)) (96/100) = true); [|rewrite E2; left; f_equal; lra].
    apply Rltb_true. assert (1/2 <= r / a1); [|lra].
    apply Rmult_le_reg_r with a1; [assumption|]. unfold Rdiv at 2. rewrite Rmult_assoc, Rinv_l by lra. lra.
  - destruct (Rlt_dec a1 0); [lra|]. cbn. left. f_equal. lra.
  - left. cbn. f_equal. lra.
  - right. reflexivity.
Qed.
Lemma safeguard_fin a1 r : 0 < a1 -> safeguard Eops (Fin a1) (Fin r) = Fin (a1 / 2).
Proof.
  intros H. destruct (safeguard_any a1 (Fin r) H) as [E|E]; [exact E|].
  unfold safeguard in E. destruct (_ || _); [|discriminate]. revert E. cbn. destruct (Req_EM_T (2/1) 0); [lra|]. discriminate.
Qed.

Variable f : trace -> ext -> exn + ext.
Variable yastn : bool.
Variable amin : R.
Notation phi := (recorded f).

(** *** positivity *)
Section Finite.
Hypothesis Hf : finite_values f.

Definition in_range (a0 : R) (x : ext * ext) : Prop := fst x = NaN \/ exists r, fst x = Fin r /\ 0 < r <= a0.

Lemma nan_not_sufficient v : sufficient Eops (Fin phi0) (Fin der) NaN v = false.
Proof. destruct v; reflexivity. Qed.

Lemma loop_nan fuel a0 p0 p1 tr :
  armijo_loop Eops phi yastn (Fin phi0) (Fin der) (Fin amin) (S fuel) a0 p0 NaN p1 tr =
  (tr, inr {| ls_stat := LsTrue; ls_alpha := None; ls_loss := Some p1 |}).
Proof. reflexivity. Qed.

Lemma loop_positive : forall fuel a0 p0 a1 p1 tr tr' t v top, inv a0 p0 a1 p1 -> a0 <= top ->
  armijo_loop Eops phi yastn (Fin phi0) (Fin der) (Fin amin) fuel (Fin a0) (Fin p0) (Fin a1) (Fin p1) tr =
    (tr', inr {| ls_stat := LsTrue; ls_alpha := Some t; ls_loss := v |}) ->
  exists r, t = Fin r /\ 0 < r <= top.
Proof.
  induction fuel; intros a0 p0 a1 p1 tr tr' t v top I Ht; cbn [armijo_loop]; [discriminate|].
  destruct (flt Eops (Fin amin) (Fin a1)); [|discriminate]. cbv zeta.
  pose proof (cubic_fin _ _ _ _ I) as C. cbv zeta in C. destruct I as (I1 & I2 & I3).
  set (a2 := cubic_step _ _ _ _ _ _ _) in *. unfold eval_phi.
  unfold recorded at 1. destruct (f tr a2) as [e|w] eqn:Ew.
  { destruct yastn; [destruct e|]; discriminate. }
  destruct (Hf _ _ _ Ew) as [w' ->]. destruct C as [C|(r & C & Cr)]; rewrite C.
  - rewrite nan_not_sufficient. destruct fuel; [discriminate|]. 
    assert (S : safeguard Eops (Fin a1) NaN = NaN).
    { unfold safeguard. cbn. destruct (Req_EM_T (2/1) 0); [lra|]. reflexivity. }
    rewrite S, loop_nan. discriminate.
  - destruct (sufficient Eops (Fin phi0) (Fin der) (Fin r) (Fin w')) eqn:Es.
    + unfold ret; intros H. assert (t = Fin r) by congruence. subst t. exists r. split; [reflexivity|lra].
    + rewrite safeguard_fin by assumption. apply insufficient_fin in Es. apply IHfuel; [|lra].
      repeat split; try lra. nra.
Qed.

Lemma armijo_positive fuel a0 tr tr' t v : 0 < a0 ->
  armijo Eops phi yastn (Fin phi0) (Fin der) (Fin amin) fuel (Fin a0) tr =
    (tr', inr {| ls_stat := LsTrue; ls_alpha := Some t; ls_loss := v |}) ->
  exists r w, t = Fin r /\ v = Some (Fin w) /\ 0 < r <= a0 /\ decreases_enough phi0 der r w /\
    exists tr1, tr' = tr1 ++ [(Fin r, Fin w)].
Proof.
  intros Ha H. pose proof (accepted _ _ _ _ _ _ _ _ _ _ _ _ H) as (tr1 & w & -> & Hp & Hs).
  unfold recorded in Hp. destruct (f tr1 t) as [e|w2] eqn:Ew; [discriminate|]. injection Hp as <- <-.
  destruct (Hf _ _ _ Ew) as [w ->].
  assert (R : exists r, t = Fin r /\ 0 < r <= a0).
  { revert H. unfold armijo, eval_phi, recorded at 1. destruct (f tr (Fin a0)) as [e|w0] eqn:E0.
    { destruct yastn; [destruct e|]; discriminate. }
    destruct (Hf _ _ _ E0) as [p0 ->].
    destruct (sufficient Eops (Fin phi0) (Fin der) (Fin a0) (Fin p0)) eqn:Es.
    { unfold ret; intros H. exists a0. split; [congruence|lra]. }
    apply insufficient_fin in Es. cbv zeta. destruct (quad_fin a0 p0 Ha Es) as (a1 & -> & B1 & B2).
    unfold recorded at 1. destruct (f _ (Fin a1)) as [e|w1] eqn:E1.
    { destruct yastn; [destruct e|]; discriminate. }
    destruct (Hf _ _ _ E1) as [p1 ->].
    destruct (sufficient Eops (Fin phi0) (Fin der) (Fin a1) (Fin p1)) eqn:Es1.
    { unfold ret; intros H. exists a1. split; [congruence|lra]. }
    apply insufficient_fin in Es1. intros H. eapply loop_positive; [|apply Rle_refl|exact H].
    repeat split; try lra. nra. }
  destruct R as (r & -> & Hr). exists r, w. repeat split; try lra.
  - apply sufficient_fin. exact Hs.
  - eexists. reflexivity.
Qed.
End Finite.

(** *** termination, whatever the values *)
Lemma loop_terminates : forall k fuel a0 p0 a1 p1 tr, (k < fuel)%nat -> 0 < amin ->
  (a1 = NaN \/ exists r, a1 = Fin r /\ 0 <= r <= amin * 2 ^ k) ->
  let x := armijo_loop Eops phi yastn (Fin phi0) (Fin der) (Fin amin) fuel a0 p0 a1 p1 tr in
  (length (fst x) <= length tr + k)%nat /\
  (snd x = inl (Py OutOfFuel) -> exists tr' a, f tr' a = inl (Py OutOfFuel)).
Proof.
  induction k; intros fuel a0 p0 a1 p1 tr Hk Hm Ha; (destruct fuel; [lia|]); cbv zeta.
  - assert (L : flt Eops (Fin amin) a1 = false).
    { destruct Ha as [->|(r & -> & Hr)]; [reflexivity|]. cbn. apply Rltb_false. cbn in Hr. lra. }
    cbn [armijo_loop]. rewrite L. cbn. split; [lia|discriminate].
  - cbn [armijo_loop]. destruct (flt Eops (Fin amin) a1) eqn:L; [|cbn; split; [lia|discriminate]].
    destruct Ha as [->|(r & -> & Hr)]; [discriminate|]. cbn in L. apply Rltb_true in L.
    set (a2 := cubic_step _ _ _ _ _ _ _). unfold eval_phi, recorded at 1 3. destruct (f tr a2) as [e|w] eqn:Ew.
    { destruct yastn; [destruct e|]; cbn; split; try lia; try discriminate. intros H; injection H as ->; eauto. }
    destruct (sufficient Eops (Fin phi0) (Fin der) a2 w) eqn:Es.
    { cbn. rewrite app_length. cbn. split; [lia|discriminate]. }
    specialize (IHk fuel (Fin r) p1 (safeguard Eops (Fin r) a2) w (tr ++ [(a2, w)])). cbv zeta in IHk.
    rewrite app_length in IHk; cbn [length] in IHk.
    destruct IHk as [I1 I2]; [lia|assumption| |split; [lia|assumption]].
    destruct (safeguard_any r a2 ltac:(lra)) as [->| ->]; [right|left; reflexivity].
    exists (r / 2). split; [reflexivity|]. cbn in Hr. lra.
Qed.

Lemma rec_cases a tr :
  (exists e, f tr a = inl e /\ recorded f a tr = (tr, inl e)) \/
  (exists v, f tr a = inr v /\ recorded f a tr = (tr ++ [(a, v)], inr v)).
Proof. unfold recorded. destruct (f tr a) as [e|v]; [left|right]; eauto. Qed.

Lemma armijo_terminates k fuel a0 tr : (k < fuel)%nat -> 0 < amin -> 0 < a0 <= amin * 2 ^ k ->
  let x := armijo Eops phi yastn (Fin phi0) (Fin der) (Fin amin) fuel (Fin a0) tr in
  (length (fst x) <= length tr + (2 + k))%nat /\
  (snd x = inl (Py OutOfFuel) -> exists tr' a, f tr' a = inl (Py OutOfFuel)).
Proof.
  intros Hk Hm Ha. cbv zeta. unfold armijo, eval_phi. destruct (rec_cases (Fin a0) tr) as [(e & E0 & ->)|(p0 & E0 & ->)].
  { destruct yastn; [destruct e|]; cbn; split; try lia; try discriminate. intros H; injection H as ->; eauto. }
  destruct (sufficient Eops (Fin phi0) (Fin der) (Fin a0) p0) eqn:Es.
  { cbn. rewrite app_length; cbn. split; [lia|discriminate]. }
  set (a1 := quad_step _ _ _ _ _). cbv zeta.
  assert (A1 : a1 = NaN \/ exists r, a1 = Fin r /\ 0 <= r <= a0).
  { destruct (insufficient_inf _ _ Es) as [->|[->|[r ->]]].
    - right. exists 0. split; [|lra]. unfold a1, quad_step; cbn. destruct (Req_EM_T (2/1) 0); [lra|]. reflexivity.
    - left. unfold a1, quad_step; cbn. destruct (Req_EM_T (2/1) 0); [lra|]. reflexivity.
    - apply insufficient_fin in Es. destruct (quad_fin a0 r ltac:(lra) Es) as (q & Eq & B & _).
      right. exists q. split; [exact Eq|lra]. }
  destruct (rec_cases a1 (tr ++ [(Fin a0, p0)])) as [(e & E1 & ->)|(p1 & E1 & ->)].
  { destruct yastn; [destruct e|]; cbn; rewrite ?app_length; cbn; split; try lia; try discriminate. intros H; injection H as ->; eauto. }
  destruct (sufficient Eops (Fin phi0) (Fin der) a1 p1) eqn:Es1.
  { cbn. rewrite !app_length; cbn. split; [lia|discriminate]. }
  edestruct (loop_terminates k fuel (Fin a0) p0 a1 p1 ((tr ++ [(Fin a0, p0)]) ++ [(a1, p1)])) as [I1 I2]; [exact Hk|exact Hm| |].
  { destruct A1 as [->|(r & -> & Hr)]; [left; reflexivity|right; exists r; split; [reflexivity|lra]]. }
  cbv zeta in I1, I2. rewrite !app_length in I1; cbn [length] in I1. split; [lia|exact I2].
Qed.
End Fin.

Lemma sgd_positive phi0 der amin (g : trace -> ext -> R) fuel a0 tr tr' t v : der < 0 -> 0 < a0 ->
  sgd_armijo Eops (recorded (fun tr a => inr (Fin (g tr a)))) (Fin phi0) (Fin der) (Fin amin) fuel (Fin a0) tr =
    (tr', inr (Some t, v)) ->
  exists r w, t = Fin r /\ v = Fin w /\ 0 < r <= a0 /\ decreases_enough phi0 der r w /\
    exists tr1, tr' = tr1 ++ [(Fin r, Fin w)].
Proof.
  intros Hd Ha H. rewrite (sgd_same _ _ true) in H by (intros; discriminate).
  destruct (armijo _ _ _ _ _ _ _ _ _) as [s1 [e|[st al lo]]] eqn:E; [discriminate|]. cbn in H.
  injection H as -> -> <-.
  assert (st = LsTrue) as ->.
  { apply armijo_status in E; [exact E|]. intros; discriminate. }
  assert (Hf : finite_values (fun tr a => inr (Fin (g tr a)))) by (intros ? ? ? [= <-]; eauto).
  destruct (armijo_positive phi0 der Hd _ true amin Hf _ _ _ _ _ _ Ha E) as (r & w & -> & -> & R & D & T).
  exists r, w. auto.
Qed.

Lemma zero_step : exists f, finite_values (fun tr a => match f tr a with inr PInf => inl (Py ValueError) | x => x end) /\
  (forall tr, f tr (Fin 0) = inr (Fin 5)) /\
  armijo Eops (recorded f) true (Fin 5) (Fin (-1)) (Fin 1) 3 (Fin 1) [] =
    ([(Fin 1, PInf); (Fin 0, Fin 5)], inr {| ls_stat := LsTrue; ls_alpha := Some (Fin 0); ls_loss := Some (Fin 5) |}).
Proof.
  exists (fun _ a => if ext_eq a (Fin 0) then inr (Fin 5) else inr PInf).
  assert (E0 : ext_eq (Fin 0) (Fin 0) = true) by (apply Reqb_true; reflexivity).
  split; [|split].
  - intros tr a v. destruct (ext_eq a (Fin 0)); [|discriminate]. intros [= <-]. eauto.
  - intros. rewrite E0. reflexivity.
  - unfold armijo, eval_phi, recorded at 1.
    assert (E1 : ext_eq (Fin 1) (Fin 0) = false).
    { unfold ext_eq. unfold Reqb. destruct (Req_EM_T 1 0); [lra|reflexivity]. }
    rewrite E1. replace (sufficient Eops (Fin 5) (Fin (-1)) (Fin 1) PInf) with false by reflexivity. cbv zeta.
    assert (Q : quad_step Eops (Fin 5) (Fin (-1)) (Fin 1) PInf = Fin 0).
    { unfold quad_step; cbn. destruct (Req_EM_T (2/1) 0); [lra|]. reflexivity. }
    rewrite Q. unfold recorded at 1. rewrite E0.
    replace (sufficient Eops (Fin 5) (Fin (-1)) (Fin 0) (Fin 5)) with true; [reflexivity|].
    symmetry. apply sufficient_fin. unfold decreases_enough. lra.
Qed.
