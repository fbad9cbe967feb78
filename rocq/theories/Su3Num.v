(** Exact arithmetic with 1/6, i and sqrt 3: (a,b,c,d,e) is (a + b i + c s3 + d i s3) / 6^e. *)
From Coq Require Import ZArith List Ring InitialRing Lia Setoid.
Open Scope Z_scope.

Definition fnum := (Z * Z * Z * Z * nat)%type.
Definition f0 : fnum := (0, 0, 0, 0, 0%nat).
Definition f1 : fnum := (1, 0, 0, 0, 0%nat).
Definition fhalf : fnum := (3, 0, 0, 0, 1%nat).
Definition fthird : fnum := (2, 0, 0, 0, 1%nat).
Definition fim : fnum := (0, 1, 0, 0, 0%nat).
Definition fs3 : fnum := (0, 0, 1, 0, 0%nat).
Fixpoint pow6 (e : nat) : Z := match e with O => 1 | S e => 6 * pow6 e end.
Definition fadd (x y : fnum) : fnum :=
  let '(a, b, c, d, e) := x in let '(a', b', c', d', e') := y in
  let p := pow6 (e' - e) in let q := pow6 (e - e') in
  (a * p + a' * q, b * p + b' * q, c * p + c' * q, d * p + d' * q, Nat.max e e').
Definition fmul (x y : fnum) : fnum :=
  let '(a, b, c, d, e) := x in let '(a', b', c', d', e') := y in
  (a * a' - b * b' + 3 * (c * c') - 3 * (d * d'),
   a * b' + b * a' + 3 * (c * d') + 3 * (d * c'),
   a * c' + c * a' - b * d' - d * b',
   a * d' + d * a' + b * c' + c * b', (e + e')%nat).
Definition fopp (x : fnum) : fnum := let '(a, b, c, d, e) := x in (- a, - b, - c, - d, e).
Definition fsub (x y : fnum) : fnum := fadd x (fopp y).
(** the real part, the complex conjugate *)
Definition fre (x : fnum) : fnum := let '(a, b, c, d, e) := x in (a, 0, c, 0, e).
Definition fcj (x : fnum) : fnum := let '(a, b, c, d, e) := x in (a, - b, c, - d, e).
Definition fz (x : fnum) : bool := let '(a, b, c, d, e) := x in ((a =? 0) && (b =? 0) && (c =? 0) && (d =? 0))%bool.
Definition feq (x y : fnum) : bool := fz (fsub x y).

Section Phi.
Context {K : Type} (k0 k1 : K) (kadd kmul ksub : K -> K -> K) (kopp : K -> K) (half third im s3 : K).
Hypothesis Kr : ring_theory k0 k1 kadd kmul ksub kopp (@eq K).
Add Ring Kring : Kr.
Notation "a + b" := (kadd a b).
Notation "a * b" := (kmul a b).
Hypothesis Hhalf : kadd k1 k1 * half = k1.
Hypothesis Hthird : (k1 + (k1 + k1)) * third = k1.
Hypothesis Him : im * im = kopp k1.
Hypothesis Hs3 : s3 * s3 = k1 + (k1 + k1).
Definition zk : Z -> K := gen_phiZ k0 k1 kadd kmul kopp.
Lemma zk_morph : ring_morph k0 k1 kadd kmul ksub kopp eq 0 1 Z.add Z.mul Z.sub Z.opp Zeq_bool zk.
Proof. apply (gen_phiZ_morph (Eqsth K) (Eq_ext kadd kmul kopp) Kr). Qed.
Lemma zk_add x y : zk (x + y)%Z = zk x + zk y. Proof. apply (morph_add zk_morph). Qed.
Lemma zk_sub x y : zk (x - y)%Z = ksub (zk x) (zk y). Proof. apply (morph_sub zk_morph). Qed.
Lemma zk_mul x y : zk (x * y)%Z = zk x * zk y. Proof. apply (morph_mul zk_morph). Qed.
Lemma zk_opp x : zk (- x)%Z = kopp (zk x). Proof. apply (morph_opp zk_morph). Qed.
Lemma zk_0 : zk 0 = k0. Proof. reflexivity. Qed.
Lemma zk_1 : zk 1 = k1. Proof. reflexivity. Qed.
Definition sixth : K := half * third.
Fixpoint s6 (e : nat) : K := match e with O => k1 | S e => sixth * s6 e end.
Definition phi (x : fnum) : K :=
  let '(a, b, c, d, e) := x in (zk a + zk b * im + zk c * s3 + zk d * (im * s3)) * s6 e.
Lemma zk_2 : zk 2 = k1 + k1. Proof. cbn. ring. Qed.
Lemma zk_3 : zk 3 = k1 + (k1 + k1). Proof. cbn. ring. Qed.
Lemma zk_6 : zk 6 = (k1 + k1) * (k1 + (k1 + k1)). Proof. cbn. ring. Qed.
Lemma six : zk 6 * sixth = k1.
Proof. rewrite zk_6. unfold sixth. transitivity (((k1 + k1) * half) * ((k1 + (k1 + k1)) * third)); [ring|]. rewrite Hhalf, Hthird. ring. Qed.
Lemma s6_pow e : zk (pow6 e) * s6 e = k1.
Proof. induction e as [|e IH]; cbn [pow6 s6]; [rewrite zk_1; ring|]. rewrite zk_mul. transitivity ((zk 6 * sixth) * (zk (pow6 e) * s6 e)); [ring|]. rewrite six, IH. ring. Qed.
Lemma s6_add e e' : s6 (e + e') = s6 e * s6 e'.
Proof. induction e as [|e IH]; cbn; [ring|]. rewrite IH. ring. Qed.
Lemma s6_max e e' : zk (pow6 (e' - e)) * s6 (Nat.max e e') = s6 e.
Proof. replace (Nat.max e e') with (e + (e' - e))%nat by lia. rewrite s6_add. transitivity (s6 e * (zk (pow6 (e' - e)) * s6 (e' - e))); [ring|]. rewrite s6_pow. ring. Qed.
Lemma phi_0 : phi f0 = k0. Proof. cbn. ring. Qed.
Lemma phi_1 : phi f1 = k1. Proof. cbn. ring. Qed.
Lemma phi_half : phi fhalf = half.
Proof. cbn [phi fhalf s6]. rewrite zk_3, zk_0. unfold sixth. transitivity (((k1 + (k1 + k1)) * third) * half); [ring|]. rewrite Hthird. ring. Qed.
Lemma phi_third : phi fthird = third.
Proof. cbn [phi fthird s6]. rewrite zk_2, zk_0. unfold sixth. transitivity (((k1 + k1) * half) * third); [ring|]. rewrite Hhalf. ring. Qed.
Lemma phi_im : phi fim = im. Proof. cbn. ring. Qed.
Lemma phi_s3 : phi fs3 = s3. Proof. cbn. ring. Qed.
Lemma phi_add x y : phi (fadd x y) = phi x + phi y.
Proof. destruct x as [[[[a b] c] d] e], y as [[[[a' b'] c'] d'] e']. cbn [fadd phi]. rewrite !zk_add, !zk_mul.
  rewrite <- (s6_max e e'), <- (s6_max e' e). rewrite (Nat.max_comm e' e). ring. Qed.
Lemma phi_mul x y : phi (fmul x y) = phi x * phi y.
Proof. destruct x as [[[[a b] c] d] e], y as [[[[a' b'] c'] d'] e']. cbn [fmul phi].
  repeat (rewrite zk_add || rewrite zk_sub || rewrite zk_mul). rewrite zk_3, s6_add. ring [Him Hs3]. Qed.
Lemma phi_opp x : phi (fopp x) = kopp (phi x).
Proof. destruct x as [[[[a b] c] d] e]. cbn [fopp phi]. rewrite !zk_opp. ring. Qed.
Lemma phi_sub x y : phi (fsub x y) = ksub (phi x) (phi y).
Proof. unfold fsub. rewrite phi_add, phi_opp. ring. Qed.
Lemma fz_ok x : fz x = true -> phi x = k0.
Proof. destruct x as [[[[a b] c] d] e]. cbn. rewrite !Bool.andb_true_iff, !Z.eqb_eq. intros [[[-> ->] ->] ->]. rewrite zk_0. ring. Qed.
Lemma feq_ok x y : feq x y = true -> phi x = phi y.
Proof. intros H. apply fz_ok in H. rewrite phi_sub in H. transitivity (ksub (phi x) (phi y) + phi y); [ring|]. rewrite H. ring. Qed.

(** a conjugation of K *)
Variables (cj re : K -> K).
Hypotheses (cj_add : forall x y, cj (x + y) = cj x + cj y) (cj_mul : forall x y, cj (x * y) = cj x * cj y) (cj_1 : cj k1 = k1)
  (cj_im : cj im = kopp im) (cj_s3 : cj s3 = s3) (re_half : forall x, re x = half * (x + cj x)).
Lemma cj_0 : cj k0 = k0.
Proof. assert (H : cj k0 + cj k0 = cj k0). { rewrite <- cj_add. f_equal. ring. }
  transitivity (ksub (cj k0 + cj k0) (cj k0)); [ring|]. rewrite H. ring. Qed.
Lemma cj_opp x : cj (kopp x) = kopp (cj x).
Proof. assert (H : cj (kopp x) + cj x = k0). { rewrite <- cj_add, <- cj_0. f_equal. ring. }
  transitivity (ksub (cj (kopp x) + cj x) (cj x)); [ring|]. rewrite H. ring. Qed.
Lemma cj_zk_pos p : cj (zk (Zpos p)) = zk (Zpos p).
Proof. induction p as [|p IH] using Pos.peano_ind; [exact cj_1|].
  replace (Zpos (Pos.succ p)) with (1 + Zpos p)%Z by lia. rewrite zk_add, cj_add, IH, zk_1, cj_1. reflexivity. Qed.
Lemma cj_zk x : cj (zk x) = zk x.
Proof. destruct x as [|p|p]; [exact cj_0|apply cj_zk_pos|]. change (Zneg p) with (- Zpos p)%Z. rewrite zk_opp, cj_opp, cj_zk_pos. reflexivity. Qed.
Lemma inv_unique a x y : a * x = k1 -> a * y = k1 -> x = y.
Proof. intros H1 H2. transitivity ((a * x) * y); [|rewrite H1; ring]. transitivity ((a * y) * x); [rewrite H2; ring|ring]. Qed.
Lemma cj_half : cj half = half.
Proof. apply (inv_unique (k1 + k1)); [|exact Hhalf]. rewrite <- cj_1 at 1 2. rewrite <- cj_add, <- cj_mul, Hhalf. apply cj_1. Qed.
Lemma cj_third : cj third = third.
Proof. apply (inv_unique (k1 + (k1 + k1))); [|exact Hthird]. rewrite <- cj_1 at 1 2 3. rewrite <- !cj_add, <- cj_mul, Hthird. apply cj_1. Qed.
Lemma cj_s6 e : cj (s6 e) = s6 e.
Proof. induction e as [|e IH]; cbn; [apply cj_1|]. unfold sixth. rewrite !cj_mul, cj_half, cj_third, IH. reflexivity. Qed.
Lemma phi_cj x : phi (fcj x) = cj (phi x).
Proof. destruct x as [[[[a b] c] d] e]. cbn [fcj phi]. rewrite !cj_mul, !cj_add, !cj_mul, !cj_zk, cj_im, cj_s3, cj_s6, !zk_opp. ring. Qed.
Lemma phi_re x : phi (fre x) = re (phi x).
Proof. rewrite re_half, <- phi_cj. destruct x as [[[[a b] c] d] e]. cbn [fre fcj phi]. rewrite !zk_opp, zk_0.
  transitivity ((((k1 + k1) * half) * (zk a + zk c * s3)) * s6 e); [rewrite Hhalf; ring|ring]. Qed.
End Phi.
