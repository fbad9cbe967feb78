(** Enlarged corners of the kagome lattice with any spins of the cell left open. *)
From Verif Require Import Base BaseLemmas Lattice Tensor TensorLemmas Net NetSpec NetProofs NetProofs2 NetProofs3 Corners CornersSpec CornersProofs Rdm RdmSpec RdmProofs RdmKag RdmKagSpec RdmKagProofs.
From Coq Require Import Ring ArithRing Permutation.
Open Scope list_scope.
Open Scope nat_scope.
Open Scope res_scope.

Definition subs : list (list nat) := [[]; [0]; [1]; [2]; [0;1]; [0;2]; [1;2]; [0;1;2]].
(** the network of a tensor in normal form *)
Definition canon (fac : list (nat * list leg)) (out : list leg) : sym := mkS out (to_sum fac out) fac.
Lemma rep_canon {K} (z o : K) add mul (SR : semi_ring_theory z o add mul eq) D env S fac out M :
  rep z o add mul D env S M -> sym_is S fac out = true -> rep z o add mul D env (canon fac out) M.
Proof. intros HR HS. apply (rep_of_contraction z o add mul D (map (fun f => (env (fst f), snd f)) fac)); [|reflexivity].
  exact (rep_contraction z o add mul SR D env _ _ _ _ HR HS). Qed.
Lemma res_canon {K} (z o : K) add mul (SR : semi_ring_theory z o add mul eq) D env S fac out (m : res (tensor K)) :
  (exists M, m = Ok M /\ rep z o add mul D env S M) -> sym_is S fac out = true -> exists M, m = Ok M /\ rep z o add mul D env (canon fac out) M.
Proof. intros (M & E & HR) HS. exists M. split; [exact E|]. exact (rep_canon z o add mul SR D env _ _ _ _ HR HS). Qed.
(** view then conj *)
Lemma bind_view_conj {K} (z o : K) add mul cj D env S S' A dims {B} (k : tensor K -> res B) (Q : B -> Prop) :
  (exists M, view A dims = Ok M /\ rep z o add mul D env S M) ->
  (exists M, view (tmap cj A) dims = Ok M /\ rep z o add mul D env S' M) ->
  (forall M, rep z o add mul D env S M -> rep z o add mul D env S' (conj cj M) -> exists N, k M = Ok N /\ Q N) ->
  exists N, bind (view A dims) k = Ok N /\ Q N.
Proof. intros (M & E & HR) (M' & E' & HR') H. rewrite E. cbn. apply H; [exact HR|].
  replace (conj cj M) with M'; [exact HR'|]. unfold view, treshape in *. cbn in E'. rewrite map_length in E'.
  destruct (_ =? _); [|discriminate]. injection E as <-. injection E' as <-. reflexivity. Qed.

Section Legs.
Variables (w h : nat).
Definition ketL i j : list leg := [three (fun s => sket w h s i j); V (vket w h i j); V (hket w h i j); V (vket w h i (S j)); V (hket w h (S i) j)].
Definition braL s i j : list leg := [three (fun t => if memb t s then sbra w h t i j else sket w h t i j);
  V (vbra w h i j); V (hbra w h i j); V (vbra w h i (S j)); V (hbra w h (S i) j)].
Fixpoint nest (l : list nat) : leg := match l with [] => V 0 | [x] => V x | x :: r => F (V x) (nest r) end.
Definition opn s i j : list leg := match s with [] => [] | _ => [nest (map (fun t => sket w h t i j) s ++ map (fun t => sbra w h t i j) s)] end.
Definition dbl4 i j : list leg := [vv w h i j; hh w h i j; vv w h i (S j); hh w h (S i) j].
(** positions of the tensors in the network *)
Definition kA i j := 2 * (j * w + i).
Definition cellF s i j := [(kA i j, ketL i j); (S (kA i j), braL s i j)].
Definition kTu i := 2 * w * h + i.
Definition kTr j := 2 * w * h + w + j.
Definition kTd i := 2 * w * h + w + h + i.
Definition kTl j := 2 * w * h + 2 * w + h + j.
Definition kC k := 2 * w * h + 2 * w + 2 * h + k.
Definition lTu i := [V (topb w h i); vv w h i 0; V (topb w h (S i))].
Definition lTr j := [V (rigb w h j); hh w h w j; V (rigb w h (S j))].
Definition lTd i := [vv w h i h; V (botb w h i); V (botb w h (S i))].
Definition lTl j := [V (lefb w h j); V (lefb w h (S j)); hh w h 0 j].
Definition lC k := match k with 0 => [V (lefb w h 0); V (topb w h 0)] | 1 => [V (topb w h w); V (rigb w h 0)]
  | 2 => [V (rigb w h h); V (botb w h w)] | _ => [V (lefb w h h); V (botb w h 0)] end.
Definition f_LU s := cellF s 0 0 ++ [(kTu 0, lTu 0); (kTl 0, lTl 0); (kC 0, lC 0)].
Definition o_LU s := [F (V (lefb w h 1)) (vv w h 0 1); F (V (topb w h 1)) (hh w h 1 0)] ++ opn s 0 0.
Definition f_RU s := cellF s (w - 1) 0 ++ [(kTu (w - 1), lTu (w - 1)); (kTr 0, lTr 0); (kC 1, lC 1)].
Definition o_RU s := [F (V (topb w h (w - 1))) (hh w h (w - 1) 0); F (V (rigb w h 1)) (vv w h (w - 1) 1)] ++ opn s (w - 1) 0.
Definition f_RD s := cellF s (w - 1) (h - 1) ++ [(kTd (w - 1), lTd (w - 1)); (kTr (h - 1), lTr (h - 1)); (kC 2, lC 2)].
Definition o_RD s := [F (V (rigb w h (h - 1))) (vv w h (w - 1) (h - 1)); F (V (botb w h (w - 1))) (hh w h (w - 1) (h - 1))] ++ opn s (w - 1) (h - 1).
Definition f_LD s := cellF s 0 (h - 1) ++ [(kTd 0, lTd 0); (kTl (h - 1), lTl (h - 1)); (kC 3, lC 3)].
Definition o_LD s := [F (V (lefb w h (h - 1))) (vv w h 0 (h - 1)); F (V (botb w h 1)) (hh w h 1 (h - 1))] ++ opn s 0 (h - 1).
End Legs.
Definition leafS k ts : sym := mkS ts [] [(k, ts)].

Ltac nz HP := rsz; cbn [nth map ldim s_out Nat.pow FF tl prod_dims fold_right]; repeat (apply Nat.neq_mul_0; split); try apply HP; discriminate.
Ltac kviewr HP l t := let l' := eval vm_compute in l in let t' := eval vm_compute in t in
  eapply (rep_view_rest _ _ _ _ _ _ _ l' t'); [eassumption|calc_some|kdims|nz HP].
Ltac leaf_in H := match type of H with rep ?z ?o ?add ?mul ?D ?env ?S ?M =>
  let S' := eval vm_compute in S in change (rep z o add mul D env S' M) in H end.
(** spins of a ket or bra tensor split *)
Ltac ksplit := idtac; match goal with |- exists M, view ?T _ = Ok M /\ _ => match goal with H : rep _ _ _ _ _ _ (mkS ?ts _ _) T |- _ =>
  let l := eval vm_compute in (flat_legs ts) in eapply (rep_view _ _ _ _ _ _ _ l); [eassumption|calc_some|kdims] end end.
Ltac t_layer_a SR HP cj w h s i j :=
  unfold double_layer_a; eapply (bind_view_conj _ _ _ _ cj); [ksplit|ksplit|intros ? ? ?];
  cbn [layer_labels bind fst snd app nonempty]; step ltac:(cein SR);
  lazymatch s with
  | [] => kview (dbl4 w h i j)
  | _ => kviewr HP (dbl4 w h i j) (hd (V 0) (opn w h s i j)) end.

Ltac ends s HP l := lazymatch s with [] => kview l | _ => kviewr HP (firstn 2 l) (nth 2 l (V 0)) end.
Ltac t_corner SR HP cj f w h s i j l :=
  eapply (res_canon _ _ _ _ SR);
  [unfold f; step ltac:(t_layer_a SR HP cj w h s i j); cbn [nonempty]; do 3 step ltac:(cdot SR); unfold fuse; step cperm; ends s HP l
  |check].
Section R.
Context {K : Type} (z o : K) (add mul : K -> K -> K) (cj : K -> K) (d : nat).
Hypothesis SR : semi_ring_theory z o add mul eq.
Variable D : nat -> nat.
Hypothesis HP : forall k, D k <> 0.
Variable env : nat -> tensor K.
Notation ten := (tensor K).
Notation rep := (rep z o add mul D env).
Lemma ket_bra A k k' t t' : rep (mkS t [] [(k, t)]) A -> rep (mkS t' [] [(k', t')]) (tmap cj A) -> tl (map (ldim D) t) = tl (map (ldim D) t').
Proof. intros (_ & E & _) (_ & E' & _). cbn in E, E'. now rewrite <- E, <- E'. Qed.
Ltac t_corners f w h i j RA RB R1 R2 RC Hs :=
  cbv [subs In] in Hs; repeat (destruct Hs as [<-|Hs]); [..|destruct Hs];
  leaf_in RA; leaf_in RB; leaf_in R1; leaf_in R2; leaf_in RC;
  let EQ := fresh "EQ" in pose proof (ket_bra _ _ _ _ _ RA RB) as EQ; cbn [map ldim tl] in EQ; injection EQ; clear EQ; intros;
  match goal with |- exists M, _ = Ok M /\ NetProofs2.rep _ _ _ _ _ _ (canon _ (?ol _ _ ?s)) M => t_corner SR HP cj f w h s i j (ol w h s) end.


Ltac corner_lemma f w h i j := let Hs := fresh "Hs" in let HD := fresh "HD" in intros Hs HD RA RB R1 R2 RC; spin_dims HD;
  t_corners f w h i j RA RB R1 R2 RC Hs.
Lemma corner_LU_22 s C T1 T2 A : In s subs -> spins D d 2 2 ->
  rep (leafS (kA 2 0 0) (ketL 2 2 0 0)) A -> rep (leafS (S (kA 2 0 0)) (braL 2 2 s 0 0)) (tmap cj A) ->
  rep (leafS (kTu 2 2 0) (lTu 2 2 0)) T1 -> rep (leafS (kTl 2 2 0) (lTl 2 2 0)) T2 -> rep (leafS (kC 2 2 0) (lC 2 2 0)) C ->
  exists M, corner_LU z o add mul cj d C T1 T2 A s = Ok M /\ rep (canon (f_LU 2 2 s) (o_LU 2 2 s)) M.
Proof. corner_lemma (@corner_LU) 2 2 0 0. Qed.
Lemma corner_RU_22 s C T1 T2 A : In s subs -> spins D d 2 2 ->
  rep (leafS (kA 2 1 0) (ketL 2 2 1 0)) A -> rep (leafS (S (kA 2 1 0)) (braL 2 2 s 1 0)) (tmap cj A) ->
  rep (leafS (kTr 2 2 0) (lTr 2 2 0)) T1 -> rep (leafS (kTu 2 2 1) (lTu 2 2 1)) T2 -> rep (leafS (kC 2 2 1) (lC 2 2 1)) C ->
  exists M, corner_RU z o add mul cj d C T1 T2 A s = Ok M /\ rep (canon (f_RU 2 2 s) (o_RU 2 2 s)) M.
Proof. corner_lemma (@corner_RU) 2 2 1 0. Qed.
Lemma corner_RD_22 s C T1 T2 A : In s subs -> spins D d 2 2 ->
  rep (leafS (kA 2 1 1) (ketL 2 2 1 1)) A -> rep (leafS (S (kA 2 1 1)) (braL 2 2 s 1 1)) (tmap cj A) ->
  rep (leafS (kTd 2 2 1) (lTd 2 2 1)) T1 -> rep (leafS (kTr 2 2 1) (lTr 2 2 1)) T2 -> rep (leafS (kC 2 2 2) (lC 2 2 2)) C ->
  exists M, corner_RD z o add mul cj d C T1 T2 A s = Ok M /\ rep (canon (f_RD 2 2 s) (o_RD 2 2 s)) M.
Proof. corner_lemma (@corner_RD) 2 2 1 1. Qed.
Lemma corner_LD_22 s C T1 T2 A : In s subs -> spins D d 2 2 ->
  rep (leafS (kA 2 0 1) (ketL 2 2 0 1)) A -> rep (leafS (S (kA 2 0 1)) (braL 2 2 s 0 1)) (tmap cj A) ->
  rep (leafS (kTl 2 2 1) (lTl 2 2 1)) T1 -> rep (leafS (kTd 2 2 0) (lTd 2 2 0)) T2 -> rep (leafS (kC 2 2 3) (lC 2 2 3)) C ->
  exists M, corner_LD z o add mul cj d C T1 T2 A s = Ok M /\ rep (canon (f_LD 2 2 s) (o_LD 2 2 s)) M.
Proof. corner_lemma (@corner_LD) 2 2 0 1. Qed.
Lemma corner_LU_21 s C T1 T2 A : In s subs -> spins D d 2 1 ->
  rep (leafS (kA 2 0 0) (ketL 2 1 0 0)) A -> rep (leafS (S (kA 2 0 0)) (braL 2 1 s 0 0)) (tmap cj A) ->
  rep (leafS (kTu 2 1 0) (lTu 2 1 0)) T1 -> rep (leafS (kTl 2 1 0) (lTl 2 1 0)) T2 -> rep (leafS (kC 2 1 0) (lC 2 1 0)) C ->
  exists M, corner_LU z o add mul cj d C T1 T2 A s = Ok M /\ rep (canon (f_LU 2 1 s) (o_LU 2 1 s)) M.
Proof. corner_lemma (@corner_LU) 2 1 0 0. Qed.
Lemma corner_RU_21 s C T1 T2 A : In s subs -> spins D d 2 1 ->
  rep (leafS (kA 2 1 0) (ketL 2 1 1 0)) A -> rep (leafS (S (kA 2 1 0)) (braL 2 1 s 1 0)) (tmap cj A) ->
  rep (leafS (kTr 2 1 0) (lTr 2 1 0)) T1 -> rep (leafS (kTu 2 1 1) (lTu 2 1 1)) T2 -> rep (leafS (kC 2 1 1) (lC 2 1 1)) C ->
  exists M, corner_RU z o add mul cj d C T1 T2 A s = Ok M /\ rep (canon (f_RU 2 1 s) (o_RU 2 1 s)) M.
Proof. corner_lemma (@corner_RU) 2 1 1 0. Qed.
Lemma corner_LU_12 s C T1 T2 A : In s subs -> spins D d 1 2 ->
  rep (leafS (kA 1 0 0) (ketL 1 2 0 0)) A -> rep (leafS (S (kA 1 0 0)) (braL 1 2 s 0 0)) (tmap cj A) ->
  rep (leafS (kTu 1 2 0) (lTu 1 2 0)) T1 -> rep (leafS (kTl 1 2 0) (lTl 1 2 0)) T2 -> rep (leafS (kC 1 2 0) (lC 1 2 0)) C ->
  exists M, corner_LU z o add mul cj d C T1 T2 A s = Ok M /\ rep (canon (f_LU 1 2 s) (o_LU 1 2 s)) M.
Proof. corner_lemma (@corner_LU) 1 2 0 0. Qed.
Lemma corner_LD_12 s C T1 T2 A : In s subs -> spins D d 1 2 ->
  rep (leafS (kA 1 0 1) (ketL 1 2 0 1)) A -> rep (leafS (S (kA 1 0 1)) (braL 1 2 s 0 1)) (tmap cj A) ->
  rep (leafS (kTl 1 2 1) (lTl 1 2 1)) T1 -> rep (leafS (kTd 1 2 0) (lTd 1 2 0)) T2 -> rep (leafS (kC 1 2 3) (lC 1 2 3)) C ->
  exists M, corner_LD z o add mul cj d C T1 T2 A s = Ok M /\ rep (canon (f_LD 1 2 s) (o_LD 1 2 s)) M.
Proof. corner_lemma (@corner_LD) 1 2 0 1. Qed.
End R.
