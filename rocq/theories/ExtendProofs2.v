(** Refutations, aliasing and repeated resizing. *)
From Verif Require Import Base BaseLemmas Tensor TensorLemmas Extend ExtendSpec ExtendProofs.
Open Scope nat_scope.
Open Scope list_scope.

(** scalars for the examples: Gaussian integers *)
Definition gi := (Z * Z)%type.
Definition g0 : gi := (0, 0)%Z.
Definition g1 : gi := (1, 0)%Z.
Definition gre (v : gi) : gi := (fst v, 0%Z).
Definition gadd (a b : gi) : gi := (fst a + fst b, snd a + snd b)%Z.
Definition gmul (a b : gi) : gi := (fst a * fst b - snd a * snd b, fst a * snd b + snd a * fst b)%Z.
Definition gconj (a : gi) : gi := (fst a, - snd a)%Z.
Definition gz (z : Z) : gi := (z, 0%Z).


Definition fe_a : tensor gi := mkT [1; 1; 1; 1; 1] [gz 7].
Definition fe_b : tensor gi := mkT [1; 3; 1; 1; 1] [gz 1; gz 2; gz 3].
Definition fe_sites : dict coord (tensor gi) := [((0, 0)%Z, fe_a); ((1, 0)%Z, fe_b)].
Lemma failed_extension : exists (sites : dict coord (tensor gi)) D, good_state gre Real sites /\
    snd (extend_bond_dim g0 gre Real sites D) = Err ValueError /\
    fst (extend_bond_dim g0 gre Real sites D) <> sites.
Proof. exists fe_sites, 2. split; [|split; [vm_compute; reflexivity|vm_compute; intros [=]]].
  split; [repeat constructor; cbn; intuition discriminate|]. intros c t H. apply dget_In in H.
  cbn in H. destruct H as [[= <- <-]|[[= <- <-]|[]]]; (split; [split; reflexivity|repeat constructor]). Qed.

Lemma NoDup_app_l {A} (l l' : list A) : NoDup (l ++ l') -> NoDup l.
Proof. induction l as [|a l IH]; intros H; [constructor|]. inversion H as [|? ? H1 H2]; subst. constructor; [|now apply IH].
  intros Hi. apply H1, in_or_app. now left. Qed.

Section G.
Context {K : Type} (z : K).

Lemma dset_app (pre post : dict coord (tensor K)) c t : In c (dkeys pre) -> dset (pre ++ post) c t = dset pre c t ++ post.
Proof. induction pre as [|[a b] pre IH]; cbn; [intros []|]. intros H. destruct (eq_dec c a) as [->|Hn]; cbn; [reflexivity|].
  f_equal. apply IH. destruct H as [->|H]; [congruence|exact H]. Qed.

Lemma loop_app re dt D todo : forall (sites post rest : dict coord (tensor K)), (forall c, In c (dkeys todo) -> In c (dkeys sites)) ->
  extend_loop z re dt D (todo ++ rest) (sites ++ post) =
  match extend_loop z re dt D todo sites with
  | (s', Ok tt) => extend_loop z re dt D rest (s' ++ post)
  | (s', Err e) => (s' ++ post, Err e)
  end.
Proof. induction todo as [|[c t] todo IH]; intros sites post rest H; [reflexivity|]. cbn [app extend_loop].
  destruct (extend_site z re dt D t) as [t'|e]; [|reflexivity].
  rewrite dset_app by (apply H; now left). apply IH. intros c' Hc.
  rewrite dkeys_dset_old by (apply H; now left). apply H. now right. Qed.

Lemma failed_extension_exact (re : K -> K) (dt : dtype) (D : nat) (pre post : dict coord (tensor K)) c t d :
  good_state re dt (pre ++ (c, t) :: post) ->
  (forall c' t', dget pre c' = Some t' -> aux_le D t') -> In d (tl (tdims t)) -> D < d ->
  exists pre', extend_bond_dim z re dt (pre ++ (c, t) :: post) D = (pre' ++ (c, t) :: post, Err ValueError) /\
    dkeys pre' = dkeys pre /\
    forall c' t', dget pre c' = Some t' -> exists t'', dget pre' c' = Some t'' /\ padded z t' (new_dims D t') t''.
Proof. intros [Hn Hg] Ha Hi Hd.
  assert (Hp : good_state re dt pre).
  { split; [unfold dkeys in *; rewrite map_app in Hn; exact (NoDup_app_l _ _ Hn)|].
    intros c' t' H. apply (Hg c'). apply In_dget; [exact Hn|]. apply in_or_app. left. now apply dget_In. }
  destruct (extend_ok z re dt D pre Hp Ha) as (pre' & E & Kd & P). exists pre'. split; [|split; [exact Kd|exact P]].
  unfold extend_bond_dim in *. rewrite loop_app by auto. rewrite E. cbn [extend_loop].
  now rewrite extend_site_small by (exists d; now split). Qed.

Lemma clone_independent (gdt : dtype) (s : store K) (e : envp) : store_ok s -> env_ok s e ->
  exists s' e', env_clone gdt s e = Ok (s', e') /\ p_chi e' = p_chi e /\
    (forall k, rd s' (p_C e') k = rd s (p_C e) k) /\ (forall k, rd s' (p_T e') k = rd s (p_T e) k) /\
    (forall a k, a < length (dicts s) -> rd s' a k = rd s a k) /\
    (forall ops, Forall (fun o => In (op_addr o) [p_C e'; p_T e']) ops ->
       forall a k, In a [p_C e; p_T e] -> rd (fold_left run_op ops s') a k = rd s' a k) /\
    (forall ops, Forall (fun o => In (op_addr o) [p_C e; p_T e]) ops ->
       forall a k, In a [p_C e'; p_T e'] -> rd (fold_left run_op ops s') a k = rd s' a k).
Proof. intros Hs He. destruct (env_clone_ok gdt s e Hs He) as (s' & e' & E & O & Ch & R1 & R2 & Kp & A).
  exists s', e'. split; [exact E|]. split; [exact Ch|]. split; [exact R1|]. split; [exact R2|]. split; [exact Kp|].
  split; intros ops Ho a k Hin.
  - eapply (run_ops ops s'); [exact O|apply apart_sym; exact A|exact Ho|exact Hin].
  - eapply (run_ops ops s'); [exact O|exact A|exact Ho|exact Hin]. Qed.

Lemma detach_preserves (gdt : dtype) (s : store K) (e : envp) : store_ok s -> env_ok s e ->
  exists s' e', env_detach gdt s e = Ok (s', e') /\ p_chi e' = p_chi e /\
    (forall k, rd s' (p_C e') k = rd s (p_C e) k) /\ (forall k, rd s' (p_T e') k = rd s (p_T e) k) /\
    (forall a k, a < length (dicts s) -> rd s' a k = rd s a k) /\
    (forall a b k k' t, In a [p_C e; p_T e] -> In b [p_C e'; p_T e'] ->
       rd (setitem s' b k t) a k' = rd s' a k' /\ rd (setitem s' a k t) b k' = rd s' b k').
Proof. intros Hs He. destruct (env_detach_ok gdt s e Hs He) as (s' & e' & E & O & Ch & R1 & R2 & Kp & A).
  exists s', e'. split; [exact E|]. split; [exact Ch|]. split; [exact R1|]. split; [exact R2|]. split; [exact Kp|].
  intros a b k k' t Ha Hb. specialize (A a b Ha Hb). split; apply setitem_other; congruence || assumption. Qed.

Lemma small_corner_raises (re : K -> K) dt chi new_chi (c : tensor K) a b :
  twf c -> tdims c = [a; b] -> 1 < a -> a < chi -> a < new_chi ->
  extend_C z re dt (Nat.min chi new_chi) new_chi c = Err RuntimeError.
Proof. intros W D Ha Hc Hn. unfold extend_C, tslice. rewrite D. cbn [length Nat.leb bind slice_dims slice_dim].
  unfold tset_slice. cbn [tzeros tbuild tdims length Nat.leb slice_dims slice_dim broadcastable].
  rewrite (proj2 (Nat.eqb_neq _ _)) by lia. rewrite (proj2 (Nat.eqb_neq _ _)) by lia. reflexivity. Qed.

Lemma padded_data (t t' : tensor K) dims' (P : K -> Prop) : P z -> Forall P (tdata t) -> padded z t dims' t' -> Forall P (tdata t').
Proof. intros Hz Hf (W & D & G). pose proof (tbuild_tget z t' W) as B. rewrite <- B. cbn. apply Forall_forall. intros v Hv.
  apply in_map_iff in Hv as (ix & <- & Hix). apply In_indices in Hix.
  rewrite D in Hix. rewrite (G ix Hix).
  destruct (tget t ix) as [x|] eqn:E; [|exact Hz]. rewrite Forall_forall in Hf. apply Hf.
  unfold tget in E. apply dget_In in E. unfold telts in E. now apply in_combine_r in E. Qed.

Lemma same_type (re : K -> K) : re z = z -> forall new_chi (e e' : envx K), env_good re e ->
  env_extend z re (x_dt e) new_chi e = Ok e' -> x_dt e' = x_dt e /\ env_good re e'.
Proof. intros H0 nc e e' Hg E.
  assert (Hdt : x_dt e' = x_dt e).
  { unfold env_extend in E. destruct (mapM _ (x_C e)) as [C|]; [|discriminate]. cbn [bind] in E.
    destruct (mapM _ (x_T e)) as [T|]; [|discriminate]. cbn [bind] in E. injection E as <-. reflexivity. }
  split; [exact Hdt|]. destruct (env_extend_ok z re (x_dt e) nc e Hg) as (e2 & E2 & Ch & FC & FT).
  assert (e2 = e') by congruence. subst e2. destruct Hg as [GC GT].
  assert (cz : cast re (x_dt e) z = z) by (destruct (x_dt e); [exact H0|reflexivity]).
  split; rewrite Hdt, Ch.
  - revert GC. induction FC as [|[k c] [k' c'] l l' [Hk P] FC IH]; intros GC; [constructor|].
    inversion GC as [|? ? [_ St] GC']; subst. constructor; [|now apply IH]. cbn [fst snd] in *. split.
    + destruct P as (W & D & _). now split.
    + unfold storable in *. exact (padded_data c c' _ (fun v => cast re (x_dt e) v = v) cz St P).
  - revert GT. induction FT as [|[k c] [k' c'] l l' (Hk & n & d' & D1 & D2 & P) FT IH]; intros GT; [constructor|].
    inversion GT as [|? ? [_ St] GT']; subst. constructor; [|now apply IH]. cbn [fst snd] in *. subst k'. split.
    + destruct P as (W & D & _). split; [exact W|]. exists n. cbn [fst snd]. congruence.
    + unfold storable in *. exact (padded_data c c' _ (fun v => cast re (x_dt e) v = v) cz St P). Qed.
End G.

Definition sc_env : envx gi := {| x_chi := 2; x_dt := Real; x_C := [(((0, 0), (-1, -1))%Z, mkT [1; 1] [gz 5])]; x_T := [] |}.
Lemma small_corner : exists (e : envx gi) (new_chi : nat) (k : coord * coord) (c c' : tensor gi) (e' : envx gi),
    x_chi e <= new_chi /\ dget (x_C e) k = Some c /\ twf c /\ tdims c = [1; 1] /\
    env_extend g0 gre Real new_chi e = Ok e' /\ dget (x_C e') k = Some c' /\
    ~ padded g0 c [new_chi; new_chi] c'.
Proof. exists sc_env, 2, ((0, 0), (-1, -1))%Z, (mkT [1; 1] [gz 5]), (mkT [2; 2] [gz 5; gz 5; gz 5; gz 5]).
  eexists. split; [cbn; lia|]. split; [reflexivity|]. split; [reflexivity|]. split; [reflexivity|].
  split; [vm_compute; reflexivity|]. split; [reflexivity|]. intros (_ & _ & G).
  specialize (G [0; 1]). vm_compute in G. specialize (G ltac:(repeat constructor)). discriminate G. Qed.

Definition se_env : envx gi := {| x_chi := 2; x_dt := Cplx; x_C := [(((0, 0), (-1, -1))%Z, mkT [2; 2] [(1, 2); gz 0; gz 3; (0, 1)]%Z)]; x_T := [] |}.
Lemma second_extension : exists (e e1 e2 : envx gi) k c c2, env_good gre e /\ x_dt e = Cplx /\
    env_extend g0 gre Real 2 e = Ok e1 /\ env_extend g0 gre Real 2 e1 = Ok e2 /\
    dget (x_C e) k = Some c /\ tdims c = [2; 2] /\ dget (x_C e2) k = Some c2 /\ c2 <> c.
Proof. exists se_env. do 2 eexists. exists ((0, 0), (-1, -1))%Z. do 2 eexists.
  split; [split; repeat constructor|]. split; [reflexivity|]. split; [vm_compute; reflexivity|]. split; [vm_compute; reflexivity|].
  split; [vm_compute; reflexivity|]. split; [reflexivity|]. split; [vm_compute; reflexivity|]. intros [=]. Qed.
