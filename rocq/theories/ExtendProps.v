(** Properties C12, C44, C56, C57: enlarging states and environments. *)
From Verif Require Import Base BaseLemmas Tensor TensorLemmas Extend ExtendSpec ExtendProofs ExtendProofs2.
Open Scope nat_scope.
Open Scope list_scope.

(** ** C12 *)
Theorem C12_extend_embeds :
  forall {K} (z : K) (re : K -> K) (dt : dtype) (D : nat) (sites : dict coord (tensor K)),
  good_state re dt sites ->
  (forall c t, dget sites c = Some t -> aux_le D t) ->
  exists sites', extend_bond_dim z re dt sites D = (sites', Ok tt) /\ dkeys sites' = dkeys sites /\
    forall c t, dget sites c = Some t -> exists t', dget sites' c = Some t' /\ padded z t (new_dims D t) t'.
Proof. exact @extend_ok. Qed.
Print Assumptions C12_extend_embeds.

Theorem C12_too_small_raises :
  forall {K} (z : K) (re : K -> K) (dt : dtype) (D : nat) (sites : dict coord (tensor K)) c t d,
  good_state re dt sites -> dget sites c = Some t -> In d (tl (tdims t)) -> D < d ->
  snd (extend_bond_dim z re dt sites D) = Err ValueError.
Proof. exact @extend_err. Qed.
Print Assumptions C12_too_small_raises.

Theorem C12_contractions_kept :
  forall {K} (z : K) (add mul : K -> K -> K) (one : K) (conj : K -> K),
  (forall x, add z x = x) -> (forall x, mul z x = z) -> (forall x, mul x z = z) -> conj z = z ->
  forall (re : K -> K) (dt : dtype) (D : nat) (sites sites' : dict coord (tensor K)) lab bd bd',
  good_state re dt sites ->
  extend_bond_dim z re dt sites D = (sites', Ok tt) ->
  (forall c cj legs, In (c, cj, legs) lab -> In c (dkeys sites)) ->
  well_formed_net bd (state_net conj sites lab) -> well_formed_net bd' (state_net conj sites' lab) -> length bd = length bd' ->
  contract z add mul one bd' (state_net conj sites' lab) = contract z add mul one bd (state_net conj sites lab).
Proof. exact @extend_contract. Qed.
Print Assumptions C12_contractions_kept.

(** a complex state with unequal bonds; the norm on the torus of one site *)
Definition ex_site : tensor gi := mkT [2; 2; 1; 2; 1] [(1, 2); (0, -1); (3, 0); (2, 2); (5, 0); (1, 1); (0, 4); (-2, 3)]%Z.
Definition ex_sites : dict coord (tensor gi) := [((0, 0)%Z, ex_site)].
Definition ex_norm : list (coord * bool * list leg) :=
  [((0, 0)%Z, false, [Bond 0; Bond 1; Bond 2; Bond 1; Bond 2]); ((0, 0)%Z, true, [Bond 0; Bond 3; Bond 4; Bond 3; Bond 4])].
Example C12_example :
  let s' := fst (extend_bond_dim g0 gre Cplx ex_sites 3) in
  snd (extend_bond_dim g0 gre Cplx ex_sites 3) = Ok tt /\
  option_map (@tdims gi) (dget s' (0, 0)%Z) = Some [2; 3; 3; 3; 3] /\
  (match dget s' (0, 0)%Z with Some t => tget t [1; 1; 0; 1; 0] | None => None end) = Some (-2, 3)%Z /\
  (match dget s' (0, 0)%Z with Some t => tget t [1; 1; 2; 1; 0] | None => None end) = Some g0 /\
  contract g0 gadd gmul g1 [2; 3; 3; 3; 3] (state_net gconj s' ex_norm) = contract g0 gadd gmul g1 [2; 2; 1; 2; 1] (state_net gconj ex_sites ex_norm) /\
  contract g0 gadd gmul g1 [2; 2; 1; 2; 1] (state_net gconj ex_sites ex_norm) = (43, 0)%Z.
Proof. repeat split; vm_compute; reflexivity. Qed.

(** ** C56: the state when extend_bond_dim raises *)
Theorem C56_failed_extension_refuted :
  exists (sites : dict coord (tensor gi)) D, good_state gre Real sites /\
    snd (extend_bond_dim g0 gre Real sites D) = Err ValueError /\
    fst (extend_bond_dim g0 gre Real sites D) <> sites.
Proof. exact failed_extension. Qed.
Print Assumptions C56_failed_extension_refuted.
(** sites that precede the offending one are replaced, the others are kept *)
Theorem C56_failed_extension :
  forall {K} (z : K) (re : K -> K) (dt : dtype) (D : nat) (pre post : dict coord (tensor K)) c t d,
  good_state re dt (pre ++ (c, t) :: post) ->
  (forall c' t', dget pre c' = Some t' -> aux_le D t') -> In d (tl (tdims t)) -> D < d ->
  exists pre', extend_bond_dim z re dt (pre ++ (c, t) :: post) D = (pre' ++ (c, t) :: post, Err ValueError) /\
    dkeys pre' = dkeys pre /\
    forall c' t', dget pre c' = Some t' -> exists t'', dget pre' c' = Some t'' /\ padded z t' (new_dims D t') t''.
Proof. exact @failed_extension_exact. Qed.
Print Assumptions C56_failed_extension.

(** ** C44 *)
Theorem C44_extend_resizes :
  forall {K} (z : K) (re : K -> K) (gdt : dtype) (new_chi : nat) (e : envx K), env_good re e ->
  exists e', env_extend z re gdt new_chi e = Ok e' /\ x_chi e' = new_chi /\
    Forall2 (c_resized z new_chi) (x_C e) (x_C e') /\ Forall2 (t_resized z (x_chi e) new_chi) (x_T e) (x_T e').
Proof. exact @env_extend_ok. Qed.
Print Assumptions C44_extend_resizes.

Theorem C44_clone_independent :
  forall {K} (gdt : dtype) (s : store K) (e : envp), store_ok s -> env_ok s e ->
  exists s' e', env_clone gdt s e = Ok (s', e') /\ p_chi e' = p_chi e /\
    (forall k, rd s' (p_C e') k = rd s (p_C e) k) /\ (forall k, rd s' (p_T e') k = rd s (p_T e) k) /\
    (forall a k, a < length (dicts s) -> rd s' a k = rd s a k) /\
    (forall ops, Forall (fun o => In (op_addr o) [p_C e'; p_T e']) ops ->
       forall a k, In a [p_C e; p_T e] -> rd (fold_left run_op ops s') a k = rd s' a k) /\
    (forall ops, Forall (fun o => In (op_addr o) [p_C e; p_T e]) ops ->
       forall a k, In a [p_C e'; p_T e'] -> rd (fold_left run_op ops s') a k = rd s' a k).
Proof. exact @clone_independent. Qed.
Print Assumptions C44_clone_independent.

Theorem C44_detach_preserves :
  forall {K} (gdt : dtype) (s : store K) (e : envp), store_ok s -> env_ok s e ->
  exists s' e', env_detach gdt s e = Ok (s', e') /\ p_chi e' = p_chi e /\
    (forall k, rd s' (p_C e') k = rd s (p_C e) k) /\ (forall k, rd s' (p_T e') k = rd s (p_T e) k) /\
    (forall a k, a < length (dicts s) -> rd s' a k = rd s a k) /\
    (forall a b k k' t, In a [p_C e; p_T e] -> In b [p_C e'; p_T e'] ->
       rd (setitem s' b k t) a k' = rd s' a k' /\ rd (setitem s' a k t) b k' = rd s' b k').
Proof. exact @detach_preserves. Qed.
Print Assumptions C44_detach_preserves.

(** corners smaller than env.chi: size 1 is broadcast, other sizes raise *)
Theorem C44_small_corner_refuted :
  exists (e : envx gi) (new_chi : nat) (k : coord * coord) (c c' : tensor gi) (e' : envx gi),
    x_chi e <= new_chi /\ dget (x_C e) k = Some c /\ twf c /\ tdims c = [1; 1] /\
    env_extend g0 gre Real new_chi e = Ok e' /\ dget (x_C e') k = Some c' /\
    ~ padded g0 c [new_chi; new_chi] c'.
Proof. exact small_corner. Qed.
Print Assumptions C44_small_corner_refuted.
Theorem C44_small_corner_raises :
  forall {K} (z : K) (re : K -> K) dt chi new_chi (c : tensor K) a b,
  twf c -> tdims c = [a; b] -> 1 < a -> a < chi -> a < new_chi ->
  extend_C z re dt (Nat.min chi new_chi) new_chi c = Err RuntimeError.
Proof. exact @small_corner_raises. Qed.
Print Assumptions C44_small_corner_raises.

(** ** C57: element type of the new environment *)
Theorem C57_second_extension_refuted :
  exists (e e1 e2 : envx gi) k c c2, env_good gre e /\ x_dt e = Cplx /\
    env_extend g0 gre Real 2 e = Ok e1 /\ env_extend g0 gre Real 2 e1 = Ok e2 /\
    dget (x_C e) k = Some c /\ tdims c = [2; 2] /\ dget (x_C e2) k = Some c2 /\ c2 <> c.
Proof. exact second_extension. Qed.
Print Assumptions C57_second_extension_refuted.
(** when the configured type is that of the environment, resizing can be repeated *)
Theorem C57_same_type :
  forall {K} (z : K) (re : K -> K), re z = z -> forall new_chi (e e' : envx K), env_good re e ->
  env_extend z re (x_dt e) new_chi e = Ok e' -> x_dt e' = x_dt e /\ env_good re e'.
Proof. exact @same_type. Qed.
Print Assumptions C57_same_type.

Definition ex_C : tensor gi := mkT [2; 2] [(1, 0); (2, 5); (3, 0); (4, 1)]%Z.
Definition ex_T : tensor gi := mkT [2; 2; 1] [(1, 0); (2, 5); (3, 0); (4, 1)]%Z.
Definition ex_T' : tensor gi := mkT [1; 2; 2] [(1, 0); (2, 5); (3, 0); (4, 1)]%Z.
Definition ex_env : envx gi :=
  {| x_chi := 2; x_dt := Cplx; x_C := [(((0, 0), (-1, 1))%Z, ex_C)]; x_T := [(((0, 0), (-1, 0))%Z, ex_T); (((0, 0), (0, 1))%Z, ex_T')] |}.
Example C44_example_larger : env_extend g0 gre Cplx 3 ex_env = Ok
  {| x_chi := 3; x_dt := Cplx;
     x_C := [(((0, 0), (-1, 1))%Z, mkT [3; 3] [(1, 0); (2, 5); g0; (3, 0); (4, 1); g0; g0; g0; g0]%Z)];
     x_T := [(((0, 0), (-1, 0))%Z, mkT [3; 3; 1] [(1, 0); (2, 5); g0; (3, 0); (4, 1); g0; g0; g0; g0]%Z);
             (((0, 0), (0, 1))%Z, mkT [1; 3; 3] [(1, 0); (2, 5); g0; (3, 0); (4, 1); g0; g0; g0; g0]%Z)] |}.
Proof. vm_compute. reflexivity. Qed.
Example C44_example_smaller : env_extend g0 gre Cplx 1 ex_env = Ok
  {| x_chi := 1; x_dt := Cplx; x_C := [(((0, 0), (-1, 1))%Z, mkT [1; 1] [(1, 0)%Z])];
     x_T := [(((0, 0), (-1, 0))%Z, mkT [1; 1; 1] [(1, 0)%Z]); (((0, 0), (0, 1))%Z, mkT [1; 1; 1] [(1, 0)%Z])] |}.
Proof. vm_compute. reflexivity. Qed.
(** an in-place change through a detached environment is seen in the original, through a clone it is not *)
Definition ex_store : store gi := {| tens := [ex_C; ex_T]; dicts := [[(((0, 0), (-1, 1))%Z, 0)]; [(((0, 0), (-1, 0))%Z, 1)]] |}.
Definition ex_envp : envp := {| p_chi := 2; p_dt := Cplx; p_C := 0; p_T := 1 |}.
Example C44_example_aliasing :
  (exists s' e', env_clone Cplx ex_store ex_envp = Ok (s', e') /\ rd s' (p_C e') ((0, 0), (-1, 1))%Z = Some ex_C /\
     rd (inplace s' (p_C e') ((0, 0), (-1, 1))%Z (fun _ => ex_T)) 0 ((0, 0), (-1, 1))%Z = Some ex_C) /\
  (exists s' e', env_detach Cplx ex_store ex_envp = Ok (s', e') /\ rd s' (p_C e') ((0, 0), (-1, 1))%Z = Some ex_C /\
     rd (inplace s' (p_C e') ((0, 0), (-1, 1))%Z (fun _ => ex_T)) 0 ((0, 0), (-1, 1))%Z = Some ex_T).
Proof. split; do 2 eexists; (split; [vm_compute; reflexivity|]); split; vm_compute; reflexivity. Qed.
