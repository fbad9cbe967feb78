(** C82 *)
From Verif Require Import Base BaseLemmas Tensor TensorLemmas Net Plaq Ipess IpessSpec IpessProofs IpessProofs2 IpessProofs3 IpessProofs4 IpessProofs5 IpessProofs6.
Open Scope string_scope.
Open Scope list_scope.
Open Scope nat_scope.

(** the on-site tensor of a cell: the network of the drawing, divided by its largest element *)
Theorem C82_onsite : forall (K : Type) (k0 k1 : K) (kadd kmul kdiv : K -> K -> K) (amax : list K -> K), semi_ring_theory k0 k1 kadd kmul (@eq K) ->
  forall (F : @five K) (pa pb pc Da Db Dc Dd Di Dj Dk Dl : nat), fitting F pa pb pc Da Db Dc Dd Di Dj Dk Dl ->
  forall e, holds e F -> prod_dims [pc; pb; pa; Da; Db; Dc; Dd] <> 0 ->
  exists A, onsite k0 k1 kadd kmul kdiv amax e = Ok A /\ twf A /\ tdims A = [pc * (pb * pa); Da; Db; Dc; Dd] /\
    forall u v w a b c d, u < pc -> v < pb -> w < pa -> a < Da -> b < Db -> c < Dc -> d < Dd ->
      tget A [u * (pb * pa) + (v * pa + w); a; b; c; d] = Some (kdiv (amplitude k0 kadd kmul F Di Dj Dk Dl u v w a b c d)
        (amax (map (fun ix => match ix with [u; v; w; a; b; c; d] => amplitude k0 kadd kmul F Di Dj Dk Dl u v w a b c d | _ => k0 end) (indices [pc; pb; pa; Da; Db; Dc; Dd])))).
Proof. intros K k0 k1 kadd kmul kdiv amax SR F pa pb pc Da Db Dc Dd Di Dj Dk Dl HF e (E1 & E2 & E3 & E4 & E5). exact (onsite_ok k0 k1 kadd kmul kdiv amax SR F pa pb pc Da Db Dc Dd Di Dj Dk Dl HF e E1 E2 E3 E4 E5). Qed.
Print Assumptions C82_onsite.

Section Sym.
Context (K : Type) (k0 k1 : K) (kadd kmul ksub : K -> K -> K) (kopp : K -> K) (kdiv : K -> K -> K) (half third : K) (cj : K -> K) (amax : list K -> K)
  (RT : ring_theory k0 k1 kadd kmul ksub kopp (@eq K)) (H2 : kadd half half = k1) (H3 : kadd third (kadd third third) = k1)
  (CA : forall x y, cj (kadd x y) = kadd (cj x) (cj y)) (CM : forall x y, cj (kmul x y) = kmul (cj x) (cj y)) (CC : forall x, cj (cj x) = x) (CH : cj half = half).
Notation made_symmetric := (made_symmetric k0 kadd kmul kopp cj ksub half third).
Notation site_of := (site_of k0 kadd kmul kdiv amax).

(** _to_PG_symmetric: projections onto the irreps; symmetric tensors are kept *)
Theorem C82_project : forall g e, symmetrisable e -> groups_ok g ->
  exists e', to_pg k0 kadd kmul ksub half third cj g e = Ok e' /\ dkeys e' = dkeys e /\
    forall k t, dget e k = Some t -> exists t', dget e' k = Some t' /\ made_symmetric g k t t'.
Proof. intros g e W (N & A & _). exact (to_pg_made k0 k1 kadd kmul ksub kopp half third cj RT H2 H3 CA CM CC CH g e W N A). Qed.
(** an irrep that the tensor cannot have *)
Theorem C82_project_unknown : forall g e k pg t, symmetrisable e -> (forall x, In x (dkeys g) -> In x ["T_u"; "T_d"; "B_a"; "B_b"; "B_c"]) ->
  In (k, Some pg) g -> dget e k = Some t -> ~ known k pg -> to_pg k0 kadd kmul ksub half third cj g e = Err RuntimeError.
Proof. exact (to_pg_bad k0 k1 kadd kmul ksub kopp half third cj RT H2 H3 CA CM CC CH). Qed.
(** the two projections of a bond tensor add up to the tensor *)
Theorem C82_parts : forall k t i j l, In k ["B_a"; "B_b"; "B_c"] ->
  kadd (projected k0 kadd kmul cj ksub half third k "A" t i j l) (projected k0 kadd kmul cj ksub half third k "B" t i j l) = at3 k0 t i j l.
Proof. exact (parts_projected k0 k1 kadd kmul ksub kopp half third cj RT H2). Qed.
(** the constructor *)
Theorem C82_state : forall (ud bs : bool) (u c d a b : tensor K) od oa ob g pa pb pc D (sym : bool),
  usable (mk5 u (if ud then u else d) (if bs then c else a) (if bs then c else b) c) pa pb pc D -> (ud = false -> od = Some d) -> (bs = false -> oa = Some a /\ ob = Some b) -> groups_ok g ->
  exists s F, mk_pg k0 k1 kadd kmul ksub kdiv half third cj amax u c od oa ob ud bs (Some g) sym = Ok s /\ sud s = ud /\ sbs s = bs /\ pgs s = g /\ site_of s F pa pb pc D /\
    dkeys (elem s) = dkeys (given ud bs u c d a b) /\
    forall k t, dget (given ud bs u c d a b) k = Some t -> exists t', dget (elem s) k = Some t' /\ (if sym then made_symmetric g k t t' else t' = t).
Proof. intros ud bs u c d a b od oa ob g pa pb pc D sym U O1 O2 (N & A & Nm). exact (state_ok k0 k1 kadd kmul ksub kopp kdiv half third cj amax RT H2 H3 CA CM CC CH ud bs u c d a b od oa ob g pa pb pc D sym U O1 O2 N A Nm). Qed.
(** noise does not break the symmetries *)
Theorem C82_noise : forall s F pa pb pc D noise rnd, site_of s F pa pb pc D -> symmetrisable (elem s) -> NoDup (dkeys (elem s)) -> groups_ok (pgs s) ->
  (forall k t, dget (elem s) k = Some t -> twf (rnd k) /\ tdims (rnd k) = tdims t) ->
  exists s' F', add_noise k0 k1 kadd kmul ksub kdiv half third cj amax s noise rnd = Ok s' /\ sud s' = sud s /\ sbs s' = sbs s /\ pgs s' = pgs s /\ site_of s' F' pa pb pc D /\ dkeys (elem s') = dkeys (elem s) /\
    forall k t, dget (elem s) k = Some t -> exists t1 t', dget (elem s') k = Some t' /\ made_symmetric (pgs s) k t1 t' /\ twf t1 /\ tdims t1 = tdims t /\
      forall i j l, at3 k0 t1 i j l = kadd (at3 k0 t i j l) (match tget (rnd k) [i; j; l] with Some x => kmul noise (ksub x half) | None => k0 end).
Proof. intros s F pa pb pc D noise rnd S W Ne (N & A & _). exact (noise_ok k0 k1 kadd kmul ksub kopp kdiv half third cj amax RT H2 H3 CA CM CC CH s F pa pb pc D noise rnd S W Ne N A). Qed.
(** larger bonds: the elementary tensors are padded with zeros and the elements of the on-site tensor stay *)
Theorem C82_extend : (forall l l', l <> [] -> l' <> [] -> (forall x, x <> k0 -> (In x l <-> In x l')) -> amax l = amax l') ->
  forall s F pa pb pc D n, site_of s F pa pb pc D -> groups_ok (pgs s) -> D <= n ->
  exists s' F' A', extend_pg k0 k1 kadd kmul ksub kdiv half third cj amax s n = Ok s' /\ sud s' = sud s /\ sbs s' = sbs s /\ pgs s' = pgs s /\ site_of s' F' pa pb pc n /\
    (forall i j k, at3 k0 (t_u F') i j k = at3 k0 (t_u F) i j k /\ at3 k0 (t_d F') i j k = at3 k0 (t_d F) i j k /\ at3 k0 (b_a F') i j k = at3 k0 (b_a F) i j k /\ at3 k0 (b_b F') i j k = at3 k0 (b_b F) i j k /\ at3 k0 (b_c F') i j k = at3 k0 (b_c F) i j k) /\
    sites s' = [((0, 0)%Z, A')] /\ tdims A' = [pc * (pb * pa); n; n; n; n] /\
    forall u v w a b c d, u < pc -> v < pb -> w < pa -> a < n -> b < n -> c < n -> d < n ->
      tget A' [u * (pb * pa) + (v * pa + w); a; b; c; d] = Some (kdiv (amplitude k0 kadd kmul F D D D D u v w a b c d) (amax (all_amplitudes k0 kadd kmul F pa pb pc D))) /\
      (~ (a < D /\ b < D /\ c < D /\ d < D) -> amplitude k0 kadd kmul F D D D D u v w a b c d = k0).
Proof. exact (extend_final k0 k1 kadd kmul ksub kopp kdiv half third cj amax RT). Qed.
End Sym.
Print Assumptions C82_project.
Print Assumptions C82_project_unknown.
Print Assumptions C82_parts.
Print Assumptions C82_state.
Print Assumptions C82_noise.
Print Assumptions C82_extend.

Section Files.
Context (K : Type) (k0 k1 : K) (kadd kmul ksub kdiv : K -> K -> K) (half third : K) (cj : K -> K) (amax : list K -> K).
(** files *)
Theorem C82_io : forall u c od oa ob ud bs g sym s, mk_pg k0 k1 kadd kmul ksub kdiv half third cj amax u c od oa ob ud bs g sym = Ok s ->
  (exists f, write_pg k0 k1 kadd kmul ksub kdiv half third cj amax s false = Ok f /\ read_pg k0 k1 kadd kmul ksub kdiv half third cj amax f = Ok s) /\
  (forall s', to_PG_symmetric k0 k1 kadd kmul ksub kdiv half third cj amax s None None None = Ok s' ->
    exists f, write_pg k0 k1 kadd kmul ksub kdiv half third cj amax s true = Ok f /\ read_pg k0 k1 kadd kmul ksub kdiv half third cj amax f = Ok s').
Proof. exact (io_ok k0 k1 kadd kmul ksub kdiv half third cj amax). Qed.
(** checkpoints of the tensors of another state with the same flags *)
Theorem C82_checkpoint : forall u c od oa ob g sym s' s, mk_pg k0 k1 kadd kmul ksub kdiv half third cj amax u c od oa ob (sud s) (sbs s) g sym = Ok s' ->
  exists s'', load_checkpoint k0 k1 kadd kmul kdiv amax s (elem s') = Ok s'' /\ elem s'' = elem s' /\ sites s'' = sites s' /\ pgs s'' = pgs s /\ sud s'' = sud s /\ sbs s'' = sbs s /\
    exists F cell, tensors_of (sud s) (sbs s) (elem s') = Some F /\ ipess s'' = [((0, 0)%Z, cell)] /\ holds cell F.
Proof. exact (checkpoint_final k0 k1 kadd kmul ksub kdiv half third cj amax). Qed.
(** checkpoints of older versions with three bond tensors cannot be loaded *)
Theorem C82_checkpoint_refuted : forall s p, dmem p "BOND_S" = false -> dmem p "UP_T" = true -> dmem p "BOND_S1" = true -> dmem p "BOND_S2" = true -> dmem p "BOND_S3" = true ->
  load_checkpoint k0 k1 kadd kmul kdiv amax s p = Err NameError.
Proof. exact (checkpoint_legacy k0 k1 kadd kmul kdiv amax). Qed.
(** IPESS_KAGOME_GENERIC.extend_bond_dim never returns *)
Theorem C82_extend_generic_refuted : forall d n r, extend_generic k0 d n <> Ok r.
Proof. exact (extend_generic_never k0). Qed.
(** update_ of a linear combination with different triangles or different sites never returns *)
Theorem C82_lc_update_refuted : forall im ud bs g coeffs basis r, ud = false \/ bs = false -> lc_update k0 k1 kadd kmul kdiv im amax ud bs g coeffs basis <> Ok r.
Proof. exact (lc_never k0 k1 kadd kmul kdiv amax). Qed.
(** the order of the basis is not the order of the coefficients *)
Theorem C82_lc_order_refuted : forall im p q x y,
  exists t, build_elem k0 k1 kadd kmul im [("T_u", Some "A_2")] [("T_u", mkT [2] [x; y])] [("T_u", [("A_1", mkT [1; 1; 1] [p]); ("A_2", mkT [1; 1; 1] [q])])] = Ok [("T_u", t)] /\
    tdata t = [kadd (kmul x (kmul q k1)) (kadd (kmul y (kmul (kmul im p) k1)) k0)].
Proof. intros im p q x y. eexists. split; reflexivity. Qed.
End Files.
Print Assumptions C82_io.
Print Assumptions C82_checkpoint.
Print Assumptions C82_checkpoint_refuted.
Print Assumptions C82_extend_generic_refuted.
Print Assumptions C82_lc_update_refuted.
Print Assumptions C82_lc_order_refuted.

(** linear combinations with real coefficients have the irrep that was asked for *)
Theorem C82_lc : forall (K : Type) (k0 k1 : K) (kadd kmul ksub : K -> K -> K) (kopp : K -> K) (im : K) (cj : K -> K), ring_theory k0 k1 kadd kmul ksub kopp (@eq K) ->
  (forall x y, cj (kadd x y) = kadd (cj x) (cj y)) -> (forall x y, cj (kmul x y) = kmul (cj x) (cj y)) -> cj im = kopp im ->
  forall g coeffs basis, (forall k c, In (k, c) coeffs -> exists pg l x y z, dget g k = Some (Some pg) /\ known k pg /\ dget basis k = Some l /\ l <> [] /\ tdims c = [length l] /\
    (forall m, cj (coefficient k0 c m) = coefficient k0 c m) /\ forall q t, In (q, t) l -> known k q /\ irrep k0 kopp cj k q t /\ twf t /\ tdims t = [x; y; z]) ->
  exists e, build_elem k0 k1 kadd kmul im g coeffs basis = Ok e /\ Forall2 (fun p q => fst q = fst p /\ exists pg l, dget g (fst p) = Some (Some pg) /\ dget basis (fst p) = Some l /\ twf (snd q) /\ irrep k0 kopp cj (fst p) pg (snd q) /\
    forall i j k, at3 k0 (snd q) i j k = combination k0 kadd kmul (length l) (snd p) (ordered k0 kmul im pg l) i j k) coeffs e.
Proof. exact @lc_one. Qed.
Print Assumptions C82_lc.
