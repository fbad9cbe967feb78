(** Counterexamples; [xw], [xr], [xt] are the files and tensors over the integers of StateIOProps. *)
From Verif Require Import Base Text Tensor TensorIO Lattice StateIO StateIOProps Extend ExtendSpec C4v D2Kag D2KagSpec.
Open Scope list_scope.
Open Scope nat_scope.

Definition xkag := kag_init (R := Z) (L := Z).
Definition xkw {L} (s : kag (R := Z) (L := L)) := kag_write xfmt xfmtc (fun t => t) Flegacy aux_default false s.
Definition xkr := kag_read 0%Z Z.add parse_int (fun _ => None) false None aux_default.
Definition xdr := d2_read 0%Z Z.add parse_int (fun _ => None) false aux_default.

(** computations in sequence *)
Lemma ok1 {A} (r : res A) (P : A -> Prop) : match r with Ok a => P a | _ => False end -> exists a, r = Ok a /\ P a.
Proof. destruct r; [eauto|tauto]. Qed.
Lemma ok2 {A B} (ra : res A) (rb : A -> res B) (P : A -> B -> Prop) : match ra with Ok a => match rb a with Ok b => P a b | _ => False end | _ => False end ->
  exists a b, ra = Ok a /\ rb a = Ok b /\ P a b.
Proof. intros H. apply ok1 in H as (a & Ea & H). apply ok1 in H as (b & Eb & H). eauto 6. Qed.
Lemma ok4 {A B C D} (ra : res A) (rb : A -> res B) (rc : A -> B -> res C) (rd : A -> B -> C -> res D) (P : A -> B -> C -> D -> Prop) :
  match ra with Ok a => match rb a with Ok b => match rc a b with Ok c => match rd a b c with Ok d => P a b c d | _ => False end | _ => False end | _ => False end | _ => False end ->
  exists a b c d, ra = Ok a /\ rb a = Ok b /\ rc a b = Ok c /\ rd a b c = Ok d /\ P a b c d.
Proof. intros H. apply ok2 in H as (a & b & Ea & Eb & H). apply ok2 in H as (c & d & Ec & Ed & H). exists a, b, c, d. auto. Qed.
Lemma ok6 {A B C D E F} (ra : res A) (rb : A -> res B) (rc : A -> B -> res C) (rd : A -> B -> C -> res D) (re : A -> B -> C -> D -> res E) (rf : A -> B -> C -> D -> E -> res F) (P : A -> B -> C -> D -> E -> F -> Prop) :
  match ra with Ok a => match rb a with Ok b => match rc a b with Ok c => match rd a b c with Ok d => match re a b c d with Ok e => match rf a b c d e with Ok f => P a b c d e f
    | _ => False end | _ => False end | _ => False end | _ => False end | _ => False end | _ => False end ->
  exists a b c d e f, ra = Ok a /\ rb a = Ok b /\ rc a b = Ok c /\ rd a b c = Ok d /\ re a b c d = Ok e /\ rf a b c d e = Ok f /\ P a b c d e f.
Proof. intros H. apply ok4 in H as (a & b & c & d & Ea & Eb & Ec & Ed & H). apply ok2 in H as (e & f & Ee & Ef & H). exists a, b, c, d, e, f. auto 10. Qed.

Lemma asymmetric : exists (A : tensor Z) s, rank5 A /\ d2_new 0%Z (Some A) = Ok s /\ parent s = Some A /\ ipeps_site (base s) (0, 0)%Z = Ok A /\ ~ lr_symmetric A.
Proof. exists (mkT [1; 1; 2; 1; 2] [1; 2; 3; 4]%Z). eexists. split; [split; reflexivity|]. split; [vm_compute; reflexivity|]. split; [reflexivity|]. split; [reflexivity|].
  intros (p & u & l & d & E & S). injection E as <- <- <- <- _. specialize (S 0 0 0 0 1 ltac:(lia) ltac:(lia) ltac:(lia) ltac:(lia) ltac:(lia)). vm_compute in S. discriminate S. Qed.

(** a two-site state written by write_ipeps *)
Lemma other_file : exists st js st' s, xinit (Some [((0, 0)%Z, xt 5); ((0, 1)%Z, xt 6)]) None None None None = Ok st /\ xw Flegacy aux_default false st = Ok js /\
  xr false None aux_default js = Ok st' /\ xdr js = Ok s /\ ipeps_site st' (0, 1)%Z = Ok (xt 6) /\ ipeps_site (base s) (0, 1)%Z = Ok (xt 5).
Proof. apply (ok4 (xinit _ _ _ _ _) (fun a => xw _ _ _ a) (fun _ b => xr _ _ _ b) (fun _ b _ => xdr b) (fun _ _ c d => ipeps_site c _ = _ /\ ipeps_site (base d) _ = _)). vm_compute. auto. Qed.

(** the checkerboard of two tensors *)
Lemma extend_loses_cell : exists s js0 s0 s1 js1 s2,
  xkag (Some [((0, 0)%Z, xt 5); ((1, 0)%Z, xt 6)]) None (Some (PatRows [[0; 1]; [1; 0]]%Z)) None None = Ok s /\
  xkw s = Ok js0 /\ xkr js0 = Ok s0 /\ kag_extend 0%Z s 1 = Ok s1 /\ xkw s1 = Ok js1 /\ xkr js1 = Ok s2 /\
  i_sites (k_st s1) = i_sites (k_st s) /\ i_lY (k_st s) = 2%Z /\ i_lY (k_st s1) = 1%Z /\
  ipeps_site (k_st s0) (0, 1)%Z = Ok (xt 6) /\ ipeps_site (k_st s1) (0, 1)%Z = Ok (xt 6) /\ ipeps_site (k_st s2) (0, 1)%Z = Ok (xt 5).
Proof. apply (ok6 (xkag _ _ _ _ _) (fun a => xkw a) (fun _ b => xkr b) (fun a _ _ => kag_extend 0%Z a 1) (fun _ _ _ d => xkw d) (fun _ _ _ _ e => xkr e)
    (fun a b c d e f => i_sites (k_st d) = i_sites (k_st a) /\ i_lY (k_st a) = _ /\ i_lY (k_st d) = _ /\ ipeps_site (k_st c) _ = _ /\ ipeps_site (k_st d) _ = _ /\ ipeps_site (k_st f) _ = _)).
  vm_compute. auto 10. Qed.
