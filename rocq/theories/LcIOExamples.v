(** Concrete linear-combination states; numbers are integers printed in decimal, a complex number
    is printed as Python does, "(a+bj)". *)
From Coq Require Import DecimalString.
From Verif Require Import Base BaseLemmas Text Tensor TensorLemmas TensorIO TensorIOSpec StateIO Lattice LcIO LcIOSpec.
Open Scope nat_scope.
Open Scope list_scope.
Open Scope Z_scope.

Definition zf (z : Z) : string := NilZero.string_of_int (Z.to_int z).
Definition zfc (z : Z * Z) : string := ("(" ++ zf (fst z) ++ "+" ++ zf (snd z) ++ "j)")%string.
Definition znormalized (t : ten Z) : ten Z :=
  match t with
  | TReal t => let m := fold_left Z.max (map Z.abs (tdata t)) 0 in TReal (tmap (fun x => x / m) t)
  | TCplx t => TCplx t
  end.

Notation znew := (lcs_new 0 1 Z.add Z.mul Z.sub).
Notation zwrite := (write_lc (Z.eqb 0) zf zfc znormalized).
Notation zread := (read_lc 0 1 Z.add Z.mul Z.sub parse_int).
Notation zbnew := (bps_new 0 1 Z.add Z.mul Z.sub).
Notation zbwrite := (write_bp (Z.eqb 0) zf zfc znormalized znormalized).
Notation zbread := (read_bp 0 1 Z.add Z.mul Z.sub parse_int).

Definition irr (p : string) : lmeta := mkM [("pg"%string, p)] [("name"%string, "S0"%string)].

(** a tensor given by its elements other than zero *)
Definition sparse (dims : list nat) (es : list (list nat * Z)) : ten Z :=
  TReal (tbuild dims (fun ix => match dget es ix with Some v => v | None => 0 end)).

(** one auxiliary index is 1 *)
Definition e1 : ten Z := sparse [1; 2; 2; 2; 2]%nat
  [([0; 1; 0; 0; 0]%nat, 1); ([0; 0; 1; 0; 0]%nat, 1); ([0; 0; 0; 1; 0]%nat, 1); ([0; 0; 0; 0; 1]%nat, 1)].
(** all auxiliary indices are 1 *)
Definition e2 : ten Z := sparse [1; 2; 2; 2; 2]%nat [([0; 1; 1; 1; 1]%nat, -2)].
(** one element *)
Definition e3 : ten Z := sparse [1; 2; 2; 2; 2]%nat [([0; 0; 1; 0; 0]%nat, 5)].

Definition vec (l : list Z) : ten Z := TReal (mkT [length l] l).

Definition elem_r : list (lmeta * ten Z) := [(irr "A_1", e1); (irr "A_1", e2)].
Definition coeffs_r : dict coord (ten Z) := [((0, 0), vec [3; -7])].

Definition holds {A} (r : res A) (P : A -> Prop) : Prop := match r with Ok a => P a | Err _ => False end.

Lemma ex_real : holds (znew elem_r coeffs_r) (fun st =>
  holds (zwrite [0; 1; 2; 3]%nat false st) (fun j =>
    jl_coeffs j = Some [mkJC (Some "float64"%string) "A0" (Some 2%nat) (Some ["0 3"; "1 -7"]%string)] /\
    holds (zread [0; 1; 2; 3]%nat j) (fun st' => s_coeffs st' = coeffs_r /\ map snd (s_elem st') = [e1; e2]))).
Proof. vm_compute. repeat split; reflexivity. Qed.

(** A_1 + i A_2; the second tensor is not antisymmetric, which the class does not ask for *)
Definition elem_c : list (lmeta * ten Z) := [(irr "A_2", e3); (irr "A_1", e1)].
Definition coeffs_c : dict coord (ten Z) := [((0, 0), vec [2; 11])].

Definition site_of (st : lcs Z) : option (ten Z) :=
  match i_sites (s_state st) with Some d => dget d (0, 0) | None => None end.

(** the coefficient at place 0 goes with the tensor at place 1 *)
Lemma ex_pairing : exists st s, znew elem_c coeffs_c = Ok st /\ site_of st = Some s /\
  value 0 s [0; 0; 1; 0; 0]%nat = Some (2, 55) /\ value 0 s [0; 1; 0; 0; 0]%nat = Some (2, 0).
Proof. eexists _, _. split; [vm_compute; reflexivity|]. split; [vm_compute; reflexivity|]. split; vm_compute; reflexivity. Qed.

(** one coefficient for two tensors *)
Lemma ex_broadcast : exists st s, znew elem_r [((0, 0), vec [3])] = Ok st /\ site_of st = Some s /\
  value 0 s [0; 0; 1; 0; 0]%nat = Some (3, 0) /\ value 0 s [0; 1; 1; 1; 1]%nat = Some (-6, 0).
Proof. eexists _, _. split; [vm_compute; reflexivity|]. split; [vm_compute; reflexivity|]. split; vm_compute; reflexivity. Qed.

Lemma ex_complex_site : holds (znew elem_c coeffs_c) (fun st =>
  holds (zwrite [0; 1; 2; 3]%nat false st) (fun j =>
    holds (zread [0; 1; 2; 3]%nat j) (fun st' =>
      s_coeffs st' = coeffs_c /\ map snd (s_elem st') = [e3; e1] /\ site_of st' = site_of st))).
Proof. vm_compute. repeat split; reflexivity. Qed.

(** ** another order of the auxiliary indices *)
Lemma ex_order : exists st j st', znew [(irr "A_1", e3)] [((0, 0), vec [1])] = Ok st /\
  zwrite [1; 2; 3; 0]%nat false st = Ok j /\ (forall seq', zread seq' j = Ok st') /\
  site_of st = Some e3 /\ site_of st' = Some (sparse [1; 2; 2; 2; 2]%nat [([0; 1; 0; 0; 0]%nat, 5)]) /\
  site_of st' <> site_of st.
Proof. eexists _, _, _. split; [vm_compute; reflexivity|]. split; [vm_compute; reflexivity|].
  split; [intros seq'; vm_compute; reflexivity|]. split; [vm_compute; reflexivity|]. split; [vm_compute; reflexivity|].
  vm_compute. discriminate. Qed.

(** ** complex numbers *)
Definition e_c : ten Z := TCplx (mkT [1; 1; 1; 1; 1]%nat [(4, 9)]).
Lemma ex_complex_elem : exists st j, znew [(irr "A_1", e_c)] [((0, 0), TCplx (mkT [1]%nat [(1, 0)]))] = Ok st /\
  zwrite [0; 1; 2; 3]%nat false st = Ok j /\
  option_map (map je_entries) (jl_elem j) = Some [Some ["0 0 0 0 0 (4+9j)"%string]] /\
  zread [0; 1; 2; 3]%nat j = Err ValueError.
Proof. eexists _, _. split; [vm_compute; reflexivity|]. split; [vm_compute; reflexivity|]. split; vm_compute; reflexivity. Qed.

Lemma ex_complex_coeffs : exists st j, znew elem_c [((0, 0), TCplx (mkT [2]%nat [(1, 4); (0, 2)]))] = Ok st /\
  zwrite [0; 1; 2; 3]%nat false st = Ok j /\ zread [0; 1; 2; 3]%nat j = Err ValueError.
Proof. eexists _, _. split; [vm_compute; reflexivity|]. split; vm_compute; reflexivity. Qed.

(** ** auxiliary indices of different sizes *)
Definition e_s : ten Z := sparse [1; 2; 1; 2; 1]%nat [([0; 0; 0; 1; 0]%nat, 6)].
Lemma ex_sizes : exists st j st', znew [(irr "A_1", e_s)] [((0, 0), vec [1])] = Ok st /\
  zwrite [0; 1; 2; 3]%nat false st = Ok j /\ zread [0; 1; 2; 3]%nat j = Ok st' /\
  site_of st = Some e_s /\ site_of st' = Some (sparse [1; 2; 2; 2; 2]%nat [([0; 0; 0; 1; 0]%nat, 6)]).
Proof. eexists _, _, _. split; [vm_compute; reflexivity|]. split; [vm_compute; reflexivity|]. split; [vm_compute; reflexivity|].
  split; vm_compute; reflexivity. Qed.

Definition e_t : ten Z := sparse [1; 1; 2; 1; 2]%nat [([0; 0; 1; 0; 1]%nat, 6)].
Lemma ex_raises : exists st j, znew [(irr "A_1", e_t)] [((0, 0), vec [1])] = Ok st /\
  zwrite [0; 1; 2; 3]%nat false st = Ok j /\ zread [0; 1; 2; 3]%nat j = Err IndexError.
Proof. eexists _, _. split; [vm_compute; reflexivity|]. split; vm_compute; reflexivity. Qed.

(** ** states with a bond tensor *)
Definition b1 : ten Z := TReal (mkT [2; 2]%nat [0; 1; -1; 0]).
Lemma ex_bp : holds (zbnew elem_r [(irr "B", b1)] (vec [3; -7]) (vec [2])) (fun st =>
  holds (zbwrite [0; 1; 2; 3]%nat false st) (fun j =>
    holds (zbread [0; 1; 2; 3]%nat j) (fun st' =>
      b_site_c st' = vec [3; -7] /\ b_bond_c st' = vec [2] /\ map snd (b_bond_elem st') = [b1] /\
      i_sites (b_state st') = i_sites (b_state st) /\
      option_map (fun d => option_map (fun t => value 0 t [0; 0; 1; 1; 1]%nat) (dget d (1, 0))) (i_sites (b_state st)) = Some (Some (Some (-48, 0)))))).
Proof. vm_compute. repeat split; reflexivity. Qed.
Lemma ex_bp_complex : zbnew elem_c [(irr "B", b1)] (vec [2; 11]) (vec [2]) = Err RuntimeError.
Proof. vm_compute. reflexivity. Qed.

(** ** a state of A_1 and A_2 tensors: three values of the auxiliary indices *)
Definition orbit (v : Z) (ix : list nat) : list (list nat * Z) :=
  [(ix, v); (rotated ix, v); (rotated (rotated ix), v); (rotated (rotated (rotated ix)), v)].
Definition s1 : ten Z := sparse [1; 3; 3; 3; 3]%nat (orbit 1 [0; 2; 0; 1; 0]%nat ++ orbit 4 [0; 1; 1; 2; 2]%nat).
Definition s2 : ten Z := sparse [1; 3; 3; 3; 3]%nat (orbit 1 [0; 0; 0; 1; 2]%nat ++ orbit (-1) [0; 0; 2; 1; 0]%nat).
Definition elem_s : list (lmeta * ten Z) := [(irr "A_1", s1); (irr "A_2", s2)].

Definition sym_check (f : Z * Z -> Z * Z) (t : ten Z) : bool :=
  forallb (fun ix => eqb (value 0 t (rotated ix)) (value 0 t ix) &&
                     eqb (value 0 t (mirrored ix)) (option_map f (value 0 t ix))) (indices (ten_shape t)).

Lemma sym_check_ok f t : sym_check f t = true -> symmetric 0 f t.
Proof. unfold sym_check, symmetric. rewrite forallb_forall. intros Hc ix Hx. specialize (Hc ix (proj2 (In_indices _ _) Hx)).
  apply andb_true_iff in Hc. destruct Hc as [H1 H2].
  apply (eqb_true (value 0 t (rotated ix))) in H1. apply (eqb_true (value 0 t (mirrored ix))) in H2. split; assumption. Qed.

Lemma ex_s1 : symmetric 0 (fun v => v) s1.
Proof. apply sym_check_ok. vm_compute. reflexivity. Qed.
Lemma ex_s2 : symmetric 0 (neg Z.opp) s2.
Proof. apply sym_check_ok. vm_compute. reflexivity. Qed.
Lemma ex_s2_not : value 0 s2 [0; 0; 0; 1; 2]%nat = Some (1, 0) /\ value 0 s2 [0; 0; 2; 1; 0]%nat = Some (-1, 0).
Proof. vm_compute. split; reflexivity. Qed.
Lemma ex_onsite : exists st s, znew elem_s [((0, 0), vec [3; 5])] = Ok st /\ site_of st = Some s /\
  value 0 s [0; 1; 1; 2; 2]%nat = Some (12, 0) /\ value 0 s [0; 0; 0; 1; 2]%nat = Some (0, 5) /\
  value 0 s [0; 0; 2; 1; 0]%nat = Some (0, -5).
Proof. eexists _, _. split; [vm_compute; reflexivity|]. split; [vm_compute; reflexivity|]. repeat split; vm_compute; reflexivity. Qed.
Lemma ex_irreps : znew [(irr "A_2", s2)] [((0, 0), vec [3])] = Err NotImplementedError /\
  znew [(irr "A_1", s1); (irr "B_1", s2)] [((0, 0), vec [3; 5])] = Err NotImplementedError.
Proof. split; reflexivity. Qed.

Lemma bp_sites_case : exists st A B, zbnew elem_r [(irr "B", b1)] (vec [3; -7]) (vec [2]) = Ok st /\
  ipeps_site (b_state st) (-3, 5) = Ok (TReal A) /\ ipeps_site (b_state st) (-3, 4) = Ok (TReal B) /\
  tget A [0; 0; 1; 0; 0]%nat = Some 3 /\ tget A [0; 1; 1; 1; 1]%nat = Some 14 /\
  tget B [0; 0; 1; 1; 1]%nat = Some (-48) /\ tget B [0; 0; 0; 0; 0]%nat = Some 224.
Proof. do 3 eexists. split; [vm_compute; reflexivity|]. split; [vm_compute; reflexivity|]. split; [vm_compute; reflexivity|]. vm_compute. repeat split. Qed.
