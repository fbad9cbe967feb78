(** Property C42: files of states that are linear combinations of elementary tensors; property C67:
    their on-site tensors.  Refuted parts: the files lose the order of the auxiliary indices, complex
    numbers cannot be read back, tensors with auxiliary indices of different sizes change or cannot be
    read, and states with a bond tensor exist only for real combinations. *)
From Coq Require Import Permutation Ring_theory.
From Verif Require Import Base Text Tensor TensorIO TensorIOSpec TensorIOProofs StateIO Lattice LcIO LcIOSpec
  LcIOProofs LcIOProofs2 LcIOProofs3 LcIOProofs4 LcIOExamples.
Open Scope nat_scope.
Open Scope list_scope.

(** ** C42 *)
(** real elementary tensors and coefficients: everything comes back, for real A_1 and complex
    A_1 + i A_2 states.  Missing: the cases of the refuted statements below *)
Theorem C42_real_partial {R : Type} (zero one : R) (add mul sub : R -> R -> R) (is_zero : R -> bool)
    (fmt : R -> string) (parse : string -> option R) (fmtc : R * R -> string) (normalized : ten R -> ten R) :
  (forall x, parse (fmt x) = Some x) -> (forall x, token (fmt x) = true) -> (forall x, is_zero x = true <-> x = zero) ->
  forall elem coeffs st seq',
  (forall mt, In mt elem -> square (snd mt)) -> NoDup (dkeys coeffs) -> (forall k c, In (k, c) coeffs -> vector c) ->
  lcs_new zero one add mul sub elem coeffs = Ok st ->
  exists j st', write_lc is_zero fmt fmtc normalized [0;1;2;3] false st = Ok j /\
    read_lc zero one add mul sub parse seq' j = Ok st' /\
    same_elem (s_elem st) (s_elem st') /\ s_coeffs st' = s_coeffs st /\ s_state st' = s_state st.
Proof. exact (real_roundtrip zero one add mul sub is_zero fmt parse fmtc normalized). Qed.
Print Assumptions C42_real_partial.

Example C42_real_example : holds (znew elem_r coeffs_r) (fun st =>
  holds (zwrite [0; 1; 2; 3] false st) (fun j =>
    jl_coeffs j = Some [mkJC (Some "float64"%string) "A0" (Some 2) (Some ["0 3"; "1 -7"]%string)] /\
    holds (zread [0; 1; 2; 3] j) (fun st' => s_coeffs st' = coeffs_r /\ map snd (s_elem st') = [e1; e2]))).
Proof. exact ex_real. Qed.
Example C42_complex_site_example : holds (znew elem_c coeffs_c) (fun st =>
  holds (zwrite [0; 1; 2; 3] false st) (fun j =>
    holds (zread [0; 1; 2; 3] j) (fun st' =>
      s_coeffs st' = coeffs_c /\ map snd (s_elem st') = [e3; e1] /\ site_of st' = site_of st))).
Proof. exact ex_complex_site. Qed.

(** [normalize=True]: the file is that of the state with normalized coefficients *)
Theorem C42_normalized {R : Type} (zero one : R) (add mul sub : R -> R -> R) (is_zero : R -> bool)
    (fmt : R -> string) (parse : string -> option R) (fmtc : R * R -> string) (normalized : ten R -> ten R) :
  (forall x, parse (fmt x) = Some x) -> (forall x, token (fmt x) = true) -> (forall x, is_zero x = true <-> x = zero) ->
  forall elem coeffs st st2 seq',
  (forall mt, In mt elem -> square (snd mt)) -> NoDup (dkeys coeffs) ->
  (forall k c, In (k, c) coeffs -> vector (normalized c)) ->
  lcs_new zero one add mul sub elem coeffs = Ok st ->
  lcs_new zero one add mul sub elem (map (fun kc => (fst kc, normalized (snd kc))) coeffs) = Ok st2 ->
  exists j st', write_lc is_zero fmt fmtc normalized [0;1;2;3] true st = Ok j /\
    read_lc zero one add mul sub parse seq' j = Ok st' /\
    same_elem (s_elem st2) (s_elem st') /\ s_coeffs st' = s_coeffs st2 /\ s_state st' = s_state st2.
Proof. exact (normalized_roundtrip zero one add mul sub is_zero fmt parse fmtc normalized). Qed.
Print Assumptions C42_normalized.

(** another [aux_seq]: the state that comes back has its auxiliary indices reordered, whatever
    [aux_seq] is given to the reader *)
Theorem C42_order {R : Type} (zero one : R) (add mul sub : R -> R -> R) (is_zero : R -> bool)
    (fmt : R -> string) (parse : string -> option R) (fmtc : R * R -> string) (normalized : ten R -> ten R) :
  (forall x, parse (fmt x) = Some x) -> (forall x, token (fmt x) = true) -> (forall x, is_zero x = true <-> x = zero) ->
  forall aux elem coeffs st seq', Permutation aux [0;1;2;3] ->
  (forall mt, In mt elem -> square (snd mt)) -> NoDup (dkeys coeffs) -> (forall k c, In (k, c) coeffs -> vector c) ->
  lcs_new zero one add mul sub elem coeffs = Ok st ->
  exists j st' sites sites', write_lc is_zero fmt fmtc normalized aux false st = Ok j /\
    read_lc zero one add mul sub parse seq' j = Ok st' /\
    Forall2 (fun mt mt' => m_meta (fst mt') = m_meta (fst mt) /\ reordered_ten aux (snd mt) (snd mt')) (s_elem st) (s_elem st') /\
    s_coeffs st' = s_coeffs st /\
    i_sites (s_state st) = Some sites /\ i_sites (s_state st') = Some sites' /\
    Forall2 (fun a b => fst b = fst a /\ reordered_ten aux (snd a) (snd b)) sites sites' /\
    i_lX (s_state st') = i_lX (s_state st) /\ i_lY (s_state st') = i_lY (s_state st) /\
    forall v, i_v2s (s_state st') v = i_v2s (s_state st) v.
Proof. exact (order_roundtrip zero one add mul sub is_zero fmt parse fmtc normalized). Qed.
Print Assumptions C42_order.

Theorem C42_order_refuted : exists st j st', znew [(irr "A_1", e3)] [((0, 0)%Z, vec [1%Z])] = Ok st /\
  zwrite [1; 2; 3; 0] false st = Ok j /\ (forall seq', zread seq' j = Ok st') /\
  site_of st = Some e3 /\ site_of st' = Some (sparse [1; 2; 2; 2; 2] [([0; 1; 0; 0; 0], 5%Z)]) /\
  site_of st' <> site_of st.
Proof. exact ex_order. Qed.
Print Assumptions C42_order_refuted.

(** a complex number is written as one token, which the reader takes for the real part: no state
    with a complex elementary tensor can be read back *)
Theorem C42_complex_refuted {R : Type} (zero one : R) (add mul sub : R -> R -> R) (is_zero : R -> bool)
    (fmt : R -> string) (parse : string -> option R) (fmtc : R * R -> string) (normalized : ten R -> ten R) :
  (forall x, is_zero x = true <-> x = zero) ->
  (forall z, parse (fmtc z) = None) -> (forall z, token (fmtc z) = true) ->
  forall aux nrm seq' st m t j, In (m, t) (s_elem st) -> ten_wf t -> has_complex_entry zero t ->
  write_lc is_zero fmt fmtc normalized aux nrm st = Ok j ->
  exists e, read_lc zero one add mul sub parse seq' j = Err e.
Proof. exact (complex_elem_fails zero one add mul sub is_zero fmt parse fmtc normalized). Qed.
Print Assumptions C42_complex_refuted.

Example C42_complex_refuted_example : exists st j,
  znew [(irr "A_1", e_c)] [((0, 0)%Z, TCplx (mkT [1] [(1, 0)%Z]))] = Ok st /\
  zwrite [0; 1; 2; 3] false st = Ok j /\
  option_map (map je_entries) (jl_elem j) = Some [Some ["0 0 0 0 0 (4+9j)"%string]] /\
  zread [0; 1; 2; 3] j = Err ValueError.
Proof. exact ex_complex_elem. Qed.

(** nor one with complex coefficients *)
Theorem C42_complex_coeffs_refuted {R : Type} (zero one : R) (add mul sub : R -> R -> R) (is_zero : R -> bool)
    (fmt : R -> string) (parse : string -> option R) (fmtc : R * R -> string) (normalized : ten R -> ten R) :
  (forall z, parse (fmtc z) = None) -> (forall z, token (fmtc z) = true) ->
  forall aux (nrm : bool) seq' st k c n z l j, In (k, c) (s_coeffs st) ->
  (if nrm then normalized c else c) = TCplx (mkT [S n] (z :: l)) ->
  write_lc is_zero fmt fmtc normalized aux nrm st = Ok j ->
  exists e, read_lc zero one add mul sub parse seq' j = Err e.
Proof. exact (complex_coeffs_fail zero one add mul sub is_zero fmt parse fmtc normalized). Qed.
Print Assumptions C42_complex_coeffs_refuted.

Example C42_complex_coeffs_example : exists st j,
  znew elem_c [((0, 0)%Z, TCplx (mkT [2] [(1, 4); (0, 2)]%Z))] = Ok st /\
  zwrite [0; 1; 2; 3] false st = Ok j /\ zread [0; 1; 2; 3] j = Err ValueError.
Proof. exact ex_complex_coeffs. Qed.

(** auxiliary indices of different sizes: all take the size of the first one, or reading fails *)
Theorem C42_sizes {R : Type} (zero one : R) (add mul sub : R -> R -> R) (is_zero : R -> bool)
    (fmt : R -> string) (parse : string -> option R) (fmtc : R * R -> string) (normalized : ten R -> ten R) :
  (forall x, parse (fmt x) = Some x) -> (forall x, token (fmt x) = true) -> (forall x, is_zero x = true <-> x = zero) ->
  forall elem coeffs st j st' seq',
  (forall mt, In mt elem -> exists T p a b c d, snd mt = TReal T /\ twf T /\ tdims T = [p; a; b; c; d] /\ b <= a /\ c <= a /\ d <= a) ->
  lcs_new zero one add mul sub elem coeffs = Ok st ->
  write_lc is_zero fmt fmtc normalized [0;1;2;3] false st = Ok j ->
  read_lc zero one add mul sub parse seq' j = Ok st' ->
  Forall2 (fun mt mt' => m_meta (fst mt') = m_meta (fst mt) /\ exists T T', snd mt = TReal T /\ snd mt' = TReal T' /\
     enlarged zero (nth 1 (tdims T) 0) T T') (s_elem st) (s_elem st').
Proof. exact (sizes_enlarged zero one add mul sub is_zero fmt parse fmtc normalized). Qed.
Print Assumptions C42_sizes.

Theorem C42_sizes_raise {R : Type} (zero one : R) (add mul sub : R -> R -> R) (is_zero : R -> bool)
    (fmt : R -> string) (parse : string -> option R) (fmtc : R * R -> string) (normalized : ten R -> ten R) :
  (forall x, parse (fmt x) = Some x) -> (forall x, token (fmt x) = true) -> (forall x, is_zero x = true <-> x = zero) ->
  forall st m T p a b c d ix v j seq' nrm, In (m, TReal T) (s_elem st) -> twf T -> tdims T = [p; a; b; c; d] ->
  tget T ix = Some v -> v <> zero -> ~ addresses [p; a; a; a; a] ix ->
  write_lc is_zero fmt fmtc normalized [0;1;2;3] nrm st = Ok j ->
  exists e, read_lc zero one add mul sub parse seq' j = Err e.
Proof. exact (sizes_raises zero one add mul sub is_zero fmt parse fmtc normalized). Qed.
Print Assumptions C42_sizes_raise.

Theorem C42_sizes_refuted : exists st j st', znew [(irr "A_1", e_s)] [((0, 0)%Z, vec [1%Z])] = Ok st /\
  zwrite [0; 1; 2; 3] false st = Ok j /\ zread [0; 1; 2; 3] j = Ok st' /\
  site_of st = Some e_s /\ site_of st' = Some (sparse [1; 2; 2; 2; 2] [([0; 0; 0; 1; 0], 6%Z)]).
Proof. exact ex_sizes. Qed.
Print Assumptions C42_sizes_refuted.

Example C42_sizes_raise_example : exists st j, znew [(irr "A_1", e_t)] [((0, 0)%Z, vec [1%Z])] = Ok st /\
  zwrite [0; 1; 2; 3] false st = Ok j /\ zread [0; 1; 2; 3] j = Err IndexError.
Proof. exact ex_raises. Qed.

(** states with a bond tensor *)
Theorem C42_bond_partial {R : Type} (zero one : R) (add mul sub : R -> R -> R) (is_zero : R -> bool)
    (fmt : R -> string) (parse : string -> option R) (fmtc : R * R -> string) (normalized normalized4 : ten R -> ten R) :
  (forall x, parse (fmt x) = Some x) -> (forall x, token (fmt x) = true) -> (forall x, is_zero x = true <-> x = zero) ->
  forall site bond cA cb st seq',
  (forall mt, In mt site -> square (snd mt)) -> (forall mt, In mt bond -> square2 (snd mt)) -> vector cA -> vector cb ->
  bps_new zero one add mul sub site bond cA cb = Ok st ->
  exists j st', write_bp is_zero fmt fmtc normalized normalized4 [0;1;2;3] false st = Ok j /\
    read_bp zero one add mul sub parse seq' j = Ok st' /\
    same_elem (b_site_elem st) (b_site_elem st') /\ same_elem (b_bond_elem st) (b_bond_elem st') /\
    b_site_c st' = b_site_c st /\ b_bond_c st' = b_bond_c st /\ b_state st' = b_state st.
Proof. exact (bp_roundtrip zero one add mul sub is_zero fmt parse fmtc normalized normalized4). Qed.
Print Assumptions C42_bond_partial.

Example C42_bond_example : holds (zbnew elem_r [(irr "B", b1)] (vec [3; -7]%Z) (vec [2%Z])) (fun st =>
  holds (zbwrite [0; 1; 2; 3] false st) (fun j =>
    holds (zbread [0; 1; 2; 3] j) (fun st' =>
      b_site_c st' = vec [3; -7]%Z /\ b_bond_c st' = vec [2%Z] /\ map snd (b_bond_elem st') = [b1] /\
      i_sites (b_state st') = i_sites (b_state st) /\
      option_map (fun d => option_map (fun t => value 0%Z t [0; 0; 1; 1; 1]) (dget d (1, 0)%Z)) (i_sites (b_state st)) = Some (Some (Some (-48, 0)%Z))))).
Proof. exact ex_bp. Qed.

(** no state with A_2 tensors has real bond tensors *)
Theorem C42_bond_refuted {R : Type} (zero one : R) (add mul sub : R -> R -> R) site bond cA cb m t :
  In (m, t) site -> dget (m_meta m) "pg"%string = Some "A_2"%string ->
  (forall mt, In mt bond -> ten_cplx (snd mt) = false) ->
  exists e, bps_new zero one add mul sub site bond cA cb = Err e.
Proof. exact (bp_complex_raises zero one add mul sub site bond cA cb m t). Qed.
Print Assumptions C42_bond_refuted.

Example C42_bond_refuted_example : zbnew elem_c [(irr "B", b1)] (vec [2; 11]%Z) (vec [2%Z]) = Err RuntimeError.
Proof. exact ex_bp_complex. Qed.

(** ** C67 *)
(** the documented combination, when A_1 tensors come first *)
Theorem C67_onsite_partial {R : Type} (zero one : R) (add mul sub : R -> R -> R) (opp : R -> R) :
  ring_theory zero one add mul sub opp eq ->
  forall elem coeffs st k l n,
  (forall mt, In mt elem -> square (snd mt)) -> NoDup (dkeys coeffs) ->
  lcs_new zero one add mul sub elem coeffs = Ok st ->
  In (k, TReal (mkT [n] l)) coeffs -> length l = n -> n = length elem ->
  exists sites s p a, i_sites (s_state st) = Some sites /\ dkeys sites = dkeys coeffs /\ dget sites k = Some s /\
    (forall mt, In mt elem -> ten_shape (snd mt) = [p; a; a; a; a]) /\ ten_shape s = [p; a; a; a; a] /\
    forall ix, addresses [p; a; a; a; a] ix ->
      let e1 := of_irrep "A_1" elem in let e2 := of_irrep "A_2" elem in
      value zero s ix = Some (weighted zero add mul (firstn (length e1) l) e1 ix,
                              weighted zero add mul (skipn (length e1) l) e2 ix).
Proof. exact (onsite_value zero one add mul sub opp). Qed.
Print Assumptions C67_onsite_partial.

Example C67_onsite_example : exists st s, znew elem_s [((0, 0)%Z, vec [3; 5]%Z)] = Ok st /\ site_of st = Some s /\
  value 0%Z s [0; 1; 1; 2; 2] = Some (12, 0)%Z /\ value 0%Z s [0; 0; 0; 1; 2] = Some (0, 5)%Z /\
  value 0%Z s [0; 0; 2; 1; 0] = Some (0, -5)%Z.
Proof. exact ex_onsite. Qed.

(** with tensors of the irreps they name, the on-site tensor is invariant under rotations and a
    reflection conjugates it *)
Theorem C67_symmetric {R : Type} (zero one : R) (add mul sub : R -> R -> R) (opp : R -> R) :
  ring_theory zero one add mul sub opp eq ->
  forall elem coeffs st k l n,
  (forall mt, In mt elem -> square (snd mt)) -> NoDup (dkeys coeffs) ->
  lcs_new zero one add mul sub elem coeffs = Ok st ->
  In (k, TReal (mkT [n] l)) coeffs -> length l = n -> n = length elem ->
  (forall t, In t (of_irrep "A_1" elem) -> symmetric zero (fun v => v) t) ->
  (forall t, In t (of_irrep "A_2" elem) -> symmetric zero (neg opp) t) ->
  exists sites s, i_sites (s_state st) = Some sites /\ dget sites k = Some s /\ symmetric zero (conjugate opp) s.
Proof. exact (onsite_symmetric zero one add mul sub opp). Qed.
Print Assumptions C67_symmetric.

Example C67_symmetric_example : symmetric 0%Z (fun v => v) s1 /\ symmetric 0%Z (neg Z.opp) s2 /\
  value 0%Z s2 [0; 0; 0; 1; 2] = Some (1, 0)%Z /\ value 0%Z s2 [0; 0; 2; 1; 0] = Some (-1, 0)%Z.
Proof. exact (conj ex_s1 (conj ex_s2 ex_s2_not)). Qed.

(** only real A_1 and complex A_1 + i A_2 states can be made *)
Theorem C67_irreps {R : Type} (zero one : R) (add mul sub : R -> R -> R) elem coeffs st :
  lcs_new zero one add mul sub elem coeffs = Ok st ->
  (exists mt, In mt elem /\ dget (m_meta (fst mt)) "pg"%string = Some "A_1"%string) /\
  forall mt, In mt elem -> dget (m_meta (fst mt)) "pg"%string = Some "A_1"%string \/
                           dget (m_meta (fst mt)) "pg"%string = Some "A_2"%string.
Proof. exact (accepted_irreps zero one add mul sub elem coeffs st). Qed.
Print Assumptions C67_irreps.

Example C67_irreps_example : znew [(irr "A_2", s2)] [((0, 0)%Z, vec [3%Z])] = Err NotImplementedError /\
  znew [(irr "A_1", s1); (irr "B_1", s2)] [((0, 0)%Z, vec [3; 5]%Z)] = Err NotImplementedError.
Proof. exact ex_irreps. Qed.

(** coefficients do not follow the order of the tensors: the tensor at place 0 is multiplied by the
    coefficient at place 1 *)
Theorem C67_pairing_refuted : exists st s, znew elem_c coeffs_c = Ok st /\ site_of st = Some s /\
  value 0%Z s [0; 0; 1; 0; 0] = Some (2, 55)%Z /\ value 0%Z s [0; 1; 0; 0; 0] = Some (2, 0)%Z.
Proof. exact ex_pairing. Qed.
Print Assumptions C67_pairing_refuted.

(** one coefficient is accepted for two tensors *)
Theorem C67_lengths_refuted : exists st s, znew elem_r [((0, 0)%Z, vec [3%Z])] = Ok st /\ site_of st = Some s /\
  value 0%Z s [0; 0; 1; 0; 0] = Some (3, 0)%Z /\ value 0%Z s [0; 1; 1; 1; 1] = Some (-6, 0)%Z.
Proof. exact ex_broadcast. Qed.
Print Assumptions C67_lengths_refuted.
