(** Properties C10, C11: writing and reading states. *)
From Coq Require Import DecimalString.
From Verif Require Import Base Text Tensor TensorLemmas TensorIO TensorIOProofs Lattice LatticeSpec Tilings
  StateIO StateIOSpec StateIOProofs StateIOProofs2.
Open Scope Z_scope.

(** ** C10 *)
(** a regular state is restored exactly: same tensors, same cell, same map, for both file
    formats *)
Theorem C10_write_read_regular :
  forall {R} (zero : R) (add : R -> R -> R) (fmt : R -> string) (parse : string -> option R)
    (fmtc : R * R -> string) (parsec : string -> option (R * R)) (normalized : ten R -> ten R),
  (forall x, parse (fmt x) = Some x) -> (forall x, token (fmt x) = true) ->
  (forall z, parsec (fmtc z) = Some z) -> (forall x, add zero x = x) ->
  forall (f : io_format) (cd : bool) (st : ipeps (ten R)) (sites : dict coord (ten R)),
  f <> Fother -> regular st sites ->
  (forall c t, In (c, t) sites -> onsite t /\ promote zero cd t = t) ->
  uniform ten_cplx ten_device sites = true ->
  exists js st',
    write_ipeps fmt fmtc normalized f aux_default false st = Ok js /\
    read_ipeps zero add parse parsec cd None aux_default js = Ok st' /\
    i_sites st' = Some sites /\ i_lX st' = i_lX st /\ i_lY st' = i_lY st /\
    forall v, i_v2s st' v = i_v2s st v.
Proof. exact @state_roundtrip. Qed.
Print Assumptions C10_write_read_regular.

(** states built without pattern and map, with a tensor on every site of the cell, are
    regular *)
Theorem C10_default_states_are_regular :
  forall {L T DT DV} `{EqDec L} `{EqDec DT} `{EqDec DV} (dtype_of : T -> DT) (device_of : T -> DV)
    (sites : dict coord T) lX lY st, sites <> [] -> NoDup (dkeys sites) ->
  ipeps_init (L:=L) dtype_of device_of (Some sites) None None lX lY = Ok st -> 0 < i_lX st -> 0 < i_lY st ->
  (forall k, In k (dkeys sites) <-> 0 <= fst k < i_lX st /\ 0 <= snd k < i_lY st) ->
  regular st sites.
Proof. exact @regular_pbc. Qed.
Print Assumptions C10_default_states_are_regular.

(** states built from a pattern with one tensor per label are regular *)
Theorem C10_pattern_states_are_regular :
  forall {L T DT DV} `{EqDec L} `{EqDec DT} `{EqDec DV} (dtype_of : T -> DT) (device_of : T -> DV)
    (rows : list (list L)) (sites : dict coord T) lX lY st, NoDup (dkeys sites) ->
  ipeps_init dtype_of device_of (Some sites) None (Some (PatRows rows)) lX lY = Ok st -> rows <> [] ->
  (forall v, exists c, In c (dkeys sites) /\ tile rows c = tile rows v) ->
  (forall c c', In c (dkeys sites) -> In c' (dkeys sites) -> tile rows c = tile rows c' -> c = c') ->
  regular st sites.
Proof. exact @regular_pattern. Qed.
Print Assumptions C10_pattern_states_are_regular.

(** concrete scalars *)
Definition xfmt (z : Z) : string := NilZero.string_of_int (Z.to_int z).
Definition xfmtc (z : Z * Z) : string := xfmt (fst z).
Definition xw := write_ipeps xfmt xfmtc (fun t => t).
Definition xr := read_ipeps 0%Z Z.add parse_int (fun _ => None).
Definition xt (z : Z) : ten Z := TReal (mkT [1; 1; 1; 1; 1]%nat [z]).
Definition x2 (zs : list Z) : ten Z := TReal (mkT [1; 2; 1; 1; 1]%nat zs).
Definition xinit := ipeps_init (L:=Z) (T:=ten Z) ten_cplx ten_device.

Lemma ok_ex3 {A B C} (ra : res A) (rb : A -> res B) (rc : B -> res C) (P : A -> B -> C -> Prop) :
  match ra with
  | Ok a => match rb a with Ok b => match rc b with Ok c => P a b c | _ => False end | _ => False end
  | _ => False
  end -> exists a b c, ra = Ok a /\ rb a = Ok b /\ rc b = Ok c /\ P a b c.
Proof. destruct ra as [a|] eqn:Ea; [|tauto]. destruct (rb a) as [b|] eqn:Eb; [|tauto].
  destruct (rc b) as [c|] eqn:Ec; [|tauto]. intros H. exists a, b, c. auto. Qed.

Example C10_example : exists st js st',
  xinit (Some [((0, 0), xt 5); ((0, 1), xt 6); ((0, 2), xt 7)]) None
        (Some (PatRows [[0; 1; 2]; [1; 2; 0]; [2; 0; 1]])) None None = Ok st /\
  xw Flegacy aux_default false st = Ok js /\ xr false None aux_default js = Ok st' /\
  js_pattern js = Some [["A0"; "A1"; "A2"]; ["A1"; "A2"; "A0"]; ["A2"; "A0"; "A1"]]%string /\
  ipeps_site st' (-1, 3) = Ok (xt 7) /\ ipeps_site st (-1, 3) = Ok (xt 7).
Proof. apply ok_ex3. vm_compute. repeat split. Qed.

(** the property fails for the documented 2-site bipartite state: the inferred cell is
    2x1, the file describes stripes *)
Theorem C10_bipartite_refuted : exists st js st' v,
  xinit (Some [((0, 0), xt 5); ((1, 0), xt 6)]) (Some (fun c => Ok (tiling_bipartite c))) None None None = Ok st /\
  translation_consistent tiling_bipartite /\
  xw Flegacy aux_default false st = Ok js /\ xr false None aux_default js = Ok st' /\
  ipeps_site st v = Ok (xt 6) /\ ipeps_site st' v = Ok (xt 5).
Proof. pose proof (proj1 (LatticeProofs2.shipped_ok _ _ _ _ (or_intror (or_introl eq_refl)))) as HT.
  enough (E : exists st js st',
    xinit (Some [((0, 0), xt 5); ((1, 0), xt 6)]) (Some (fun c => Ok (tiling_bipartite c))) None None None = Ok st /\
    xw Flegacy aux_default false st = Ok js /\ xr false None aux_default js = Ok st' /\
    ipeps_site st (0, 1) = Ok (xt 6) /\ ipeps_site st' (0, 1) = Ok (xt 5)).
  { destruct E as (st & js & st' & E1 & E2 & E3 & E4 & E5). exists st, js, st', (0, 1). auto 10. }
  apply ok_ex3. vm_compute. repeat split. Qed.
Print Assumptions C10_bipartite_refuted.

(** ** C11 *)
(** reading: [s] is the "aux_ind_seq" of the file or, if it has none, the argument; entry k of [s] is the position in the file of the k-th
    auxiliary index (up, left, down, right) of the loaded tensor *)
Theorem C11_read_index_order :
  forall {R} (zero : R) (add : R -> R -> R) (parse : string -> option R) (parsec : string -> option (R * R))
    cd v2s arg s js (st : ipeps (ten R)),
  read_ipeps zero add parse parsec cd v2s arg js = Ok st -> js_aux js = Some s \/ js_aux js = None /\ arg = s ->
  (forall jt, j_format jt <> None -> j_format jt = Some "1D"%string \/ ~ In jt (map snd (js_sites js))) ->
  forall sites c t, i_sites st = Some sites -> dget sites c = Some t ->
  exists id jt x, In (id, c) (js_map js) /\ find_site (js_sites js) id = Some jt /\
    (read_1d parse parsec jt = Ok x \/ read_legacy zero add parse jt = Ok x) /\
    (ten_wf x -> Permutation s (seq 0 (length s)) /\ length (ten_dims x) = S (length s) /\
     forall ph ix jx, in_range (ten_dims x) (ph :: ix) -> length jx = length ix ->
       (forall k, (k < length s)%nat -> nth k jx 0%nat = nth (nth k s 0%nat) ix 0%nat) ->
       ten_get zero t (ph :: jx) = ten_get zero x (ph :: ix)).
Proof. exact @read_index_order. Qed.
Print Assumptions C11_read_index_order.

(** writing ignores aux_seq altogether *)
Theorem C11_writer_ignores_aux_seq :
  forall {R} (fmt : R -> string) (fmtc : R * R -> string) (normalized : ten R -> ten R) f s s' nrm st,
  write_ipeps fmt fmtc normalized f s nrm st = write_ipeps fmt fmtc normalized f s' nrm st.
Proof. exact (fun _ _ _ _ _ _ _ _ _ => eq_refl). Qed.
Print Assumptions C11_writer_ignores_aux_seq.

(** so writing and reading with the same aux_seq does not restore the tensors *)
Theorem C11_write_read_aux_refuted : exists st js st',
  xinit (Some [((0, 0), x2 [5; 6])]) None None None None = Ok st /\
  xw Flegacy [1; 0; 3; 2]%nat false st = Ok js /\
  xr false None [1; 0; 3; 2]%nat js = Ok st' /\
  ipeps_site st (0, 0) = Ok (x2 [5; 6]) /\
  ipeps_site st' (0, 0) = Ok (TReal (mkT [1; 1; 2; 1; 1]%nat [5; 6])).
Proof. apply ok_ex3. vm_compute. repeat split. Qed.
Print Assumptions C11_write_read_aux_refuted.
