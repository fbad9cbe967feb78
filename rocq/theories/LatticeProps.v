(** Property theorems C01-C06, C49 (tilings). *)
From Verif Require Import Base Lattice LatticeSpec Tilings LatticeProofs LatticeProofs2.
Open Scope Z_scope.

Section Props.
Context {L T DT DV : Type} `{EqDec L} `{EqDec DT} `{EqDec DV}.
Variable dtype_of : T -> DT.
Variable device_of : T -> DV.
Notation init := (ipeps_init (L:=L) dtype_of device_of).

(** C01: without pattern and map, vertices are reduced modulo the unit cell *)
Theorem C01_default_tiling_is_periodic : forall sites lX lY st,
  init sites None None lX lY = Ok st -> 0 < i_lX st -> 0 < i_lY st ->
  (forall v, exists s, i_v2s st v = Ok s /\
     0 <= fst s < i_lX st /\ 0 <= snd s < i_lY st /\
     (i_lX st | fst v - fst s) /\ (i_lY st | snd v - snd s) /\
     i_v2s st s = Ok s) /\
  (forall v w, i_v2s st v = i_v2s st w <->
     (i_lX st | fst v - fst w) /\ (i_lY st | snd v - snd w)).
Proof. exact (default_tiling dtype_of device_of). Qed.

(** the size is the given one, or inferred and then positive *)
Theorem C01_default_size : forall sites lX lY st,
  init sites None None lX lY = Ok st ->
  (lX = Some (i_lX st) /\ lY = Some (i_lY st)) \/ (0 < i_lX st /\ 0 < i_lY st).
Proof. exact (init_size_pos dtype_of device_of). Qed.

(** C02: acceptance of patterns given as rows *)
Theorem C02_from_pattern_accepts_iff : forall rows : list (list L),
  (exists r, from_pattern (PatRows rows) = Ok r) <->
  rows <> [] /\ rectangular rows /\ locally_consistent rows.
Proof. exact from_rows_accepts_iff. Qed.

Theorem C02_from_pattern_rejects : forall rows : list (list L),
  (rows = [] -> from_pattern (PatRows rows) = Err IndexError) /\
  (rows <> [] -> ~ (rectangular rows /\ locally_consistent rows) ->
     from_pattern (PatRows rows) = Err PyException).
Proof. exact from_rows_errors. Qed.

Theorem C02_from_pattern_result : forall (rows : list (list L)) sites s2i,
  from_pattern (PatRows rows) = Ok (sites, s2i) ->
  StronglySorted lex_lt sites /\
  (forall c, In c sites <-> smallest_of_label rows c) /\
  (forall c, in_cell rows c -> dget s2i c = tile rows c /\ tile rows c <> None) /\
  (forall c, ~ in_cell rows c -> dget s2i c = None).
Proof. exact from_rows_result. Qed.

(** C02 for dictionaries: keys must cover exactly a rectangle; the labels are
    those of the dictionary, with key (row, column) *)
Theorem C02_from_pattern_dict : forall (d : dict coord L) rows,
  rows_of_dict d = Ok rows ->
  from_pattern (PatDict d) = from_pattern (PatRows rows) /\
  rows <> [] /\
  exists ncol : Z,
  (forall row, In row rows -> Z.of_nat (length row) = ncol) /\
  (forall r c, In (r, c) (dkeys d) <-> 0 <= r < Z.of_nat (length rows) /\ 0 <= c < ncol) /\
  (forall r c, 0 <= r < Z.of_nat (length rows) -> 0 <= c < ncol ->
     tile rows (c, r) = dget d (r, c)).
Proof. exact from_dict_spec. Qed.

Theorem C02_dict_rectangle_accepted : forall (d : dict coord L) (nr nc : Z),
  0 < nr -> 0 < nc ->
  (forall r c, In (r, c) (dkeys d) <-> 0 <= r < nr /\ 0 <= c < nc) ->
  exists rows, rows_of_dict d = Ok rows.
Proof. exact rows_of_dict_total. Qed.

(** C03 *)
Theorem C03_pattern_translation_consistent :
  forall (rows : list (list L)) sites lX lY st v w s d,
  init (Some sites) None (Some (PatRows rows)) lX lY = Ok st -> rows <> [] ->
  i_v2s st v = Ok s -> i_v2s st w = Ok s ->
  i_v2s st (cadd v d) = i_v2s st (cadd w d).
Proof. exact (pattern_translation dtype_of device_of). Qed.

Theorem C03_shift_permutes_sites :
  forall (rows : list (list L)) reps s2i sites lX lY st d,
  init (Some sites) None (Some (PatRows rows)) lX lY = Ok st -> rows <> [] ->
  from_pattern (PatRows rows) = Ok (reps, s2i) -> Permutation (dkeys sites) reps ->
  Permutation (map (fun s => i_v2s st (cadd s d)) (dkeys sites)) (map Ok (dkeys sites)).
Proof. exact (pattern_shift_perm dtype_of device_of). Qed.

(** C04 *)
Theorem C04_pattern_resolves_vertices :
  forall (rows : list (list L)) sites lX lY st v,
  init (Some sites) None (Some (PatRows rows)) lX lY = Ok st -> rows <> [] ->
  i_lY st = Z.of_nat (length rows) /\
  (forall row, In row rows -> i_lX st = Z.of_nat (length row)) /\
  (forall c, In c (dkeys sites) -> in_cell rows c) /\
  ((exists c, In c (dkeys sites) /\ tile rows c = tile rows v) ->
     exists s t, i_v2s st v = Ok s /\ In s (dkeys sites) /\ tile rows s = tile rows v /\
                 dget sites s = Some t /\ ipeps_site st v = Ok t) /\
  ((forall c, In c (dkeys sites) -> tile rows c <> tile rows v) ->
     ipeps_site st v = Err KeyError).
Proof. exact (pattern_site dtype_of device_of). Qed.

Theorem C04_same_site_iff_same_label :
  forall (rows : list (list L)) sites lX lY st v w s,
  init (Some sites) None (Some (PatRows rows)) lX lY = Ok st -> rows <> [] ->
  i_v2s st v = Ok s -> (i_v2s st w = Ok s <-> tile rows v = tile rows w).
Proof. exact (pattern_site_label dtype_of device_of). Qed.

(** C05: every dictionary pattern is rejected with a KeyError by the constructor *)
Theorem C05_dict_pattern_always_fails : forall sites v2s (d : dict coord L) lX lY,
  d <> [] -> (forall s, sites_truthy sites = Some s -> uniform dtype_of device_of s = true) ->
  init sites v2s (Some (PatDict d)) lX lY = Err KeyError.
Proof. exact (init_dict_fails dtype_of device_of). Qed.

(** C49: an explicit map always wins over a pattern *)
Theorem C49_explicit_map_wins : forall sites f (p : option (pattern L)) lX lY st,
  init sites (Some f) p lX lY = Ok st -> i_v2s st = f.
Proof. exact (init_explicit_wins dtype_of device_of). Qed.
End Props.
Print Assumptions C01_default_tiling_is_periodic.
Print Assumptions C01_default_size.
Print Assumptions C02_from_pattern_accepts_iff.
Print Assumptions C02_from_pattern_rejects.
Print Assumptions C02_from_pattern_result.
Print Assumptions C02_from_pattern_dict.
Print Assumptions C02_dict_rectangle_accepted.
Print Assumptions C03_pattern_translation_consistent.
Print Assumptions C03_shift_permutes_sites.
Print Assumptions C04_pattern_resolves_vertices.
Print Assumptions C04_same_site_iff_same_label.
Print Assumptions C05_dict_pattern_always_fails.
Print Assumptions C49_explicit_map_wins.

(** *** concrete cases *)
Definition ex_init := ipeps_init (L:=Z) (fun _ : Z => tt) (fun _ : Z => tt)
  (H0 := fun a b => left (match a, b with tt, tt => eq_refl end))
  (H1 := fun a b => left (match a, b with tt, tt => eq_refl end)).
Definition ex_rows : list (list Z) := [[0; 1; 2]; [1; 2; 0]; [2; 0; 1]].
Definition ex_sites : dict coord Z := [((0, 0), 100); ((0, 1), 101); ((0, 2), 102)].

Example C01_ex : exists st,
  ex_init (Some [((0, 0), 7); ((2, 1), 8)]) None None None None = Ok st /\
  i_lX st = 3 /\ i_lY st = 2 /\ i_v2s st (-4, -3) = Ok (2, 1).
Proof. eexists; repeat split. Qed.
Example C02_ex : exists s2i, from_pattern (PatRows ex_rows) = Ok ([(0, 0); (0, 1); (0, 2)], s2i).
Proof. eexists; vm_compute; reflexivity. Qed.
Example C02_ex_rejected : from_pattern (PatRows [[0; 1]; [1; 1]]) = Err PyException.
Proof. vm_compute; reflexivity. Qed.
Example C02_ex_dict : exists rows,
  rows_of_dict [((0, 0), 0); ((0, 1), 1)] = Ok rows /\ rows = [[0; 1]].
Proof. eexists; split; vm_compute; reflexivity. Qed.
Example C03_C04_ex : exists st,
  ex_init (Some ex_sites) None (Some (PatRows ex_rows)) None None = Ok st /\
  i_v2s st (5, -1) = Ok (0, 1) /\ i_v2s st (1, 0) = Ok (0, 1) /\ ipeps_site st (5, -1) = Ok 101.
Proof. eexists; repeat split; vm_compute; reflexivity. Qed.

(** C05: a documented dictionary pattern (ipeps/ipeps.py:31) is accepted by
    [from_pattern] but the constructor raises *)
Theorem C05_dict_pattern_refuted : exists (d : dict coord Z) (sites : dict coord Z),
  (exists r, from_pattern (PatDict d) = Ok r) /\
  ex_init (Some sites) None (Some (PatDict d)) None None = Err KeyError /\
  (exists st, ex_init (Some sites) None (Some (PatRows [[0; 1]])) None None = Ok st).
Proof. exists [((0, 0), 0); ((0, 1), 1)], [((0, 0), 7); ((1, 0), 8)].
  repeat split; try (eexists; vm_compute; reflexivity). Qed.
Print Assumptions C05_dict_pattern_refuted.

(** C49: the documentation says a pattern overrides vertexToSite; it does not *)
Theorem C49_pattern_overrides_refuted : exists sites f p st st',
  ex_init (Some sites) (Some f) (Some p) None None = Ok st /\
  ex_init (Some sites) None (Some p) None None = Ok st' /\
  i_v2s st (1, 0) <> i_v2s st' (1, 0).
Proof. exists [((0, 0), 7); ((1, 0), 8)], (fun _ => Ok (0, 0)), (PatRows [[0; 1]]).
  eexists; eexists. split; [vm_compute; reflexivity|]. split; [vm_compute; reflexivity|].
  vm_compute; discriminate. Qed.
Print Assumptions C49_pattern_overrides_refuted.

(** C06 *)
Theorem C06_shipped_tilings : forall f sites px py, In (f, sites, px, py) shipped_tilings ->
  translation_consistent f /\
  (forall v, In (f v) sites) /\ (forall s, In s sites -> f s = s) /\
  0 < px /\ 0 < py /\
  (forall v, f (cadd v (px, 0)) = f v /\ f (cadd v (0, py)) = f v).
Proof. exact shipped_ok. Qed.
Print Assumptions C06_shipped_tilings.

Theorem C06_bipartite_sublattices : forall v,
  tiling_bipartite v = (0, 0) <-> Z.even (fst v + snd v) = true.
Proof. exact bipartite_sublattices. Qed.
Print Assumptions C06_bipartite_sublattices.

Example C06_ex : In (tiling_8site, rect_sites 4 2, 4, 4) shipped_tilings
  /\ tiling_8site (-1, 3) = (1, 1).
Proof. split; [unfold shipped_tilings; cbn; tauto|reflexivity]. Qed.
