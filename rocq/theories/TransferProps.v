(** C73: spectra of transfer operators *)
From Coq Require Import Reals.
From Verif Require Import Base Lattice Tensor NetSpec CornersSpec RdmSpec Corr CorrSpec CorrC4v CorrC4vSpec Transfer TransferSpec TransferProofs2 TransferProofs3 TransferExamples.
From Coq Require Import Field.
Open Scope list_scope.
Open Scope nat_scope.

(** get_Top_spec computes eigenvalues of the channel of one unit cell *)
Theorem C73_channel {K} (z o : K) add mul cj (SR : semi_ring_theory z o add mul eq) st e As Cs Ts (HS : sees st e As Cs Ts) c d : exists m mv,
  (forall D k, let N := cell_length st d in 1 <= N -> 1 <= k -> same_rims D N -> (2 <= k -> repeats st c d N) ->
    fits D (channel cj As Ts d c (k * N)) ->
    m = prod_dims (map (ldim D) (rim (base 0))) /\
    applies D z o add mul (iterate k mv) (rim (base 0)) (channel cj As Ts d c (k * N)) (rim (base (k * N)))) /\
  forall W (eigs : eigen_solver K W) argsort n ev, is_argsort argsort ->
  (forall err, eigs ev m mv n = Err err -> get_Top_spec z o add mul cj eigs argsort st e n c (dvec d) ev = Err err) /\
  (forall vals vecs top, eigs ev m mv n = Ok (vals, vecs) -> n <> 0 -> length vals = n -> (ev = true -> length vecs = n) -> leading top vals -> top <> 0%R ->
    exists L X, get_Top_spec z o add mul cj eigs argsort st e n c (dvec d) ev = Ok (L, X) /\ sorted_values top vals L /\ modulus (nth 0 L (0, 0)%R) = 1%R /\
    if ev then sorted_pairs top vals vecs L X else X = []).
Proof. exact (Top_ok z o add mul cj SR st e As Cs Ts HS c d). Qed.
Print Assumptions C73_channel.
Example C73_channel_case : repeats st8 (0, 0)%Z Right (cell_length st8 Right) /\ cell_length st8 Right = 4 /\ same_rims (fun _ => 1) 4 /\ fits (fun _ => 1) (chan8 Right 8) /\
  mv8 Right [1%Z] = Ok [0%Z] /\ mv8 Down [1%Z] = Ok [81%Z].
Proof. exact right_case. Qed.

(** repeating it is not going on if the unit cell is not a period in this direction *)
Theorem C73_cell_refuted : exists st e As Cs Ts c D m mv x M, sees st e As Cs Ts /\
  (forall W (eigs : eigen_solver Z W) argsort n ev err, eigs ev m mv n = Err err -> get_Top_spec 0%Z 1%Z Z.add Z.mul (fun x => x) eigs argsort st e n c (dvec Down) ev = Err err) /\
  let N := cell_length st Down in let net := channel (fun x => x) As Ts Down c (2 * N) in
  1 <= N /\ same_rims D N /\ fits D net /\ length x = prod_dims (map (ldim D) (rim (base 0))) /\
  is_contraction D 0%Z 1%Z Z.add Z.mul ((mkT (map (ldim D) (rim (base 0))) x, rim (base 0)) :: net) (rim (base (2 * N))) M /\
  iterate 2 mv x <> Ok (tdata M).
Proof. exact cell_refuted. Qed.
Print Assumptions C73_cell_refuted.

(** get_Top_w0_spec to the left and up: the channel without sites *)
Theorem C73_seam {K} (z o : K) add mul (SR : semi_ring_theory z o add mul eq) st e As Cs Ts (HS : sees st e As Cs Ts) (HN : reduces st) c d : d = Left \/ d = Up -> exists m mv,
  (forall D k, let N := cell_length st d in 1 <= N -> 1 <= k -> same_rims D N -> (2 <= k -> repeats st c d N) ->
    fits D (seam Ts d c (k * N)) -> nth 2 (tdims (Ts c (cneg (seam_side d)))) 0 = D (base 0 + 3) ->
    m = prod_dims (map (ldim D) (rim0 (base 0))) /\
    applies D z o add mul (iterate k mv) (rim0 (base 0)) (seam Ts d c (k * N)) (rim0 (base (k * N)))) /\
  forall W (eigs : eigen_solver K W) argsort n, is_argsort argsort ->
  (forall err, eigs false m mv n = Err err -> get_Top_w0_spec z o add mul eigs argsort st e n c (dvec d) = Err err) /\
  (forall vals vecs top, eigs false m mv n = Ok (vals, vecs) -> n <> 0 -> length vals = n -> leading top vals -> top <> 0%R ->
    exists L, get_Top_w0_spec z o add mul eigs argsort st e n c (dvec d) = Ok L /\ sorted_values top vals L /\ modulus (nth 0 L (0, 0)%R) = 1%R).
Proof. exact (Top0_ok z o add mul (fun x => x) SR st e As Cs Ts HS HN c d). Qed.
Print Assumptions C73_seam.
Example C73_seam_case : mv3 Left [5; 7]%Z = Ok [0; 7]%Z /\ mv3 Right [5; 7]%Z = Ok [0; 0]%Z.
Proof. exact left_case. Qed.

(** to the right the sites are joined in reversed order *)
Theorem C73_seam_refuted : exists st e As Cs Ts c D m mv x, sees st e As Cs Ts /\ reduces st /\
  (forall W (eigs : eigen_solver Z W) argsort n err, eigs false m mv n = Err err -> get_Top_w0_spec 0%Z 1%Z Z.add Z.mul eigs argsort st e n c (dvec Right) = Err err) /\
  let N := cell_length st Right in
  1 <= N /\ repeats st c Right N /\ same_rims D N /\ fits D (seam Ts Right c N) /\ m = prod_dims (map (ldim D) (rim0 (base 0))) /\
  length x = m /\ In 1%Z x /\
  is_contraction D 0%Z 1%Z Z.add Z.mul ((mkT (map (ldim D) (rim0 (base 0))) x, rim0 (base 0)) :: seam Ts Right c N) (rim0 (base N)) (mkT (map (ldim D) (rim0 (base N))) x) /\
  forall y, length y = m -> mv y = Ok (repeat 0%Z m).
Proof. exact seam_refuted. Qed.
Print Assumptions C73_seam_refuted.

(** the C4v state: one row *)
Theorem C73_c4v {K} (z o : K) add mul cj sub opp div inv (FT : field_theory z o add mul sub opp div inv eq) (T a : tensor K) chi p ad
  (HT : tdims T = [chi; chi; ad * ad]) (Ha : tdims a = [p; ad; ad; ad; ad]) : exists m mv,
  (forall D k, 1 <= k -> fits D (channel_c4v cj T a 1 k) ->
    m = prod_dims (map (ldim D) (rims 1 (at_col 0))) /\
    applies D z o add mul (iterate k mv) (rims 1 (at_col 0)) (channel_c4v cj T a 1 k) (rims 1 (at_col k))) /\
  forall W (eigs : eigen_solver K W) argsort n nz ev, is_argsort argsort ->
  (forall err, eigs ev m mv n = Err err -> get_Top_spec_c4v z o add mul cj eigs argsort chi T a n nz ev = Err err) /\
  (forall vals vecs top, eigs ev m mv n = Ok (vals, vecs) -> n <> 0 -> length vals = n -> (ev = true -> length vecs = n) -> leading top vals -> top <> 0%R ->
    let unit := if nz then top else 1%R in
    exists L X, get_Top_spec_c4v z o add mul cj eigs argsort chi T a n nz ev = Ok (L, X) /\ sorted_values unit vals L /\ (nz = true -> modulus (nth 0 L (0, 0)%R) = 1%R) /\
    if ev then sorted_pairs unit vals vecs L X else X = []).
Proof. exact (Top_c4v_ok z o add mul cj sub opp div inv FT T a chi p ad HT Ha). Qed.
Print Assumptions C73_c4v.

(** two rows; the order of the values is that of eigs, reversed *)
Theorem C73_c4v_two_rows {K} (z o : K) add mul cj sub opp div inv (FT : field_theory z o add mul sub opp div inv eq) svd (T a : tensor K) chi p ad
  (HT : tdims T = [chi; chi; ad * ad]) (Ha : tdims a = [p; ad; ad; ad; ad]) : exists m mv,
  (forall D k, 1 <= k -> fits D (channel_c4v cj T a 2 k) ->
    m = prod_dims (map (ldim D) (rims 2 (at_col 0))) /\
    applies D z o add mul (iterate k mv) (rims 2 (at_col 0)) (channel_c4v cj T a 2 k) (rims 2 (at_col k))) /\
  forall W (eigs : eigen_solver K W) n,
  (forall err, eigs false m mv n = Err err -> get_Top2_spec_c4v z o add mul cj eigs chi T a svd n = Err err) /\
  (forall vals vecs, eigs false m mv n = Ok (vals, vecs) -> n <> 0 -> length vals = n ->
    exists L, get_Top2_spec_c4v z o add mul cj eigs chi T a svd n = Ok L /\ L = map (over (modulus (last vals (0, 0)%R))) (rev vals) /\
    (ascending vals -> modulus (last vals (0, 0)%R) <> 0%R -> exists top, leading top vals /\ sorted_values top vals L)).
Proof. exact (Top2_c4v_ok z o add mul cj sub opp div inv FT svd T a chi p ad HT Ha). Qed.
Print Assumptions C73_c4v_two_rows.

(** so they are not sorted if eigs returns the leading value first *)
Theorem C73_order_refuted : exists (T a : tensor Z) chi n (eigs : eigen_solver Z (list Z)) L, nth 0 (tdims T) 0 = chi /\
  (forall ev m mv n vals vecs, eigs ev m mv n = Ok (vals, vecs) -> length vecs = length vals /\
    forall k, k < length vals -> exists v, nth k vals (0, 0)%R = (IZR v, 0%R) /\ mv (nth k vecs []) = Ok (map (Z.mul v) (nth k vecs [])) /\ In 1%Z (nth k vecs [])) /\
  get_Top2_spec_c4v 0%Z 1%Z Z.add Z.mul (fun x => x) eigs chi T a (fun _ => Err RuntimeError) n = Ok L /\ ~ descending L.
Proof. exact top2_refuted. Qed.
Print Assumptions C73_order_refuted.
