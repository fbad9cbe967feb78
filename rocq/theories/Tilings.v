(** Explicit [vertexToSite] maps that occur in the documentation, the library and
    the shipped programs.  Python [%] and [//] with positive divisor are [Z.modulo]
    and [Z.div]. *)
From Verif Require Import Base.
Open Scope Z_scope.

(** documentation Example 1, ipeps/ipeps.py:141-142; examples/j1j2/optim_j1j2.py:54-55 *)
Definition tiling_1site (c : coord) : coord := (0, 0).

(** documentation Example 2 (bipartite), ipeps/ipeps.py:154-157;
    ipeps/ipeps_lc_bp.py:34-37; examples/j1j2/optim_j1j2.py:49-52 *)
Definition tiling_bipartite (c : coord) : coord :=
  let x := (fst c + Z.abs (fst c) * 2) mod 2 in
  let y := Z.abs (snd c) in
  ((x + y) mod 2, 0).

(** stripe, examples/j1j2/optim_j1j2.py:57-60 *)
Definition tiling_2site (c : coord) : coord :=
  ((fst c + Z.abs (fst c) * 2) mod 2, (snd c + Z.abs (snd c) * 1) mod 1).

(** examples/j1j2/optim_j1j2.py:62-65 *)
Definition tiling_4site (c : coord) : coord :=
  ((fst c + Z.abs (fst c) * 2) mod 2, (snd c + Z.abs (snd c) * 2) mod 2).

(** examples/j1j2/optim_j1j2.py:67-71; examples/optim_baTiOCu2Po4.py:39-43 *)
Definition tiling_8site (c : coord) : coord :=
  let shift_x := fst c + 2 * (snd c / 2) in
  (shift_x mod 4, snd c mod 2).

(** ipeps/ipeps_1s_Q.py:163; examples/triangular/optim_j1j2j4.py:78-81 *)
Definition tiling_3site (c : coord) : coord := ((fst c mod 3 - snd c) mod 3, 0).

(** examples/triangular/optim_j1j2j4.py:85-88 *)
Definition tiling_trgl_4site (c : coord) : coord :=
  (fst c mod 2, (snd c + (fst c mod 4) / 2) mod 2).

(** the site lists these maps are used with: ipeps/ipeps.py:140,153;
    examples/j1j2/optim_j1j2.py:57-71; ipeps/ipeps_1s_Q.py:160-162 *)
Definition rect_sites (nx ny : Z) : list coord :=
  flat_map (fun x => map (fun y => (x, y)) (zrange ny)) (zrange nx).

(** (map, sites it maps to, period in x, period in y) *)
Definition shipped_tilings : list ((coord -> coord) * list coord * Z * Z) :=
  [ (tiling_1site, rect_sites 1 1, 1, 1);
    (tiling_bipartite, rect_sites 2 1, 2, 2);
    (tiling_2site, rect_sites 2 1, 2, 1);
    (tiling_4site, rect_sites 2 2, 2, 2);
    (tiling_8site, rect_sites 4 2, 4, 4);
    (tiling_3site, rect_sites 3 1, 3, 3);
    (tiling_trgl_4site, rect_sites 2 2, 4, 2) ].
