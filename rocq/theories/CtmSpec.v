(** Specification of a directional CTM move at the level of lattice vertices.
    All four directions are obtained from one picture by rotation. *)
From Verif Require Import Base Lattice LatticeSpec.
Open Scope Z_scope.

(** rotation by 90 degrees anti-clockwise when y points down: up -> left -> down -> right *)
Definition rotL (v : coord) : coord := (snd v, - fst v).
Definition rotR (v : coord) : coord := (- snd v, fst v).
Definition minus (a b : coord) : coord := cadd a (cneg b).

Section Spec.
Context {X Pj : Type}.

(** a (state, environment) pair seen as fields over the infinite lattice *)
Record fields := mkF {
  site_at : coord -> X;               (* on-site tensor of a vertex *)
  corner_at : coord -> coord -> X;    (* corner of vertex v in diagonal direction c *)
  edge_at : coord -> coord -> X       (* half-row/column tensor of vertex v in direction d *)
}.

(** enlarged corner of vertex [v]: corner, the two adjacent edges (the second is the first
    rotated anti-clockwise; their sum is the corner's direction), the site *)
Definition enlarged (F : fields) (v t1 : coord) : list X :=
  [corner_at F v (cadd t1 (rotL t1)); edge_at F v t1; edge_at F v (rotL t1); site_at F v].

(** network for the projectors of vertex [v] in a move in direction [d], [r] the direction
    to the right of d: the 2x2 block of vertices v, v-d, v-r, v-r-d.
    4x4 network: all four enlarged corners, right half first; 4x2 network: only the two
    corners facing d *)
Definition block44 (F : fields) (d v : coord) : list X :=
  let r := rotR d in
  enlarged F v r ++ enlarged F (minus v d) (cneg d) ++
  enlarged F (minus v r) d ++ enlarged F (minus (minus v r) d) (cneg r).
Definition block42 (F : fields) (d v : coord) : list X :=
  let r := rotR d in enlarged F v r ++ enlarged F (minus v r) d.

(** [proj v] = (P, Pt) is the pair truncating the bond between vertex v-r and v.
    The new tensors attached to vertex v-d: *)
Definition new_corner_right (gC1 : X -> X -> Pj -> X) (F : fields) (proj : coord -> Pj * Pj) (d v : coord) : X :=
  let r := rotR d in
  gC1 (corner_at F v (cadd d r)) (edge_at F v r) (snd (proj (cadd v r))).
Definition new_corner_left (gC2 : X -> X -> Pj -> X) (F : fields) (proj : coord -> Pj * Pj) (d v : coord) : X :=
  let l := rotL d in
  gC2 (corner_at F v (cadd d l)) (edge_at F v l) (fst (proj v)).
Definition new_edge (gT : X -> X -> Pj -> Pj -> X) (F : fields) (proj : coord -> Pj * Pj) (d v : coord) : X :=
  let r := rotR d in
  gT (edge_at F v d) (site_at F v) (snd (proj v)) (fst (proj (cadd v r))).

(** the fields F' after a move in direction d *)
Definition moved gC1 gC2 gT (F F' : fields) (proj : coord -> Pj * Pj) (d : coord) : Prop :=
  (forall v, site_at F' v = site_at F v) /\
  (forall v, corner_at F' (minus v d) (cadd d (rotR d)) = new_corner_right gC1 F proj d v) /\
  (forall v, corner_at F' (minus v d) (cadd d (rotL d)) = new_corner_left gC2 F proj d v) /\
  (forall v, edge_at F' (minus v d) d = new_edge gT F proj d v) /\
  (forall v c, c <> cadd d (rotR d) -> c <> cadd d (rotL d) -> corner_at F' v c = corner_at F v c) /\
  (forall v t, t <> d -> edge_at F' v t = edge_at F v t).
End Spec.
Arguments fields X : clear implicits.

Definition corner_dirs : list coord := [(-1, -1); (1, -1); (1, 1); (-1, 1)].
Definition edge_dirs : list coord := [(0, -1); (-1, 0); (0, 1); (1, 0)].

(** the tiling [f] of a state: total, onto the stored sites, fixing them, translation
    consistent.  (C03/C04/C06: every accepted pattern and every shipped map is such.) *)
Definition tiling_ok {X} (f : coord -> coord) (sites : dict coord X) : Prop :=
  NoDup (dkeys sites) /\ (forall v, In (f v) (dkeys sites)) /\
  (forall k, In k (dkeys sites) -> f k = k) /\ translation_consistent f.
