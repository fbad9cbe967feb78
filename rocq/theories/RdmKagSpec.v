(** A patch of w x h cells of the kagome lattice with its environment.  A cell holds the spins 0, 1 and 2 of a down triangle; the physical
    index of its tensor is the three spins fused.  Everything else is as in RdmSpec. *)
From Verif Require Import Base Lattice Tensor NetSpec RdmSpec.
From Verif Require RdmKag. (* the letters A, B, C *)
From Verif Require Ctm.
Open Scope list_scope.
Open Scope nat_scope.

Section Patch.
Context {K : Type}.
Notation ten := (tensor K).
Notation network := (@network K).
Variables (w h : nat).
Definition sket s i j := bond_id w h (11 + s) i j.   (* spin s of cell (i,j), ket *)
Definition sbra s i j := bond_id w h (14 + s) i j.
Definition three (f : nat -> nat) : leg := F (V (f 0)) (F (V (f 1)) (V (f 2))).
(** [l]: the open spins (column, row, spin) *)
Definition spin_open (l : list (nat * nat * nat)) i j s : bool := existsb (fun p => let '(a, b, c) := p in (a =? i) && (b =? j) && (c =? s)) l.
Definition cell_net l (cj : K -> K) (A : nat -> nat -> ten) i j : network :=
  [(A i j, [three (fun s => sket s i j); V (vket w h i j); V (hket w h i j); V (vket w h i (S j)); V (hket w h (S i) j)]);
   (tmap cj (A i j), [three (fun s => if spin_open l i j s then sbra s i j else sket s i j);
                      V (vbra w h i j); V (hbra w h i j); V (vbra w h i (S j)); V (hbra w h (S i) j)])].
Definition kpatch_net (l : list (nat * nat * nat)) (cj : K -> K) (A : nat -> nat -> ten) (C1 C2 C3 C4 : ten) (Tu Tr Td Tl : nat -> ten) : network :=
  flat_map (fun j => flat_map (fun i => cell_net l cj A i j) (seq 0 w)) (seq 0 h) ++
  map (fun i => (Tu i, [V (topb w h i); FV (vket w h i 0) (vbra w h i 0); V (topb w h (S i))])) (seq 0 w) ++
  map (fun j => (Tr j, [V (rigb w h j); FV (hket w h w j) (hbra w h w j); V (rigb w h (S j))])) (seq 0 h) ++
  map (fun i => (Td i, [FV (vket w h i h) (vbra w h i h); V (botb w h i); V (botb w h (S i))])) (seq 0 w) ++
  map (fun j => (Tl j, [V (lefb w h j); V (lefb w h (S j)); FV (hket w h 0 j) (hbra w h 0 j)])) (seq 0 h) ++
  [(C1, [V (lefb w h 0); V (topb w h 0)]); (C2, [V (topb w h w); V (rigb w h 0)]);
   (C3, [V (rigb w h h); V (botb w h w)]); (C4, [V (lefb w h h); V (botb w h 0)])].
(** the indices of the density matrix: kets of the open spins, then their bras *)
Definition kpatch_out (l : list (nat * nat * nat)) : list leg :=
  map (fun p => let '(i, j, s) := p in V (sket s i j)) l ++ map (fun p => let '(i, j, s) := p in V (sbra s i j)) l.
(** an operator on the three spins of cell (0,0), as a matrix or with one index per spin: its last indices meet the ket *)
Definition down : list (nat * nat * nat) := [(0, 0, 0); (0, 0, 1); (0, 0, 2)].
Definition op_legs (six : bool) : list leg := if six then map (fun s => V (sbra s 0 0)) [0; 1; 2] ++ map (fun s => V (sket s 0 0)) [0; 1; 2]
  else [three (fun s => sbra s 0 0); three (fun s => sket s 0 0)].
Definition op_net (six : bool) (op : ten) : network := [(op, op_legs six)].
End Patch.
(** the up triangle between the cells of a 2x2 patch *)
Definition up_spin (s : nat) : nat * nat * nat := match s with 0 => (1, 1, 0) | 1 => (1, 0, 1) | _ => (0, 1, 2) end.

Section View.
Context {K : Type}.
Notation ten := (tensor K).
Definition kpatch_at (cj : K -> K) (As : coord -> ten) (Cs Ts : coord -> coord -> ten) (w h : nat) l (c : coord) : @network K :=
  kpatch_net w h l cj (fun i j => As (vtx c i j))
    (Cs (vtx c 0 0) (-1, -1)%Z) (Cs (vtx c (w - 1) 0) (1, -1)%Z) (Cs (vtx c (w - 1) (h - 1)) (1, 1)%Z) (Cs (vtx c 0 (h - 1)) (-1, 1)%Z)
    (fun i => Ts (vtx c i 0) (0, -1)%Z) (fun j => Ts (vtx c (w - 1) j) (1, 0)%Z)
    (fun i => Ts (vtx c i (h - 1)) (0, 1)%Z) (fun j => Ts (vtx c 0 j) (-1, 0)%Z).
End View.
(** all spins have d states *)
Definition spins (D : nat -> nat) (d w h : nat) : Prop :=
  Forall (fun k => D k = d) (flat_map (fun s => flat_map (fun i => flat_map (fun j => [sket w h s i j; sbra w h s i j]) (seq 0 h)) (seq 0 w)) (seq 0 3)).
(** the spins of cell (i,j) named by a list of letters: A is spin 2, B spin 1, C spin 0 *)
Definition hasl (k : list RdmKag.abc) (s : nat) : bool :=
  existsb (fun x => match x, s with RdmKag.sA, 2 => true | RdmKag.sB, 1 => true | RdmKag.sC, 0 => true | _, _ => false end) k.
Definition named (keeps : nat -> bool) i j : list (nat * nat * nat) := map (fun s => (i, j, s)) (filter keeps [0; 1; 2]).
