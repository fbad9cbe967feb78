(** A patch of w x h sites with its environment, and what a state and an environment hold at the
    vertices of the lattice.  Legs of the tensors: as in CornersSpec. *)
From Verif Require Import Base Lattice Tensor NetSpec.
From Verif Require Ctm.
Open Scope list_scope.
Open Scope nat_scope.

Section Patch.
Context {K : Type}.
Notation ten := (tensor K).
Notation network := (@network K).
Variables (w h : nat).
(** numbers of the bonds; (i,j): column and row *)
Definition bond_id (kind i j : nat) : nat := (kind * S w + i) * S h + j.
Definition pket i j := bond_id 0 i j.          (* physical index of the ket *)
Definition pbra i j := bond_id 1 i j.
Definition vket i j := bond_id 2 i j.          (* above the site, ket layer *)
Definition vbra i j := bond_id 3 i j.
Definition hket i j := bond_id 4 i j.          (* left of the site *)
Definition hbra i j := bond_id 5 i j.
Definition topb i := bond_id 6 i 0.            (* left of the i-th tensor of the upper edge *)
Definition botb i := bond_id 7 i 0.
Definition lefb j := bond_id 8 0 j.            (* above the j-th tensor of the left edge *)
Definition rigb j := bond_id 9 0 j.
Definition mpob k := bond_id 10 0 0 + k.       (* bonds of an operator *)
Definition FV a b := F (V a) (V b).

(** [l]: the sites whose physical indices are left open; kets and bras of the others are
    contracted *)
Definition is_open (l : list (nat * nat)) i j : bool := existsb (fun p => (fst p =? i) && (snd p =? j)) l.
Definition site_net l (cj : K -> K) (A : nat -> nat -> ten) i j : network :=
  [(A i j, [V (pket i j); V (vket i j); V (hket i j); V (vket i (S j)); V (hket (S i) j)]);
   (tmap cj (A i j), [V (if is_open l i j then pbra i j else pket i j);
                      V (vbra i j); V (hbra i j); V (vbra i (S j)); V (hbra (S i) j)])].
Definition patch_net (l : list (nat * nat)) (cj : K -> K) (A : nat -> nat -> ten) (C1 C2 C3 C4 : ten) (Tu Tr Td Tl : nat -> ten) : network :=
  flat_map (fun j => flat_map (fun i => site_net l cj A i j) (seq 0 w)) (seq 0 h) ++
  map (fun i => (Tu i, [V (topb i); FV (vket i 0) (vbra i 0); V (topb (S i))])) (seq 0 w) ++
  map (fun j => (Tr j, [V (rigb j); FV (hket w j) (hbra w j); V (rigb (S j))])) (seq 0 h) ++
  map (fun i => (Td i, [FV (vket i h) (vbra i h); V (botb i); V (botb (S i))])) (seq 0 w) ++
  map (fun j => (Tl j, [V (lefb j); V (lefb (S j)); FV (hket 0 j) (hbra 0 j)])) (seq 0 h) ++
  [(C1, [V (lefb 0); V (topb 0)]); (C2, [V (topb w); V (rigb 0)]);
   (C3, [V (rigb h); V (botb w)]); (C4, [V (lefb h); V (botb 0)])].
(** the indices of the density matrix: kets of the open sites, then their bras *)
Definition patch_out (l : list (nat * nat)) : list leg :=
  map (fun p => V (pket (fst p) (snd p))) l ++ map (fun p => V (pbra (fst p) (snd p))) l.
(** an operator on the sites [l]: a chain of tensors with indices previous bond, ket, next bond,
    bra; the first and last bond are summed *)
Definition mpo_net (l : list (nat * nat)) (ops : list ten) : network :=
  map (fun kpm => let '(k, (p, m)) := kpm in
         (m, [V (mpob k); V (pket (fst p) (snd p)); V (mpob (S k)); V (pbra (fst p) (snd p))]))
    (combine (seq 0 (length l)) (combine l ops)).
(** a two-site operator as a chain of four tensors with the indices previous bond, physical index,
    next bond; physical indices: ket and bra of the first site, ket and bra of the second.  The
    first tensor has no previous bond, the last one no next bond *)
Definition drop_first (m : ten) : ten := mkT (tl (tdims m)) (tdata m).
Definition drop_last (m : ten) : ten := mkT (removelast (tdims m)) (tdata m).
Definition mps_net (l : list (nat * nat)) (m0 m1 m2 m3 : ten) : network :=
  let p := nth 0 l (0, 0) in let q := nth 1 l (0, 0) in
  [(m0, [V (pket (fst p) (snd p)); V (mpob 0)]); (m1, [V (mpob 0); V (pbra (fst p) (snd p)); V (mpob 1)]);
   (m2, [V (mpob 1); V (pket (fst q) (snd q)); V (mpob 2)]); (m3, [V (mpob 2); V (pbra (fst q) (snd q))])].
(** the sites of a 2x2 patch are numbered row by row; the open sites appear in this order *)
Definition named_sites (open : list nat) : list (nat * nat) :=
  map (fun k => (k mod 2, k / 2)) (filter (fun k => existsb (Nat.eqb k) open) [0; 1; 2; 3]).
End Patch.

Section View.
Context {K : Type}.
Notation ten := (tensor K).
(** The vertices of the lattice: vertex (i,j) of the patch with upper left corner c *)
Definition vtx (c : coord) (i j : nat) : coord := cadd c (Z.of_nat i, Z.of_nat j).
(** the state and the environment hold the site tensor [As v] and the environment tensors
    [Cs v d], [Ts v d] (d the direction) at the vertex v *)
Definition sees (st : ipeps ten) (e : Ctm.envt ten) (As : coord -> ten) (Cs Ts : coord -> coord -> ten) : Prop :=
  forall v, exists k, i_v2s st v = Ok k /\ i_v2s st k = Ok k /\ ipeps_site st v = Ok (As v)
    /\ (forall d, In d [(-1, -1); (1, -1); (1, 1); (-1, 1)]%Z -> Ctm.getC ten e k d = Ok (Cs v d))
    /\ (forall d, In d [(0, -1); (1, 0); (0, 1); (-1, 0)]%Z -> Ctm.getT ten e k d = Ok (Ts v d)).
(** the patch of w x h sites with upper left vertex c *)
Definition patch_at (cj : K -> K) (As : coord -> ten) (Cs Ts : coord -> coord -> ten) (w h : nat) l (c : coord) : @network K :=
  patch_net w h l cj (fun i j => As (vtx c i j))
    (Cs (vtx c 0 0) (-1, -1)%Z) (Cs (vtx c (w - 1) 0) (1, -1)%Z) (Cs (vtx c (w - 1) (h - 1)) (1, 1)%Z) (Cs (vtx c 0 (h - 1)) (-1, 1)%Z)
    (fun i => Ts (vtx c i 0) (0, -1)%Z) (fun j => Ts (vtx c (w - 1) j) (1, 0)%Z)
    (fun i => Ts (vtx c i (h - 1)) (0, 1)%Z) (fun j => Ts (vtx c 0 j) (-1, 0)%Z).
End View.
