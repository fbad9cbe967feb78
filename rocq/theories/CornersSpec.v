(** The networks drawn in the documentation of ctm/generic: what the corners, halves, absorbed
    environment tensors and reduced density matrices are supposed to be.  Legs of the tensors
    (ipeps/ipeps.py:90-120, ctm/generic/env.py:12-60):
      site    s, up, left, down, right
      C(-1,-1) down, right   T(0,-1) left, down, right   C(1,-1) left, down
      T(-1,0)  up, down, right                           T(1,0)  up, left, down
      C(-1,1)  up, right     T(0,1)  up, left, right     C(1,1)  up, left
    The inner legs of the T are a ket bond and a bra bond fused. *)
From Verif Require Import Base Tensor NetSpec Corners.
Open Scope list_scope.
Open Scope nat_scope.

Section S.
Context {K : Type}.
Notation ten := (tensor K).
Notation network := (@network K).
(** the shapes of the tensors match the bonds *)
Definition fits (D : nat -> nat) (net : network) : Prop :=
  Forall (fun f => twf (fst f) /\ tdims (fst f) = map (ldim D) (snd f)) net.
Definition FF (a b : nat) : leg := F (V a) (V b).

(** Corners.  Bond 8 is the physical index of the ket, [q] the one of the bra: q = 8 when it is
    contracted.  9,10 (ket) and 11,12 (bra) are the outer bonds of the site, 4,5 those of the T.
    [b] renames the bonds. *)
Definition net_LU (b : nat -> nat) (q : nat) (C T1 T2 A Ac : ten) : network :=
  [(C, [V (b 0); V (b 1)]);
   (T1, [V (b 1); FF (b 2) (b 3); V (b 4)]);
   (T2, [V (b 0); V (b 5); FF (b 6) (b 7)]);
   (A, [V (b 8); V (b 2); V (b 6); V (b 9); V (b 10)]);
   (Ac, [V (b q); V (b 3); V (b 7); V (b 11); V (b 12)])].
Definition net_RU (b : nat -> nat) (q : nat) (C T1 T2 A Ac : ten) : network :=
  [(C, [V (b 0); V (b 1)]);
   (T1, [V (b 1); FF (b 2) (b 3); V (b 4)]);
   (T2, [V (b 5); FF (b 6) (b 7); V (b 0)]);
   (A, [V (b 8); V (b 6); V (b 9); V (b 10); V (b 2)]);
   (Ac, [V (b q); V (b 7); V (b 11); V (b 12); V (b 3)])].
Definition net_RD (b : nat -> nat) (q : nat) (C T1 T2 A Ac : ten) : network :=
  [(C, [V (b 0); V (b 1)]);
   (T1, [FF (b 2) (b 3); V (b 4); V (b 1)]);
   (T2, [V (b 5); FF (b 6) (b 7); V (b 0)]);
   (A, [V (b 8); V (b 9); V (b 10); V (b 2); V (b 6)]);
   (Ac, [V (b q); V (b 11); V (b 12); V (b 3); V (b 7)])].
Definition net_LD (b : nat -> nat) (q : nat) (C T1 T2 A Ac : ten) : network :=
  [(C, [V (b 0); V (b 1)]);
   (T1, [V (b 5); V (b 0); FF (b 2) (b 3)]);
   (T2, [FF (b 6) (b 7); V (b 1); V (b 4)]);
   (A, [V (b 8); V (b 9); V (b 2); V (b 6); V (b 10)]);
   (Ac, [V (b q); V (b 11); V (b 3); V (b 7); V (b 12)])].
(** index 0: the vertical one for LU, LD and RD, the horizontal one for RU;  index 1: the other *)
Definition out0 (b : nat -> nat) : leg := F (V (b 5)) (FF (b 9) (b 11)).
Definition out1 (b : nat -> nat) : leg := F (V (b 4)) (FF (b 10) (b 12)).
Definition idb (k : nat) : nat := k.

(** gluing two corners along the leg [out_i] of the first and [out_j] of the second *)
Definition glue (i j : bool) (k : nat) : nat :=
  let p := if i then (4, 10, 12) else (5, 9, 11) in
  let q := if j then (4, 10, 12) else (5, 9, 11) in
  if k =? fst (fst q) then fst (fst p) else if k =? snd (fst q) then snd (fst p)
  else if k =? snd q then snd p else 20 + k.
Definition corner_net (cj : K -> K) (N : (nat -> nat) -> nat -> ten -> ten -> ten -> ten -> ten -> network)
    (b : nat -> nat) (k : corner K) : network :=
  N b 8 (k_C k) (k_T1 k) (k_T2 k) (k_A k) (tmap cj (k_A k)).
Definition half_net cj N1 N2 (i j : bool) (k1 k2 : corner K) : network :=
  corner_net cj N1 idb k1 ++ corner_net cj N2 (glue i j) k2.
(** the legs not glued *)
Definition half_out (i j : bool) : list leg :=
  [if i then out0 idb else out1 idb; if j then out0 (glue i j) else out1 (glue i j)].

(** Absorption of one row or column; [u], [u'] is the bond of the site left open *)
Definition net_C_UP1 (C1 T1 Pt1 : ten) : network :=
  [(C1, [V 0; V 1]); (T1, [V 1; V 2; V 3]); (Pt1, [V 0; V 2; V 4])].
Definition net_C_UP2 (C2 T2 P2 : ten) : network :=
  [(C2, [V 0; V 1]); (T2, [V 0; V 2; V 3]); (P2, [V 1; V 3; V 4])].
Definition net_T_UP (T Pt2 P1 A Ac : ten) : network :=
  [(T, [V 0; FF 1 2; V 3]); (Pt2, [V 0; FF 8 9; V 4]); (P1, [V 3; FF 10 11; V 7]);
   (A, [V 12; V 1; V 8; V 5; V 10]); (Ac, [V 12; V 2; V 9; V 6; V 11])].
Definition net_C_LEFT1 (C1 T1 Pt1 : ten) : network :=
  [(C1, [V 0; V 1]); (T1, [V 1; V 2; V 3]); (Pt1, [V 0; V 2; V 4])].
Definition net_C_LEFT2 (C2 T2 P2 : ten) : network :=
  [(C2, [V 0; V 1]); (T2, [V 2; V 1; V 3]); (P2, [V 0; V 2; V 4])].
Definition net_T_LEFT (T Pt2 P1 A Ac : ten) : network :=
  [(T, [V 0; V 3; FF 1 2]); (Pt2, [V 3; FF 10 11; V 7]); (P1, [V 0; FF 8 9; V 4]);
   (A, [V 12; V 8; V 1; V 10; V 5]); (Ac, [V 12; V 9; V 2; V 11; V 6])].
Definition net_C_DOWN1 (C1 T1 Pt1 : ten) : network :=
  [(C1, [V 0; V 1]); (T1, [V 2; V 0; V 3]); (Pt1, [V 1; V 3; V 4])].
Definition net_C_DOWN2 (C2 T2 P2 : ten) : network :=
  [(C2, [V 0; V 1]); (T2, [V 2; V 3; V 0]); (P2, [V 1; V 3; V 4])].
Definition net_T_DOWN (T Pt2 P1 A Ac : ten) : network :=
  [(T, [FF 1 2; V 0; V 3]); (Pt2, [V 3; FF 10 11; V 7]); (P1, [V 0; FF 8 9; V 4]);
   (A, [V 12; V 5; V 8; V 1; V 10]); (Ac, [V 12; V 6; V 9; V 2; V 11])].
Definition net_C_RIGHT1 (C1 T1 Pt1 : ten) : network :=
  [(C1, [V 0; V 1]); (T1, [V 2; V 3; V 1]); (Pt1, [V 0; V 2; V 4])].
Definition net_C_RIGHT2 (C2 T2 P2 : ten) : network :=
  [(C2, [V 0; V 1]); (T2, [V 2; V 3; V 0]); (P2, [V 1; V 3; V 4])].
Definition net_T_RIGHT (T Pt2 P1 A Ac : ten) : network :=
  [(T, [V 0; FF 1 2; V 3]); (Pt2, [V 0; FF 8 9; V 4]); (P1, [V 3; FF 10 11; V 7]);
   (A, [V 12; V 8; V 5; V 10; V 1]); (Ac, [V 12; V 9; V 6; V 11; V 2])].
End S.
