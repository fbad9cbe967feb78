(** Model of the contractions of the directional CTM algorithm:
    enlarged corners and halves (ctm/generic/ctm_components.py:42-249, 321-880), double-layer
    on-site tensors (ctm/generic/ctmrg.py:50-59), absorption and truncation
    (ctm/generic/ctmrg.py:343-789).  Every contraction, permutation and view is kept, with its
    shape checks; checkpointing, printing and devices are left out. *)
From Verif Require Import Base Tensor Net.
Open Scope list_scope.
Open Scope nat_scope.
Open Scope res_scope.

Section Corners.
Context {K : Type} (z o : K) (add mul : K -> K -> K) (cj : K -> K).
Notation ten := (tensor K).
Notation contract := (tensordot z o add mul).
Notation einsum := (einsum z o add mul).
Notation permute := (permute z).
Definition conj (t : ten) : ten := tmap cj t.

(** ctmrg.py:55-56, with m,e,f,g,h,a,b,c,d = 0..8 *)
Definition double_layer (A : ten) : res ten :=
  a <- einsum [(A, [0;1;2;3;4]); (conj A, [0;5;6;7;8])] [1;5;2;6;3;7;4;8] ;;
  view a [size A 1 ^ 2; size A 2 ^ 2; size A 3 ^ 2; size A 4 ^ 2].

(** ** enlarged corners; [open]: the physical indices of the site stay open *)
(** ctm_components.py:321-370 *)
Definition c2x2_LU_c (C T1 T2 A : ten) (open : bool) : res ten :=
  x <- contract C T1 [1] [0] ;;
  x <- contract x T2 [0] [0] ;;
  if negb open then
    x <- contract x A [0;3] [0;1] ;;
    x <- permute x [1;2;0;3] ;;
    view x [size T2 1 * size A 2; size T1 2 * size A 3]
  else
    x <- contract x A [0;3] [2;3] ;;
    x <- permute x [1;4;0;5;2;3] ;;
    view x [size T2 1 * size A 4; size T1 2 * size A 5; size A 0; size A 1].
(** ctm_components.py:372-434 *)
Definition c2x2_LU_sl_c (C T1 T2 a : ten) (open : bool) : res ten :=
  x <- contract C T1 [1] [0] ;;
  x <- contract x T2 [0] [0] ;;
  x <- view x [size a 1; size a 1; size T1 2; size T2 1; size a 2; size a 2] ;;
  x <- contract x a [0;4] [1;2] ;;
  if negb open then
    x <- contract x (conj a) [0;3;4] [1;2;0] ;;
    x <- permute x [1;2;4;0;3;5] ;;
    view x [size T2 1 * (size a 3 ^ 2); size T1 2 * (size a 4 ^ 2)]
  else
    x <- contract x (conj a) [0;3] [1;2] ;;
    x <- permute x [1;3;6;0;4;7;2;5] ;;
    view x [size T2 1 * (size a 3 ^ 2); size T1 2 * (size a 4 ^ 2); size a 0; size a 0].
(** ctm_components.py:487-530 *)
Definition c2x2_RU_c (C T1 T2 A : ten) (open : bool) : res ten :=
  x <- contract C T1 [1] [0] ;;
  x <- contract x T2 [0] [2] ;;
  if negb open then
    x <- contract x A [0;3] [3;0] ;;
    x <- permute x [1;2;0;3] ;;
    view x [size T2 0 * size A 1; size T1 2 * size A 2]
  else
    x <- contract x A [0;3] [5;2] ;;
    x <- permute x [1;4;0;5;2;3] ;;
    view x [size T2 0 * size A 3; size T1 2 * size A 4; size A 0; size A 1].
(** ctm_components.py:532-586 *)
Definition c2x2_RU_sl_c (C T1 T2 a : ten) (open : bool) : res ten :=
  x <- contract C T1 [1] [0] ;;
  x <- contract x T2 [0] [2] ;;
  x <- view x [size a 4; size a 4; size T1 2; size T2 0; size a 1; size a 1] ;;
  x <- contract x a [0;4] [4;1] ;;
  if negb open then
    x <- contract x (conj a) [0;3;4] [4;1;0] ;;
    x <- permute x [1;2;4;0;3;5] ;;
    view x [size T2 0 * (size a 2 ^ 2); size T1 2 * (size a 3 ^ 2)]
  else
    x <- contract x (conj a) [0;3] [4;1] ;;
    x <- permute x [1;3;6;0;4;7;2;5] ;;
    view x [size T2 0 * (size a 2 ^ 2); size T1 2 * (size a 3 ^ 2); size a 0; size a 0].
(** ctm_components.py:639-681 *)
Definition c2x2_RD_c (C T1 T2 A : ten) (open : bool) : res ten :=
  x <- contract C T1 [1] [2] ;;
  x <- contract x T2 [0] [2] ;;
  if negb open then
    x <- contract x A [0;3] [2;3] ;;
    x <- permute x [1;2;0;3] ;;
    view x [size T2 0 * size A 0; size T1 1 * size A 1]
  else
    x <- contract x A [0;3] [4;5] ;;
    x <- permute x [1;4;0;5;2;3] ;;
    view x [size T2 0 * size A 2; size T1 1 * size A 3; size A 0; size A 1].
(** ctm_components.py:683-733 *)
Definition c2x2_RD_sl_c (C T1 T2 a : ten) (open : bool) : res ten :=
  x <- contract C T1 [1] [2] ;;
  x <- contract x T2 [0] [2] ;;
  x <- view x [size a 3; size a 3; size T1 1; size T2 0; size a 4; size a 4] ;;
  x <- contract x a [0;4] [3;4] ;;
  if negb open then
    x <- contract x (conj a) [0;3;4] [3;4;0] ;;
    x <- permute x [1;2;4;0;3;5] ;;
    view x [size T2 0 * (size a 1 ^ 2); size T1 1 * (size a 2 ^ 2)]
  else
    x <- contract x (conj a) [0;3] [3;4] ;;
    x <- permute x [1;3;6;0;4;7;2;5] ;;
    view x [size T2 0 * (size a 1 ^ 2); size T1 1 * (size a 2 ^ 2); size a 0; size a 0].
(** ctm_components.py:786-830 *)
Definition c2x2_LD_c (C T1 T2 A : ten) (open : bool) : res ten :=
  x <- contract C T1 [0] [1] ;;
  x <- contract x T2 [0] [1] ;;
  if negb open then
    x <- contract x A [1;2] [1;2] ;;
    x <- permute x [0;2;1;3] ;;
    view x [size T1 0 * size A 0; size T2 2 * size A 3]
  else
    x <- contract x A [1;2] [3;4] ;;
    x <- permute x [0;4;1;5;2;3] ;;
    view x [size T1 0 * size A 2; size T2 2 * size A 5; size A 0; size A 1].
(** ctm_components.py:832-885 *)
Definition c2x2_LD_sl_c (C T1 T2 a : ten) (open : bool) : res ten :=
  x <- contract C T1 [0] [1] ;;
  x <- contract x T2 [0] [1] ;;
  x <- view x [size T1 0; size a 2; size a 2; size a 3; size a 3; size T2 2] ;;
  x <- contract x a [1;3] [2;3] ;;
  if negb open then
    x <- contract x (conj a) [1;2;4] [2;3;0] ;;
    x <- permute x [0;2;4;1;3;5] ;;
    view x [size T1 0 * (size a 1 ^ 2); size T2 2 * (size a 4 ^ 2)]
  else
    x <- contract x (conj a) [1;2] [2;3] ;;
    x <- permute x [0;3;6;1;4;7;2;5] ;;
    view x [size T1 0 * (size a 1 ^ 2); size T2 2 * (size a 4 ^ 2); size a 0; size a 0].

(** ** halves; four tensors per corner, [sl]: the flag tensors[-1] *)
Record corner := mkC { k_C : ten; k_T1 : ten; k_T2 : ten; k_A : ten }.
Definition on_corner (f : ten -> ten -> ten -> ten -> bool -> res ten) (k : corner) : res ten :=
  f (k_C k) (k_T1 k) (k_T2 k) (k_A k) false.
Definition c_LU (sl : bool) := on_corner (if sl then c2x2_LU_sl_c else c2x2_LU_c).
Definition c_RU (sl : bool) := on_corner (if sl then c2x2_RU_sl_c else c2x2_RU_c).
Definition c_RD (sl : bool) := on_corner (if sl then c2x2_RD_sl_c else c2x2_RD_c).
Definition c_LD (sl : bool) := on_corner (if sl then c2x2_LD_sl_c else c2x2_LD_c).
(** the corner of the double-layer state built by ctmrg.py:51-61 *)
Definition layer (k : corner) : res corner := a <- double_layer (k_A k) ;; Ok (mkC (k_C k) (k_T1 k) (k_T2 k) a).
(** ctm_components.py:53-75: corners RU, RD, LU, LD *)
Definition halves_UP (sl : bool) (k1 k2 k3 k4 : corner) : res (ten * ten) :=
  a <- c_RU sl k1 ;; b <- c_RD sl k2 ;; h1 <- contract a b [1] [0] ;;
  c <- c_LU sl k3 ;; d <- c_LD sl k4 ;; h2 <- contract c d [0] [0] ;;
  Ok (h1, h2).
(** ctm_components.py:117-133: LU, RU, LD, RD *)
Definition halves_LEFT (sl : bool) (k1 k2 k3 k4 : corner) : res (ten * ten) :=
  a <- c_LU sl k1 ;; b <- c_RU sl k2 ;; h1 <- contract a b [1] [0] ;;
  c <- c_LD sl k3 ;; d <- c_RD sl k4 ;; h2 <- contract c d [1] [1] ;;
  Ok (h1, h2).
(** ctm_components.py:175-191: LD, LU, RD, RU *)
Definition halves_DOWN (sl : bool) (k1 k2 k3 k4 : corner) : res (ten * ten) :=
  a <- c_LD sl k1 ;; b <- c_LU sl k2 ;; h1 <- contract a b [0] [0] ;;
  c <- c_RD sl k3 ;; d <- c_RU sl k4 ;; h2 <- contract c d [0] [1] ;;
  Ok (h1, h2).
(** ctm_components.py:233-265: RD, LD, RU, LU *)
Definition halves_RIGHT (sl : bool) (k1 k2 k3 k4 : corner) : res (ten * ten) :=
  a <- c_RD sl k1 ;; b <- c_LD sl k2 ;; h1 <- contract a b [1] [1] ;;
  c <- c_RU sl k3 ;; d <- c_LU sl k4 ;; h2 <- contract c d [0] [1] ;;
  Ok (h1, h2).

(** ** absorption and truncation; [sl]: the flag [mode]; results nC1, nC2, nT *)
(** ctmrg.py:343-438 *)
Definition absorb_UP (C1 T1 T T2 C2 A P2 Pt2 P1 Pt1 : ten) (sl : bool) : res (ten * ten * ten) :=
  nC1 <- contract C1 T1 [1] [0] ;;
  nC1 <- contract Pt1 nC1 [0;1] [0;1] ;;
  nC2 <- contract C2 T2 [0] [0] ;;
  nC2 <- contract nC2 P2 [0;2] [0;1] ;;
  nT <- (if negb sl then
    nT <- contract Pt2 T [0] [0] ;;
    nT <- contract nT A [0;2] [1;0] ;;
    contract nT P1 [1;3] [0;1]
  else
    T <- view T [size T 0; size A 1; size A 1; size T 2] ;;
    Pt2 <- view Pt2 [size Pt2 0; size A 2; size A 2; size Pt2 2] ;;
    P1 <- view P1 [size P1 0; size A 4; size A 4; size P1 2] ;;
    nT <- einsum [(T, [0;1;2;3]); (Pt2, [0;8;9;4]); (A, [12;1;8;5;10]); (conj A, [12;2;9;6;11]); (P1, [3;10;11;7])] [4;5;6;7] ;;
    view nT [size nT 0; size nT 1 * size nT 2; size nT 3]) ;;
  Ok (nC1, nC2, nT).
(** ctmrg.py:459-564 *)
Definition absorb_LEFT (C1 T1 T T2 C2 A P2 Pt2 P1 Pt1 : ten) (sl : bool) : res (ten * ten * ten) :=
  nC1 <- contract C1 T1 [1] [0] ;;
  nC1 <- contract Pt1 nC1 [0;1] [0;1] ;;
  nC2 <- contract C2 T2 [1] [1] ;;
  nC2 <- contract P2 nC2 [0;1] [0;1] ;;
  nT <- (if negb sl then
    nT <- contract P1 T [0] [0] ;;
    nT <- contract nT A [0;3] [0;1] ;;
    nT <- contract nT Pt2 [1;2] [0;1] ;;
    permute nT [0;2;1]
  else
    T <- view T [size T 0; size T 1; size A 2; size A 2] ;;
    P1 <- view P1 [size P1 0; size A 1; size A 1; size P1 2] ;;
    Pt2 <- view Pt2 [size Pt2 0; size A 3; size A 3; size Pt2 2] ;;
    nT <- einsum [(T, [0;1;2;3]); (Pt2, [1;6;7;12]); (A, [8;4;2;6;10]); (conj A, [8;5;3;7;11]); (P1, [0;4;5;9])] [9;12;10;11] ;;
    view nT [size nT 0; size nT 1; size nT 2 * size nT 3]) ;;
  Ok (nC1, nC2, nT).
(** ctmrg.py:585-680 *)
Definition absorb_DOWN (C1 T1 T T2 C2 A P2 Pt2 P1 Pt1 : ten) (sl : bool) : res (ten * ten * ten) :=
  nC1 <- contract C1 T1 [0] [1] ;;
  nC1 <- contract nC1 Pt1 [0;2] [0;1] ;;
  nC2 <- contract C2 T2 [0] [2] ;;
  nC2 <- contract nC2 P2 [0;2] [0;1] ;;
  nT <- (if negb sl then
    nT <- contract P1 T [0] [1] ;;
    nT <- contract nT A [0;2] [1;2] ;;
    nT <- contract nT Pt2 [1;3] [0;1] ;;
    permute nT [1;0;2]
  else
    T <- view T [size A 3; size A 3; size T 1; size T 2] ;;
    P1 <- view P1 [size P1 0; size A 2; size A 2; size P1 2] ;;
    Pt2 <- view Pt2 [size Pt2 0; size A 4; size A 4; size Pt2 2] ;;
    nT <- einsum [(T, [0;1;2;3]); (Pt2, [3;10;11;7]); (A, [12;5;8;0;10]); (conj A, [12;6;9;1;11]); (P1, [2;8;9;4])] [5;6;4;7] ;;
    view nT [size nT 0 * size nT 1; size nT 2; size nT 3]) ;;
  Ok (nC1, nC2, nT).
(** ctmrg.py:701-799; line 759 views T with size(2) of the site *)
Definition absorb_RIGHT (C1 T1 T T2 C2 A P2 Pt2 P1 Pt1 : ten) (sl : bool) : res (ten * ten * ten) :=
  nC1 <- contract C1 T1 [1] [2] ;;
  nC1 <- contract Pt1 nC1 [0;1] [0;1] ;;
  nC2 <- contract C2 T2 [0] [2] ;;
  nC2 <- contract nC2 P2 [0;2] [0;1] ;;
  nT <- (if negb sl then
    nT <- contract Pt2 T [0] [0] ;;
    nT <- contract nT A [0;2] [0;3] ;;
    contract nT P1 [1;3] [0;1]
  else
    T <- view T [size T 0; size A 2; size A 2; size T 2] ;;
    Pt2 <- view Pt2 [size Pt2 0; size A 1; size A 1; size Pt2 2] ;;
    P1 <- view P1 [size P1 0; size A 3; size A 3; size P1 2] ;;
    nT <- einsum [(T, [0;1;2;3]); (Pt2, [0;4;5;9]); (A, [8;4;10;6;1]); (conj A, [8;5;11;7;2]); (P1, [3;6;7;12])] [9;10;11;12] ;;
    view nT [size nT 0; size nT 1 * size nT 2; size nT 3]) ;;
  Ok (nC1, nC2, nT).
End Corners.
Arguments corner K : clear implicits.
