(** Model of the reduced density matrices of the C4v symmetric one-site iPEPS,
    ctm/one_site_c4v/rdm_c4v.py, as functions of the site tensor and of the tensors C and T of the
    environment, before their symmetrization and normalization (C37).
    Left out: devices, logging, verbosity > 0 of ddA_rdm1x1. *)
From Verif Require Import Base Tensor Net Corners Rdm.
Open Scope list_scope.
Open Scope nat_scope.
Open Scope res_scope.

Section RdmC4v.
Context {K : Type} (z o : K) (add mul : K -> K -> K) (cj : K -> K).
Notation ten := (tensor K).
Notation contract := (tensordot z o add mul).
Notation einsum := (einsum z o add mul).
Notation permute := (permute z).
Notation conj := (conj cj).
Notation layer_open := (layer_open z o add mul cj).
Notation double_layer := (double_layer z o add mul cj).

(** rdm_c4v.py:13-93 *)
Definition open_sl (C T a : ten) : res ten :=
  x <- contract C T [1] [1] ;;
  x <- contract x T [0] [0] ;;
  x <- view x [size x 0; size a 1; size a 1; size x 2; size a 2; size a 2] ;;
  x <- contract x a [1;4] [1;2] ;;
  x <- contract x (conj a) [1;3] [1;2] ;;
  y <- permute x [1;3;6;0;4;7;2;5] ;;
  view y [size x 1 * size a 3 ^ 2; size x 0 * size a 4 ^ 2; size a 0; size a 0].
(** rdm_c4v.py:95-136 *)
Definition open_dl (C T a : ten) : res ten :=
  A <- layer_open a ;;
  x <- contract C T [1] [1] ;;
  x <- contract x T [0] [0] ;;
  x <- contract x A [1;3] [0;1] ;;
  x <- permute x [1;2;0;3;4;5] ;;
  view x [size T 1 * size A 2; size T 1 * size A 3; size a 0; size a 0].
(** [torch.einsum('abii->ab',x)] *)
Definition closed (x : ten) : res ten := einsum [(x, [0;1;2;2])] [0;1].
(** rdm_c4v.py:138-165 *)
Definition aux_corner (C T : ten) : res ten :=
  x <- contract C T [1] [1] ;;
  x <- contract T x [0] [0] ;;
  permute x [0;2;1;3].

(** rdm_c4v.py:196-209, the same lines in rdm1x1_sl and aux_rdm1x1 *)
Definition ctc (C T : ten) : res ten :=
  x <- contract C T [0] [0] ;;
  contract x C [1] [0].
(** rdm_c4v.py:168-264 *)
Definition rdm1x1 (C T a : ten) : res ten :=
  e <- ctc C T ;;
  x <- contract e T [2] [0] ;;
  A <- layer_open a ;;
  x <- contract x A [1;3] [1;2] ;;
  x <- contract T x [1;2] [0;2] ;;
  contract x e [0;1;2] [2;0;1].
(** rdm_c4v.py:266-391 *)
Definition rdm1x1_sl (C T a : ten) : res ten :=
  e <- ctc C T ;;
  x <- contract e T [2] [0] ;;
  x <- view x [size x 0; size a 2; size a 2; size x 2; size a 3; size a 3] ;;
  x <- contract x a [1;4] [2;3] ;;
  x <- contract x (conj a) [1;3] [2;3] ;;
  y <- permute x [0;1;3;6;4;7;2;5] ;;
  x <- view y [size x 0; size x 1; size a 1 ^ 2; size a 4 ^ 2; size a 0; size a 0] ;;
  x <- contract T x [0;2] [0;2] ;;
  contract x e [0;1;2] [2;0;1].

(** rdm_c4v.py:460-504 and 735-779: the left half; [A] is the open double layer *)
Definition left_dl (C T A : ten) : res ten :=
  x <- contract C T [1] [1] ;;
  x <- contract x T [0] [0] ;;
  x <- contract x A [1;3] [0;1] ;;
  x <- permute x [1;2;0;3;4;5] ;;
  y <- contract C T [1] [0] ;;
  contract y x [0;2] [0;1].
(** rdm_c4v.py:394-528 *)
Definition rdm2x1 (C T a : ten) : res ten :=
  A <- layer_open a ;;
  l <- left_dl C T A ;;
  x <- contract l l [0;1;2] [1;0;2] ;;
  permute x [0;2;1;3].
(** rdm_c4v.py:591-637 and 891-936: the same without the double layer; [split]: the right index of
    the site is left as two indices *)
Definition left_sl (split : bool) (C T a : ten) : res ten :=
  x <- contract C T [1] [1] ;;
  x <- contract x T [0] [0] ;;
  x <- view x [size x 0; size a 1; size a 1; size x 2; size a 2; size a 2] ;;
  x <- contract x a [1;4] [1;2] ;;
  x <- contract x (conj a) [1;3] [1;2] ;;
  y <- permute x [1;3;6;0;4;7;2;5] ;;
  x <- view y ([size x 1; size a 3 ^ 2; size x 0] ++ (if split then [size a 4; size a 4] else [size a 4 ^ 2]) ++ [size a 0; size a 0]) ;;
  y <- contract C T [1] [0] ;;
  contract y x [0;2] [0;1].
(** rdm_c4v.py:530-664 *)
Definition rdm2x1_sl (C T a : ten) : res ten :=
  l <- left_sl false C T a ;;
  x <- contract l l [0;1;2] [1;0;2] ;;
  permute x [0;2;1;3].
(** rdm_c4v.py:667-827 *)
Definition rdm3x1 (C T a : ten) : res ten :=
  Ao <- layer_open a ;;
  A <- einsum [(Ao, [0;1;2;3;4;4])] [0;1;2;3] ;;
  l <- left_dl C T Ao ;;
  x <- contract T l [0] [0] ;;
  x <- contract A x [1;2] [3;1] ;;
  x <- contract T x [1;2] [3;0] ;;
  x <- contract x l [0;1;2] [0;2;1] ;;
  permute x [0;2;1;3].
(** rdm_c4v.py:829-1010 *)
Definition rdm3x1_sl (C T a : ten) : res ten :=
  l <- left_sl true C T a ;;
  T <- view T [size T 0; size T 1; size a 1; size a 1] ;;
  x <- contract T l [0] [0] ;;
  x <- contract (conj a) x [2;3] [5;2] ;;
  x <- contract a x [0;2;3] [0;6;4] ;;
  x <- contract T x [1;2;3] [5;0;2] ;;
  x <- contract x l [0;1;2;3] [0;2;3;1] ;;
  permute x [0;2;1;3].

(** rdm_c4v.py:1013-1115 *)
Definition rdm3x2_NNNN (C T a : ten) : res ten :=
  A <- double_layer a ;;
  c <- open_sl C T a ;;
  cc <- closed c ;;
  x <- view c [size c 0; size C 1; size a 4 ^ 2; size a 0; size a 0] ;;
  x <- contract x T [1] [1] ;;
  x <- contract x A [1;5] [1;0] ;;
  x <- permute x [0;4;3;5;1;2] ;;
  x <- view x [size c 0; size A 2; size c 1; size a 0; size a 0] ;;
  y <- view cc [size C 0; size a 3 ^ 2; size cc 1] ;;
  y <- contract y T [0] [0] ;;
  y <- contract y A [0;3] [1;0] ;;
  y <- permute y [0;2;1;3] ;;
  y <- view y [size cc 1; size A 2; size cc 0] ;;
  x <- contract y x [0;1] [0;1] ;;
  x <- contract cc x [1] [0] ;;
  x <- contract c x [0;1] [1;0] ;;
  permute x [0;2;1;3].
(** rdm_c4v.py:1115-1284; [f]: open_dl for rdm2x2_NN_lowmem, open_sl for rdm2x2_NN_lowmem_sl *)
Definition rdm2x2_NN (f : ten -> ten -> ten -> res ten) (C T a : ten) : res ten :=
  c <- f C T a ;;
  cc <- closed c ;;
  c <- view c [size T 1 * size a 2 ^ 2; size T 1 * size a 3 ^ 2; size a 0 ^ 2] ;;
  x <- contract cc c [1] [0] ;;
  x <- contract cc x [1] [0] ;;
  x <- contract c x [0;1] [1;0] ;;
  x <- view x [size a 0; size a 0; size a 0; size a 0] ;;
  permute x [0;2;1;3].
(** rdm_c4v.py:1286-1444; [f] as above *)
Definition rdm2x2_NNN (f : ten -> ten -> ten -> res ten) (C T a : ten) : res ten :=
  c <- f C T a ;;
  cc <- closed c ;;
  c <- view c [size T 1 * size a 2 ^ 2; size T 1 * size a 3 ^ 2; size a 0 ^ 2] ;;
  c <- contract cc c [1] [0] ;;
  x <- contract c c [0;1] [1;0] ;;
  x <- view x [size a 0; size a 0; size a 0; size a 0] ;;
  permute x [0;2;1;3].
(** rdm_c4v.py:1446-1545 *)
Definition rdm2x2 (C T a : ten) : res ten :=
  c <- open_dl C T a ;;
  u <- contract c c [1] [0] ;;
  u <- permute u [0;3;1;2;4;5] ;;
  x <- contract u u [0;1] [1;0] ;;
  permute x [0;2;6;4;1;3;7;5].

(** rdm_c4v.py:1548-1620, verbosity 0 *)
Definition ddA_rdm1x1 (C T a : ten) : res ten :=
  e <- contract C T [1] [0] ;;
  e <- contract e C [1] [0] ;;
  x <- contract e T [2] [0] ;;
  x <- contract x x [0;2] [2;0] ;;
  x <- permute x [3;0;1;2] ;;
  x <- view x [size a 1; size a 1; size a 2; size a 2; size a 3; size a 3; size a 4; size a 4] ;;
  x <- permute x [0;2;4;6;1;3;5;7] ;;
  contract (conj a) x [1;2;3;4] [4;5;6;7].
(** rdm_c4v.py:1624-1676 *)
Definition aux_rdm1x1 (C T a : ten) : res ten :=
  e <- ctc C T ;;
  x <- contract e T [2] [0] ;;
  x <- contract x T [0] [1] ;;
  x <- contract x e [1;3] [0;2] ;;
  x <- permute x [2;0;1;3] ;;
  x <- view x (repeat (size a 1) 8) ;;
  permute x [0;2;4;6;1;3;5;7].
(** rdm_c4v.py:1678-1788 *)
Definition aux_rdm2x2_NN (C T a : ten) : res ten :=
  h <- aux_corner C T ;;
  h <- contract h h [1] [0] ;;
  c <- open_sl C T a ;;
  c <- closed c ;;
  d <- view c [size C 0; size a 3 ^ 2; size C 0 * size a 4 ^ 2] ;;
  d <- permute d [0;2;1] ;;
  r <- view c [size C 0 * size a 3 ^ 2; size C 0; size a 4 ^ 2] ;;
  c <- contract d r [1] [0] ;;
  h <- contract h c [0;3] [2;0] ;;
  h <- permute h [1;0;5;2;4;3] ;;
  h <- view h (repeat (size a 1) 12) ;;
  permute h [0;2;4;6;8;10;1;3;5;7;9;11].
(** rdm_c4v.py:1790-1885 *)
Definition aux_rdm2x2 (C T a : ten) : res ten :=
  h <- aux_corner C T ;;
  h <- contract h h [1] [0] ;;
  h <- contract h h [0;3] [3;0] ;;
  h <- permute h [1;0;2;3;6;7;5;4] ;;
  h <- view h (repeat (size a 1) 16) ;;
  permute h [0;2;4;6;8;10;12;14;1;3;5;7;9;11;13;15].
End RdmC4v.
