(** Model of the reduced density matrices of ctm/generic/rdm.py before their symmetrization and
    normalization, and of the expectation values evaluated with operators in MPO form.
    Left out: devices, logging, checkpointing, unrolling and the choice of the contraction path
    (oe.contract and contract_with_unroll are modelled by the einsum they evaluate).
    All tensors a function uses are looked up before the first contraction. *)
From Verif Require Import Base Lattice Tensor Net Corners.
From Verif Require Ctm.
Open Scope list_scope.
Open Scope nat_scope.
Open Scope res_scope.

Section Rdm.
Context {K : Type} (z o : K) (add mul : K -> K -> K) (cj : K -> K).
Notation ten := (tensor K).
Notation contract := (tensordot z o add mul).
Notation einsum := (einsum z o add mul).
Notation permute := (permute z).
Notation conj := (conj cj).
Notation envt := (Ctm.envt ten).

(** ** contractions of given tensors *)
(** rdm.py:176-177 and the same lines of the other double-layer functions; m,e,f,g,h,n,a,b,c,d = 0..9 *)
Definition layer_open (A : ten) : res ten :=
  a <- einsum [(A, [0;1;2;3;4]); (conj A, [5;6;7;8;9])] [1;6;2;7;3;8;4;9;0;5] ;;
  view a [size A 1 ^ 2; size A 2 ^ 2; size A 3 ^ 2; size A 4 ^ 2; size A 0; size A 0].
(** rdm.py:179-180 *)
Definition layer_op (A Op : ten) : res ten :=
  a <- einsum [(A, [0;1;2;3;4]); (Op, [5;0]); (conj A, [5;6;7;8;9])] [1;6;2;7;3;8;4;9] ;;
  view a [size A 1 ^ 2; size A 2 ^ 2; size A 3 ^ 2; size A 4 ^ 2].

(** rdm.py:126-256 *)
Definition rdm1x1_dl_c (C1 C2 C3 C4 T1 T2 T3 T4 A : ten) (op : option ten) : res ten :=
  x <- contract C1 T4 [0] [0] ;;
  x <- contract x C4 [1] [0] ;;
  x <- contract x T3 [2] [1] ;;
  a <- match op with None => layer_open A | Some Op => layer_op A Op end ;;
  x <- contract x a [1;2] [1;2] ;;
  x <- contract T1 x [0;1] [0;2] ;;
  x <- contract C2 x [0] [0] ;;
  x <- contract T2 x [0;1] [0;2] ;;
  contract x C3 [0;1] [0;1].
(** rdm.py:275-294 *)
Definition rdm1x1_sl_c (C1 C2 C3 C4 T1 T2 T3 T4 a : ten) (op : option ten) : res ten :=
  a_op <- match op with None => Ok a | Some Op => contract Op a [1] [0] end ;;
  T1 <- view T1 [size T1 0; size a 1; size a 1; size T1 2] ;;
  T2 <- view T2 [size T2 0; size a 4; size a 4; size T2 2] ;;
  T3 <- view T3 [size a 3; size a 3; size T3 1; size T3 2] ;;
  T4 <- view T4 [size T4 0; size T4 1; size a 2; size a 2] ;;
  let env_tn := [(C1, [0;1]); (T1, [1;2;5;9]); (T4, [0;14;3;6]); (C2, [9;8]); (T2, [8;10;11;17]); (C3, [17;13]);
                 (T3, [15;16;12;13]); (C4, [14;12])] in
  match op with
  | None => einsum (env_tn ++ [(a_op, [4;2;3;15;10]); (conj a, [7;5;6;16;11])]) [4;7]
  | Some _ => einsum (env_tn ++ [(a_op, [4;2;3;15;10]); (conj a, [4;5;6;16;11])]) []
  end.

(** rdm.py:352-500 *)
Definition rdm2x1_dl_c (C1 T1 T4 A C4 T3 C2x T2x T1x Ax C3x T3x : ten) : res ten :=
  a <- layer_open A ;;
  lu <- contract C1 T1 [1] [0] ;;
  lu <- contract lu T4 [0] [0] ;;
  lu <- contract lu a [0;3] [0;1] ;;
  lu <- permute lu [1;2;0;3;4;5] ;;
  lu <- view lu [size T4 1 * size a 2; size T1 2 * size a 3; size A 0; size A 0] ;;
  ld <- contract C4 T3 [1] [1] ;;
  ld <- view ld [size C4 0 * size T3 0; size T3 2] ;;
  left_half <- contract ld lu [0] [0] ;;
  ax <- layer_open Ax ;;
  ru <- contract C2x T2x [1] [0] ;;
  ru <- contract ru T1x [0] [2] ;;
  ru <- contract ru ax [0;3] [3;0] ;;
  ru <- permute ru [1;2;0;3;4;5] ;;
  ru <- view ru [size T1x 0 * size ax 1; size T2x 2 * size ax 2; size Ax 0; size Ax 0] ;;
  rd <- contract C3x T3x [1] [2] ;;
  rd <- view rd [size C3x 0 * size T3x 0; size T3x 1] ;;
  right_half <- contract rd ru [0] [1] ;;
  rdm <- contract left_half right_half [0;1] [0;1] ;;
  permute rdm [0;2;1;3].
(** rdm.py:502-546: the network, without its output labels *)
Definition tn2x1 (C1 C2x C3x C4 T1 T1x T2x T3 T3x T4 a ax : ten) : res (list (ten * list nat)) :=
  T1 <- view T1 [size T1 0; size a 1; size a 1; size T1 2] ;;
  T1x <- view T1x [size T1x 0; size ax 1; size ax 1; size T1x 2] ;;
  T2x <- view T2x [size T2x 0; size ax 4; size ax 4; size T2x 2] ;;
  T3 <- view T3 [size a 3; size a 3; size T3 1; size T3 2] ;;
  T3x <- view T3x [size ax 3; size ax 3; size T3x 1; size T3x 2] ;;
  T4 <- view T4 [size T4 0; size T4 1; size a 2; size a 2] ;;
  Ok [(C1, [0;1]); (T1, [1;2;5;24]); (T4, [0;9;3;6]); (a, [4;2;3;10;26]); (conj a, [7;5;6;11;27]);
      (C4, [9;8]); (T3, [10;11;8;25]);
      (T1x, [24;14;17;12]); (C2x, [12;13]); (T2x, [13;15;18;21]); (ax, [16;14;26;22;15]); (conj ax, [19;17;27;23;18]);
      (C3x, [21;20]); (T3x, [22;23;25;20])].
Definition out2x1 : list nat := [4;16;7;19].

(** rdm.py:672-826 *)
Definition rdm1x2_dl_c (C1 T1 T4 A C2 T2 C4y T4y T3y Ay C3y T2y : ten) : res ten :=
  a <- layer_open A ;;
  lu <- contract C1 T1 [1] [0] ;;
  lu <- contract lu T4 [0] [0] ;;
  lu <- contract lu a [0;3] [0;1] ;;
  lu <- permute lu [1;2;0;3;4;5] ;;
  lu <- view lu [size T4 1 * size a 2; size T1 2 * size a 3; size A 0; size A 0] ;;
  ru <- contract C2 T2 [1] [0] ;;
  ru <- view ru [size C2 0 * size T2 1; size T2 2] ;;
  upper_half <- contract ru lu [0] [1] ;;
  ay <- layer_open Ay ;;
  ld <- contract C4y T4y [0] [1] ;;
  ld <- contract ld T3y [0] [1] ;;
  ld <- contract ld ay [1;2] [1;2] ;;
  ld <- permute ld [0;2;1;3;4;5] ;;
  ld <- view ld [size T4y 0 * size ay 0; size T3y 2 * size ay 3; size Ay 0; size Ay 0] ;;
  rd <- contract T2y C3y [2] [0] ;;
  rd <- permute rd [0;2;1] ;;
  rd <- view rd [size T2y 0; size C3y 1 * size T2y 1] ;;
  lower_half <- contract rd ld [1] [1] ;;
  rdm <- contract upper_half lower_half [0;1] [0;1] ;;
  permute rdm [0;2;1;3].
(** rdm.py:828-879 *)
Definition tn1x2 (C1 C2 C3y C4y T1 T2 T2y T3y T4 T4y a ay : ten) : res (list (ten * list nat)) :=
  T1 <- view T1 [size T1 0; size a 1; size a 1; size T1 2] ;;
  T2 <- view T2 [size T2 0; size a 4; size a 4; size T2 2] ;;
  T2y <- view T2y [size T2y 0; size ay 4; size ay 4; size T2y 2] ;;
  T3y <- view T3y [size ay 3; size ay 3; size T3y 1; size T3y 2] ;;
  T4 <- view T4 [size T4 0; size T4 1; size a 2; size a 2] ;;
  T4y <- view T4y [size T4y 0; size T4y 1; size ay 2; size ay 2] ;;
  Ok [(C1, [0;1]); (T1, [1;2;5;9]); (T4, [0;24;3;6]); (a, [4;2;3;25;10]); (conj a, [7;5;6;26;11]);
      (T2, [8;10;11;27]); (C2, [9;8]);
      (T4y, [24;13;14;17]); (C4y, [13;12]); (T3y, [15;18;12;21]); (ay, [16;25;14;15;22]); (conj ay, [19;26;17;18;23]);
      (C3y, [20;21]); (T2y, [27;22;23;20])].
Definition out1x2 : list nat := [4;16;7;19].

(** rdm.py:962-1048: upper left and lower right site open *)
Definition nnn11_c (lu ru rd ld : ten) : res ten :=
  u <- contract lu ru [1] [0] ;;
  u <- permute u [0;3;1;2] ;;
  l <- contract ld rd [1] [1] ;;
  rdm <- contract u l [0;1] [0;1] ;;
  permute rdm [0;2;1;3].
(** rdm.py:1101-1152: lower left and upper right site open *)
Definition nnn1n1_c (lu ru rd ld : ten) : res ten :=
  u <- contract lu ru [1] [0] ;;
  l <- contract ld rd [1] [1] ;;
  l <- permute l [0;3;1;2] ;;
  rdm <- contract l u [0;1] [0;1] ;;
  permute rdm [0;2;1;3].

(** A 2x2 patch in its environment: rdm.py:1154-1213 (NNN_1n1_oe), 1594-1675 (rdm2x2_oe), 1731-1770
    (eval_mpo_rdm2x2_oe).  The three networks have the same tensors and bond labels; [i] are the
    labels of the physical indices: ket and bra of upper left, upper right, lower left, lower
    right site. *)
Definition tn2x2 (C1 C2x C3xy C4y T1 T4 T1x T2x T2xy T3xy T3y T4y a ax ay axy : ten)
    (i : nat -> nat) : res (list (ten * list nat)) :=
  T1 <- view T1 [size T1 0; size a 1; size a 1; size T1 2] ;;
  T1x <- view T1x [size T1x 0; size ax 1; size ax 1; size T1x 2] ;;
  T2xy <- view T2xy [size T2xy 0; size axy 4; size axy 4; size T2xy 2] ;;
  T2x <- view T2x [size T2x 0; size ax 4; size ax 4; size T2x 2] ;;
  T3xy <- view T3xy [size axy 3; size axy 3; size T3xy 1; size T3xy 2] ;;
  T3y <- view T3y [size ay 3; size ay 3; size T3y 1; size T3y 2] ;;
  T4 <- view T4 [size T4 0; size T4 1; size a 2; size a 2] ;;
  T4y <- view T4y [size T4y 0; size T4y 1; size ay 2; size ay 2] ;;
  Ok [(C1, [0;1]); (T1, [1;2;5;36]); (T4, [0;15;3;6]); (a, [i 0;2;3;16;37]); (conj a, [i 1;5;6;17;38]);
      (T4y, [15;8;9;12]); (C4y, [8;7]); (T3y, [10;13;7;41]); (ay, [i 4;16;9;10;39]); (conj ay, [i 5;17;12;13;40]);
      (T1x, [36;20;23;18]); (C2x, [18;19]); (T2x, [19;21;24;33]); (ax, [i 2;20;37;34;21]); (conj ax, [i 3;23;38;35;24]);
      (T2xy, [33;28;31;26]); (C3xy, [26;27]); (T3xy, [29;32;41;27]); (axy, [i 6;34;39;29;28]); (conj axy, [i 7;35;40;32;31])].
(** rdm.py:1614-1618; a set of small integers iterates in increasing order *)
Definition open_label (open : list nat) (k : nat) : nat :=
  if memb (Nat.div2 k) open then 100 + k else 100 + 2 * Nat.div2 k.
Definition open_out (open : list nat) : list nat :=
  let s := filter (fun x => memb x open) [0;1;2;3] in map (fun x => 100 + 2 * x) s ++ map (fun x => 100 + 2 * x + 1) s.
Definition rdm2x2_oe_c (tn : (nat -> nat) -> res (list (ten * list nat))) (open : list nat) : res ten :=
  if nodupb open && forallb (fun x => x <? 4) open then
    t <- tn (open_label open) ;; einsum t (open_out open)
  else Err AssertionError.
(** rdm.py:1154-1241, the physical labels 11,14 (lower left), 22,25 (upper right), 4, 30 *)
Definition nnn_label (k : nat) : nat := nth k [4;4;22;25;11;14;30;30] 0.
Definition nnn1n1_oe_c (tn : (nat -> nat) -> res (list (ten * list nat))) : res ten :=
  t <- tn nnn_label ;; einsum t [11;22;14;25].

(** rdm.py:1432-1591 *)
Definition lu_dl (C T1 T2 A : ten) : res ten :=
  a <- layer_open A ;;
  x <- contract C T1 [1] [0] ;; x <- contract x T2 [0] [0] ;; x <- contract x a [0;3] [0;1] ;;
  x <- permute x [1;2;0;3;4;5] ;;
  view x [size T2 1 * size a 2; size T1 2 * size a 3; size A 0; size A 0].
Definition ru_dl (C T1 T2 A : ten) : res ten :=
  a <- layer_open A ;;
  x <- contract C T1 [1] [0] ;; x <- contract x T2 [0] [2] ;; x <- contract x a [0;3] [3;0] ;;
  x <- permute x [1;2;0;3;4;5] ;;
  view x [size T2 0 * size a 1; size T1 2 * size a 2; size A 0; size A 0].
Definition rd_dl (C T1 T2 A : ten) : res ten :=
  a <- layer_open A ;;
  x <- contract C T1 [1] [2] ;; x <- contract x T2 [0] [2] ;; x <- contract x a [0;3] [2;3] ;;
  x <- permute x [1;2;0;3;4;5] ;;
  view x [size T2 0 * size a 0; size T1 1 * size a 1; size A 0; size A 0].
Definition ld_dl (C T1 T2 A : ten) : res ten :=
  a <- layer_open A ;;
  x <- contract C T1 [0] [1] ;; x <- contract x T2 [0] [1] ;; x <- contract x a [1;2] [1;2] ;;
  x <- permute x [0;2;1;3;4;5] ;;
  view x [size T1 0 * size a 0; size T2 2 * size a 3; size A 0; size A 0].
Definition rdm2x2_legacy_c (lu ru rd ld : ten) : res ten :=
  u <- contract lu ru [1] [0] ;;
  u <- permute u [0;3;1;2;4;5] ;;
  l <- contract ld rd [1] [1] ;;
  l <- permute l [0;3;1;2;4;5] ;;
  rdm <- contract u l [0;1] [0;1] ;;
  permute rdm [0;2;4;6;1;3;5;7].

(** ** operators in MPO form *)
(** rdm.py:1677-1787: one tensor (left, ket, right, bra) per site, order as in rdm2x2 *)
Definition mpo2x2_c (tn : (nat -> nat) -> res (list (ten * list nat))) (mpo : list ten) : res ten :=
  match mpo with
  | [m0; m1; m2; m3] =>
    t <- tn (fun k => 100 + k) ;;
    einsum (t ++ [(m0, [300;100;200;101]); (m1, [200;102;201;103]); (m2, [201;104;202;105]); (m3, [202;106;301;107])]) []
  | _ => Err AssertionError
  end.
(** rdm.py:1789-1883: three sites in a row.  Line 1866 labels the upper index of the ket of the
    third site 9, the label of the bra *)
Definition mpo1x3_c (C1 C2 C3 C4 T1 T1x T1xx T2 T3 T3x T3xx T4 a ax axx : ten) (mpo : list ten) : res ten :=
  match mpo with
  | [m0; m1; m2] =>
    T1 <- view T1 [size T1 0; size a 1; size a 1; size T1 2] ;;
    T1x <- view T1x [size T1x 0; size ax 1; size ax 1; size T1x 2] ;;
    T1xx <- view T1xx [size T1xx 0; size axx 1; size axx 1; size T1xx 2] ;;
    T2 <- view T2 [size T2 0; size axx 4; size axx 4; size T2 2] ;;
    T3 <- view T3 [size a 3; size a 3; size T3 1; size T3 2] ;;
    T3x <- view T3x [size ax 3; size ax 3; size T3x 1; size T3x 2] ;;
    T3xx <- view T3xx [size axx 3; size axx 3; size T3xx 1; size T3xx 2] ;;
    T4 <- view T4 [size T4 0; size T4 1; size a 2; size a 2] ;;
    einsum [(C1, [0;1]); (T1, [1;2;3;4]); (T1x, [4;5;6;7]); (T1xx, [7;8;9;10]); (C2, [10;11]);
            (T4, [0;26;12;16]); (a, [100;2;12;20;13]); (conj a, [101;3;16;21;17]);
            (ax, [102;5;13;22;14]); (conj ax, [103;6;17;23;18]);
            (axx, [104;9;14;24;15]); (conj axx, [105;9;18;25;19]); (T2, [11;15;19;27]);
            (C4, [26;28]); (T3, [20;21;28;29]); (T3x, [22;23;29;30]); (T3xx, [24;25;30;31]); (C3, [27;31]);
            (m0, [300;100;200;101]); (m1, [200;102;201;103]); (m2, [201;104;302;105])] []
  | _ => Err AssertionError
  end.
(** rdm.py:1885-1960: three sites in a column.  Line 1935 views the lowest right half-row with
    the dimension of the middle site; the number of MPO tensors is not checked *)
Definition mpo3x1_c (C1 C2 C3 C4 T1 T2 T2y T2yy T3 T4 T4y T4yy a ay ayy : ten) (mpo : list ten) : res ten :=
  T1 <- view T1 [size T1 0; size a 1; size a 1; size T1 2] ;;
  T2 <- view T2 [size T2 0; size a 4; size a 4; size T2 2] ;;
  T2y <- view T2y [size T2y 0; size ay 4; size ay 4; size T2y 2] ;;
  T2yy <- view T2yy [size T2yy 0; size ay 4; size ay 4; size T2yy 2] ;;
  T3 <- view T3 [size ayy 3; size ayy 3; size T3 1; size T3 2] ;;
  T4 <- view T4 [size T4 0; size T4 1; size a 2; size a 2] ;;
  T4y <- view T4y [size T4y 0; size T4y 1; size ay 2; size ay 2] ;;
  T4yy <- view T4yy [size T4yy 0; size T4yy 1; size ayy 2; size ayy 2] ;;
  match mpo with
  | m0 :: m1 :: m2 :: _ =>
    einsum [(C1, [0;1]); (T1, [1;2;5;9]); (C2, [9;8]);
            (T4, [0;24;3;6]); (a, [100;2;3;25;10]); (conj a, [101;5;6;26;11]); (m0, [300;100;200;101]); (T2, [8;10;11;27]);
            (T4y, [24;30;14;17]); (ay, [102;25;14;28;22]); (conj ay, [103;26;17;29;23]); (m1, [200;102;201;103]); (T2y, [27;22;23;31]);
            (T4yy, [30;39;32;35]); (ayy, [104;28;32;37;34]); (conj ayy, [105;29;35;38;36]); (m2, [201;104;301;105]); (T2yy, [31;34;36;40]);
            (C4, [39;41]); (T3, [37;38;41;42]); (C3, [40;42])] []
  | _ => Err IndexError
  end.

(** ** functions of a state, an environment and a vertex *)
Definition gC (st : ipeps ten) (e : envt) (c v : coord) : res ten := k <- i_v2s st c ;; Ctm.getC _ e k v.
Definition gT (st : ipeps ten) (e : envt) (c v : coord) : res ten := k <- i_v2s st c ;; Ctm.getT _ e k v.
Definition gA (st : ipeps ten) (c : coord) : res ten := ipeps_site st c.
(** [state.vertexToSite] followed by look-ups at the result *)
Notation LU := ((-1, -1)%Z : coord). Notation RU := ((1, -1)%Z : coord).
Notation RD := ((1, 1)%Z : coord). Notation LD := ((-1, 1)%Z : coord).
Notation Up := ((0, -1)%Z : coord). Notation Lf := ((-1, 0)%Z : coord).
Notation Dn := ((0, 1)%Z : coord). Notation Rt := ((1, 0)%Z : coord).

(** rdm.py:114-258: the environment of [coord] itself *)
Definition rdm1x1_dl (st : ipeps ten) (e : envt) (c : coord) (op : option ten) : res ten :=
  C1 <- Ctm.getC _ e c LU ;; T4 <- Ctm.getT _ e c Lf ;; C4 <- Ctm.getC _ e c LD ;; T3 <- Ctm.getT _ e c Dn ;;
  a <- gA st c ;; T1 <- Ctm.getT _ e c Up ;; C2 <- Ctm.getC _ e c RU ;; T2 <- Ctm.getT _ e c Rt ;; C3 <- Ctm.getC _ e c RD ;;
  rdm1x1_dl_c C1 C2 C3 C4 T1 T2 T3 T4 a op.
(** rdm.py:260-302, env.py:211-233 *)
Definition rdm1x1_sl (st : ipeps ten) (e : envt) (c : coord) (op : option ten) : res ten :=
  C1 <- gC st e c LU ;; C2 <- gC st e c RU ;; C3 <- gC st e c RD ;; C4 <- gC st e c LD ;;
  T1 <- gT st e c Up ;; T2 <- gT st e c Rt ;; T3 <- gT st e c Dn ;; T4 <- gT st e c Lf ;;
  a <- gA st c ;;
  rdm1x1_sl_c C1 C2 C3 C4 T1 T2 T3 T4 a op.
(** rdm.py:352-500 *)
Definition rdm2x1_dl (st : ipeps ten) (e : envt) (c : coord) : res ten :=
  C1 <- gC st e c LU ;; T1 <- gT st e c Up ;; T4 <- gT st e c Lf ;; A <- gA st c ;;
  C4 <- gC st e c LD ;; T3 <- gT st e c Dn ;;
  s <- i_v2s st (cadd c (1, 0)%Z) ;;
  C2x <- Ctm.getC _ e s RU ;; T2x <- Ctm.getT _ e s Rt ;; T1x <- Ctm.getT _ e s Up ;; Ax <- gA st s ;;
  C3x <- Ctm.getC _ e s RD ;; T3x <- Ctm.getT _ e s Dn ;;
  rdm2x1_dl_c C1 T1 T4 A C4 T3 C2x T2x T1x Ax C3x T3x.
Definition tn2x1_at (st : ipeps ten) (e : envt) (c : coord) : res (list (ten * list nat)) :=
  a <- gA st c ;; ax <- gA st (cadd c (1, 0)%Z) ;;
  C1 <- gC st e c LU ;; C2x <- gC st e (cadd c (1, 0)%Z) RU ;; C3x <- gC st e (cadd c (1, 0)%Z) RD ;; C4 <- gC st e c LD ;;
  T1 <- gT st e c Up ;; T1x <- gT st e (cadd c (1, 0)%Z) Up ;; T2x <- gT st e (cadd c (1, 0)%Z) Rt ;;
  T3 <- gT st e c Dn ;; T3x <- gT st e (cadd c (1, 0)%Z) Dn ;; T4 <- gT st e c Lf ;;
  tn2x1 C1 C2x C3x C4 T1 T1x T2x T3 T3x T4 a ax.
(** rdm.py:548-569 *)
Definition rdm2x1_sl (st : ipeps ten) (e : envt) (c : coord) : res ten := t <- tn2x1_at st e c ;; einsum t out2x1.
(** rdm.py:672-826 *)
Definition rdm1x2_dl (st : ipeps ten) (e : envt) (c : coord) : res ten :=
  C1 <- gC st e c LU ;; T1 <- gT st e c Up ;; T4 <- gT st e c Lf ;; A <- gA st c ;;
  C2 <- gC st e c RU ;; T2 <- gT st e c Rt ;;
  s <- i_v2s st (cadd c (0, 1)%Z) ;;
  C4y <- Ctm.getC _ e s LD ;; T4y <- Ctm.getT _ e s Lf ;; T3y <- Ctm.getT _ e s Dn ;; Ay <- gA st s ;;
  C3y <- Ctm.getC _ e s RD ;; T2y <- Ctm.getT _ e s Rt ;;
  rdm1x2_dl_c C1 T1 T4 A C2 T2 C4y T4y T3y Ay C3y T2y.
Definition tn1x2_at (st : ipeps ten) (e : envt) (c : coord) : res (list (ten * list nat)) :=
  a <- gA st c ;; ay <- gA st (cadd c (0, 1)%Z) ;;
  C1 <- gC st e c LU ;; C2 <- gC st e c RU ;; C3y <- gC st e (cadd c (0, 1)%Z) RD ;; C4y <- gC st e (cadd c (0, 1)%Z) LD ;;
  T1 <- gT st e c Up ;; T2 <- gT st e c Rt ;; T2y <- gT st e (cadd c (0, 1)%Z) Rt ;; T3y <- gT st e (cadd c (0, 1)%Z) Dn ;;
  T4 <- gT st e c Lf ;; T4y <- gT st e (cadd c (0, 1)%Z) Lf ;;
  tn1x2 C1 C2 C3y C4y T1 T2 T2y T3y T4 T4y a ay.
(** rdm.py:881-902 *)
Definition rdm1x2_sl (st : ipeps ten) (e : envt) (c : coord) : res ten := t <- tn1x2_at st e c ;; einsum t out1x2.

(** c2x2_LU(coord, state, env, mode) etc., ctm_components.py:270-319, 437-485, 589-637, 736-784 *)
Definition c2x2_at (t : ipeps ten -> envt -> coord -> res (list ten)) (f : ten -> ten -> ten -> ten -> bool -> res ten)
    (open : bool) (st : ipeps ten) (e : envt) (c : coord) : res ten :=
  l <- t st e c ;;
  match l with [C; T1; T2; A] => f C T1 T2 A open | _ => Err ValueError end.
Definition LU_sl := c2x2_at (Ctm.c2x2_LU_t ten) (c2x2_LU_sl_c z o add mul cj).
Definition RU_sl := c2x2_at (Ctm.c2x2_RU_t ten) (c2x2_RU_sl_c z o add mul cj).
Definition RD_sl := c2x2_at (Ctm.c2x2_RD_t ten) (c2x2_RD_sl_c z o add mul cj).
Definition LD_sl := c2x2_at (Ctm.c2x2_LD_t ten) (c2x2_LD_sl_c z o add mul cj).
(** rdm.py:962-1048 *)
Definition rdm2x2_NNN_11 (st : ipeps ten) (e : envt) (c : coord) : res ten :=
  lu <- LU_sl true st e c ;;
  s <- i_v2s st (cadd c (1, 0)%Z) ;; ru <- RU_sl false st e s ;;
  s <- i_v2s st (cadd c (1, 1)%Z) ;; rd <- RD_sl true st e s ;;
  s <- i_v2s st (cadd c (0, 1)%Z) ;; ld <- LD_sl false st e s ;;
  nnn11_c lu ru rd ld.
(** rdm.py:1101-1152 *)
Definition rdm2x2_NNN_1n1_legacy (st : ipeps ten) (e : envt) (c : coord) : res ten :=
  s <- i_v2s st (cadd c (0, -1)%Z) ;; lu <- LU_sl false st e s ;;
  s <- i_v2s st (cadd c (1, -1)%Z) ;; ru <- RU_sl true st e s ;;
  s <- i_v2s st (cadd c (1, 0)%Z) ;; rd <- RD_sl false st e s ;;
  ld <- LD_sl true st e c ;;
  nnn1n1_c lu ru rd ld.
(** the tensors of a 2x2 patch with upper left vertex c *)
Definition tn2x2_at (st : ipeps ten) (e : envt) (c cx cy cxy : coord) (i : nat -> nat) : res (list (ten * list nat)) :=
  a <- gA st c ;; ax <- gA st cx ;; ay <- gA st cy ;; axy <- gA st cxy ;;
  C1 <- gC st e c LU ;; C2x <- gC st e cx RU ;; C3xy <- gC st e cxy RD ;; C4y <- gC st e cy LD ;;
  T1 <- gT st e c Up ;; T4 <- gT st e c Lf ;; T1x <- gT st e cx Up ;; T2x <- gT st e cx Rt ;;
  T2xy <- gT st e cxy Rt ;; T3xy <- gT st e cxy Dn ;; T3y <- gT st e cy Dn ;; T4y <- gT st e cy Lf ;;
  tn2x2 C1 C2x C3xy C4y T1 T4 T1x T2x T2xy T3xy T3y T4y a ax ay axy i.
(** rdm.py:1215-1241; the patch has its lower left vertex at c *)
Definition rdm2x2_NNN_1n1_oe (st : ipeps ten) (e : envt) (c : coord) : res ten :=
  nnn1n1_oe_c (tn2x2_at st e (cadd c (0, -1)%Z) (cadd c (1, -1)%Z) c (cadd c (1, 0)%Z)).
(** rdm.py:1594-1675 *)
Definition rdm2x2_oe (st : ipeps ten) (e : envt) (c : coord) (open : list nat) : res ten :=
  rdm2x2_oe_c (tn2x2_at st e c (cadd c (1, 0)%Z) (cadd c (0, 1)%Z) (cadd c (1, 1)%Z)) open.
Definition mpo2x2 (st : ipeps ten) (e : envt) (c : coord) (mpo : list ten) : res ten :=
  mpo2x2_c (tn2x2_at st e c (cadd c (1, 0)%Z) (cadd c (0, 1)%Z) (cadd c (1, 1)%Z)) mpo.
(** rdm.py:1362-1592; [open corners] with the double-layer tensor *)
Definition rdm2x2_legacy (st : ipeps ten) (e : envt) (c : coord) : res ten :=
  C1 <- gC st e c LU ;; T1 <- gT st e c Up ;; T4 <- gT st e c Lf ;; A <- gA st c ;;
  lu <- lu_dl C1 T1 T4 A ;;
  s <- i_v2s st (cadd c (1, 0)%Z) ;;
  C <- Ctm.getC _ e s RU ;; T1 <- Ctm.getT _ e s Rt ;; T2 <- Ctm.getT _ e s Up ;; A <- gA st s ;;
  ru <- ru_dl C T1 T2 A ;;
  s <- i_v2s st (cadd c (1, 1)%Z) ;;
  C <- Ctm.getC _ e s RD ;; T1 <- Ctm.getT _ e s Dn ;; T2 <- Ctm.getT _ e s Rt ;; A <- gA st s ;;
  rd <- rd_dl C T1 T2 A ;;
  s <- i_v2s st (cadd c (0, 1)%Z) ;;
  C <- Ctm.getC _ e s LD ;; T1 <- Ctm.getT _ e s Lf ;; T2 <- Ctm.getT _ e s Dn ;; A <- gA st s ;;
  ld <- ld_dl C T1 T2 A ;;
  rdm2x2_legacy_c lu ru rd ld.
(** rdm.py:1833-1848 *)
Definition mpo1x3 (st : ipeps ten) (e : envt) (c : coord) (mpo : list ten) : res ten :=
  let cx := cadd c (1, 0)%Z in let cxx := cadd c (2, 0)%Z in
  a <- gA st c ;; ax <- gA st cx ;; axx <- gA st cxx ;;
  C1 <- gC st e c LU ;; C2 <- gC st e cxx RU ;; C3 <- gC st e cxx RD ;; C4 <- gC st e c LD ;;
  T1 <- gT st e c Up ;; T1x <- gT st e cx Up ;; T1xx <- gT st e cxx Up ;; T2 <- gT st e cxx Rt ;;
  T3 <- gT st e c Dn ;; T3x <- gT st e cx Dn ;; T3xx <- gT st e cxx Dn ;; T4 <- gT st e c Lf ;;
  mpo1x3_c C1 C2 C3 C4 T1 T1x T1xx T2 T3 T3x T3xx T4 a ax axx mpo.
(** rdm.py:1913-1927 *)
Definition mpo3x1 (st : ipeps ten) (e : envt) (c : coord) (mpo : list ten) : res ten :=
  let cy := cadd c (0, 1)%Z in let cyy := cadd c (0, 2)%Z in
  a <- gA st c ;; ay <- gA st cy ;; ayy <- gA st cyy ;;
  C1 <- gC st e c LU ;; C2 <- gC st e c RU ;; C3 <- gC st e cyy RD ;; C4 <- gC st e cyy LD ;;
  T1 <- gT st e c Up ;; T2 <- gT st e c Rt ;; T2y <- gT st e cy Rt ;; T2yy <- gT st e cyy Rt ;;
  T3 <- gT st e cyy Dn ;; T4 <- gT st e c Lf ;; T4y <- gT st e cy Lf ;; T4yy <- gT st e cyy Lf ;;
  mpo3x1_c C1 C2 C3 C4 T1 T2 T2y T2yy T3 T4 T4y T4yy a ay ayy mpo.

(** rdm.py:3026-3047: an operator as a chain of tensors (left, index, right), the indices ket and
    bra of the first site, ket and bra of the second, ...; [squeeze] is modelled by a view that
    needs the dimension to be one.  Two-site operators: four tensors. *)
Definition mps_tn (ops : list ten) (labels : list nat) : res (list (ten * list nat)) :=
  match ops with
  | [m0; m1; m2; m3] =>
    m0 <- (if size m0 0 =? 1 then view m0 (tl (tdims m0)) else Err RuntimeError) ;;
    m3 <- (if last (tdims m3) 0 =? 1 then view m3 (removelast (tdims m3)) else Err RuntimeError) ;;
    Ok [(m0, [nth 0 labels 0; 100]); (m1, [100; nth 2 labels 0; 101]); (m2, [101; nth 1 labels 0; 102]); (m3, [102; nth 3 labels 0])]
  | _ => Err NotImplementedError
  end.
(** rdm.py:3049-3062; [eye] is torch.eye *)
Definition eye (n : nat) : ten := tbuild [n; n] (fun ix => if nth 0 ix 0 =? nth 1 ix 0 then o else z).
Definition id_tn (ops : list ten) (labels : list nat) : list (ten * list nat) :=
  match ops with
  | [m0; m1; m2; m3] => [(eye (size m0 1), [nth 0 labels 0; nth 2 labels 0]); (eye (size m2 1), [nth 1 labels 0; nth 3 labels 0])]
  | _ => []
  end.
(** rdm.py:571-620, 904-960, 1243-1304: numerator and norm; the code returns their ratio and the norm *)
Definition eval_mps (tn : res (list (ten * list nat))) (labels : list nat) (ops : list ten) : res (ten * ten) :=
  t <- tn ;;
  m <- mps_tn ops labels ;;
  R <- einsum (t ++ m) [] ;;
  I <- einsum (t ++ id_tn ops labels) [] ;;
  Ok (R, I).
Definition eval_mpo_rdm2x1 (st : ipeps ten) (e : envt) (c : coord) (ops : list ten) := eval_mps (tn2x1_at st e c) out2x1 ops.
Definition eval_mpo_rdm1x2 (st : ipeps ten) (e : envt) (c : coord) (ops : list ten) := eval_mps (tn1x2_at st e c) out1x2 ops.
Definition eval_mpo_rdm2x2_NNN_1n1 (st : ipeps ten) (e : envt) (c : coord) (ops : list ten) :=
  eval_mps (tn2x2_at st e (cadd c (0, -1)%Z) (cadd c (1, -1)%Z) c (cadd c (1, 0)%Z) nnn_label) [11;22;14;25] ops.
End Rdm.
