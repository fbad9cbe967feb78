(** Model of ctm/pess_kagome/rdm_kagome.py: density matrices of the kagome lattice before _sym_pos_def_rdm (C37) and expectation values of
    operators on a down triangle.  A tensor of the square lattice carries three spins: its physical index is s_0 s_1 s_2 fused.
    [d] is state.get_physical_dim().  Left out: devices, logging, _cast_to_real, rdm2x2_nnn_1..3 (which call enlarged_corner with an unknown
    keyword).  All tensors a function uses are looked up before the first contraction. *)
From Verif Require Import Base Lattice Tensor Net Corners Rdm.
From Verif Require Ctm.
Open Scope list_scope.
Open Scope nat_scope.
Open Scope res_scope.

Inductive abc := sA | sB | sC.
(** rdm_kagome.py:12-18 *)
Definition abc_int (k : abc) : nat := match k with sA => 2 | sB => 1 | sC => 0 end.
Fixpoint insert (k : nat) (l : list nat) : list nat := match l with [] => [k] | a :: r => if k <=? a then k :: l else a :: insert k r end.
Definition abc_to_012 (l : list abc) : list nat := fold_right insert [] (map abc_int l).
(** 20-28 *)
Definition expand_perm (ns : list nat) : list nat :=
  let '(_, b, k) := fold_left (fun acc n => let '(c, b, k) := acc in
      if n =? 0 then acc else (c + n, b ++ seq (2 * c) n, k ++ seq (2 * c + n) n)) ns (0, [], []) in b ++ k.

Section RdmKag.
Context {K : Type} (z o : K) (add mul : K -> K -> K) (cj : K -> K) (d : nat).
Notation ten := (tensor K).
Notation contract := (tensordot z o add mul).
Notation einsum := (einsum z o add mul).
Notation permute := (permute z).
Notation conj := (conj cj).
Notation envt := (Ctm.envt ten).
Definition nonempty {A} (l : list A) : bool := match l with [] => false | _ => true end.

(** 30-87; m,i,k,e,f,g,h = 0..6; n,j,l,a,b,c,d = 10..16 *)
Definition layer_labels (open : list nat) : res (list nat * list nat) :=
  let e := [3;13;4;14;5;15;6;16] in
  match open with
  | [0; 1; 2] => Ok ([10;11;12], e ++ [0;1;2;10;11;12])
  | [1; 2] => Ok ([0;11;12], e ++ [1;2;11;12])
  | [0; 2] => Ok ([10;1;12], e ++ [0;2;10;12])
  | [0; 1] => Ok ([10;11;2], e ++ [0;1;10;11])
  | [0] => Ok ([10;1;2], e ++ [0;10])
  | [1] => Ok ([0;11;2], e ++ [1;11])
  | [2] => Ok ([0;1;12], e ++ [2;12])
  | [] => Ok ([0;1;2], e)
  | _ => Err UnboundLocalError
  end.
Definition double_layer_a (A : ten) (open : list nat) : res ten :=
  Ar <- view A (repeat d 3 ++ tl (tdims A)) ;;
  l <- layer_labels open ;;
  a <- einsum [(Ar, [0;1;2;3;4;5;6]); (conj Ar, fst l ++ [13;14;15;16])] (snd l) ;;
  let dims := map (fun x => x ^ 2) (tl (tdims A)) in
  if nonempty open then view_rest a dims else view a dims.
(** permute(p + [4]*pleg), view(dims + [-1]*pleg) *)
Definition fuse (x : ten) (p : list nat) (dims : list nat) (pleg : bool) : res ten :=
  x <- permute x (if pleg then p ++ [4] else p) ;;
  if pleg then view_rest x dims else view x dims.
(** 89-312 *)
Definition corner_LU (C T1 T2 A : ten) (open : list nat) : res ten :=
  a <- double_layer_a A open ;;
  x <- contract C T1 [1] [0] ;; x <- contract x T2 [0] [0] ;; x <- contract x a [0;3] [0;1] ;;
  fuse x [1;2;0;3] [size T2 1 * size a 2; size T1 2 * size a 3] (nonempty open).
Definition corner_RU (C T1 T2 A : ten) (open : list nat) : res ten :=
  a <- double_layer_a A open ;;
  x <- contract C T1 [1] [0] ;; x <- contract x T2 [0] [2] ;; x <- contract x a [0;3] [3;0] ;;
  fuse x [1;2;0;3] [size T2 0 * size a 1; size T1 2 * size a 2] (nonempty open).
Definition corner_RD (C T1 T2 A : ten) (open : list nat) : res ten :=
  a <- double_layer_a A open ;;
  x <- contract C T1 [1] [2] ;; x <- contract x T2 [0] [2] ;; x <- contract x a [0;3] [2;3] ;;
  fuse x [1;2;0;3] [size T2 0 * size a 0; size T1 1 * size a 1] (nonempty open).
Definition corner_LD (C T1 T2 A : ten) (open : list nat) : res ten :=
  a <- double_layer_a A open ;;
  x <- contract C T1 [0] [1] ;; x <- contract x T2 [0] [1] ;; x <- contract x a [1;2] [1;2] ;;
  fuse x [0;2;1;3] [size T1 0 * size a 0; size T2 2 * size a 3] (nonempty open).

(** op.view([op.size(0)**3]*2) *)
Definition op_matrix (op : ten) : res ten :=
  match tdims op with
  | [_; _] => Ok op
  | [a; b; c; e; f; g] => if forallb (Nat.eqb a) [b; c; e; f; g] then view op [a ^ 3; a ^ 3] else Ok op
  | _ => Err AssertionError
  end.
(** 407-409, 1199-1201; m,e,f,g,h,n,a,b,c,d = 0..9 *)
Definition layer_id (A : ten) : res ten :=
  a <- einsum [(A, [0;1;2;3;4]); (conj A, [0;6;7;8;9])] [1;6;2;7;3;8;4;9] ;; view a (map (fun x => x ^ 2) (tl (tdims A))).
Definition layer_op (A op : ten) : res ten :=
  a <- einsum [(A, [0;1;2;3;4]); (op, [5;0]); (conj A, [5;6;7;8;9])] [1;6;2;7;3;8;4;9] ;; view a (map (fun x => x ^ 2) (tl (tdims A))).
(** 315-464: C1 (-1,-1), C2 (-1,1), C3 (1,1), C4 (1,-1); T1 left, T2 below, T3 right, T4 above *)
Definition trace1x1_c (C1 C2 C3 C4 T1 T2 T3 T4 A op : ten) : res ten :=
  op <- op_matrix op ;;
  x <- contract C1 T1 [0] [0] ;; x <- contract x C2 [1] [0] ;; x <- contract x T2 [2] [1] ;;
  a <- layer_op A op ;;
  x <- contract x a [1;2] [1;2] ;; x <- contract T4 x [0;1] [0;2] ;; x <- contract C4 x [0] [0] ;;
  x <- contract T3 x [0;1] [0;2] ;; contract x C3 [0;1] [0;1].
(** 466-610; [left]: the spins that are summed *)
Definition rdm1x1_c (C1 C2 C3 C4 T1 T2 T3 T4 A : ten) (keep : list abc) : res ten :=
  if negb (nonempty keep) then Err AssertionError else
  up <- contract C1 T4 [1] [0] ;;
  x <- contract C2 T1 [0] [1] ;; x <- contract x T2 [0] [1] ;;
  Ar <- view A (tl (tdims A) ++ repeat d 3) ;;
  x <- view x [size T1 0; size Ar 1; size Ar 1; size Ar 2; size Ar 2; size T2 2] ;;
  x <- contract x Ar [1;3] [1;2] ;;
  let stk := abc_to_012 keep in let n := length stk in
  let left := filter (fun s => negb (memb s stk)) [0; 1; 2] in
  x <- contract x (conj Ar) ([1;2] ++ map (fun s => 6 + s) left) ([1;2] ++ map (fun s => 4 + s) left) ;;
  x <- permute x ([0; 2; n + 4; 1; 3; n + 5] ++ seq 4 n ++ seq (n + 6) n) ;;
  x <- view x [size T1 0; size Ar 0 ^ 2; size T2 2; size Ar 3 ^ 2; d ^ (2 * length keep)] ;;
  x <- contract up x [0;1] [0;1] ;;
  r <- contract C4 T3 [1] [0] ;;
  x <- contract r x [0;1] [0;2] ;;
  x <- contract x C3 [0;1] [0;1] ;;
  view x (repeat d (2 * length keep)).
(** 766-888; LU: tensors of the left site, C and T2 below it; RU: those of the right site *)
Definition rdm2x1_c (lu ru C T2 Cx T1x : ten) (n00 n10 : nat) : res ten :=
  ld <- contract C T2 [1] [1] ;; ld <- view ld [size C 0 * size T2 0; size T2 2] ;;
  l <- contract ld lu [0] [0] ;;
  rd <- contract Cx T1x [1] [2] ;; rd <- view rd [size Cx 0 * size T1x 0; size T1x 1] ;;
  r <- contract rd ru [0] [1] ;;
  x <- contract l r [0;1] [0;1] ;;
  x <- view x (repeat d (2 * (n00 + n10))) ;;
  permute x (expand_perm [n00; n10]).
(** 890-998 *)
Definition rdm1x2_c (lu ld C T1 Cy T2y : ten) (n00 n01 : nat) : res ten :=
  ru <- contract C T1 [1] [0] ;; ru <- view ru [size C 0 * size T1 1; size T1 2] ;;
  u <- contract ru lu [0] [1] ;;
  rd <- contract T2y Cy [2] [0] ;; rd <- permute rd [0;2;1] ;; rd <- view rd [size T2y 0; size Cy 1 * size T2y 1] ;;
  l <- contract rd ld [1] [1] ;;
  x <- contract u l [0;1] [0;1] ;;
  x <- view x (repeat d (2 * (n00 + n01))) ;;
  permute x (expand_perm [n00; n01]).
(** 1050-1125 *)
Definition up_triangle_c (lu ru rd ld : ten) : res ten :=
  u <- contract lu ru [1] [0] ;;
  l <- contract ld rd [1] [1] ;; l <- permute l [0;2;1;3] ;;
  x <- contract u l [0;1] [0;1] ;;
  x <- view x (repeat d 6) ;; permute x [0;2;4;1;3;5].
(** 1180-1283: the two numbers rdm_op and rdm_id *)
Definition dn_LU (C T1 T2 a : ten) : res ten :=
  x <- contract C T1 [1] [0] ;; x <- contract x T2 [0] [0] ;; x <- contract x a [0;3] [0;1] ;;
  x <- permute x [1;2;0;3] ;; view x [size T2 1 * size a 2; size T1 2 * size a 3].
Definition dn_close (lu ru rd ld : ten) : res ten :=
  u <- contract lu ru [1] [0] ;; l <- contract ld rd [1] [1] ;; contract u l [0;1] [0;1].
(** 1334-1412; n: numbers of open spins *)
Definition side (x : ten) (na nb : nat) : res ten :=
  if (0 <? na) && (0 <? nb) then permute x [0;2;1;3] else if 0 <? na then permute x [0;2;1] else Ok x.
Definition rdm2x2_c (lu ru rd ld : ten) (n00 n10 n01 n11 : nat) : res ten :=
  u <- contract lu ru [1] [0] ;; u <- side u n00 n10 ;;
  l <- contract ld rd [1] [1] ;; l <- side l n01 n11 ;;
  x <- contract u l [0;1] [0;1] ;;
  x <- view x (repeat d (2 * (n00 + n01 + n10 + n11))) ;;
  permute x (expand_perm [n00; n10; n01; n11]).

(** ** functions of a state, an environment and a vertex *)
Notation LU := ((-1, -1)%Z : coord). Notation RU := ((1, -1)%Z : coord).
Notation RD := ((1, 1)%Z : coord). Notation LD := ((-1, 1)%Z : coord).
Notation Up := ((0, -1)%Z : coord). Notation Lf := ((-1, 0)%Z : coord).
Notation Dn := ((0, 1)%Z : coord). Notation Rt := ((1, 0)%Z : coord).
(** enlarged_corner: 'LU' looks up vertexToSite(coord), the others coord *)
Definition lu_at (st : ipeps ten) (e : envt) (c : coord) (open : list nat) : res ten :=
  C <- gC st e c LU ;; T1 <- gT st e c Up ;; T2 <- gT st e c Lf ;; A <- gA st c ;; corner_LU C T1 T2 A open.
Definition ru_at (st : ipeps ten) (e : envt) (c : coord) (open : list nat) : res ten :=
  C <- Ctm.getC _ e c RU ;; T1 <- Ctm.getT _ e c Rt ;; T2 <- Ctm.getT _ e c Up ;; A <- gA st c ;; corner_RU C T1 T2 A open.
Definition rd_at (st : ipeps ten) (e : envt) (c : coord) (open : list nat) : res ten :=
  C <- Ctm.getC _ e c RD ;; T1 <- Ctm.getT _ e c Dn ;; T2 <- Ctm.getT _ e c Rt ;; A <- gA st c ;; corner_RD C T1 T2 A open.
Definition ld_at (st : ipeps ten) (e : envt) (c : coord) (open : list nat) : res ten :=
  C <- Ctm.getC _ e c LD ;; T1 <- Ctm.getT _ e c Lf ;; T2 <- Ctm.getT _ e c Dn ;; A <- gA st c ;; corner_LD C T1 T2 A open.
(** the last corner is looked up at coord itself (458) *)
Definition trace1x1_dn_kagome (st : ipeps ten) (e : envt) (c : coord) (op : ten) : res ten :=
  A <- gA st c ;;
  C1 <- gC st e c LU ;; C2 <- gC st e c LD ;; _ <- gC st e c RD ;; C4 <- gC st e c RU ;;
  T1 <- gT st e c Lf ;; T2 <- gT st e c Dn ;; T3 <- gT st e c Rt ;; T4 <- gT st e c Up ;;
  C3 <- Ctm.getC _ e c RD ;;
  trace1x1_c C1 C2 C3 C4 T1 T2 T3 T4 A op.
Definition rdm1x1_kagome (st : ipeps ten) (e : envt) (c : coord) (keep : list abc) : res ten :=
  A <- gA st c ;;
  C1 <- gC st e c LU ;; C2 <- gC st e c LD ;; C3 <- gC st e c RD ;; C4 <- gC st e c RU ;;
  T1 <- gT st e c Lf ;; T2 <- gT st e c Dn ;; T3 <- gT st e c Rt ;; T4 <- gT st e c Up ;;
  rdm1x1_c C1 C2 C3 C4 T1 T2 T3 T4 A keep.
Definition rdm2x1_kagome (st : ipeps ten) (e : envt) (c : coord) (k00 k10 : list abc) : res ten :=
  lu <- lu_at st e c (abc_to_012 k00) ;;
  C <- gC st e c LD ;; T2 <- gT st e c Dn ;;
  s <- i_v2s st (cadd c (1, 0)%Z) ;;
  ru <- ru_at st e s (abc_to_012 k10) ;;
  Cx <- Ctm.getC _ e s RD ;; T1x <- Ctm.getT _ e s Dn ;;
  rdm2x1_c lu ru C T2 Cx T1x (length k00) (length k10).
Definition rdm1x2_kagome (st : ipeps ten) (e : envt) (c : coord) (k00 k01 : list abc) : res ten :=
  lu <- lu_at st e c (abc_to_012 k00) ;;
  C <- gC st e c RU ;; T1 <- gT st e c Rt ;;
  s <- i_v2s st (cadd c (0, 1)%Z) ;;
  ld <- ld_at st e s (abc_to_012 k01) ;;
  Cy <- Ctm.getC _ e s RD ;; T2y <- Ctm.getT _ e s Rt ;;
  rdm1x2_c lu ld C T1 Cy T2y (length k00) (length k01).
Definition rdm2x2_up_triangle_open (st : ipeps ten) (e : envt) (c : coord) : res ten :=
  lu <- lu_at st e c [] ;;
  s <- i_v2s st (cadd c (1, 0)%Z) ;; ru <- ru_at st e s [1] ;;
  s <- i_v2s st (cadd c (1, 1)%Z) ;; rd <- rd_at st e s [0] ;;
  s <- i_v2s st (cadd c (0, 1)%Z) ;; ld <- ld_at st e s [2] ;;
  up_triangle_c lu ru rd ld.
Definition rdm2x2_dn_triangle (st : ipeps ten) (e : envt) (c : coord) (op : ten) : res (ten * ten) :=
  op <- op_matrix op ;;
  C <- gC st e c LU ;; T1 <- gT st e c Up ;; T2 <- gT st e c Lf ;; A <- gA st c ;;
  a <- layer_id A ;; a_op <- layer_op A op ;;
  lu_op <- dn_LU C T1 T2 a_op ;; lu <- dn_LU C T1 T2 a ;;
  s <- i_v2s st (cadd c (1, 0)%Z) ;; ru <- ru_at st e s [] ;;
  s <- i_v2s st (cadd c (1, 1)%Z) ;; rd <- rd_at st e s [] ;;
  s <- i_v2s st (cadd c (0, 1)%Z) ;; ld <- ld_at st e s [] ;;
  x <- dn_close lu_op ru rd ld ;; y <- dn_close lu ru rd ld ;; Ok (x, y).
Definition rdm2x2_kagome (st : ipeps ten) (e : envt) (c : coord) (k00 k10 k01 k11 : list abc) : res ten :=
  lu <- lu_at st e c (abc_to_012 k00) ;;
  s <- i_v2s st (cadd c (1, 0)%Z) ;; ru <- ru_at st e s (abc_to_012 k10) ;;
  s <- i_v2s st (cadd c (1, 1)%Z) ;; rd <- rd_at st e s (abc_to_012 k11) ;;
  s <- i_v2s st (cadd c (0, 1)%Z) ;; ld <- ld_at st e s (abc_to_012 k01) ;;
  rdm2x2_c lu ru rd ld (length k00) (length k10) (length k01) (length k11).
End RdmKag.
