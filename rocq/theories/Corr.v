(** Model of the correlation functions of ctm/generic/corrf.py.
    The state, the environment and their lookups are those of Lattice and Ctm; contractions are those
    of Net.  Division, the largest modulus of a tensor and the singular value decomposition are
    parameters.  Left out: devices, dtypes, printing, apply_TM_0sO (278-362, in Transfer.v).
    All tensors a function uses are looked up before its first contraction. *)
From Verif Require Import Base Lattice Tensor Net Corners.
From Verif Require Ctm.
Open Scope list_scope.
Open Scope nat_scope.
Open Scope res_scope.

Section Corr.
Context {K : Type} (z o : K) (add mul : K -> K -> K) (cj : K -> K).
Notation ten := (tensor K).
Notation contract := (tensordot z o add mul).
Notation einsum := (einsum z o add mul).
Notation permute := (permute z).
Notation conj := (conj cj).
Notation envt := (Ctm.envt ten).
Variables (st : ipeps ten) (e : envt).

Definition d_up : coord := (0, -1)%Z.
Definition d_left : coord := (-1, 0)%Z.
Definition d_down : coord := (0, 1)%Z.
Definition d_right : coord := (1, 0)%Z.

(** corrf.py:10-103 *)
Definition get_edge (c0 d : coord) : res ten :=
  c <- i_v2s st c0 ;;
  if eqb d d_up then
    C1 <- Ctm.getC ten e c (1, -1)%Z ;; T <- Ctm.getT ten e c d ;; C2 <- Ctm.getC ten e c (-1, -1)%Z ;;
    x <- contract T C1 [2] [0] ;;
    contract C2 x [1] [0]
  else if eqb d d_left then
    C1 <- Ctm.getC ten e c (-1, -1)%Z ;; T <- Ctm.getT ten e c d ;; C2 <- Ctm.getC ten e c (-1, 1)%Z ;;
    x <- contract C1 T [0] [0] ;;
    contract x C2 [1] [0]
  else if eqb d d_down then
    C1 <- Ctm.getC ten e c (-1, 1)%Z ;; T <- Ctm.getT ten e c d ;; C2 <- Ctm.getC ten e c (1, 1)%Z ;;
    x <- contract C1 T [1] [1] ;;
    contract x C2 [2] [1]
  else if eqb d d_right then
    C1 <- Ctm.getC ten e c (1, 1)%Z ;; T <- Ctm.getT ten e c d ;; C2 <- Ctm.getC ten e c (1, -1)%Z ;;
    x <- contract T C1 [2] [0] ;;
    contract C2 x [1] [0]
  else Err ValueError.

(** corrf.py:105-232; s, s1: the sites at coord and at its neighbour to the right or below *)
Definition get_edge_2 (c0 d : coord) : res ten :=
  s <- i_v2s st c0 ;;
  if eqb d d_up then
    C2 <- Ctm.getC ten e s (-1, -1)%Z ;; T <- Ctm.getT ten e s d ;;
    s1 <- i_v2s st (cadd c0 d_right) ;; T' <- Ctm.getT ten e s1 d ;; C1 <- Ctm.getC ten e s1 (1, -1)%Z ;;
    x <- contract C2 T [1] [0] ;; x <- contract x T' [2] [0] ;; contract x C1 [3] [0]
  else if eqb d d_left then
    C1 <- Ctm.getC ten e s (-1, -1)%Z ;; T <- Ctm.getT ten e s d ;;
    s1 <- i_v2s st (cadd c0 d_down) ;; T' <- Ctm.getT ten e s1 d ;; C2 <- Ctm.getC ten e s1 (-1, 1)%Z ;;
    x <- contract C1 T [0] [0] ;; x <- contract x T' [1] [0] ;; contract x C2 [2] [0]
  else if eqb d d_down then
    C1 <- Ctm.getC ten e s (-1, 1)%Z ;; T <- Ctm.getT ten e s d ;;
    s1 <- i_v2s st (cadd c0 d_right) ;; T' <- Ctm.getT ten e s1 d ;; C2 <- Ctm.getC ten e s1 (1, 1)%Z ;;
    x <- contract C1 T [1] [1] ;; x <- contract x T' [2] [1] ;; contract x C2 [3] [1]
  else if eqb d d_right then
    C2 <- Ctm.getC ten e s (1, -1)%Z ;; T <- Ctm.getT ten e s d ;;
    s1 <- i_v2s st (cadd c0 d_down) ;; T' <- Ctm.getT ten e s1 d ;; C1 <- Ctm.getC ten e s1 (1, 1)%Z ;;
    x <- contract C2 T [1] [0] ;; x <- contract x T' [2] [0] ;; contract x C1 [3] [0]
  else Err ValueError.

(** corrf.py:234-276; the argument of the ValueError adds a string and a tuple *)
Definition apply_edge (c0 d : coord) (vec : ten) : res ten :=
  let rk := length (tdims vec) in
  E <- (if rk =? 3 then get_edge c0 d else if rk =? 4 then get_edge_2 c0 d else Err TypeError) ;;
  contract vec E (seq 0 rk) (seq 0 rk).

(** corrf.py:405-450 (and 720-752, without the last case); no case binds A otherwise *)
Definition aXa (a : ten) (op : option ten) : res ten :=
  let d := [size a 1 ^ 2; size a 2 ^ 2; size a 3 ^ 2; size a 4 ^ 2] in
  match op with
  | None => x <- einsum [(a, [0;1;2;3;4]); (conj a, [0;5;6;7;8])] [1;5;2;6;3;7;4;8] ;; view x d
  | Some op =>
      match length (tdims op) with
      | 2 => x <- einsum [(a, [9;1;2;3;4]); (op, [9;0])] [0;1;2;3;4] ;;
             x <- einsum [(x, [0;1;2;3;4]); (conj a, [0;5;6;7;8])] [1;5;2;6;3;7;4;8] ;; view x d
      | 3 => x <- einsum [(a, [9;1;2;3;4]); (op, [9;0;10])] [0;1;2;3;4;10] ;;
             x <- einsum [(x, [0;1;2;3;4;10]); (conj a, [0;5;6;7;8])] [1;5;2;6;3;7;4;8;10] ;; view_rest x d
      | 4 => x <- einsum [(a, [9;1;2;3;4]); (op, [9;0;10;11])] [0;1;2;3;4;10;11] ;;
             x <- einsum [(x, [0;1;2;3;4;10;11]); (conj a, [0;5;6;7;8])] [1;5;2;6;3;7;4;8;10;11] ;;
             view x (d ++ [size op 2; size op 3])
      | _ => Err UnboundLocalError
      end
  end.

(** corrf.py:452-669, the contractions of the four directions *)
Definition mpo_last (x : ten) : res ten := if length (tdims x) =? 4 then permute x [0;1;3;2] else Ok x.
Definition tm_up (T1 T2 A edge : ten) : res ten :=
  x <- contract T1 edge [1] [0] ;;
  x <- (if length (tdims edge) =? 4 then contract x A [1;2;4] [1;2;4] else contract x A [1;2] [1;2]) ;;
  x <- contract x T2 [1;3] [2;1] ;;
  mpo_last x.
Definition tm_left (T1 T2 A edge : ten) : res ten :=
  x <- contract T1 edge [2] [0] ;;
  x <- (if length (tdims edge) =? 4 then contract x A [1;2;4] [0;3;4] else contract x A [1;2] [0;3]) ;;
  x <- contract x T2 [1;3] [2;0] ;;
  mpo_last x.
Definition tm_down (T1 T2 A edge : ten) : res ten :=
  x <- contract T1 edge [0] [0] ;;
  x <- (if length (tdims edge) =? 4 then contract x A [1;2;4] [1;0;4] else contract x A [1;2] [1;0]) ;;
  x <- contract x T2 [1;3] [0;1] ;;
  mpo_last x.
Definition tm_right (T1 T2 A edge : ten) : res ten :=
  x <- contract T1 edge [0] [0] ;;
  x <- (if length (tdims edge) =? 4 then contract x A [0;2;4] [0;1;4] else contract x A [0;2] [0;1]) ;;
  x <- contract x T2 [1;2] [1;0] ;;
  mpo_last x.
(** corrf.py:364-669 *)
Definition apply_TM_1sO (c0 d : coord) (edge : ten) (op : option ten) : res ten :=
  c <- i_v2s st c0 ;;
  if eqb d d_up || eqb d d_down then
    T1 <- Ctm.getT ten e c d_left ;; T2 <- Ctm.getT ten e c d_right ;; a <- ipeps_site st c ;;
    A <- aXa a op ;; (if eqb d d_up then tm_up else tm_down) T1 T2 A edge
  else if eqb d d_left || eqb d d_right then
    T1 <- Ctm.getT ten e c d_up ;; T2 <- Ctm.getT ten e c d_down ;; a <- ipeps_site st c ;;
    A <- aXa a op ;; (if eqb d d_left then tm_left else tm_right) T1 T2 A edge
  else Err ValueError.

(** ** two-site operators *)
(** truncated_svd_gesdd(M, M.size(0)): U, the singular values, V with M = U S V^dagger *)
Variable svd : ten -> res (ten * list K * ten).
(** corrf.py:722-730 and 958-967: [with_s]: op_r is multiplied by the singular values, as line 966 does and
    line 728 does not *)
Definition split_op (with_s : bool) (op : ten) : res (ten * ten) :=
  let d := size op 0 in
  m <- permute op [0;2;1;3] ;;
  m <- view m [d ^ 2; d ^ 2] ;;
  ' (u, s, v) <- svd m ;;
  l <- view u [d; d; length s] ;;
  vt <- permute v [1;0] ;;
  let vh := conj vt in
  r <- (if with_s then einsum [(vh, [0;1]); (mkT [length s] s, [0])] [0;1] else Ok vh) ;;
  r <- view r [length s; d; d] ;;
  r <- permute r [1;2;0] ;;
  Ok (l, r).

(** corrf.py:914-978 *)
Definition apply_TM_2sO_1sChannel (c0 d : coord) (edge : ten) (op : option ten) : res ten :=
  ' (l, r) <- match op with
              | None => Ok (None, None)
              | Some m => if length (tdims m) =? 4 then ' (a, b) <- split_op true m ;; Ok (Some a, Some b) else Err AssertionError
              end ;;
  x <- apply_TM_1sO c0 d edge l ;;
  apply_TM_1sO (cadd c0 d) d x r.

(** corrf.py:671-912 *)
Definition apply_TM_2sO_2sChannel (c0 d : coord) (edge : ten) (op : option ten) : res ten :=
  ' (l, r) <- match op with
              | None => Ok (None, None)
              | Some m => if length (tdims m) =? 4 then ' (a, b) <- split_op false m ;; Ok (Some a, Some b) else Err ValueError
              end ;;
  c <- i_v2s st c0 ;;
  if eqb d d_down then
    T1 <- Ctm.getT ten e c d_left ;; a <- ipeps_site st c ;;
    c1 <- i_v2s st (cadd c0 d_right) ;; b <- ipeps_site st c1 ;; T2 <- Ctm.getT ten e c1 d_right ;;
    x <- contract T1 edge [0] [0] ;;
    A <- aXa a l ;; x <- contract x A [1;2] [1;0] ;;
    B <- aXa b r ;; x <- (match op with None => contract x B [1;4] [0;1] | Some _ => contract x B [1;4;5] [0;1;4] end) ;;
    contract x T2 [1;4] [0;1]
  else if eqb d d_right then
    T1 <- Ctm.getT ten e c d_up ;; a <- ipeps_site st c ;;
    c1 <- i_v2s st (cadd c0 d_down) ;; b <- ipeps_site st c1 ;; T2 <- Ctm.getT ten e c1 d_down ;;
    x <- contract T1 edge [0] [0] ;;
    A <- aXa a l ;; x <- contract x A [0;2] [0;1] ;;
    B <- aXa b r ;; x <- (match op with None => contract x B [1;3] [1;0] | Some _ => contract x B [1;3;5] [1;0;4] end) ;;
    contract x T2 [1;3] [1;0]
  else Err ValueError.

(** ** correlation functions *)
Variable div : K -> K -> K.
Variable maxabs : ten -> K.                    (* t.abs().max() *)
Definition scalar (t : ten) : res K := match tdims t with [] => Ok (tel z t []) | _ => Err RuntimeError end.
Definition rescale (m : K) (t : ten) : ten := tmap (fun x => div x m) t.

(** corrf.py:1029-1067.  [rl]: the optional edges of the strip *)
Fixpoint corrf1_loop (n r : nat) (c0 d : coord) (op2 : nat -> ten) (rl : option (coord -> ten)) (E0 E1 : ten) : res (list K) :=
  match n with
  | 0 => Ok []
  | S n' =>
      let c1 := cadd c0 d in
      E12 <- apply_TM_1sO c1 d E1 (Some (op2 r)) ;;
      E0 <- apply_TM_1sO c1 d E0 None ;;
      E1 <- apply_TM_1sO c1 d E1 None ;;
      E12 <- match rl with None => apply_edge c1 d E12 | Some f => contract E12 (f c1) [0;1;2] [0;1;2] end ;;
      E00 <- match rl with None => apply_edge c1 d E0 | Some f => contract E0 (f c1) [0;1;2] [0;1;2] end ;;
      a <- scalar E12 ;; b <- scalar E00 ;;
      let m := maxabs E0 in
      rest <- corrf1_loop n' (S r) c1 d op2 rl (rescale m E0) (rescale m E1) ;;
      Ok (div a b :: rest)
  end.
(** corrf.py:980-1067; torch.empty refuses negative sizes *)
Definition corrf_1sO1sO (c0 d : coord) (op1 : ten) (op2 : nat -> ten) (dist : Z) (rl : option ((coord -> ten) * (coord -> ten))) : res (list K) :=
  E <- match rl with None => get_edge c0 (cneg d) | Some f => Ok (fst f c0) end ;;
  E1 <- apply_TM_1sO c0 d E (Some op1) ;;
  E0 <- apply_TM_1sO c0 d E None ;;
  if (dist + 1 <? 0)%Z then Err RuntimeError
  else corrf1_loop (Z.to_nat (dist + 1)) 0 c0 d op2 (option_map snd rl) E0 E1.

(** corrf.py:1128-1154; c0: the next site *)
Fixpoint corrf2h_loop (n r : nat) (c0 d : coord) (op2 : nat -> ten) (E0 E1 : ten) : res (list K) :=
  match n with
  | 0 => Ok []
  | S n' =>
      let c1 := cadd c0 d in
      E12 <- apply_TM_2sO_1sChannel c0 d E1 (Some (op2 r)) ;;
      E0 <- apply_TM_1sO c0 d E0 None ;;
      E1 <- apply_TM_1sO c0 d E1 None ;;
      E12 <- apply_edge c1 d E12 ;;
      E00 <- apply_TM_1sO c1 d E0 None ;;
      E00 <- apply_edge c1 d E00 ;;
      a <- scalar E12 ;; b <- scalar E00 ;;
      let m := maxabs E0 in
      rest <- corrf2h_loop n' (S r) c1 d op2 (rescale m E0) (rescale m E1) ;;
      Ok (div a b :: rest)
  end.
(** corrf.py:1069-1156 *)
Definition corrf_2sOH2sOH_E1 (c0 d : coord) (op1 : ten) (op2 : nat -> ten) (dist : Z) : res (list K) :=
  E <- get_edge c0 (cneg d) ;;
  E1 <- apply_TM_2sO_1sChannel c0 d E (Some op1) ;;
  E0 <- apply_TM_2sO_1sChannel c0 d E None ;;
  if (dist + 1 <? 0)%Z then Err RuntimeError
  else corrf2h_loop (Z.to_nat (dist + 1)) 0 (cadd (cadd c0 d) d) d op2 E0 E1.

(** corrf.py:1207-1242 *)
Fixpoint corrf2v_loop (n r : nat) (c0 d : coord) (op2 : nat -> ten) (E0 E1 : ten) : res (list K) :=
  match n with
  | 0 => Ok []
  | S n' =>
      let c1 := cadd c0 d in
      E12 <- apply_TM_2sO_2sChannel c1 d E1 (Some (op2 r)) ;;
      E0 <- apply_TM_2sO_2sChannel c1 d E0 None ;;
      E1 <- apply_TM_2sO_2sChannel c1 d E1 None ;;
      E12 <- apply_edge c1 d E12 ;;
      E00 <- apply_edge c1 d E0 ;;
      a <- scalar E12 ;; b <- scalar E00 ;;
      let m := maxabs E0 in
      rest <- corrf2v_loop n' (S r) c1 d op2 (rescale m E0) (rescale m E1) ;;
      Ok (div a b :: rest)
  end.
(** corrf.py:1158-1244 *)
Definition corrf_2sOV2sOV_E2 (c0 d : coord) (op1 : ten) (op2 : nat -> ten) (dist : Z) : res (list K) :=
  E <- get_edge_2 c0 (cneg d) ;;
  E1 <- apply_TM_2sO_2sChannel c0 d E (Some op1) ;;
  E0 <- apply_TM_2sO_2sChannel c0 d E None ;;
  if (dist + 1 <? 0)%Z then Err RuntimeError
  else corrf2v_loop (Z.to_nat (dist + 1)) 0 c0 d op2 E0 E1.
End Corr.
