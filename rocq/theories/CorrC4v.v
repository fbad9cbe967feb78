(** Model of the correlation functions of the C4v symmetric one-site iPEPS,
    ctm/one_site_c4v/corrf_c4v.py, as functions of the site tensor a and of the tensors C and T of
    the environment.  Division, the largest modulus of a tensor and torch.svd are parameters.
    Left out: devices, dtypes, printing. *)
From Verif Require Import Base Tensor Net Corners Corr.
Open Scope list_scope.
Open Scope nat_scope.
Open Scope res_scope.

Section CorrC4v.
Context {K : Type} (z o : K) (add mul : K -> K -> K) (cj : K -> K).
Notation ten := (tensor K).
Notation contract := (tensordot z o add mul).
Notation einsum := (einsum z o add mul).
Notation permute := (permute z).
Notation conj := (conj cj).
Variables (C T a : ten).

(** corrf_c4v.py:5-41 *)
Definition edge : res ten :=
  x <- contract C T [0] [0] ;;
  contract x C [1] [0].
(** corrf_c4v.py:43-83; the loop over i = 1..l *)
Fixpoint edge_loop (T' : ten) (n i : nat) (E : ten) : res ten :=
  match n with
  | 0 => Ok E
  | S n' => E <- contract E T' [i] [0] ;; edge_loop T' n' (S i) E
  end.
Definition edge_L (l : nat) : res ten :=
  T' <- permute T [1;2;0] ;;
  E <- edge_loop T' l 1 C ;;
  contract E C [l + 1] [0].
(** corrf_c4v.py:85-142 *)
Definition close_edge (vec : ten) : res ten :=
  x <- contract vec C [0] [0] ;;
  x <- contract x T [0;2] [2;1] ;;
  contract x C [0;1] [1;0].
(** corrf_c4v.py:144-176; a negative l makes range empty *)
Definition close_edge_L (vec : ten) : res ten :=
  let n := length (tdims vec) in
  E <- edge_L (n - 2) ;;
  contract vec E (seq 0 n) (rev (seq 0 n)).

(** torch.eye(d), torch.eye(d)[:,:,None] *)
Definition eye (d : nat) : ten := tbuild [d; d] (fun ix => match ix with [i; j] => if i =? j then o else z | _ => z end).
Definition eye3 (d : nat) : ten := tbuild [d; d; 1] (fun ix => match ix with i :: j :: _ => if i =? j then o else z | _ => z end).
Definition dims2 : list nat := [size a 1 ^ 2; size a 2 ^ 2; size a 3 ^ 2; size a 4 ^ 2].
(** 'mefgh,mn,nabcd->eafbgchd', and with the extra index l of the operator *)
Definition layer2 (X : ten) : res ten :=
  x <- einsum [(a, [0;1;2;3;4]); (X, [0;5]); (conj a, [5;6;7;8;9])] [1;6;2;7;3;8;4;9] ;; view x dims2.
Definition layer3 (X : ten) : res ten :=
  x <- einsum [(a, [0;1;2;3;4]); (X, [0;5;10]); (conj a, [5;6;7;8;9])] [1;6;2;7;3;8;4;9;10] ;; view_rest x dims2.

(** corrf_c4v.py:178-271 *)
Definition tm1 (op : option ten) (E : ten) : res ten :=
  X <- match op with None => Ok (eye (size a 0)) | Some X => if length (tdims X) =? 2 then Ok X else Err AssertionError end ;;
  x <- contract E T [0] [1] ;;
  A <- layer2 X ;;
  x <- contract x A [0;3] [1;0] ;;
  contract x T [0;2] [0;2].

(** torch.svd(M): U, the singular values, V with M = U S V^dagger *)
Variable svd : ten -> res (ten * list K * ten).
(** corrf_c4v.py:317-326 and 476-486 *)
Definition split_op (op : ten) : res (ten * ten) :=
  let d := size op 0 in
  m <- permute op [0;2;1;3] ;;
  m <- view m [d ^ 2; d ^ 2] ;;
  ' (u, s, v) <- svd m ;;
  l <- view u [d; d; length s] ;;
  vt <- permute v [1;0] ;;
  r <- einsum [(mkT [length s] s, [0]); (vt, [0;1])] [0;1] ;;
  r <- view r [length s; d; d] ;;
  r <- permute r [1;2;0] ;;
  Ok (l, r).
(** corrf_c4v.py:330-359, without operator *)
Definition layer_none : res ten :=
  x <- einsum [(a, [0;1;2;3;4]); (conj a, [0;5;6;7;8])] [1;5;2;6;3;7;4;8] ;; view x dims2.
(** corrf_c4v.py:273-433 *)
Definition tm1_2 (op : option ten) (E : ten) : res ten :=
  lr <- match op with
        | None => Ok None
        | Some m => if length (tdims m) =? 4 then p <- split_op m ;; Ok (Some p) else Err ValueError
        end ;;
  x <- contract T E [1] [0] ;;
  match lr with
  | None =>
      A <- layer_none ;; x <- contract x A [1;2] [0;1] ;;
      A <- layer_none ;; x <- contract x A [1;3] [1;0] ;;
      contract x T [1;3] [0;2]
  | Some (l, r) =>
      A <- layer3 l ;; x <- contract x A [1;2] [0;1] ;;
      A <- layer3 r ;; x <- contract x A [1;3;5] [1;0;4] ;;
      contract x T [1;3] [0;2]
  end.
(** corrf_c4v.py:435-591 *)
Definition tm2 (op : option ten) (E : ten) : res ten :=
  ' (l, r) <- match op with
              | None => Ok (eye3 (size a 0), eye3 (size a 0))
              | Some m => if length (tdims m) =? 4 then split_op m else Err AssertionError
              end ;;
  x <- contract E T [0] [1] ;;
  A <- layer3 l ;;
  x <- contract x A [0;3] [1;0] ;;
  x <- contract x T [0;2] [0;2] ;;
  x <- contract x T [0] [1] ;;
  A <- layer3 r ;;
  x <- contract x A [0;1;4] [1;4;0] ;;
  contract x T [0;2] [0;2].

Variable div : K -> K -> K.
Variable maxabs : ten -> K.
(** The loops of the three functions: [ins], applied to E1 and the operator; [tm], one column; [last] and [last0],
    applied to E12 and to E0 *)
Fixpoint loop (ins : ten -> ten -> res ten) (tm last last0 : ten -> res ten) (op2 : nat -> ten) (n r : nat) (E0 E1 : ten) : res (list K) :=
  match n with
  | 0 => Ok []
  | S n' =>
      E12 <- ins (op2 r) E1 ;;
      E0 <- tm E0 ;;
      E1 <- tm E1 ;;
      E12 <- last E12 ;;
      E00 <- last0 E0 ;;
      x <- scalar z E12 ;; y <- scalar z E00 ;;
      let m := maxabs E0 in
      rest <- loop ins tm last last0 op2 n' (S r) (rescale div m E0) (rescale div m E1) ;;
      Ok (div x y :: rest)
  end.
Definition entries (dist : Z) (f : nat -> res (list K)) : res (list K) :=
  if (dist + 1 <? 0)%Z then Err RuntimeError else f (Z.to_nat (dist + 1)).
(** corrf_c4v.py:593-664; rl: the optional edges *)
Definition corrf_1sO1sO (op1 : ten) (op2 : nat -> ten) (dist : Z) (rl : option (ten * ten)) : res (list K) :=
  E <- match rl with None => edge | Some f => Ok (fst f) end ;;
  E1 <- tm1 (Some op1) E ;;
  E0 <- tm1 None E ;;
  let last := match rl with None => close_edge | Some f => fun x => contract x (snd f) [0;1;2] [0;1;2] end in
  entries dist (fun n => loop (fun op => tm1 (Some op)) (tm1 None) last last op2 n 0 E0 E1).
(** corrf_c4v.py:666-737 *)
Definition corrf_2sOH2sOH_E1 (op1 : ten) (op2 : nat -> ten) (dist : Z) : res (list K) :=
  E <- edge ;;
  E1 <- tm2 (Some op1) E ;;
  E0 <- tm2 None E ;;
  entries dist (fun n => loop (fun op => tm2 (Some op)) (tm1 None) close_edge (fun x => y <- tm1 None x ;; close_edge y) op2 n 0 E0 E1).
End CorrC4v.
Section CorrC4v2.
Context {K : Type} (z o : K) (add mul : K -> K -> K) (cj : K -> K) (C T a : tensor K) (svd : tensor K -> res (tensor K * list K * tensor K)) (div : K -> K -> K) (maxabs : tensor K -> K).
(** corrf_c4v.py:739-807; Te: the tensor T of the edges *)
Definition corrf_2sOV_edges (Te op1 : tensor K) (op2 : nat -> tensor K) (dist : Z) : res (list K) :=
  let tm := tm1_2 z o add mul cj T a svd in let last := close_edge_L z o add mul C Te in
  E <- edge_L z o add mul C Te 2 ;;
  E1 <- tm (Some op1) E ;;
  E0 <- tm None E ;;
  entries dist (fun n => loop z div maxabs (fun op => tm (Some op)) (tm None) last last op2 n 0 E0 E1).
Definition corrf_2sOV2sOV_E2 := corrf_2sOV_edges T.
End CorrC4v2.
