(** The strips drawn in ctm/one_site_c4v/corrf_c4v.py: n columns of h sites with the same tensor,
    inside copies of C and T turned along the boundary as in RdmC4vSpec: going around clockwise, the
    first index of C comes first and the first index of T comes last. *)
From Verif Require Import Base Tensor NetSpec CornersSpec CorrSpec.
From Coq Require Import Field.
Open Scope list_scope.
Open Scope nat_scope.

(** Bonds of the column that starts at b: environment above and below, shared with the previous column; ket and bra to
    the previous column in row j; ket and bra above row j; physical indices of row j; bonds of the closing edge *)
Definition at_col (i : nat) : nat := 32 * S i.
Definition b_top (b : nat) : nat := b.
Definition b_bot (b : nat) : nat := b + 1.
Definition b_hk (b j : nat) : nat := b + (2 + 2 * j).
Definition b_hb (b j : nat) : nat := b + (3 + 2 * j).
Definition b_vk (b j : nat) : nat := b + (8 + 2 * j).
Definition b_vb (b j : nat) : nat := b + (9 + 2 * j).
Definition b_ket (b j : nat) : nat := b + (14 + 2 * j).
Definition b_bra (b j : nat) : nat := b + (15 + 2 * j).
Definition b_end (b j : nat) : nat := b + (18 + j).

Section Strip.
Context {K : Type}.
Notation ten := (tensor K).
Notation network := (@network K).
Variables (cj : K -> K) (C T a : ten) (h : nat).
Definition rims (b : nat) : list leg := V (b_top b) :: map (fun j => FF (b_hk b j) (b_hb b j)) (seq 0 h) ++ [V (b_bot b)].
(** a column; [op]: the ket and bra indices are left to an operator *)
Definition column (b : nat) (op : bool) : network :=
  (T, [V (b_top (b + 32)); V (b_top b); FF (b_vk b 0) (b_vb b 0)]) ::
  flat_map (fun j =>
    [(a, [V (b_ket b j); V (b_vk b j); V (b_hk b j); V (b_vk b (S j)); V (b_hk (b + 32) j)]);
     (tmap cj a, [V (if op then b_bra b j else b_ket b j); V (b_vb b j); V (b_hb b j); V (b_vb b (S j)); V (b_hb (b + 32) j)])]) (seq 0 h) ++
  [(T, [V (b_bot b); V (b_bot (b + 32)); FF (b_vk b h) (b_vb b h)])].
(** the left edge, with inner bonds 0..h from top to bottom *)
Definition left_end (b : nat) : network :=
  (C, [V 0; V (b_top b)]) :: map (fun j => (T, [V j; V (S j); FF (b_hk b j) (b_hb b j)])) (seq 0 h) ++ [(C, [V (b_bot b); V h])].
Definition right_end (b : nat) : network :=
  (C, [V (b_top b); V (b_end b 0)]) ::
  map (fun j => (T, [V (b_end b (S j)); V (b_end b j); FF (b_hk b j) (b_hb b j)])) (seq 0 h) ++ [(C, [V (b_end b h); V (b_bot b)])].
(** or given tensors at both ends *)
Definition left_of (rl : option (ten * ten)) (b : nat) : network := match rl with None => left_end b | Some (l, _) => [(l, rims b)] end.
Definition right_of (rl : option (ten * ten)) (b : nat) : network := match rl with None => right_end b | Some (_, r) => [(r, rims b)] end.
(** n columns; [op i]: the physical indices of column i are left to an operator *)
Definition columns (rl : option (ten * ten)) (n : nat) (op : nat -> bool) : network :=
  left_of rl (at_col 0) ++ flat_map (fun i => column (at_col i) (op i)) (seq 0 n) ++ right_of rl (at_col n).
Definition norm_of rl n : network := columns rl n (fun _ => false).
End Strip.

(** operators: the row index is that of the bra *)
Definition on_site {K} (i : nat) (O : tensor K) : tensor K * list leg := (O, [V (b_bra (at_col i) 0); V (b_ket (at_col i) 0)]).
Definition on_row {K} (i : nat) (O : tensor K) : tensor K * list leg :=
  (O, [V (b_bra (at_col i) 0); V (b_bra (at_col (S i)) 0); V (b_ket (at_col i) 0); V (b_ket (at_col (S i)) 0)]).
Definition on_column {K} (i : nat) (O : tensor K) : tensor K * list leg :=
  (O, [V (b_bra (at_col i) 0); V (b_bra (at_col i) 1); V (b_ket (at_col i) 0); V (b_ket (at_col i) 1)]).
Section Nets.
Context {K : Type} (cj : K -> K) (C T a : tensor K).
(** one-site operators on the first and on the last of n sites *)
Definition sites_net rl n (O1 O2 : tensor K) : network :=
  columns cj C T a 1 rl n (at_one_of [0; n - 1]) ++ [on_site 0 O1; on_site (n - 1) O2].
(** two-site operators on the first two and on the last two of n sites *)
Definition row_net n (O1 O2 : tensor K) : network :=
  columns cj C T a 1 None n (at_one_of [0; 1; n - 2; n - 1]) ++ [on_row 0 O1; on_row (n - 2) O2].
(** two rows: on the first and on the last of n columns *)
Definition column_net n (O1 O2 : tensor K) : network :=
  columns cj C T a 2 None n (at_one_of [0; n - 1]) ++ [on_column 0 O1; on_column (n - 1) O2].
End Nets.

(** the first two indices of T exchanged *)
Definition is_reflection {K} (t t' : tensor K) : Prop :=
  twf t /\ twf t' /\ (exists d1 d2 d3, tdims t = [d1; d2; d3] /\ tdims t' = [d2; d1; d3]) /\ forall i j k, tget t' [j; i; k] = tget t [i; j; k].

(** scalars: a field; the largest entry of a tensor vanishes only if all do *)
Definition scalars {K} (z o : K) add mul div (maxabs : tensor K -> K) : Prop :=
  (exists sub opp inv, field_theory z o add mul sub opp div inv eq) /\
  (forall t, maxabs t = z -> forall ix v, tget t ix = Some v -> v = z).
(** real tensors; torch.svd decomposes real matrices into real factors *)
Definition real {K} (cj : K -> K) (t : tensor K) : Prop := forall ix v, tget t ix = Some v -> cj v = v.
Definition svd_real {K} (z : K) add mul (cj : K -> K) (svd : tensor K -> res (tensor K * list K * tensor K)) : Prop :=
  forall m n, n <> 0 -> twf m -> tdims m = [n; n] -> real cj m ->
  exists u s v, svd m = Ok (u, s, v) /\ s <> [] /\ twf u /\ twf v /\ tdims u = [n; length s] /\ tdims v = [n; length s] /\ real cj v /\
  forall i j, i < n -> j < n -> entry z m [i; j] =
    sum_list z add (map (fun k => mul (entry z u [i; k]) (mul (nth k s z) (cj (entry z v [j; k])))) (seq 0 (length s))).
(** a singular value decomposition of m *)
Definition orthonormal {K} (z o : K) add mul (cj : K -> K) (u : tensor K) : Prop :=
  twf u /\ exists n k, tdims u = [n; k] /\ forall i j, i < k -> j < k ->
  sum_list z add (map (fun r => mul (cj (entry z u [r; i])) (entry z u [r; j])) (seq 0 n)) = if i =? j then o else z.
Definition is_svd {K} (z o : K) add mul (cj : K -> K) (m u : tensor K) (s : list K) (v : tensor K) : Prop :=
  orthonormal z o add mul cj u /\ orthonormal z o add mul cj v /\ exists n, tdims m = [n; n] /\ tdims u = [n; length s] /\ tdims v = [n; length s] /\
  forall i j, i < n -> j < n -> entry z m [i; j] =
    sum_list z add (map (fun k => mul (entry z u [i; k]) (mul (nth k s z) (cj (entry z v [j; k])))) (seq 0 (length s))).
