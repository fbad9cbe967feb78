(** The strips of sites drawn in ctm/generic/corrf.py: sites c, c+d, .., c+(n-1)d in their environment.
    Legs of the tensors: as in CornersSpec.  The tensors at the vertices of the lattice are given by
    functions As, Cs, Ts, as in RdmSpec. *)
From Verif Require Import Base Lattice Tensor NetSpec CornersSpec RdmSpec.
From Verif Require Ctm.
From Coq Require Import Field.
Open Scope list_scope.
Open Scope nat_scope.

Inductive dir := Up | Left | Down | Right.
Definition dvec (d : dir) : coord :=
  match d with Up => (0, -1) | Left => (-1, 0) | Down => (0, 1) | Right => (1, 0) end%Z.
Definition dopp (d : dir) : dir := match d with Up => Down | Left => Right | Down => Up | Right => Left end.
(** c + k d *)
Fixpoint along (c : coord) (d : dir) (k : nat) : coord := match k with 0 => c | S k' => cadd (along c d k') (dvec d) end.

(** Bonds.  The bonds of the i-th site are numbered from [base i]: 0 first environment bond, 1 ket, 2 bra, 3
    second environment bond, all shared with the previous site; 4,5 and 6,7 ket and bra bonds to the first (upper
    or left) and to the second environment tensor; 8, 9 physical indices of ket and bra; 10, 11 bonds of the
    closing edge *)
Definition base (i : nat) : nat := 16 * S i.
Definition rim (b : nat) : list leg := [V b; FF (b + 1) (b + 2); V (b + 3)].
Definition ketb (i : nat) : nat := base i + 8.
Definition brab (i : nat) : nat := base i + 9.

Section Strip.
Context {K : Type}.
Notation ten := (tensor K).
Notation network := (@network K).
Variables (cj : K -> K) (As : coord -> ten) (Cs Ts : coord -> coord -> ten).
(** the edge of the site v on its side d, with outer bonds [rim b] and inner bonds x, x+1 *)
Definition edge_net (d : dir) (v : coord) (b x : nat) : network :=
  match d with
  | Up => [(Cs v (-1, -1)%Z, [V b; V x]); (Ts v (0, -1)%Z, [V x; FF (b + 1) (b + 2); V (S x)]); (Cs v (1, -1)%Z, [V (S x); V (b + 3)])]
  | Left => [(Cs v (-1, -1)%Z, [V x; V b]); (Ts v (-1, 0)%Z, [V x; V (S x); FF (b + 1) (b + 2)]); (Cs v (-1, 1)%Z, [V (S x); V (b + 3)])]
  | Down => [(Cs v (-1, 1)%Z, [V b; V x]); (Ts v (0, 1)%Z, [FF (b + 1) (b + 2); V x; V (S x)]); (Cs v (1, 1)%Z, [V (b + 3); V (S x)])]
  | Right => [(Cs v (1, -1)%Z, [V b; V x]); (Ts v (1, 0)%Z, [V x; FF (b + 1) (b + 2); V (S x)]); (Cs v (1, 1)%Z, [V (S x); V (b + 3)])]
  end.
(** the site v with its two environment tensors; p: start of the bonds before, q: of those after it in the order
    left to right or up to down; the others start at b; op: ket and bra indices are not contracted *)
Definition col_net (d : dir) (v : coord) (b : nat) (op : bool) : network :=
  let p := match d with Right | Down => b | _ => b + 16 end in
  let q := match d with Right | Down => b + 16 | _ => b end in
  let s := if op then b + 9 else b + 8 in
  match d with
  | Left | Right =>
      [(Ts v (0, -1)%Z, [V p; FF (b + 4) (b + 5); V q]);
       (As v, [V (b + 8); V (b + 4); V (p + 1); V (b + 6); V (q + 1)]);
       (tmap cj (As v), [V s; V (b + 5); V (p + 2); V (b + 7); V (q + 2)]);
       (Ts v (0, 1)%Z, [FF (b + 6) (b + 7); V (p + 3); V (q + 3)])]
  | Up | Down =>
      [(Ts v (-1, 0)%Z, [V p; V q; FF (b + 4) (b + 5)]);
       (As v, [V (b + 8); V (p + 1); V (b + 4); V (q + 1); V (b + 6)]);
       (tmap cj (As v), [V s; V (p + 2); V (b + 5); V (q + 2); V (b + 7)]);
       (Ts v (1, 0)%Z, [V (p + 3); FF (b + 6) (b + 7); V (q + 3)])]
  end.
(** both ends: edges of the environment, or given tensors *)
Definition first_edge (rl : option (coord -> ten)) (d : dir) (v : coord) : network :=
  match rl with None => edge_net (dopp d) v (base 0) 0 | Some f => [(f v, rim (base 0))] end.
Definition last_edge (rl : option (coord -> ten)) (d : dir) (v : coord) (b : nat) : network :=
  match rl with None => edge_net d v b (b + 10) | Some f => [(f v, rim b)] end.
(** n sites; [op i]: the physical indices of the i-th site are left to an operator *)
Definition strip (rl : option (coord -> ten) * option (coord -> ten)) (d : dir) (c : coord) (n : nat) (op : nat -> bool) : network :=
  first_edge (fst rl) d c ++ flat_map (fun i => col_net d (along c d i) (base i) (op i)) (seq 0 n)
  ++ last_edge (snd rl) d (along c d (n - 1)) (base n).

Definition at_one_of (l : list nat) (i : nat) : bool := existsb (Nat.eqb i) l.
(** the norm of n sites *)
Definition norm_net rl d c n : network := strip rl d c n (fun _ => false).
(** the operators O1 on the first and O2 on the last of n sites; the row index of an operator is that of the bra *)
Definition corr_net rl d c n (O1 O2 : ten) : network :=
  strip rl d c n (at_one_of [0; n - 1]) ++ [(O1, [V (brab 0); V (ketb 0)]); (O2, [V (brab (n - 1)); V (ketb (n - 1))])].
(** the same with the two-site operators O1 on the first two and O2 on the last two of n sites *)
Definition dimer_net rl d c n (O1 O2 : ten) : network :=
  strip rl d c n (at_one_of [0; 1; n - 2; n - 1]) ++
  [(O1, [V (brab 0); V (brab 1); V (ketb 0); V (ketb 1)]);
   (O2, [V (brab (n - 2)); V (brab (n - 1)); V (ketb (n - 2)); V (ketb (n - 1))])].
(** rows and columns exchanged *)
Definition is_transpose (m m' : ten) : Prop :=
  twf m /\ twf m' /\ tdims m' = rev (tdims m) /\ length (tdims m) = 2 /\ forall i j, tget m' [j; i] = tget m [i; j].
(** the same for two-site operators: bra indices first, then ket indices *)
Definition is_transpose2 (m m' : ten) : Prop :=
  twf m /\ twf m' /\ (exists d1 d2 d3 d4, tdims m = [d1; d2; d3; d4] /\ tdims m' = [d3; d4; d1; d2])
  /\ forall i j k l, tget m' [k; l; i; j] = tget m [i; j; k; l].
End Strip.

(** the number a closed network contracts to *)
Definition value {K} (D : nat -> nat) (z o : K) add mul (net : @network K) : K :=
  sum_over D z add (inner net []) (product D z o mul net) (fun _ => 0).

(** an exact singular value decomposition: M = U S V^dagger, U and V with as many columns as there are singular
    values *)
Definition svd_exact {K} (z : K) add mul (cj : K -> K) (svd : tensor K -> res (tensor K * list K * tensor K)) : Prop :=
  forall m n, n <> 0 -> twf m -> tdims m = [n; n] ->
  exists u s v, svd m = Ok (u, s, v) /\ s <> [] /\ twf u /\ twf v /\ tdims u = [n; length s] /\ tdims v = [n; length s] /\
  forall i j, i < n -> j < n -> entry z m [i; j] =
    sum_list z add (map (fun k => mul (entry z u [i; k]) (mul (nth k s z) (cj (entry z v [j; k])))) (seq 0 (length s))).

(** two rows of n sites with upper left site c: the norm, and the two-site operators O1 on the first and O2 on the last
    column *)
Section Rows.
Context {K : Type}.
Variables (cj : K -> K) (As : coord -> tensor K) (Cs Ts : coord -> coord -> tensor K).
Definition rows_norm (c : coord) (n : nat) : network := patch_at cj As Cs Ts n 2 [] c.
Definition on_column (n i : nat) (O : tensor K) : tensor K * list leg :=
  (O, [V (pbra n 2 i 0); V (pbra n 2 i 1); V (pket n 2 i 0); V (pket n 2 i 1)]).
Definition rows_net (c : coord) (n : nat) (O1 O2 : tensor K) : network :=
  patch_at cj As Cs Ts n 2 [(0, 0); (0, 1); (n - 1, 0); (n - 1, 1)] c ++ [on_column n 0 O1; on_column n (n - 1) O2].
End Rows.

(** the scalars form a field; the largest entry of a tensor is zero only if all entries are; the tensors of the
    state and of its environment at the vertices are As, Cs, Ts *)
Definition setting {K} (z o : K) add mul div (maxabs : tensor K -> K) (st : ipeps (tensor K)) e As Cs Ts : Prop :=
  (exists sub opp inv, field_theory z o add mul sub opp div inv eq) /\
  (forall t, maxabs t = z -> forall ix v, tget t ix = Some v -> v = z) /\ sees st e As Cs Ts.

