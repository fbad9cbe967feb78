(** Density matrices: hermitian, of trace one, positive.  A matrix on several sites has the indices
    of its rows followed by those of its columns. *)
From Coq Require Import Field_theory.
From Verif Require Import Base Tensor NetSpec Lattice RdmSpec CtmC4vSpec.
Open Scope list_scope.
Open Scope nat_scope.

(** a field with a conjugation, and an order on its real elements *)
Record order_laws {K} (z o half : K) (add mul sub : K -> K -> K) (opp : K -> K) (div : K -> K -> K) (inv : K -> K)
    (cj : K -> K) (is0 lt0 : K -> bool) (nonneg : K -> Prop) : Prop := {
  ol_field : field_theory z o add mul sub opp div inv eq;
  ol_half : add half half = o;
  ol_is0 : forall x, is0 x = true <-> x = z;
  ol_cj_add : forall x y, cj (add x y) = add (cj x) (cj y);
  ol_cj_mul : forall x y, cj (mul x y) = mul (cj x) (cj y);
  ol_cj_cj : forall x, cj (cj x) = x;
  ol_add : forall x y, nonneg x -> nonneg y -> nonneg (add x y);
  ol_mul : forall x y, nonneg x -> nonneg y -> nonneg (mul x y);
  ol_sq : forall x, nonneg (mul x (cj x));
  ol_real : forall x, nonneg x -> cj x = x;
  ol_lt0 : forall x, cj x = x -> (lt0 x = false <-> nonneg x) }.

Section S.
Context {K : Type} (z o : K) (add mul : K -> K -> K) (cj : K -> K).
Notation ten := (tensor K).
Notation entry := (entry z).
Definition in_shape (ds ix : list nat) : Prop := Forall2 (fun d i => i < d) ds ix.
Definition total {A} (f : A -> K) (l : list A) : K := sum_list z add (map f l).

Definition square (ds : list nat) (R : ten) : Prop := twf R /\ tdims R = ds ++ ds.
Definition hermitian_op (ds : list nat) (R : ten) : Prop :=
  square ds R /\ forall ix iy, in_shape ds ix -> in_shape ds iy -> entry R (ix ++ iy) = cj (entry R (iy ++ ix)).
Definition trace_op (ds : list nat) (R : ten) : K := total (fun ix => entry R (ix ++ ix)) (indices ds).
(** <v|R|v> >= 0 for all v *)
Definition positive_op (nonneg : K -> Prop) (ds : list nat) (R : ten) : Prop :=
  forall v : list nat -> K, nonneg (total (fun ix => total (fun iy => mul (cj (v ix)) (mul (entry R (ix ++ iy)) (v iy))) (indices ds)) (indices ds)).
(** a density matrix; [pos]: positivity is asked for *)
Definition density_op (nonneg : K -> Prop) (pos : bool) (ds : list nat) (R : ten) : Prop :=
  hermitian_op ds R /\ trace_op ds R = o /\ (pos = true -> positive_op nonneg ds R).
(** R is the hermitian part of M divided by the real part of the trace of M *)
Definition normalized_part (half : K) (div : K -> K -> K) (ds : list nat) (M R : ten) : Prop :=
  square ds R /\ forall ix iy, in_shape ds ix -> in_shape ds iy ->
    entry R (ix ++ iy) = div (mul half (add (entry M (ix ++ iy)) (cj (entry M (iy ++ ix)))))
                             (mul half (add (trace_op ds M) (cj (trace_op ds M)))).
(** Tr(R O) and the sum of R_xy O_xy *)
Definition expectation (ds : list nat) (R O : ten) : K :=
  total (fun ix => total (fun iy => mul (entry R (ix ++ iy)) (entry O (iy ++ ix))) (indices ds)) (indices ds).
Definition expectation_t (ds : list nat) (R O : ten) : K :=
  total (fun ix => total (fun iy => mul (entry R (ix ++ iy)) (entry O (ix ++ iy))) (indices ds)) (indices ds).

(** M = U diag(D) U^+ with real D *)
Definition spectral (n : nat) (M : ten) (D : list K) (U : ten) : Prop :=
  length D = n /\ Forall (fun x => cj x = x) D /\ twf U /\ tdims U = [n; n] /\
  forall i j, i < n -> j < n ->
    entry M [i; j] = total (fun k => mul (entry U [i; k]) (mul (nth k D z) (cj (entry U [j; k])))) (seq 0 n).
(** an eigensolver that is right whenever it returns *)
Definition good_eigh (eigh : ten -> res (list K * ten)) : Prop :=
  forall n M D U, hermitian z cj n M -> eigh M = Ok (D, U) -> spectral n M D U.

(** The dimensions of the open sites l of a patch, and what a function for density matrices returns:
    a density matrix made of the contraction of the patch *)
Definition site_dims (D : nat -> nat) w h (l : list (nat * nat)) : list nat := map (fun p => D (pket w h (fst p) (snd p))) l.
Definition returns (half : K) (div : K -> K -> K) (nonneg : K -> Prop) D (As : coord -> ten) (Cs Ts : coord -> coord -> ten)
    (s : bool) w h l (c : coord) (f : res ten) : Prop :=
  exists M, is_contraction D z o add mul (patch_at cj As Cs Ts w h l c) (patch_out w h l) M /\
  (s = false -> l <> [] -> mul half (add (trace_op (site_dims D w h l) M) (cj (trace_op (site_dims D w h l) M))) <> z -> exists R, f = Ok R) /\
  forall R, f = Ok R -> density_op nonneg s (site_dims D w h l) R /\
    (s = false -> normalized_part half div (site_dims D w h l) M R).
End S.
