(** The C4v symmetric environment and the step of the CTM algorithm drawn in
    ctm/one_site_c4v/env_c4v.py:21-53 and in the comments of ctmrg_c4v.py:
      site  s, up, left, down, right        C  down, right        T  up, down, right
    with C_ij = C*_ji and T_ija = T*_jia. *)
From Coq Require Import Field_theory.
From Verif Require Import Base Tensor NetSpec CornersSpec.
Open Scope list_scope.
Open Scope nat_scope.

(** a field with a conjugation, a magnitude and the norms of lists of numbers, whose values are real *)
Record scalar_laws {K} (z o half : K) (add mul sub : K -> K -> K) (opp : K -> K) (div : K -> K -> K) (inv : K -> K)
    (cj vabs : K -> K) (is0 : K -> bool) (vnorm : bool -> list K -> K) : Prop := {
  sl_field : field_theory z o add mul sub opp div inv eq;
  sl_half : add half half = o;
  sl_is0 : forall x, is0 x = true <-> x = z;
  sl_cj_add : forall x y, cj (add x y) = add (cj x) (cj y);
  sl_cj_mul : forall x y, cj (mul x y) = mul (cj x) (cj y);
  sl_cj_cj : forall x, cj (cj x) = x;
  sl_abs_real : forall x, cj (vabs x) = vabs x;
  sl_abs_unit : forall x, vabs x <> z -> vabs (div x (vabs x)) = o;
  sl_norm_real : forall b l, cj (vnorm b l) = vnorm b l }.

Section S.
Context {K : Type} (z : K) (cj : K -> K).
Notation ten := (tensor K).
Notation entry := (entry z).
Definition shaped (dims : list nat) (t : ten) : Prop := twf t /\ tdims t = dims.

Definition hermitian (n : nat) (M : ten) : Prop :=
  shaped [n; n] M /\ forall i j, i < n -> j < n -> entry M [i; j] = cj (entry M [j; i]).
Definition diagonal (n : nat) (M : ten) : Prop := forall i j, i < n -> j < n -> i <> j -> entry M [i; j] = z.
Definition row_hermitian (n m : nat) (T : ten) : Prop :=
  shaped [n; n; m] T /\ forall i j k, i < n -> j < n -> k < m -> entry T [i; j; k] = cj (entry T [j; i; k]).
Definition symmetric_env (chi D : nat) (e : ten * ten) : Prop :=
  hermitian chi (fst e) /\ row_hermitian chi (D * D) (snd e).
(** the reflections that exchange up-left and down-right, and up and down, act as complex
    conjugation: real tensors in the irrep A1, and A1 + i A2 *)
Definition c4v_site (d D : nat) (a : ten) : Prop :=
  shaped [d; D; D; D; D] a /\
  forall s u l w r, s < d -> u < D -> l < D -> w < D -> r < D ->
    entry a [s; u; l; w; r] = cj (entry a [s; l; u; r; w]) /\
    entry a [s; u; l; w; r] = cj (entry a [s; w; l; u; r]).

(** ** the networks; dimensions of their bonds *)
Definition dims_corner (chi d D : nat) (l : nat) : nat :=
  if in_dec Nat.eq_dec l [0; 1; 4; 5; 13; 14] then chi else if l =? 8 then d else D.
Definition dims_row (chi d D : nat) (l : nat) : nat :=
  if in_dec Nat.eq_dec l [0; 3; 10; 11] then chi else if l =? 12 then d else D.
(** C--1 1--T--4      the lower index of the left T is 5, the lower bonds of the site 9 (ket)
    0       2,3       and 11 (bra), its right bonds 10 and 12
    0       2,3
    T--6,7--a--10,12
    5      9,11 *)
Definition net_corner (C T a : ten) : list (ten * list leg) :=
  [(C, [V 0; V 1]); (T, [V 4; V 1; FF 2 3]); (T, [V 0; V 5; FF 6 7]);
   (a, [V 8; V 2; V 6; V 9; V 10]); (tmap cj a, [V 8; V 3; V 7; V 11; V 12])].
Definition out_corner : list leg := [F (V 5) (FF 9 11); F (V 4) (FF 10 12)].
(** the same with a projector on each side *)
Definition net_new_corner (C T a P : ten) : list (ten * list leg) :=
  net_corner C T a ++ [(tmap cj P, [F (V 5) (FF 9 11); V 13]); (P, [F (V 4) (FF 10 12); V 14])].
(**   10
      P--1,2
      0   |
      T---a--8,9
      3   |
      P*-6,7
      11 *)
Definition net_row (T a P : ten) : list (ten * list leg) :=
  [(P, [F (V 0) (FF 1 2); V 10]); (T, [V 0; V 3; FF 4 5]); (a, [V 12; V 1; V 4; V 6; V 8]);
   (tmap cj a, [V 12; V 2; V 5; V 7; V 9]); (tmap cj P, [F (V 3) (FF 6 7); V 11])].
Definition out_row : list leg := [V 10; V 11; FF 8 9].

(** ** decompositions *)
Definition diag (l : list K) : ten :=
  tbuild [length l; length l] (fun ix => if nth 0 ix 0 =? nth 1 ix 0 then nth (nth 0 ix 0) l z else z).
Definition real_values (chi : nat) (l : list K) : Prop := length l = chi /\ Forall (fun x => cj x = x) l.
(** P^+ M P = diag(l) *)
Definition diagonalizes (o : K) (add mul : K -> K -> K) (n chi : nat) (M : ten) (l : list K) (P : ten) : Prop :=
  shaped [n; chi] P /\
  is_contraction (fun k => if k <? 2 then n else chi) z o add mul
    [(tmap cj P, [V 0; V 2]); (M, [V 0; V 1]); (P, [V 1; V 3])] [V 2; V 3] (diag l).
End S.
