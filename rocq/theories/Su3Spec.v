(** Specification: the algebra su(3), permutations of three sites, and the triangle Hamiltonian of SU(3) spins. *)
From Verif Require Import Base.
Open Scope list_scope.
Open Scope nat_scope.

Section Spec.
Context {K : Type} (k0 k1 : K) (kadd kmul ksub : K -> K -> K) (kopp : K -> K) (half third im s3 : K) (cj : K -> K).
Notation "a + b" := (kadd a b).
Notation "a * b" := (kmul a b).
Notation "a - b" := (ksub a b).
Definition total (n : nat) (f : nat -> K) : K := fold_right kadd k0 (map f (seq 0 n)).
Definition dirac (b : bool) : K := if b then k1 else k0.
Definition mprod (A B : nat -> nat -> K) (i j : nat) : K := total 3 (fun k => A i k * B k j).
Definition mtrace (A : nat -> nat -> K) : K := total 3 (fun i => A i i).

(** the structure constants f_123 = 1, f_147 = f_246 = f_257 = f_345 = 1/2, f_156 = f_367 = -1/2, f_458 = f_678 = sqrt 3/2 (numbered from 0),
    totally antisymmetric *)
Definition f_table : list (nat * nat * nat * K) :=
  [((0, 1, 2), k1); ((0, 3, 6), half); ((1, 3, 5), half); ((1, 4, 6), half); ((2, 3, 4), half);
   ((0, 4, 5), kopp half); ((2, 5, 6), kopp half); ((3, 4, 7), half * s3); ((5, 6, 7), half * s3)].
Definition same3 (x y : nat * nat * nat) : bool :=
  let '(a, b, c) := x in let '(a', b', c') := y in (a =? a') && (b =? b') && (c =? c').
Definition antisym (a b c : nat) (t : nat * nat * nat) : K :=
  if same3 (a, b, c) t || same3 (b, c, a) t || same3 (c, a, b) t then k1
  else if same3 (b, a, c) t || same3 (a, c, b) t || same3 (c, b, a) t then kopp k1 else k0.
Definition f_const (a b c : nat) : K := fold_right kadd k0 (map (fun e => antisym a b c (fst e) * snd e) f_table).

(** eight Hermitian traceless 3x3 matrices with Tr(G_a G_b) = 2 delta_ab and [G_a, G_b] = 2i f_abc G_c *)
Definition is_su3 (G : nat -> nat -> nat -> K) : Prop :=
  (forall a i j, a < 8 -> i < 3 -> j < 3 -> G a i j = cj (G a j i)) /\
  (forall a, a < 8 -> mtrace (G a) = k0) /\
  (forall a b, a < 8 -> b < 8 -> mtrace (mprod (G a) (G b)) = if a =? b then k1 + k1 else k0) /\
  (forall a b i j, a < 8 -> b < 8 -> i < 3 -> j < 3 ->
     mprod (G a) (G b) i j - mprod (G b) (G a) i j = (k1 + k1) * im * total 8 (fun c => f_const a b c * G c i j)).

(** basis states of three sites; the element <i|P|a> of the operator mapping a to p a *)
Definition state3 (d : nat) (i : list nat) : Prop := length i = 3 /\ Forall (fun x => x < d) i.
Definition moves (p : list nat -> list nat) (i a : list nat) : K := dirac (eqb i (p a)).
Definition sw01 (a : list nat) : list nat := match a with [x; y; w] => [y; x; w] | _ => a end.
Definition sw12 (a : list nat) : list nat := match a with [x; y; w] => [x; w; y] | _ => a end.
Definition sw02 (a : list nat) : list nat := match a with [x; y; w] => [w; y; x] | _ => a end.
(** the state of site 0 moves to 1, 1 to 2, 2 to 0; and back *)
Definition cyc (a : list nat) : list nat := match a with [x; y; w] => [w; x; y] | _ => a end.
Definition cyc' (a : list nat) : list nat := match a with [x; y; w] => [y; w; x] | _ => a end.
Definition bonds3 (i a : list nat) : K := moves sw01 i a + moves sw12 i a + moves sw02 i a.
(** three equal states *)
Definition equal3 (i : list nat) : bool := match i with [x; y; w] => (x =? y) && (y =? w) | _ => false end.
(** J (P_01 + P_12 + P_20) + (K + i h) P_012 + (K - i h) P_012^-1 *)
Definition H_triangle (J Kc h : K) (i a : list nat) : K :=
  J * bonds3 i a + (Kc + im * h) * moves cyc i a + (Kc - im * h) * moves cyc' i a.
End Spec.
