(** Operators on a periodic L x M lattice, local operators placed on it, and expectation values.
    Independent of the way the code assembles its plaquette tensors. *)
From Verif Require Import Base Tensor.
Open Scope list_scope.
Open Scope Z_scope.

Section Torus.
Context {K : Type} (k0 k1 : K) (kadd kmul ksub : K -> K -> K) (kopp : K -> K).
Variables (L M : Z) (d : nat).

Definition sites : list coord := list_prod (zrange L) (zrange M).
Definition wrap (p : coord) : coord := (fst p mod L, snd p mod M).
(** a basis state: a local state below d on every site *)
Definition config : Type := coord -> nat.
Definition valid (s : config) : Prop := forall p, (s p < d)%nat.
Definition operator : Type := config -> config -> K.
Definition local : Type := list nat -> list nat -> K.
Definition oeq (A B : operator) : Prop := forall s s', valid s -> valid s' -> A s s' = B s s'.

(** the operator [O] acting on the sites [ps], times the identity on all others *)
Definition agree_off (ps : list coord) (s s' : config) : bool :=
  forallb (fun p => existsb (eqb p) ps || Nat.eqb (s p) (s' p)) sites.
Definition on (ps : list coord) (O : local) : operator := fun s s' =>
  if agree_off (map wrap ps) s s' then O (map (fun p => s (wrap p)) ps) (map (fun p => s' (wrap p)) ps) else k0.

Definition oadd (A B : operator) : operator := fun s s' => kadd (A s s') (B s s').
Definition oscale (c : K) (A : operator) : operator := fun s s' => kmul c (A s s').
Definition osum {I} (l : list I) (f : I -> operator) : operator := fun s s' => fold_right kadd k0 (map (fun i => f i s s') l).

(** steps *)
Definition px (p : coord) : coord := (fst p + 1, snd p).
Definition py (p : coord) : coord := (fst p, snd p + 1).
Definition pxy (p : coord) : coord := (fst p + 1, snd p + 1).
(** the sites of a plaquette in the order s0 s1 / s2 s3 *)
Definition plaquette (p : coord) : list coord := [p; px p; py p; pxy p].

(** the bonds of the lattice *)
Definition bonds_x : list (coord * coord) := map (fun p => (p, px p)) sites.
Definition bonds_y : list (coord * coord) := map (fun p => (p, py p)) sites.
Definition bonds_nn := bonds_x ++ bonds_y.
Definition bonds_nnn : list (coord * coord) := map (fun p => (p, pxy p)) sites ++ map (fun p => (py p, px p)) sites.
Definition bond (O : local) (b : coord * coord) : operator := on [fst b; snd b] O.
(** a bond without orientation: the two sites of the lattice in a fixed order *)
Definition unordered (b : coord * coord) : coord * coord :=
  if cleb (wrap (fst b)) (wrap (snd b)) then (wrap (fst b), wrap (snd b)) else (wrap (snd b), wrap (fst b)).
(** two sites are neighbours at displacement [v] or [-v] for one of the given displacements *)
Definition apart (vs : list coord) (p q : coord) : Prop := exists v, In v vs /\ (q = wrap (cadd p v) \/ p = wrap (cadd q v)).

(** local operators *)
Definition loc2 (t : tensor K) : local := fun i a => match i, a with [i1; i2], [a1; a2] => match tget t [i1; i2; a1; a2] with Some v => v | None => k0 end | _, _ => k0 end.
Definition loc1 (t : tensor K) : local := fun i a => match i, a with [i1], [a1] => match tget t [i1; a1] with Some v => v | None => k0 end | _, _ => k0 end.
Definition loc4 (t : tensor K) : local := fun i a => match tget t (i ++ a) with Some v => v | None => k0 end.
(** exchange of the two sites *)
Definition symmetric2 (t : tensor K) : Prop := forall i j a b, (i < d)%nat -> (j < d)%nat -> (a < d)%nat -> (b < d)%nat ->
  loc2 t [i; j] [a; b] = loc2 t [j; i] [b; a].

(** (-1)^(x+y) *)
Definition parity (p : coord) : K := if Z.even (fst p + snd p) then k1 else kopp k1.

(** j1 sum_<ij> A_ij + j2 sum_<<ij>> B_ij - hz sum_i (-1)^(x+y) Z_i + sum_i U_i *)
Definition H_j1j2 (j1 j2 hz : K) (A B Z U : tensor K) : operator :=
  oadd (oadd (oadd (oscale j1 (osum bonds_nn (bond (loc2 A)))) (oscale j2 (osum bonds_nnn (bond (loc2 B)))))
             (oscale (kopp hz) (osum sites (fun p => oscale (parity p) (on [p] (loc1 Z))))))
       (osum sites (fun p => on [p] (loc1 U))).

(** - sum_<ij> A_ij + q sum_p (A_01 A_23)_p - hx sum_i X_i *)
Definition prod22 (A B : tensor K) : local := fun i a => match i, a with
  | [i1; i2; i3; i4], [a1; a2; a3; a4] => kmul (loc2 A [i1; i2] [a1; a2]) (loc2 B [i3; i4] [a3; a4]) | _, _ => k0 end.
Definition H_ising (q hx : K) (A X : tensor K) : operator :=
  oadd (oadd (oscale (kopp k1) (osum bonds_nn (bond (loc2 A)))) (oscale q (osum sites (fun p => on (plaquette p) (prod22 A A)))))
       (oscale (kopp hx) (osum sites (fun p => on [p] (loc1 X)))).

(** sum over horizontal and vertical bonds *)
Definition H_xy (A B : tensor K) : operator := oadd (osum bonds_x (bond (loc2 A))) (osum bonds_y (bond (loc2 B))).
(** j1 sum_<ij> A_ij - q sum_p (Q_01 Q_23 + Q_02 Q_13)_p *)
Definition H_jq (j1 q : K) (A Q : tensor K) : operator :=
  oadd (oscale j1 (osum bonds_nn (bond (loc2 A))))
       (oscale (kopp q) (osum sites (fun p => oadd (on [p; px p; py p; pxy p] (prod22 Q Q)) (on [p; py p; px p; pxy p] (prod22 Q Q))))).
(** sum of A over horizontal bonds and vertical bonds below even rows, alpha times A below odd rows, staggered field *)
Definition H_ladders (alpha bz : K) (A Z : tensor K) : operator :=
  oadd (oadd (osum bonds_x (bond (loc2 A)))
             (osum sites (fun p => oscale (if Z.even (snd p) then k1 else alpha) (bond (loc2 A) (p, py p)))))
       (osum sites (fun p => oscale (kmul bz (parity p)) (on [p] (loc1 Z)))).

(** ** expectation values: linear functionals of operators *)
Definition expectation (E : operator -> K) : Prop :=
  (forall A B, oeq A B -> E A = E B) /\ (forall A B, E (oadd A B) = kadd (E A) (E B)) /\ (forall c A, E (oscale c A) = kmul c (E A)).
(** [r] is the reduced density matrix of the sites [ps]: contracted with the elements of a local
    operator it gives its expectation value *)
Definition reduced (E : operator -> K) (n : nat) (ps : list coord) (r : tensor K) : Prop :=
  tdims r = repeat d (2 * n) /\ twf r /\
  forall O : local, E (on ps O) =
    fold_right kadd k0 (map (fun ix => kmul (match tget r ix with Some v => v | None => k0 end) (O (firstn n ix) (skipn n ix))) (indices (repeat d (2 * n)))).
(** a tiling: [v2s] maps every site of the lattice to one of the inequivalent sites [ks], each of
    which occurs [n] times; the state looks the same from equivalent sites *)
Definition tiling (v2s : coord -> coord) (ks : list coord) (n : nat) : Prop :=
  NoDup ks /\ (forall p, In p sites -> In (v2s p) ks) /\
  (forall k, In k ks -> length (filter (fun p => eqb (v2s p) k) sites) = n).
Definition invariant (E : operator -> K) (v2s : coord -> coord) : Prop :=
  forall p ps O, In p sites -> E (on (map (cadd (csub p (v2s p))) ps) O) = E (on ps O).
(** the four states move one step around the plaquette: 0 -> 1 -> 3 -> 2 -> 0 *)
Definition turn (i : list nat) : list nat := match i with [a; b; c; e] => [c; a; e; b] | _ => i end.
Definition delta (b : bool) : K := if b then k1 else k0.
(** a tensor of eight legs; a basis state of the plaquette *)
Definition plaq_tensor (t : tensor K) : Prop := twf t /\ tdims t = repeat d 8.
Definition plaq_state (i : list nat) : Prop := length i = 4%nat /\ Forall (fun x => (x < d)%nat) i.
(** [A] on the first and [B] on the second site *)
Definition prod11 (A B : tensor K) : local := fun i a => match i, a with
  | [i1; i2], [a1; a2] => kmul (loc1 A [i1] [a1]) (loc1 B [i2] [a2]) | _, _ => k0 end.
(** the 2x2 unit cell *)
Definition ks4 : list coord := [(0, 0); (1, 0); (0, 1); (1, 1)].
Definition v2s2 (p : coord) : coord := (fst p mod 2, snd p mod 2).
(** the n-fold sum of one *)
Fixpoint ofnat (n : nat) : K := match n with O => k0 | S m => kadd k1 (ofnat m) end.
End Torus.
