(** Rotation of every odd site of a state, and the symmetries of single-site states.  Independent of the model. *)
From Verif Require Import Base Tensor PlaqSpec.
Open Scope list_scope.
Open Scope Z_scope.

Section Rot.
Context {K : Type} (k0 k1 : K) (kadd kmul : K -> K -> K) (kopp : K -> K).
Variables (L M : Z) (d : nat).
Notation operator := (@operator K).
Notation on := (on k0 L M).

(** the rotation R sends the amplitude of the basis state i to sg i times that of flip i: R(i,j) = sg i if j = flip i;
    R^2 = eps *)
Variables (flip : nat -> nat) (sg : nat -> K).
Definition signed_flip : Prop := (forall i, (i < d)%nat -> (flip i < d)%nat /\ flip (flip i) = i /\ kmul (sg i) (sg i) = k1) /\
  exists eps, forall i, (i < d)%nat -> kmul (sg i) (sg (flip i)) = eps.
Definition rotation_matrix (r : tensor K) : Prop :=
  forall i j, (i < d)%nat -> (j < d)%nat -> loc1 k0 r [i] [j] = if Nat.eqb j (flip i) then sg i else k0.

Definition odd (p : coord) : bool := Z.odd (fst p + snd p).
Definition flipped (s : config) : config := fun p => if odd p then flip (s p) else s p.
Definition sign (s : config) : K := fold_right kmul k1 (map (fun p => sg (flip (s p))) (filter odd (sites L M))).
(** the expectation value of [O] in the state of [E] with R applied to every odd site: that of R^T O R *)
Definition rotated (E : operator -> K) (O : operator) : K := E (fun s s' => kmul (kmul (sign s) (sign s')) (O (flipped s) (flipped s'))).

(** a local operator with R applied to the marked sites: R^T O R *)
Definition flips (bs : list bool) (i : list nat) : list nat := map (fun bx => if fst bx : bool then flip (snd bx) else snd bx) (combine bs i).
Definition signs (bs : list bool) (i : list nat) : K := fold_right kmul k1 (map (fun bx => if fst bx : bool then sg (flip (snd bx)) else k1) (combine bs i)).
Definition turned (bs : list bool) (O : local) : local := fun i a => kmul (kmul (signs bs i) (signs bs a)) (O (flips bs i) (flips bs a)).
Definition within (n : nat) (i : list nat) : Prop := length i = n /\ Forall (fun x => (x < d)%nat) i.
(** [O] does not change when all its sites are rotated *)
Definition rotation_invariant (n : nat) (O : local) : Prop := forall i a, within n i -> within n a -> turned (repeat true n) O i a = O i a.

(** the state looks the same from every site, and after a quarter turn *)
Definition homogeneous (E : operator -> K) : Prop := forall p ps O, In p (sites L M) -> E (on (map (cadd p) ps) O) = E (on ps O).
Definition quarter_turn (p : coord) : coord := (- snd p, fst p).
Definition isotropic (E : operator -> K) : Prop := forall ps O, E (on (map quarter_turn ps) O) = E (on ps O).

(** sum over third neighbours *)
Definition H_nnnn (B : tensor K) : operator :=
  osum k0 kadd (sites L M) (fun p => oadd kadd (on [p; cadd p (2, 0)] (loc2 k0 B)) (on [p; cadd p (0, 2)] (loc2 k0 B))).
(** sum over plaquettes *)
Definition H_plaq (O : local) : operator := osum k0 kadd (sites L M) (fun p => on (plaquette p) O).
(** the product of four single-site operators *)
Definition prod1111 (A B C D : tensor K) : local := fun i a => match i, a with
  | [i1; i2; i3; i4], [a1; a2; a3; a4] => kmul (kmul (kmul (loc1 k0 A [i1] [a1]) (loc1 k0 B [i2] [a2])) (loc1 k0 C [i3] [a3])) (loc1 k0 D [i4] [a4]) | _, _ => k0 end.
End Rot.
