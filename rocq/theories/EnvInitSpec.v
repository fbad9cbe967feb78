(** What a starting environment is.  The environment tensor in direction d of a vertex v stands
    for the double-layer tensor of the site at v+d.  The legs of that site that point away from v
    are closed, the others are open, ket and bra fused, in the order up, left, down, right.  The
    tensor is divided by its largest absolute value, and its boundary legs are cut or filled up
    with zeros to the dimension chi. *)
From Verif Require Import Base Lattice Tensor NetSpec CornersSpec.
From Verif Require Ctm ExtendSpec.
Open Scope list_scope.
Open Scope nat_scope.

(** the sides of a site: up, left, down, right *)
Definition side (k : nat) : coord := nth k [(0, -1); (-1, 0); (0, 1); (1, 0)]%Z (0, 0)%Z.
Definition sides : list nat := [0; 1; 2; 3].
(** the side of the site at v+d that points away from v: a component of d *)
Definition outward (d : coord) (k : nat) : bool :=
  (negb (fst (side k) =? 0)%Z && (fst (side k) =? fst d)%Z) || (negb (snd (side k) =? 0)%Z && (snd (side k) =? snd d)%Z).
Definition inward (d : coord) (k : nat) : bool := negb (outward d k).
(** the side of the site at v+d that touches v *)
Definition facing (d : coord) (k : nat) : bool := eqb (side k) (cneg d).
Definition corner_dirs : list coord := [(-1, -1); (1, -1); (1, 1); (-1, 1)]%Z.
Definition edge_dirs : list coord := [(0, -1); (-1, 0); (0, 1); (1, 0)]%Z.

Section Spec.
Context {K : Type} (z o : K) (add mul div : K -> K -> K).
Notation ten := (tensor K).

(** Bonds of a site and its bra: 0 physical, 1-4 the sides of the ket, 5-8 those of the bra. *)
Definition bd (A : ten) (k : nat) : nat := nth (if k <=? 4 then k else k - 4) (tdims A) 1.
(** closed legs: ket and bra contracted with each other, or both summed on their own *)
Inductive closing := Traced | Summed.
Definition layers (cl : closing) (open : nat -> bool) (A B : ten) : @network K :=
  [(A, V 0 :: map (fun k => V (1 + k)) sides);
   (B, V 0 :: map (fun k => V (if open k then 5 + k else match cl with Traced => 1 + k | Summed => 5 + k end)) sides)].
Definition fused (open : nat -> bool) : list leg := map (fun k => FF (1 + k) (5 + k)) (filter open sides).
Definition start_dims (chi : nat) (d : coord) (open : nat -> bool) (n : nat -> nat) : list nat :=
  map (fun k => if facing d k then n k else chi) (filter open sides).
(** a site without a physical index; bonds 1-4 *)
Definition bd1 (A : ten) (k : nat) : nat := nth k (1 :: tdims A) 1.
Definition bare (A : ten) : @network K := [(A, map (fun k => V (1 + k)) sides)].
Definition legs1 (open : nat -> bool) : list leg := map (fun k => V (1 + k)) (filter open sides).

Variable amax : ten -> K.
Definition unit_scale (M : ten) : ten := tmap (fun x => div x (amax M)) M.
(** from ket A and bra B *)
Definition is_start (cl : closing) (chi : nat) (d : coord) (A B t : ten) : Prop :=
  exists M, is_contraction (bd A) z o add mul (layers cl (inward d) A B) (fused (inward d)) M /\
    ExtendSpec.padded z (unit_scale M) (start_dims chi d (inward d) (fun k => bd A (1 + k) * bd A (5 + k))) t.
(** from a site without a physical index *)
Definition is_start1 (chi : nat) (d : coord) (A t : ten) : Prop :=
  exists M, is_contraction (bd1 A) z o add mul (bare A) (legs1 (inward d)) M /\
    ExtendSpec.padded z (unit_scale M) (start_dims chi d (inward d) (fun k => bd1 A (1 + k))) t.
(** a blank tensor: its facing leg fits the leg of the vertex's own site on the side of d *)
Definition opposite (k : nat) : nat := (k + 2) mod 4.
Definition blank_dims (chi : nat) (d : coord) (A : ten) : list nat :=
  start_dims chi d (inward d) (fun k => bd A (1 + opposite k) * bd A (5 + opposite k)).
Definition blank_dims1 (chi : nat) (d : coord) (A : ten) : list nat := start_dims chi d (inward d) (fun k => bd1 A (1 + opposite k)).
(** Product environments: all legs of the site but the facing one are closed; the vector obtained
    sits on the facing leg, at the first value of the boundary legs. *)
Definition on_legs (d : coord) (ix : list nat) : list (nat * nat) := combine (filter (inward d) sides) ix.
Definition is_line (d : coord) (dims : list nat) (w t : ten) : Prop :=
  twf t /\ tdims t = dims /\
  forall ix, Forall2 lt ix dims -> tget t ix = Some (
    if forallb (fun ki => facing d (fst ki) || (snd ki =? 0)) (on_legs d ix)
    then entry z w (map snd (filter (fun ki => facing d (fst ki)) (on_legs d ix))) else z).
Definition is_product (scale : ten -> ten) (chi : nat) (d : coord) (A B t : ten) : Prop :=
  exists M, is_contraction (bd A) z o add mul (layers Traced (facing d) A B) (fused (facing d)) M /\
    is_line d (start_dims chi d (inward d) (fun k => bd A (1 + k) * bd A (5 + k))) (scale M) t.
Definition is_product1 (scale : ten -> ten) (chi : nat) (d : coord) (A t : ten) : Prop :=
  exists M, is_contraction (bd1 A) z o add mul (bare A) (legs1 (facing d)) M /\
    is_line d (start_dims chi d (inward d) (fun k => bd1 A (1 + k))) (scale M) t.
(** the upper tensor is not divided by its largest absolute value *)
Definition prod_scale (d : coord) (M : ten) : ten := if eqb d (0, -1)%Z then M else unit_scale M.
(** one in the upper left corner *)
Definition is_unit_corner (chi : nat) (t : ten) : Prop :=
  twf t /\ tdims t = [chi; chi] /\ forall i j, i < chi -> j < chi -> tget t [i; j] = Some (if (i =? 0) && (j =? 0) then o else z).

(** ** States *)
Definition site5 (A : ten) : Prop := twf A /\ length (tdims A) = 5.
Definition site4 (A : ten) : Prop := twf A /\ length (tdims A) = 4.
(** the state has a tensor at every vertex, and P holds of all its tensors *)
Definition whole (st : ipeps ten) (sites : dict coord ten) (P : ten -> Prop) : Prop :=
  i_sites st = Some sites /\ sites <> [] /\ (forall v, exists k A, i_v2s st v = Ok k /\ dget sites k = Some A) /\
  (forall k A, In (k, A) sites -> P A).
(** neighbours of equivalent vertices are equivalent *)
Definition consistent (st : ipeps ten) : Prop :=
  forall v k d, i_v2s st v = Ok k -> i_v2s st (cadd v d) = i_v2s st (cadd k d).
(** the tensors in the directions ds: at the vertex v, found under the key k of v, a tensor made
    from the site at v+d *)
Definition built (st : ipeps ten) (get : coord -> coord -> res ten) (ds : list coord) (Q : coord -> ten -> ten -> Prop) : Prop :=
  forall v d, In d ds -> exists k A t, i_v2s st v = Ok k /\ ipeps_site st (cadd v d) = Ok A /\ get k d = Ok t /\ Q d A t.
(** two states on the same lattice: equivalent vertices of the first are equivalent in the second *)
Definition same_period (st1 st2 : ipeps ten) : Prop := forall v k d, i_v2s st1 v = Ok k -> i_v2s st2 (cadd v d) = i_v2s st2 (cadd k d).
(** the two states have tensors of equal dimensions at every vertex *)
Definition same_dims (st1 st2 : ipeps ten) : Prop :=
  forall v A1 A2, ipeps_site st1 v = Ok A1 -> ipeps_site st2 v = Ok A2 -> tdims A2 = tdims A1.
Definition built_overlap (st1 st2 : ipeps ten) (get : coord -> coord -> res ten) (ds : list coord) (Q : coord -> ten -> ten -> ten -> Prop) : Prop :=
  forall v d, In d ds -> exists k A1 A2 t, i_v2s st1 v = Ok k /\ ipeps_site st1 (cadd v d) = Ok A1 /\ ipeps_site st2 (cadd v d) = Ok A2 /\
    get k d = Ok t /\ Q d A1 A2 t.

(** ** The C4v variant: one corner and one half-row tensor for all directions.  The corner is
    diagonalized, [w], [U] its eigenvalues and eigenvectors, and the half-row tensor is given in
    the basis of the eigenvectors. *)
Definition equal_legs (A : ten) (n : nat) : Prop := forall k, k < 4 -> bd A (1 + k) = n.
Definition rotated (U M : ten) (cj : K -> K) : @network K := [(U, [V 0; V 1]); (M, [V 0; V 2; V 3]); (tmap cj U, [V 2; V 4])].
Definition diagonal (w : list K) (t : ten) : Prop :=
  twf t /\ tdims t = [length w; length w] /\ forall i j, i < length w -> j < length w -> tget t [i; j] = Some (if i =? j then nth i w z else z).

(** the tensors to be scaled do not vanish *)
Variable is0 : K -> bool.
Definition nonzero (cl : closing) (d : coord) (A B : ten) : Prop :=
  forall M, is_contraction (bd A) z o add mul (layers cl (inward d) A B) (fused (inward d)) M -> is0 (amax M) = false.
Definition nonzero1 (d : coord) (A : ten) : Prop :=
  forall M, is_contraction (bd1 A) z o add mul (bare A) (legs1 (inward d)) M -> is0 (amax M) = false.
(** open boundaries: sites with or without a physical index; the bra is the ket itself *)
Definition obc_tensor (chi : nat) (d : coord) (A t : ten) : Prop :=
  (site5 A -> is_start Summed chi d A A t) /\ (site4 A -> is_start1 chi d A t).
Definition obc_ready (d : coord) (A : ten) : Prop := (site5 A /\ nonzero Summed d A A) \/ (site4 A /\ nonzero1 d A).
(** product environments *)
Variable cj : K -> K.
Definition prod_tensor (chi : nat) (d : coord) (A t : ten) : Prop :=
  (site5 A -> is_product (prod_scale d) chi d A (tmap cj A) t) /\ (site4 A -> is_product1 (prod_scale d) chi d A t).
(** nothing is asked for the upper tensor *)
Definition prod_ready (d : coord) (A : ten) : Prop := (site5 A \/ site4 A) /\ (d <> (0, -1)%Z ->
  (forall M, is_contraction (bd A) z o add mul (layers Traced (facing d) A (tmap cj A)) (fused (facing d)) M -> site5 A -> is0 (amax M) = false) /\
  (forall M, is_contraction (bd1 A) z o add mul (bare A) (legs1 (facing d)) M -> site4 A -> is0 (amax M) = false)).
Definition overlap_nonzero (d : coord) (A1 A2 : ten) : Prop :=
  forall M, is_contraction (bd A1) z o add mul (layers Traced (facing d) A1 (tmap cj A2)) (fused (facing d)) M -> is0 (amax M) = false.
End Spec.
