(** The patches drawn in the documentation of ctm/one_site_c4v/rdm_c4v.py: w x h sites with the same
    tensor, inside copies of C and T turned along the boundary.  Going around the patch clockwise,
    the first index of C comes first and the first index of T comes last (env_c4v.py:21-53):
      C  down, right        T  up, down, right
    at the upper left corner and on the left edge.  Bonds as in RdmSpec. *)
From Verif Require Import Base Tensor NetSpec RdmSpec.
Open Scope list_scope.
Open Scope nat_scope.

Section S.
Context {K : Type} (z : K) (cj : K -> K).
Notation ten := (tensor K).
Notation network := (@network K).
Variables (w h : nat).
Definition vfuse i j := FV (vket w h i j) (vbra w h i j).
Definition hfuse i j := FV (hket w h i j) (hbra w h i j).
Definition frame (C T : ten) : network :=
  map (fun i => (T, [V (topb w h (S i)); V (topb w h i); vfuse i 0])) (seq 0 w) ++
  map (fun j => (T, [V (rigb w h (S j)); V (rigb w h j); hfuse w j])) (seq 0 h) ++
  map (fun i => (T, [V (botb w h i); V (botb w h (S i)); vfuse i h])) (seq 0 w) ++
  map (fun j => (T, [V (lefb w h j); V (lefb w h (S j)); hfuse 0 j])) (seq 0 h) ++
  [(C, [V (lefb w h 0); V (topb w h 0)]); (C, [V (topb w h w); V (rigb w h 0)]);
   (C, [V (rigb w h h); V (botb w h w)]); (C, [V (botb w h 0); V (lefb w h h)])].
(** [sel]: the sites that are present; [l]: those whose physical indices are left open *)
Definition patch_of (sel l : list (nat * nat)) (C T a : ten) : network :=
  flat_map (fun p => site_net w h l cj (fun _ _ => a) (fst p) (snd p)) sel ++ frame C T.
Definition all_sites : list (nat * nat) := flat_map (fun j => map (fun i => (i, j)) (seq 0 w)) (seq 0 h).
Definition patch : list (nat * nat) -> ten -> ten -> ten -> network := patch_of all_sites.
(** the sites [rs] are reflected top to bottom *)
Definition site_reflected (l : list (nat * nat)) (a : ten) i j : network :=
  [(a, [V (pket w h i j); V (vket w h i (S j)); V (hket w h i j); V (vket w h i j); V (hket w h (S i) j)]);
   (tmap cj a, [V (if is_open l i j then pbra w h i j else pket w h i j);
                V (vbra w h i (S j)); V (hbra w h i j); V (vbra w h i j); V (hbra w h (S i) j)])].
Definition patch_reflecting (rs l : list (nat * nat)) (C T a : ten) : network :=
  flat_map (fun p => if is_open rs (fst p) (snd p) then site_reflected l a (fst p) (snd p)
                     else site_net w h l cj (fun _ _ => a) (fst p) (snd p)) all_sites ++ frame C T.
(** the ket of site (i,j) is missing *)
Definition bra_only i j (C T a : ten) : network :=
  (tmap cj a, [V (pbra w h i j); V (vbra w h i j); V (hbra w h i j); V (vbra w h i (S j)); V (hbra w h (S i) j)]) :: frame C T.
Definition bra_only_out i j : list leg :=
  [V (pbra w h i j); V (vket w h i j); V (hket w h i j); V (vket w h i (S j)); V (hket w h (S i) j)].
(** the kets of given bonds, then their bras; a bond is vertical (true) or horizontal, above or left
    of site (i,j) *)
Definition bonds_out (bs : list (bool * nat * nat)) : list leg :=
  map (fun b => match b with (true, i, j) => V (vket w h i j) | (false, i, j) => V (hket w h i j) end) bs ++
  map (fun b => match b with (true, i, j) => V (vbra w h i j) | (false, i, j) => V (hbra w h i j) end) bs.

(** dimensions of the bonds: physical, of the sites, of the environment *)
Definition dims_patch (chi d D : nat) (l : nat) : nat :=
  nth (l / (S w * S h)) [d; d; D; D; D; D] chi.
End S.

Section Sym.
Context {K : Type} (z : K).
Definition symmetric (n : nat) (M : tensor K) : Prop :=
  forall i j, i < n -> j < n -> entry z M [i; j] = entry z M [j; i].
Definition row_symmetric (n m : nat) (T : tensor K) : Prop :=
  forall i j k, i < n -> j < n -> k < m -> entry z T [i; j; k] = entry z T [j; i; k].
(** the site tensor does not change when the lattice is turned by ninety degrees *)
Definition turn_invariant (d D : nat) (a : tensor K) : Prop :=
  forall s u l w r, s < d -> u < D -> l < D -> w < D -> r < D -> entry z a [s; u; l; w; r] = entry z a [s; r; u; l; w].
(** nor when it is reflected top to bottom *)
Definition flip_invariant (d D : nat) (a : tensor K) : Prop :=
  forall s u l w r, s < d -> u < D -> l < D -> w < D -> r < D -> entry z a [s; u; l; w; r] = entry z a [s; w; l; u; r].
End Sym.
