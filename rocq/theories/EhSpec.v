(** The operators on the boundary of a cylinder drawn in get_EH_spec_Ttensor and get_full_EH_spec_Ttensor. *)
From Coq Require Import Reals.
From Verif Require Import Base Lattice Tensor NetSpec CornersSpec RdmSpec CorrSpec TransferSpec.
From Coq Require Import Permutation.
Open Scope list_scope.
Open Scope nat_scope.

(** bonds of the k-th site around the cylinder: [ext s k] between the layers of tensors, [bnd s k] within the
    layer s, between the sites k-1 and k *)
Definition ext (s k : nat) : nat := 5 * k + s.
Definition bnd (s k : nat) : nat := 5 * k + (3 + s).
Definition rim_of (s L : nat) : list leg := map V (map (ext s) (seq 0 L)).
(** the bonds of one side fused into one index, the last site first *)
Fixpoint fuse (l : nat) (ls : list nat) : leg := match ls with [] => V l | m :: r => F (V l) (fuse m r) end.
Definition side (s L : nat) : leg := match rev (map (ext s) (seq 0 L)) with [] => V 0 | l :: ls => fuse l ls end.
(** the row of sites runs down for tensors on the left and right, to the right for those above and below *)
Definition grow (d : dir) : dir := match d with Left | Right => Down | Up | Down => Right end.
(** index of a site's leg towards d *)
Definition leg_index (d : dir) : nat := match d with Up => 1 | Left => 2 | Down => 3 | Right => 4 end.

Section Nets.
Context {K : Type}.
(** the environment tensor on the side d with its bond to the site opened: b and b' its bonds to the previous
    and next tensor, o and i ket and bra *)
Definition open_legs (d : dir) (b b' o i : nat) : list leg :=
  match d with
  | Left => [V b; V b'; FF o i]
  | Right | Up => [V b; FF o i; V b']
  | Down => [FF o i; V b; V b']
  end.
(** L environment tensors on the side d around the cylinder, acting from the bonds [ext s] to the bonds [ext (S s)] *)
Definition ring (Ts : coord -> coord -> tensor K) (d : dir) (c : coord) (s L : nat) : network :=
  map (fun k => (Ts (along c (grow d) k) (dvec d), open_legs d (bnd s k) (bnd s (S k mod L)) (ext (S s) k) (ext s k))) (seq 0 L).
Definition ring_c4v (T : tensor K) (L : nat) : network :=
  map (fun k => (T, open_legs Left (bnd 0 k) (bnd 0 (S k mod L)) (ext 1 k) (ext 0 k))) (seq 0 L).
End Nets.

(** all vertices are one site *)
Definition one_site {T} (st : ipeps T) : Prop := exists s, forall v, i_v2s st v = Ok s.
(** torch.sort(..., descending=True) *)
Definition is_sort_desc (f : list R -> list nat) : Prop :=
  forall l, Permutation (f l) (seq 0 (length l)) /\
  forall i j, i <= j < length l -> (nth (nth j (f l) 0%nat) l 0 <= nth (nth i (f l) 0%nat) l 0)%R.
