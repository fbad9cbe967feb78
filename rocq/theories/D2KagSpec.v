(** Specification for the ladder and kagome states: reflections of on-site tensors A[s,u,l,d,r]. *)
From Verif Require Import Base Tensor.
Open Scope list_scope.
Open Scope nat_scope.

Section Spec.
Context {K : Type}.
(** B is A seen in a horizontal mirror: up and down exchanged *)
Definition mirrored (A B : tensor K) : Prop :=
  twf B /\ exists p u l d r, tdims A = [p; u; l; d; r] /\ tdims B = [p; d; l; u; r] /\
  forall s i j k m, s < p -> i < u -> j < l -> k < d -> m < r -> tget B [s; k; j; i; m] = tget A [s; i; j; k; m].
(** A[s,u,l,d,r] = A[s,u,r,d,l] *)
Definition lr_symmetric (A : tensor K) : Prop :=
  exists p u l d, tdims A = [p; u; l; d; l] /\
  forall s i j k m, s < p -> i < u -> j < l -> k < d -> m < l -> tget A [s; i; j; k; m] = tget A [s; i; m; k; j].
(** the tensor at a vertex of the ladder with tensor A: A on the rows with even y, its mirror image on the others *)
Definition on_ladder (A : tensor K) (v : coord) (t : tensor K) : Prop :=
  if Z.even (snd v) then t = A else mirrored A t.
(** the bond between (x,y) and (x,y+1) has one dimension, and so the one between (x,y) and (x+1,y) for equal left and right legs *)
Definition leg (t : tensor K) (k : nat) : nat := nth k (tdims t) 0.
End Spec.

From Verif Require Import TensorIO Extend ExtendSpec TensorIOProofs.
Section Padded.
Context {R : Type} (zero : R).
(** the auxiliary legs of t are enlarged to D, the new elements are zero *)
Definition ten_padded (D : nat) (t t' : ten R) : Prop :=
  match t, t' with
  | TReal a, TReal b => padded zero a (new_dims D a) b
  | TCplx a, TCplx b => padded (zero, zero) a (new_dims D a) b
  | _, _ => False
  end.
Definition ten_fits (D : nat) (t : ten R) : Prop := Forall (fun d => d <= D) (tl (ten_dims t)).
(** the stored sites reach all four sides of the lX x lY cell *)
Definition spans (keys : list coord) (lX lY : Z) : Prop :=
  (forall k, In k keys -> 0 <= fst k < lX /\ 0 <= snd k < lY)%Z /\
  In 0%Z (map fst keys) /\ In (lX - 1)%Z (map fst keys) /\ In 0%Z (map snd keys) /\ In (lY - 1)%Z (map snd keys).
End Padded.
