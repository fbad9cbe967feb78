(** Properties C18, C19: truncated decompositions. *)
From Coq Require Import Reals.
From Verif Require Import Base Trunc TruncSpec TruncProofs.
Open Scope R_scope.
Open Scope list_scope.

(** C18 for gesdd, af, symeig, rsvd (and propack, which calls the same function) *)
Theorem C18_svd_cut : forall (Col : Type) (zcol : Col) d U Sv V chi eps t,
  d = (U, Sv, V) -> 0 <= t -> 0 < eps -> descending Sv ->
  length U = length Sv -> length V = length Sv -> (1 <= chi < length Sv)%nat ->
  exists n, trunc_full Col zcol true d chi eps t = Ok (padded zcol U n chi, padded 0 Sv n chi, padded zcol V n chi) /\
    good_cut eps t Sv chi n.
Proof. exact svd_keep. Qed.
Print Assumptions C18_svd_cut.

(** C18 for the Arnoldi variants, which ask the backend for chi+1 values *)
Theorem C18_svd_arnoldi_cut : forall (Col : Type) (zcol : Col) dec U Sv V chi eps t,
  dec (chi + 1)%nat = (U, Sv, V) -> 0 <= t -> 0 < eps -> descending Sv ->
  length U = length Sv -> length V = length Sv -> length Sv = (chi + 1)%nat -> (1 <= chi)%nat ->
  exists n, trunc_arnoldi Col zcol true dec chi eps t = Ok (padded zcol U n chi, padded 0 Sv n chi, padded zcol V n chi) /\
    good_cut eps t Sv chi n.
Proof. exact svd_arnoldi_keep. Qed.
Print Assumptions C18_svd_arnoldi_cut.

(** C18 for eigenvalues ordered by magnitude *)
Theorem C18_eig_cut : forall (Col : Type) (zcol : Col) D U chi eps t,
  0 <= t -> 0 < eps -> descending (map Rabs D) -> length U = length D -> (1 <= chi < length D)%nat ->
  exists n, trunc_eig Col zcol true (D, U) chi eps t = Ok (padded 0 D n chi, padded zcol U n chi) /\
    good_cut eps t (map Rabs D) chi n.
Proof. exact eig_keep. Qed.
Print Assumptions C18_eig_cut.

Theorem C18_eig_arnoldi_cut : forall (Col : Type) (zcol : Col) dec D U chi eps t,
  dec (chi + 1)%nat = (D, U) -> 0 <= t -> 0 < eps -> descending (map Rabs D) ->
  length U = length D -> length D = (chi + 1)%nat -> (1 <= chi)%nat ->
  exists n, trunc_eig_arnoldi Col zcol true dec chi eps t = Ok (padded 0 D n chi, padded zcol U n chi) /\
    good_cut eps t (map Rabs D) chi n.
Proof. exact eig_arnoldi_keep. Qed.
Print Assumptions C18_eig_arnoldi_cut.

(** a moved cut separates every kept value from every dropped one *)
Theorem C18_moved_cut_separates : forall eps t m chi n i j,
  0 <= t -> 0 < eps -> eps <= 1 -> descending m -> (chi < length m)%nat -> good_cut eps t m chi n ->
  (n < chi)%nat -> (i < n)%nat -> (n <= j < length m)%nat ->
  eps * (nth i m 0 + tiny) < nth i m 0 - nth j m 0.
Proof. exact cut_separates. Qed.
Print Assumptions C18_moved_cut_separates.

(** but a multiplet containing all chi leading values is split: of three equal values two
    are kept *)
Theorem C18_whole_multiplet_refuted : exists U V chi eps,
  trunc_full nat 0%nat true (U, [1; 1; 1], V) chi eps 0 = Ok ([1; 2]%nat, [1; 1], [4; 5]%nat) /\
  ~ separated_weakly eps 0 [1; 1; 1] (chi - 1).
Proof. exact whole_multiplet. Qed.
Print Assumptions C18_whole_multiplet_refuted.

(** C19 for gesdd, af, symeig, rsvd *)
Theorem C19_svd_sizes : forall (Col : Type) (zcol : Col) keep U Sv V chi eps t,
  length U = length Sv -> length V = length Sv -> (1 <= chi)%nat ->
  exists U' S' V', trunc_full Col zcol keep (U, Sv, V) chi eps t = Ok (U', S', V') /\
    length S' = Nat.min chi (length Sv) /\ length U' = length S' /\ length V' = length S'.
Proof. exact full_sizes. Qed.
Print Assumptions C19_svd_sizes.

Theorem C19_eig_sizes : forall (Col : Type) (zcol : Col) keep D U chi eps t,
  length U = length D -> (1 <= chi)%nat ->
  exists D' U', trunc_eig Col zcol keep (D, U) chi eps t = Ok (D', U') /\
    length D' = Nat.min chi (length D) /\ length U' = length D'.
Proof. exact eig_sizes. Qed.
Print Assumptions C19_eig_sizes.

(** when the backend returns as many triples as asked for *)
Theorem C19_arnoldi_sizes : forall (Col : Type) (zcol : Col) keep dec chi eps t,
  (forall k, let '(U, Sv, V) := dec k in length U = k /\ length Sv = k /\ length V = k) -> (1 <= chi)%nat ->
  exists U' S' V', trunc_arnoldi Col zcol keep dec chi eps t = Ok (U', S', V') /\
    length S' = chi /\ length U' = chi /\ length V' = chi.
Proof. exact arnoldi_sizes. Qed.
Print Assumptions C19_arnoldi_sizes.

(** truncated_svd_propack without keep_multiplets returns the extra values too *)
Theorem C19_propack_refuted : forall (Col : Type) (zcol : Col) dec chi extra eps t,
  (forall k, let '(U, Sv, V) := dec k in length U = k /\ length Sv = k /\ length V = k) ->
  exists U Sv V, trunc_propack Col zcol false dec chi extra eps t = Ok (U, Sv, V) /\
    length Sv = (chi + Nat.max extra 1)%nat.
Proof. exact propack_untruncated. Qed.
Print Assumptions C19_propack_refuted.

(** truncated_eig_symlobpcg without keep_multiplets raises IndexError whenever no
    eigenvalue is negligible *)
Theorem C19_lobpcg_refuted : forall (Col : Type) (zcol : Col) resolve dec D2 U chi eps t,
  0 <= t -> dec (chi + 0)%nat = (D2, U) -> length D2 = chi -> (1 <= chi)%nat ->
  (forall j, (j < length D2)%nat -> t <= nth j D2 0) ->
  trunc_lobpcg Col zcol resolve false dec chi eps t = Err IndexError.
Proof. exact lobpcg_raises. Qed.
Print Assumptions C19_lobpcg_refuted.

Example C18_example : descending [4; 2; 2; 2; 1] /\
  trunc_full nat 0%nat true ([1; 2; 3; 4; 5]%nat, [4; 2; 2; 2; 1], [1; 2; 3; 4; 5]%nat) 3 (/ 10) 0
  = Ok ([1; 0; 0]%nat, [4; 0; 0], [1; 0; 0]%nat).
Proof. exact multiplet_cut_example. Qed.
Example C19_example : trunc_full nat 0%nat false ([1; 2; 3]%nat, [3; 2; 1], [4; 5; 6]%nat) 2 (/ 10) 0
  = Ok ([1; 2]%nat, [3; 2], [4; 5]%nat).
Proof. reflexivity. Qed.
