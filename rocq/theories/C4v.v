(** Model of groups/pg.py:3-108 (symmetrization of on-site tensors) and of to_ipeps_c4v,
    ipeps/ipeps_c4v.py:73-96.

    Elements belong to any structure with addition, subtraction, multiplication and the
    constant 0.5; the properties ask for a commutative ring, so rounding is not modelled.
    Tensors of different ranks are never combined by this code.  Devices and element types
    are not modelled. *)
From Verif Require Import Base Tensor TensorIO Extend.
Open Scope list_scope.
Open Scope string_scope.
Open Scope list_scope.
Open Scope res_scope.

Section C4v.
Context {K : Type} (zero half : K) (add sub mul : K -> K -> K).

(** ** elementwise operations with broadcasting *)
Fixpoint bdims (a b : list nat) : res (list nat) :=
  match a, b with
  | [], [] => Ok []
  | x :: a', y :: b' =>
      r <- bdims a' b' ;;
      if Nat.eqb x y then Ok (x :: r) else if Nat.eqb x 1 then Ok (y :: r) else if Nat.eqb y 1 then Ok (x :: r) else Err RuntimeError
  | _, _ => Err RuntimeError
  end.
Definition tbin (f : K -> K -> K) (a b : tensor K) : res (tensor K) :=
  d <- bdims (tdims a) (tdims b) ;;
  Ok (tbuild d (fun ix => f (tval zero a (bcast (tdims a) ix)) (tval zero b (bcast (tdims b) ix)))).

(** [A= 0.5*(A + A.permute(p))], [A= 0.5*(A - A.permute(p))] *)
Definition symm_step (op : K -> K -> K) (p : list nat) (A : tensor K) : res (tensor K) :=
  B <- tpermute zero A p ;; S <- tbin op A B ;; Ok (tmap (mul half) S).

(** pg.py:12, 24 *)
Definition make_d2_symm := symm_step add [0; 1; 4; 3; 2].
Definition make_d2_antisymm := symm_step sub [0; 1; 4; 3; 2].

(** pg.py:58-63 *)
Definition make_A1 (A : tensor K) : res (tensor K) :=
  A <- symm_step add [0; 1; 4; 3; 2] A ;;
  A <- symm_step add [0; 3; 2; 1; 4] A ;;
  A <- symm_step add [0; 4; 1; 2; 3] A ;;
  symm_step add [0; 2; 3; 4; 1] A.
(** pg.py:74-78 *)
Definition make_A2 (A : tensor K) : res (tensor K) :=
  A <- symm_step sub [0; 1; 4; 3; 2] A ;;
  A <- symm_step sub [0; 4; 3; 2; 1] A ;;
  A <- symm_step add [0; 4; 1; 2; 3] A ;;
  symm_step add [0; 3; 4; 1; 2] A.
(** pg.py:89-93 *)
Definition make_B1 (A : tensor K) : res (tensor K) :=
  A <- symm_step add [0; 1; 4; 3; 2] A ;;
  A <- symm_step sub [0; 4; 3; 2; 1] A ;;
  A <- symm_step sub [0; 4; 1; 2; 3] A ;;
  symm_step add [0; 3; 4; 1; 2] A.
(** pg.py:104-108 *)
Definition make_B2 (A : tensor K) : res (tensor K) :=
  A <- symm_step sub [0; 1; 4; 3; 2] A ;;
  A <- symm_step add [0; 4; 3; 2; 1] A ;;
  A <- symm_step add [0; 4; 1; 2; 3] A ;;
  symm_step sub [0; 3; 4; 1; 2] A.

(** pg.py:40-41 *)
Definition projections : dict string (tensor K -> res (tensor K)) :=
  [("A1", make_A1); ("A2", make_A2); ("B1", make_B1); ("B2", make_B2)].

(** pg.py:27-47; [iter_set l] is the iteration order of [set(l)], which Python leaves open *)
Variable iter_set : list string -> list string.
Definition make_c4v_symm (irreps : list string) (A : tensor K) : res (tensor K) :=
  let irreps := iter_set irreps in
  _ <- py_assert (forallb (fun i => dmem projections i) irreps) ;;
  foldM (fun S irrep =>
    p <- dget_exn projections irrep ;;
    B <- p A ;; tbin add S B) irreps (tzeros zero (tdims A)).

(** [x + y*1.0j] of real tensors *)
Definition tcplx (x y : tensor K) : res (tensor (K * K)) :=
  d <- bdims (tdims x) (tdims y) ;;
  Ok (tbuild d (fun ix => (tval zero x (bcast (tdims x) ix), tval zero y (bcast (tdims y) ix)))).

(** ipeps_c4v.py:73-96; [normalized] is [A/A.norm()] *)
Variable normalized : ten K -> ten K.
Definition to_ipeps_c4v (sites : dict coord (ten K)) (normalize : bool) : res (ten K) :=
  match sites with
  | [(_, A)] =>
      S <- match A with
           | TCplx A =>
               re <- make_c4v_symm ["A1"] (tmap fst A) ;;
               im <- make_c4v_symm ["A2"] (tmap snd A) ;;
               S <- tcplx re im ;; Ok (TCplx S)
           | TReal A => S <- make_c4v_symm ["A1"] A ;; Ok (TReal S)
           end ;;
      Ok (if normalize then normalized S else S)
  | _ => Err AssertionError
  end.
End C4v.
