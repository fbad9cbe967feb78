(** Model of the starting environments of CTMRG:
    ctm/generic/env.py:75-107 (ENV.__init__), 235-265 (init_env), 268-272 (init_random),
    274-365 (init_prod), 367-536 (init_from_ipeps_pbc), 538-715 (init_from_ipeps_obc),
    717-801 (init_prod_overlap);
    ctm/one_site_c4v/env_c4v.py:184-195 (init_env with given tensors), 257-311
    (init_from_ipeps_pbc), 315-355 (init_from_ipeps_obc), 357-387 (init_from_ipeps_obc_sl).

    Oracles: [amax] the largest absolute value of a tensor's elements, random and uninitialized
    tensors, the eigen-decomposition and the test of hermiticity of the C4v variant.  [cv] is the
    conversion of an element stored into a tensor of the environment's element type.  A division
    by zero, which fills a tensor with not-a-numbers, is the error ZeroDivisionError here.  Left
    out: printing, devices, gradients, init_prod of the C4v variant. *)
From Coq Require Import Ascii.
From Verif Require Import Base Lattice Tensor Net Extend Corners C4v CtmC4v.
From Verif Require Ctm.
Open Scope list_scope.
Open Scope nat_scope.
Open Scope res_scope.

(** the indices of an einsum expression: letters *)
Definition lab (s : string) : list nat := map (fun c => nat_of_ascii c - 97) (list_ascii_of_string s).

Section EnvInit.
Context {K : Type} (z o : K) (add mul div sub : K -> K -> K) (cj : K -> K) (is0 : K -> bool).
Notation ten := (tensor K).
Notation envt := (Ctm.envt ten).
Notation conj := (conj cj).
Variable amax : ten -> K.
Variable cv : K -> K.
Definition einsum1 (l out : string) (A : ten) : res ten := einsum z o add mul [(A, lab l)] (lab out).
Definition einsum2 (l l' out : string) (A B : ten) : res ten := einsum z o add mul [(A, lab l); (B, lab l')] (lab out).

(** [a/a.abs().max()] *)
Definition normalize (a : ten) : res ten := tdiv div is0 a (amax a).
Definition set_C (e : envt) (c d : coord) (t : ten) : envt := Ctm.mkE (dset (Ctm.eC e) (c, d) t) (Ctm.eT e).
Definition set_T (e : envt) (c d : coord) (t : ten) : envt := Ctm.mkE (Ctm.eC e) (dset (Ctm.eT e) (c, d) t).
(** [t[:k1,:k2,...]= a[:k1,:k2,...]] *)
Definition copy_block (t a : ten) (ks : list (option nat)) : res ten := v <- tslice z a ks ;; tset_slice z cv t ks v.
(** [len(A.size())] *)
Definition rank (A : ten) : nat := length (tdims A).
Definition sq (n : nat) : nat := n * n.

(** ** ENV.__init__, env.py:75-107; [empty dims]: an uninitialized tensor *)
Variable empty : list nat -> ten.
(** [site.size(-k)] *)
Definition size_end (A : ten) (k : nat) : nat := size A (rank A - k).
Definition new_env (st : ipeps ten) (chi : nat) : res envt :=
  match i_sites st with
  | None => Err AttributeError
  | Some [] => Err PyException                       (* next() of an empty iterator *)
  | Some ((c0, s0) :: l) =>
      let pw n := if 4 <? rank s0 then sq n else n in
      foldM (fun e cs => let '(c, s) := cs in
        if rank s <? 4 then Err IndexError else
        let e := set_T e c (0, -1)%Z (empty [chi; pw (size_end s 4); chi]) in
        let e := set_T e c (-1, 0)%Z (empty [chi; chi; pw (size_end s 3)]) in
        let e := set_T e c (0, 1)%Z (empty [pw (size_end s 2); chi; chi]) in
        let e := set_T e c (1, 0)%Z (empty [chi; pw (size_end s 1); chi]) in
        Ok (fold_left (fun e d => set_C e c d (empty [chi; chi])) [(-1, -1); (-1, 1); (1, -1); (1, 1)]%Z e))
        ((c0, s0) :: l) (Ctm.mkE [] [])
  end.

(** ** init_random, env.py:268-272; [rnd key dims]: a random tensor *)
Variable rnd : coord * coord -> list nat -> ten.
Definition init_random (e : envt) : envt :=
  Ctm.mkE (map (fun kt => (fst kt, rnd (fst kt) (tdims (snd kt)))) (Ctm.eC e))
          (map (fun kt => (fst kt, rnd (fst kt) (tdims (snd kt)))) (Ctm.eT e)).

(** the sites of a state, [state.sites.items()] *)
Definition sites_of (st : ipeps ten) : res (list coord) :=
  match i_sites st with Some s => Ok (dkeys s) | None => Err AttributeError end.
Definition zero_corners (chi : nat) (e : envt) (c : coord) : envt :=
  fold_left (fun e d => set_C e c d (tzeros z [chi; chi])) [(-1, -1); (1, -1); (1, 1); (-1, 1)]%Z e.

(** ** init_from_ipeps_pbc, env.py:367-536 *)
Section Pbc.
Variables (st : ipeps ten) (chi : nat).
(** a corner, env.py:391-398: [l], [l'] the labels of ket and bra, [i], [j] the positions of the
    dimensions of the site in the view *)
Definition pbc_C (c d : coord) (l l' : string) (i j : nat) (e : envt) : res envt :=
  A <- ipeps_site st (cadd c d) ;;
  a <- einsum2 l l' "eafb" A (conj A) ;;
  a <- view a [sq (size A i); sq (size A j)] ;;
  a <- normalize a ;;
  C <- Ctm.getC ten e c d ;;
  C <- copy_block C a [Some (Nat.min chi (sq (size A i))); Some (Nat.min chi (sq (size A j)))] ;;
  Ok (set_C e c d C).
(** the matrix of a half-row or half-column tensor, env.py:467-472 *)
Definition pbc_T (d c : coord) (l l' : string) (i j k : nat) : res (ten * ten) :=
  A <- ipeps_site st (cadd c d) ;;
  a <- einsum2 l l' "eafbgc" A (conj A) ;;
  a <- view a [sq (size A i); sq (size A j); sq (size A k)] ;;
  a <- normalize a ;;
  Ok (A, a).
Definition pbc_site (e : envt) (c : coord) : res envt :=
  let e := zero_corners chi e c in
  e <- pbc_C c (-1, -1)%Z "mijef" "mijab" 3 4 e ;;
  e <- pbc_C c (1, -1)%Z "miefj" "miabj" 2 3 e ;;
  e <- pbc_C c (1, 1)%Z "mefij" "mabij" 1 2 e ;;
  e <- pbc_C c (-1, 1)%Z "meijf" "maijb" 1 4 e ;;
  (* upper, 457-475 *)
  x <- pbc_T (0, -1)%Z c "miefg" "miabc" 2 3 4 ;;
  let '(A, a) := x in
  T <- copy_block (tzeros z [chi; sq (size A 3); chi]) a [Some (Nat.min chi (sq (size A 2))); None; Some (Nat.min chi (sq (size A 4)))] ;;
  let e := set_T e c (0, -1)%Z T in
  (* left, 477-494 *)
  x <- pbc_T (-1, 0)%Z c "meifg" "maibc" 1 3 4 ;;
  let '(A, a) := x in
  T <- copy_block (tzeros z [chi; chi; sq (size A 4)]) a [Some (Nat.min chi (sq (size A 1))); Some (Nat.min chi (sq (size A 3))); None] ;;
  let e := set_T e c (-1, 0)%Z T in
  (* lower, 498-515 *)
  x <- pbc_T (0, 1)%Z c "mefig" "mabic" 1 2 4 ;;
  let '(A, a) := x in
  T <- copy_block (tzeros z [sq (size A 1); chi; chi]) a [None; Some (Nat.min chi (sq (size A 2))); Some (Nat.min chi (sq (size A 4)))] ;;
  let e := set_T e c (0, 1)%Z T in
  (* right, 518-535 *)
  x <- pbc_T (1, 0)%Z c "mefgi" "mabci" 1 2 3 ;;
  let '(A, a) := x in
  T <- copy_block (tzeros z [chi; sq (size A 2); chi]) a [Some (Nat.min chi (sq (size A 1))); None; Some (Nat.min chi (sq (size A 3)))] ;;
  Ok (set_T e c (1, 0)%Z T).
Definition init_from_ipeps_pbc (e : envt) : res envt := keys <- sites_of st ;; foldM pbc_site keys e.
End Pbc.

(** ** init_from_ipeps_obc, env.py:538-715.  The bra is not conjugated *)
Section Obc.
Variables (st : ipeps ten) (chi : nat).
(** [s], [out1]: the expression for single-layer sites; [l], [l'], [out2] the one for sites with
    a physical index, [ix] the positions of the dimensions in its view.  The variable a of the
    source is unbound or stale when the site has another rank *)
Definition obc_matrix (A : ten) (s out1 l l' out2 : string) (ix : list nat) : res ten :=
  a <- (if rank A =? 4 then einsum1 s out1 A
        else if rank A =? 5 then a <- einsum2 l l' out2 A A ;; view a (map (fun i => sq (size A i)) ix)
        else Err UnboundLocalError) ;;
  normalize a.
Definition obc_C (c d : coord) (s l l' : string) (ix : list nat) (e : envt) : res envt :=
  A <- ipeps_site st (cadd c d) ;;
  a <- obc_matrix A s "ef" l l' "eafb" ix ;;
  C <- Ctm.getC ten e c d ;;
  C <- copy_block C a [Some (Nat.min chi (size a 0)); Some (Nat.min chi (size a 1))] ;;
  Ok (set_C e c d C).
Definition obc_T (c d : coord) (s l l' : string) (ix : list nat) : res ten :=
  A <- ipeps_site st (cadd c d) ;; obc_matrix A s "efg" l l' "eafbgc" ix.
Definition obc_site (e : envt) (c : coord) : res envt :=
  let e := zero_corners chi e c in
  e <- obc_C c (-1, -1)%Z "ijef" "mijef" "mklab" [3; 4] e ;;
  e <- obc_C c (1, -1)%Z "iefj" "miefj" "mkabl" [2; 3] e ;;
  e <- obc_C c (1, 1)%Z "efij" "mefij" "mabkl" [1; 2] e ;;
  e <- obc_C c (-1, 1)%Z "eijf" "meijf" "maklb" [1; 4] e ;;
  a <- obc_T c (0, -1)%Z "iefg" "miefg" "mkabc" [2; 3; 4] ;;
  T <- copy_block (tzeros z [chi; size a 1; chi]) a [Some (Nat.min chi (size a 0)); None; Some (Nat.min chi (size a 2))] ;;
  let e := set_T e c (0, -1)%Z T in
  a <- obc_T c (-1, 0)%Z "eifg" "meifg" "makbc" [1; 3; 4] ;;
  T <- copy_block (tzeros z [chi; chi; size a 2]) a [Some (Nat.min chi (size a 0)); Some (Nat.min chi (size a 1)); None] ;;
  let e := set_T e c (-1, 0)%Z T in
  a <- obc_T c (0, 1)%Z "efig" "mefig" "mabkc" [1; 2; 4] ;;
  T <- copy_block (tzeros z [size a 0; chi; chi]) a [None; Some (Nat.min chi (size a 1)); Some (Nat.min chi (size a 2))] ;;
  let e := set_T e c (0, 1)%Z T in
  a <- obc_T c (1, 0)%Z "efgi" "mefgi" "mabck" [1; 2; 3] ;;
  T <- copy_block (tzeros z [chi; size a 1; chi]) a [Some (Nat.min chi (size a 0)); None; Some (Nat.min chi (size a 2))] ;;
  Ok (set_T e c (1, 0)%Z T).
Definition init_from_ipeps_obc (e : envt) : res envt := keys <- sites_of st ;; foldM obc_site keys e.
End Obc.

(** ** init_prod, env.py:274-365, and init_prod_overlap, env.py:717-801 *)
(** [t= zeros(dims); t[0,:,0]= a], [f] the position of the colon *)
Definition put_line (dims : list nat) (f : nat) (a : ten) : res ten :=
  if existsb (fun k => negb (k =? f) && (nth k dims 0 =? 0)) (seq 0 (length dims)) then Err IndexError
  else Ok (tbuild dims (fun ix =>
    if forallb (fun k => (k =? f) || (nth k ix 0 =? 0)) (seq 0 (length dims)) then cv (tval z a [nth f ix 0]) else z)).
(** env.py:275-277 *)
Definition unit_corner (t : ten) : res ten :=
  match tdims t with
  | [m; n] => if (m =? 0) || (n =? 0) then Err IndexError
              else Ok (tbuild [m; n] (fun ix => match ix with [0; 0] => o | _ => z end))
  | _ => Err IndexError
  end.
Definition unit_corners (e : envt) : res envt :=
  C <- mapM (fun kt => t <- unit_corner (snd kt) ;; Ok (fst kt, t)) (Ctm.eC e) ;;
  Ok (Ctm.mkE C (Ctm.eT e)).
Section Prod.
Variables (st : ipeps ten) (chi : nat).
(** the vector of a half-row or half-column tensor *)
Definition prod_vector (c d : coord) (out1 l l' out2 : string) : res ten :=
  A <- ipeps_site st (cadd c d) ;;
  if rank A =? 4 then einsum1 "uldr" out1 A
  else if rank A =? 5 then a <- einsum2 l l' out2 A (conj A) ;; view a [sq (size a 0)]
  else Err UnboundLocalError.
Definition prod_site (e : envt) (c : coord) : res envt :=
  (* upper, 280-299: not normalized *)
  a <- prod_vector c (0, -1)%Z "d" "miefg" "miebg" "fb" ;;
  T <- put_line [chi; size a 0; chi] 1 a ;;
  let e := set_T e c (0, -1)%Z T in
  (* left, 301-321 *)
  a <- prod_vector c (-1, 0)%Z "r" "meifg" "meifc" "gc" ;;
  a <- normalize a ;;
  T <- put_line [chi; chi; size a 0] 2 a ;;
  let e := set_T e c (-1, 0)%Z T in
  (* lower, 323-343 *)
  a <- prod_vector c (0, 1)%Z "u" "mefig" "mafig" "ea" ;;
  a <- normalize a ;;
  T <- put_line [size a 0; chi; chi] 0 a ;;
  let e := set_T e c (0, 1)%Z T in
  (* right, 345-365 *)
  a <- prod_vector c (1, 0)%Z "l" "mefgi" "mebgi" "fb" ;;
  a <- normalize a ;;
  T <- put_line [chi; size a 0; chi] 1 a ;;
  Ok (set_T e c (1, 0)%Z T).
Definition init_prod (e : envt) : res envt := e <- unit_corners e ;; keys <- sites_of st ;; foldM prod_site keys e.
End Prod.
Section Overlap.
Variables (st1 st2 : ipeps ten) (chi : nat).
Definition overlap_vector (c d : coord) (l l' out : string) (i : nat) : res ten :=
  A1 <- ipeps_site st1 (cadd c d) ;;
  A2 <- ipeps_site st2 (cadd c d) ;;
  a <- einsum2 l l' out A1 (conj A2) ;;
  a <- view a [sq (size A1 i)] ;;
  normalize a.
Definition overlap_site (e : envt) (c : coord) : res envt :=
  a <- overlap_vector c (0, -1)%Z "miefg" "miebg" "fb" 3 ;;
  T <- put_line [chi; size a 0; chi] 1 a ;;
  let e := set_T e c (0, -1)%Z T in
  a <- overlap_vector c (-1, 0)%Z "meifg" "meifc" "gc" 4 ;;
  T <- put_line [chi; chi; size a 0] 2 a ;;
  let e := set_T e c (-1, 0)%Z T in
  a <- overlap_vector c (0, 1)%Z "mefig" "mafig" "ea" 1 ;;
  T <- put_line [size a 0; chi; chi] 0 a ;;
  let e := set_T e c (0, 1)%Z T in
  a <- overlap_vector c (1, 0)%Z "mefgi" "mebgi" "fb" 2 ;;
  T <- put_line [chi; size a 0; chi] 1 a ;;
  Ok (set_T e c (1, 0)%Z T).
Definition init_prod_overlap (e : envt) : res envt := e <- unit_corners e ;; keys <- sites_of st1 ;; foldM overlap_site keys e.
End Overlap.

(** ** init_env, env.py:251-265; [typ] is ctm_args.ctm_env_init_type *)
Definition init_env (typ : string) (st : ipeps ten) (chi : nat) (e : envt) : res envt :=
  r <- match i_sites st with
       | None => Err AttributeError
       | Some [] => Err PyException
       | Some ((_, s0) :: _) => Ok (rank s0)
       end ;;
  if (r =? 4) && negb (existsb (String.eqb typ) ["PROD"; "CTMRG_OBC"; "RANDOM"]%string) then Err RuntimeError
  else if String.eqb typ "PROD" then init_prod st chi e
  else if String.eqb typ "RANDOM" then Ok (init_random e)
  else if String.eqb typ "CTMRG" then init_from_ipeps_pbc st chi e
  else if String.eqb typ "CTMRG_OBC" then init_from_ipeps_obc st chi e
  else Err ValueError.

(** ** The C4v variant, env_c4v.py *)
(** truncated_eig_sym(a, n): values and vectors *)
Variable eig : ten -> nat -> res (list K * ten).
(** [norm(d)/a.abs().max() < 1.0e-8] *)
Variable negligible : ten -> ten -> bool.
Definition einsum3 (l l' l'' out : string) (A B C : ten) : res ten :=
  einsum z o add mul [(A, lab l); (B, lab l'); (C, lab l'')] (lab out).
(** env_c4v.py:262-311 *)
Definition c4v_pbc (chi : nat) (ket bra : ten) : res (ten * ten) :=
  let kb i := size ket (S i) * size bra (S i) in
  a <- einsum2 "mijef" "mijab" "eafb" ket bra ;;
  a <- view a [kb 2; kb 3] ;;
  a <- normalize a ;;
  h <- permute z (conj a) [1; 0] ;;
  d <- tbin z sub h a ;;
  _ <- py_assert (negligible d a) ;;
  wU <- eig a (size a 0) ;;
  let '(w, U) := wU in
  C <- copy_block (tzeros z [chi; chi]) (tdiag z w) [Some (Nat.min chi (kb 2)); Some (Nat.min chi (kb 3))] ;;
  a <- einsum2 "meifg" "maibc" "eafbgc" ket bra ;;
  a <- view a [kb 0; kb 2; kb 3] ;;
  a <- normalize a ;;
  a <- einsum3 "ai" "abs" "bj" "ijs" U a (conj U) ;;
  h <- permute z a [1; 0; 2] ;;
  d <- tbin z sub a (conj h) ;;
  _ <- py_assert (negligible d a) ;;
  T <- copy_block (tzeros z [chi; chi; kb 3]) a [Some (Nat.min chi (kb 0)); Some (Nat.min chi (kb 2)); None] ;;
  Ok (C, T).
(** env_c4v.py:257-260 *)
Definition c4v_init_pbc (chi : nat) (A : ten) : res (ten * ten) := c4v_pbc chi A (conj A).
(** env_c4v.py:315-355 *)
Definition c4v_init_obc (chi : nat) (A : ten) : res (ten * ten) :=
  a <- einsum2 "mijef" "mklab" "eafb" A (conj A) ;;
  a <- view a [sq (size A 3); sq (size A 4)] ;;
  a <- normalize a ;;
  C <- copy_block (tzeros z [chi; chi]) a [Some (Nat.min chi (sq (size A 3))); Some (Nat.min chi (sq (size A 4)))] ;;
  a <- einsum2 "meifg" "makbc" "eafbgc" A (conj A) ;;
  a <- view a [sq (size A 1); sq (size A 3); sq (size A 4)] ;;
  a <- normalize a ;;
  T <- copy_block (tzeros z [chi; chi; sq (size A 4)]) a [Some (Nat.min chi (sq (size A 1))); Some (Nat.min chi (sq (size A 3))); None] ;;
  Ok (C, T).
(** env_c4v.py:357-387 *)
Definition c4v_init_obc_sl (chi : nat) (A : ten) : res (ten * ten) :=
  _ <- py_assert (rank A =? 4) ;;
  a <- einsum1 "ijef" "ef" A ;;
  a <- normalize a ;;
  C <- copy_block (tzeros z [chi; chi]) a [Some (Nat.min chi (size A 2)); Some (Nat.min chi (size A 3))] ;;
  a <- einsum1 "eifg" "efg" A ;;
  a <- normalize a ;;
  T <- copy_block (tzeros z [chi; chi; size A 3]) a [Some (Nat.min chi (size A 0)); Some (Nat.min chi (size A 2)); None] ;;
  Ok (C, T).
(** env_c4v.py:184-195: tensors supplied by the user; [C0] the corner of the environment, which is
    overwritten in place *)
Definition c4v_given (chi : nat) (C0 C T : ten) : res (ten * ten) :=
  let x := size C 0 in
  C' <- tset_slice z cv C0 [Some x; Some x] C ;;
  T' <- tset_slice z cv (tzeros z [chi; chi; size T 2]) [Some x; Some x; None] T ;;
  Ok (C', T').
End EnvInit.
