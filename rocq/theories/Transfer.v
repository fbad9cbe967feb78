(** Model of the transfer operators of ctm/generic/transferops.py and
    ctm/one_site_c4v/transferops_c4v.py.
    Parameters: scipy's eigs, numpy's argsort, torch.eig and torch.sort.
    Vectors handed to and returned by the linear operators are lists of scalars in row-major order.
    Left out: devices, dtypes, printing.  A vector of zeros is divided by zero in the normalization;
    1/0 is then whatever Coq's reals make of it.  Numbers of eigenvalues and widths are naturals. *)
From Coq Require Import Reals.
From Verif Require Import Base Lattice Tensor Net Corners Corr CorrC4v.
From Verif Require Ctm.
Open Scope list_scope.
Open Scope nat_scope.
Open Scope res_scope.

(** ** the eigenvalues *)
Definition cplx := (R * R)%type.
Definition cabs (c : cplx) : R := sqrt (fst c * fst c + snd c * snd c).
Definition cscale (s : R) (c : cplx) : cplx := (s * fst c, s * snd c)%R.
Definition at_index {A} (l : list A) (i : nat) : res A := match nth_error l i with Some x => Ok x | None => Err IndexError end.
(** l[inds] *)
Definition pick {A} (l : list A) (inds : list nat) : res (list A) := mapM (at_index l) inds.
(** transferops.py:109-112, 197-200, 367-370; transferops_c4v.py:60-64, 112-115, 217-220: normalization and
    assignment to the columns of a tensor with n rows, which broadcasts a single value *)
Definition to_rows (n : nat) (normalize : bool) (vals : list cplx) : res (list cplx) :=
  vals <- (if normalize then v0 <- at_index vals 0 ;; Ok (map (cscale (1 / cabs v0)%R) vals) else Ok vals) ;;
  if length vals =? n then Ok vals else match vals with [v] => Ok (repeat v n) | _ => Err RuntimeError end.

Section Transfer.
Context {K : Type} (z o : K) (add mul : K -> K -> K) (cj : K -> K).
Notation ten := (tensor K).
Notation contract := (tensordot z o add mul).
Notation einsum := (einsum z o add mul).
Notation permute := (permute z).
(** eigs(LinearOperator((m,m), matvec=mv), k=n, return_eigenvectors=b): eigenvalues and the columns of the matrix
    of eigenvectors *)
Context {W : Type}.
Variable eigs : bool -> nat -> (list K -> res (list K)) -> nat -> res (list cplx * list W).
(** numpy.argsort *)
Variable argsort : list R -> list nat.

(** transferops.py:107-114, 191-205; transferops_c4v.py:58-68 *)
Definition sorted_spec (n : nat) (normalize eigenvectors : bool) (r : list cplx * list W) : res (list cplx * list W) :=
  let inds := rev (argsort (map cabs (fst r))) in
  vals <- pick (fst r) inds ;;
  L <- to_rows n normalize vals ;;
  vecs <- (if eigenvectors then pick (snd r) inds else Ok []) ;;
  Ok (L, vecs).
(** transferops.py:366-372; transferops_c4v.py:111-117, 216-222 *)
Definition reversed_spec (n : nat) (r : list cplx * list W) : res (list cplx) := to_rows n true (rev (fst r)).

(** the functions _mv: view, N applications of f, view *)
Definition matvec (dims : list nat) (f : ten -> res ten) (v : list K) : res (list K) :=
  V <- view (mkT [length v] v) dims ;;
  V <- f V ;;
  V <- view V [prod_dims dims] ;;
  Ok (tdata V).
Fixpoint steps (f : coord -> ten -> res ten) (d : coord) (n : nat) (c0 : coord) (V : ten) : res ten :=
  match n with
  | 0 => Ok V
  | S n' => V <- f c0 V ;; steps f d n' (cadd c0 d) V
  end.

(** ** ctm/generic/transferops.py *)
Section Generic.
Variables (st : ipeps ten) (e : Ctm.envt ten).
Definition is_dir (d : coord) : bool := eqb d d_up || eqb d d_down || eqb d d_left || eqb d d_right.
(** the dictionary dir_to_ind *)
Definition dir_to_ind (d : coord) : res nat :=
  if eqb d d_up then Ok 1 else if eqb d d_left then Ok 2 else if eqb d d_down then Ok 3 else if eqb d d_right then Ok 4 else Err KeyError.
Definition ind_to_dir (k : nat) : res coord :=
  match k with 1 => Ok d_up | 2 => Ok d_left | 3 => Ok d_down | 4 => Ok d_right | _ => Err KeyError end.
Definition cmul (k : Z) (d : coord) : coord := (k * fst d, k * snd d)%Z.

(** transferops.py:12-41 *)
Definition get_chis (c0 d : coord) (width : Z) : res (nat * nat) :=
  _ <- py_assert (is_dir d) ;;
  c <- i_v2s st c0 ;;
  if eqb d d_up || eqb d d_down then
    cs <- i_v2s st (cadd c (cmul width d_right)) ;;
    T1 <- Ctm.getT ten e c d_left ;; T2 <- Ctm.getT ten e cs d_right ;;
    Ok (if eqb d d_up then (size T1 1, size T2 2) else (size T1 0, size T2 0))
  else
    cs <- i_v2s st (cadd c (cmul width d_down)) ;;
    T1 <- Ctm.getT ten e c d_up ;; T2 <- Ctm.getT ten e cs d_down ;;
    Ok (if eqb d d_left then (size T1 2, size T2 2) else (size T1 0, size T2 1)).
(** transferops.py:76-81, 156-161 *)
Definition unit_length (d : coord) : res nat :=
  if eqb d d_right || eqb d d_left then Ok (Z.to_nat (i_lX st))
  else if eqb d d_down || eqb d d_up then Ok (Z.to_nat (i_lY st))
  else Err ValueError.

(** ctm/generic/corrf.py:278-362 *)
Definition apply_TM_0sO (c0 d : coord) (edge : ten) : res ten :=
  _ <- py_assert (is_dir d) ;;
  c <- i_v2s st c0 ;;
  if eqb d d_up || eqb d d_down then
    T1 <- Ctm.getT ten e c d_left ;;
    x <- contract T1 edge [1] [0] ;;
    c' <- i_v2s st (cadd c d_left) ;; T2 <- Ctm.getT ten e c' d_right ;;
    contract x T2 [1;2] [1;2]
  else
    T1 <- Ctm.getT ten e c d_up ;;
    x <- contract T1 edge [2] [0] ;;
    c' <- i_v2s st (cadd c d_up) ;; T2 <- Ctm.getT ten e c' d_down ;;
    contract x T2 [1;2] [0;2].

(** transferops.py:44-116 *)
Definition get_Top_w0_spec (n : nat) (c0 d : coord) : res (list cplx) :=
  ' (chi1, chi2) <- get_chis c0 d 0%Z ;;
  N <- unit_length d ;;
  r <- eigs false (chi1 * chi2) (matvec [chi1; chi2] (steps (fun c V => apply_TM_0sO c d V) d N c0)) n ;;
  ' (L, _) <- sorted_spec n true false r ;;
  Ok L.
(** transferops.py:118-205 *)
Definition get_Top_spec (n : nat) (c0 d : coord) (eigenvectors : bool) : res (list cplx * list W) :=
  ' (chi1, chi2) <- get_chis c0 d 0%Z ;;
  a <- ipeps_site st c0 ;;
  k <- dir_to_ind (cneg d) ;;
  let ad := size a k in
  N <- unit_length d ;;
  r <- eigs eigenvectors (chi1 * ad * ad * chi2)
         (matvec [chi1; ad * ad; chi2] (steps (fun c V => apply_TM_1sO z o add mul cj st e c d V None) d N c0)) n ;;
  sorted_spec n true eigenvectors r.
End Generic.

(** ** ctm/one_site_c4v/transferops_c4v.py *)
Section C4v.
Variables (chi : nat) (T a : ten) (svd : ten -> res (ten * list K * ten)).
(** transferops_c4v.py:10-68 *)
Definition get_Top_spec_c4v (n : nat) (normalize eigenvectors : bool) : res (list cplx * list W) :=
  let ad := size a 1 in
  r <- eigs eigenvectors (chi * ad * ad * chi) (matvec [chi; ad * ad; chi] (tm1 z o add mul cj T a None)) n ;;
  sorted_spec n normalize eigenvectors r.
(** transferops_c4v.py:70-117 *)
Definition get_Top2_spec_c4v (n : nat) : res (list cplx) :=
  let ad := size a 1 in
  r <- eigs false (chi * ad ^ 4 * chi) (matvec [chi; ad * ad; ad * ad; chi] (tm1_2 z o add mul cj T a svd None)) n ;;
  reversed_spec n r.
End C4v.

(** ** spectra of products of boundary operators *)
(** transferops_c4v.py:168-209 and mv_sigma, transferops.py:301-349: the operator formed by the tensors of L sites,
    [here] at the first and [next] at each further one *)
Section Chain.
Context {A : Type}.
Variables (tensor_at : A -> res ten) (next : A -> res A) (L : nat).
Fixpoint chain_loop (m i : nat) (c : A) (V : ten) : res (A * ten) :=
  match m with
  | 0 => Ok (c, V)
  | S m' => c <- next c ;; T <- tensor_at c ;; V <- contract T V [0;3] [0;i + 1] ;; chain_loop m' (S i) c V
  end.
Definition chain_mv (here : A) (V : ten) : res ten :=
  T <- tensor_at here ;;
  V <- contract T V [3] [0] ;;
  V <- permute V ([1;2] ++ seq 3 (L - 1) ++ [0]) ;;
  ' (c, V) <- chain_loop (L - 2) 1 here V ;;
  c <- next c ;;
  T <- tensor_at c ;;
  V <- contract T V [0;3;1] [0; L - 1 + 1; L - 1 + 2] ;;
  permute V (rev (seq 0 L)).
(** get_sigma, transferops.py:480-511.  The sizes of the view are those of the tensor before it is permuted *)
Fixpoint sigma_loop (m : nat) (c : A) (S0 : ten) : res (A * ten) :=
  match m with
  | 0 => Ok (c, S0)
  | S m' => c <- next c ;; T <- tensor_at c ;; S0 <- contract T S0 [0] [0] ;; sigma_loop m' c S0
  end.
Definition get_sigma (here : A) : res ten :=
  T <- tensor_at here ;;
  s <- permute T [1;2;3;0] ;;
  ' (c, s) <- sigma_loop (L - 2) here s ;;
  c <- next c ;;
  T <- tensor_at c ;;
  s <- contract T s [0;1] [0; 2 * L - 1] ;;
  let d := tdims s in
  s <- permute s (map (fun k => 2 * k) (seq 0 L) ++ map (fun k => 2 * k + 1) (seq 0 L)) ;;
  view s [prod_dims (firstn L d); prod_dims (skipn L d)].
End Chain.

(** transferops_c4v.py:119-222 *)
Definition get_EH_spec_c4v (chi : nat) (T a : ten) (n L : nat) : res (list cplx) :=
  _ <- py_assert (1 <? L) ;;
  let ad := size a 4 in
  T <- view T [chi; chi; ad; ad] ;;
  r <- eigs false (ad ^ L) (matvec (repeat ad L) (chain_mv (fun _ : unit => Ok T) (fun u => Ok u) L tt)) n ;;
  reversed_spec n r.

Section GenericEH.
Variables (st : ipeps ten) (e : Ctm.envt ten) (chi : nat).
(** transferops.py:271-275, 417-421 *)
Definition d_grow (d : coord) : res coord :=
  k <- dir_to_ind d ;;
  ind_to_dir (k - 1 + ((4 - k + 1) / 4) * 4).
(** transferops.py:282-309, 429-461; None if no case applies *)
Definition transform_T (d : coord) (c : coord) : res ten :=
  let open (t : ten) := a <- ipeps_site st c ;; k <- dir_to_ind d ;; view t [chi; chi; size a k; size a k] in
  T <- Ctm.getT ten e c d ;;
  if eqb d d_up then t <- permute T [0;2;1] ;; open t
  else if eqb d d_left then open T
  else if eqb d d_down then t <- permute T [1;2;0] ;; open t
  else if eqb d d_right then t <- permute T [0;2;1] ;; open t
  else Err TypeError.
Definition next_site (g : coord) (c : coord) : res coord := i_v2s st (cadd c g).
(** transferops.py:206-372; None if the number of eigenvalues asked for is not smaller than the dimension *)
Definition get_EH_spec (n L : nat) (c0 d : coord) : res (option (list cplx)) :=
  _ <- py_assert (1 <? L) ;;
  _ <- py_assert ((i_lX st =? i_lY st)%Z && (i_lY st =? 1)%Z) ;;
  g <- d_grow d ;;
  ads <- mapM (fun i => a <- ipeps_site st (cadd c0 (cmul (Z.of_nat i) g)) ;; k <- dir_to_ind d ;; Ok (size a k)) (seq 0 L) ;;
  if prod_dims ads <=? n then Ok None
  else
    c <- i_v2s st c0 ;;
    r <- eigs false (prod_dims ads)
           (matvec ads (fun V => V <- chain_mv (transform_T d) (next_site g) L c V ;;
                                 chain_mv (transform_T (cneg d)) (next_site g) L c V)) n ;;
    L <- reversed_spec n r ;;
    Ok (Some L).

(** torch.eig: the eigenvalues; torch.sort(descending=True): the indices *)
Variable eig : ten -> res (list cplx).
Variable sort_desc : list R -> list nat.
(** transferops.py:374-519 *)
Definition get_full_EH_spec (L : nat) (c0 d : coord) : res (list cplx) :=
  g <- d_grow d ;;
  let trace T := einsum [(T, [0;0;1;2])] [1;2] in
  c <- i_v2s st c0 ;;
  s0 <- (if L =? 1 then T <- transform_T d c ;; trace T else get_sigma (transform_T d) (next_site g) L c) ;;
  s1 <- (if L =? 1 then T <- transform_T (cneg d) c ;; trace T else get_sigma (transform_T (cneg d)) (next_site g) L c) ;;
  m <- contract s0 s1 [1] [0] ;;
  D <- eig m ;;
  D' <- pick D (sort_desc (map cabs D)) ;;
  v0 <- at_index D' 0 ;;
  Ok (map (cscale (1 / cabs v0)%R) D').
End GenericEH.
End Transfer.
