(** Model of bond weights: IPEPS_WEIGHTED, ipeps/ipeps.py:543-670.  No proofs here.

    Simplifications: the constructor's checks of dtype and device are left out (C01 models the
    constructor of IPEPS); multiplication by 1+0j, which only changes the dtype, is left out. *)
From Verif Require Import Base Lattice Tensor Net.
Open Scope Z_scope.
Open Scope list_scope.
Open Scope res_scope.

(** [dxy_w_to_ind], ipeps/ipeps.py:598, 636 *)
Definition dxy_w_to_ind : dict coord nat := [((0, -1), 1%nat); ((-1, 0), 2%nat); ((0, 1), 3%nat); ((1, 0), 4%nat)].

Section Weights.
Context {K : Type} (z o : K) (add mul : K -> K -> K).
(** [W.sqrt()] acts on every entry *)
Variable sqrt : K -> K.
Definition weights := dict (coord * coord) (tensor K).

(** [t.size(k)] *)
Definition tsize (t : tensor K) (k : nat) : res nat :=
  match nth_error (tdims t) k with Some n => Ok n | None => Err IndexError end.
(** [torch.eye(n)] *)
Definition eye (n : nat) : tensor K :=
  tbuild [n; n] (fun ix => match ix with [i; j] => if Nat.eqb i j then o else z | _ => z end).

(** body of the double loop, ipeps/ipeps.py:602-613 *)
Definition generate_step (st : ipeps (tensor K)) (ws : weights) (p : coord * (coord * nat)) : res weights :=
  let '(c, (dxy, ind)) := p in
  let w_id := (c, dxy) in
  k <- i_v2s st (cadd c dxy) ;;
  let w_rid := (k, cneg dxy) in
  if negb (dmem ws w_id) && negb (dmem ws w_rid) then
    a <- ipeps_site st (fst w_id) ;;
    i <- dget_exn dxy_w_to_ind (snd w_id) ;;
    m <- tsize a i ;;
    b <- ipeps_site st (fst w_rid) ;;
    j <- dget_exn dxy_w_to_ind (snd w_rid) ;;
    n <- tsize b j ;;
    _ <- py_assert (Nat.eqb m n) ;;
    let W := eye m in
    Ok (dset (dset ws w_id W) w_rid W)
  else Ok ws.

(** [generate_weights], ipeps/ipeps.py:589-614 *)
Definition generate_weights (st : ipeps (tensor K)) : res weights :=
  match i_sites st with
  | None => Err AttributeError
  | Some s => foldM (generate_step st) (flat_map (fun c => map (fun di => (c, di)) dxy_w_to_ind) (dkeys s)) []
  end.

(** [weight], ipeps/ipeps.py:658-670 *)
Definition weight (st : ipeps (tensor K)) (ws : weights) (w_id : coord * coord) : res (tensor K) :=
  let (xy_site, dxy) := w_id in
  _ <- py_assert (existsb (fun d => eqb d dxy) [(0, -1); (-1, 0); (0, 1); (1, 0)]) ;;
  k <- i_v2s st xy_site ;;
  dget_exn ws (k, dxy).

(** body of the loop of [absorb_weights], ipeps/ipeps.py:641-649.  The labels of
    'smnop,um,ln,do,rp->suldr': s,m,n,o,p are 0..4 and u,l,d,r are 5..8 *)
Definition absorb_site (st : ipeps (tensor K)) (ws : weights) (c : coord) : res (tensor K) :=
  a <- ipeps_site st c ;;
  w <- mapM (fun dxy => t <- weight st ws (c, dxy) ;; Ok (tmap sqrt t)) (dkeys dxy_w_to_ind) ;;
  einsum z o add mul ((a, [0; 1; 2; 3; 4]%nat) :: combine w [[5; 1]; [6; 2]; [7; 3]; [8; 4]]%nat) [0; 5; 6; 7; 8]%nat.

(** [absorb_weights], ipeps/ipeps.py:616-656 *)
Definition absorb_weights (st : ipeps (tensor K)) (ws : weights) : res (ipeps (tensor K)) :=
  match i_sites st with
  | None => Err AttributeError
  | Some s =>
    a_sites <- foldM (fun d c => t <- absorb_site st ws c ;; Ok (dset d c t)) (dkeys s) [] ;;
    Ok (mk_ipeps (Some a_sites) (i_lX st) (i_lY st) (i_v2s st))
  end.
End Weights.
