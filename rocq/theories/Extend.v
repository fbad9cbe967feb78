(** Model of the enlargement of tensors: extend_bond_dim (ipeps/ipeps.py:443-465), ENV.extend,
    ENV.clone, ENV.detach (ctm/generic/env.py:118-202).

    Elements are abstract; [re] is the conversion of a complex value stored into a real tensor
    (torch discards the imaginary part).  Devices and gradients are not modelled.  A value of
    higher rank than the slice it is assigned to is rejected (torch would first drop leading
    dimensions of size 1). *)
From Verif Require Import Base Tensor.
Open Scope list_scope.
Open Scope res_scope.

(** ** slices [t[:k1,:k2,...]]; None stands for [:] *)
Section Slice.
Context {K : Type} (z : K).
Definition tval (t : tensor K) (ix : list nat) : K := match tget t ix with Some v => v | None => z end.

Definition slice_dim (d : nat) (k : option nat) : nat := match k with None => d | Some k => Nat.min k d end.
Fixpoint slice_dims (dims : list nat) (ks : list (option nat)) : list nat :=
  match dims, ks with
  | d :: dims', k :: ks' => slice_dim d k :: slice_dims dims' ks'
  | _, _ => dims
  end.
Definition tslice (t : tensor K) (ks : list (option nat)) : res (tensor K) :=
  if Nat.leb (length ks) (length (tdims t)) then Ok (tbuild (slice_dims (tdims t) ks) (tval t)) else Err IndexError.

(** broadcasting of a value of the same rank *)
Fixpoint broadcastable (vd sd : list nat) : bool :=
  match vd, sd with
  | [], [] => true
  | a :: vd', b :: sd' => (Nat.eqb a b || Nat.eqb a 1) && broadcastable vd' sd'
  | _, _ => false
  end.
Fixpoint bcast (vd ix : list nat) : list nat :=
  match vd, ix with
  | a :: vd', i :: ix' => (if Nat.eqb a 1 then O else i) :: bcast vd' ix'
  | _, _ => ix
  end.
Fixpoint in_rangeb (dims ix : list nat) : bool :=
  match dims, ix with
  | [], [] => true
  | d :: dims', i :: ix' => Nat.ltb i d && in_rangeb dims' ix'
  | _, _ => false
  end.
(** [t[:k1,:k2,...] = v], with conversion [cv] of the elements *)
Definition tset_slice (cv : K -> K) (t : tensor K) (ks : list (option nat)) (v : tensor K) : res (tensor K) :=
  if Nat.leb (length ks) (length (tdims t)) then
    let sd := slice_dims (tdims t) ks in
    if broadcastable (tdims v) sd then
      Ok (tbuild (tdims t) (fun ix => if in_rangeb sd ix then cv (tval v (bcast (tdims v) ix)) else tval t ix))
    else Err RuntimeError
  else Err IndexError.
End Slice.

Section Extend.
Context {K : Type} (z : K) (re : K -> K).

(** element type: torch.float64 or torch.complex128 *)
Inductive dtype := Real | Cplx.
Definition cast (dt : dtype) : K -> K := match dt with Real => re | Cplx => fun v => v end.

(** ** extend_bond_dim, ipeps.py:457-464: one site *)
Definition extend_site (dt : dtype) (new_d : nat) (site : tensor K) : res (tensor K) :=
  let dims := tdims site in
  if existsb (fun d => negb (Nat.leb d new_d)) (tl dims) then Err ValueError
  else
    match dims with
    | d0 :: d1 :: d2 :: d3 :: d4 :: _ =>
        tset_slice z (cast dt) (tzeros z [d0; new_d; new_d; new_d; new_d]) [None; Some d1; Some d2; Some d3; Some d4] site
    | _ => Err IndexError
    end.

(** the loop, ipeps.py:456-464; the dictionary is changed in place, so that its state when an
    exception is raised is part of the result *)
Fixpoint extend_loop (dt : dtype) (new_d : nat) (todo : list (coord * tensor K)) (sites : dict coord (tensor K)) : dict coord (tensor K) * res unit :=
  match todo with
  | [] => (sites, Ok tt)
  | (c, site) :: todo' =>
      match extend_site dt new_d site with
      | Err e => (sites, Err e)
      | Ok s => extend_loop dt new_d todo' (dset sites c s)
      end
  end.
Definition extend_bond_dim (dt : dtype) (sites : dict coord (tensor K)) (new_d : nat) := extend_loop dt new_d sites sites.

(** ** environments *)
Record envx := { x_chi : nat; x_dt : dtype; x_C : dict (coord * coord) (tensor K); x_T : dict (coord * coord) (tensor K) }.

(** env.py:183-184 *)
Definition extend_C (dt : dtype) (x new_chi : nat) (c : tensor K) : res (tensor K) :=
  v <- tslice z c [Some x; Some x] ;; tset_slice z (cast dt) (tzeros z [new_chi; new_chi]) [Some x; Some x] v.
(** env.py:186-199 *)
Definition extend_T (dt : dtype) (x new_chi : nat) (dir : coord) (t : tensor K) : res (tensor K) :=
  if eqb dir (0, -1)%Z || eqb dir (1, 0)%Z then
    n <- match nth_error (tdims t) 1 with Some n => Ok n | None => Err IndexError end ;;
    v <- tslice z t [Some x; None; Some x] ;; tset_slice z (cast dt) (tzeros z [new_chi; n; new_chi]) [Some x; None; Some x] v
  else if eqb dir (-1, 0)%Z then
    n <- match nth_error (tdims t) 2 with Some n => Ok n | None => Err IndexError end ;;
    v <- tslice z t [Some x; Some x; None] ;; tset_slice z (cast dt) (tzeros z [new_chi; new_chi; n]) [Some x; Some x; None] v
  else if eqb dir (0, 1)%Z then
    n <- match nth_error (tdims t) 0 with Some n => Ok n | None => Err IndexError end ;;
    v <- tslice z t [None; Some x; Some x] ;; tset_slice z (cast dt) (tzeros z [n; new_chi; new_chi]) [None; Some x; Some x] v
  else Err PyException.

(** ENV.extend, env.py:164-202 *)
Definition env_extend (gdt : dtype) (new_chi : nat) (e : envx) : res envx :=
  let x := Nat.min (x_chi e) new_chi in
  C <- mapM (fun kc => c <- extend_C (x_dt e) x new_chi (snd kc) ;; Ok (fst kc, c)) (x_C e) ;;
  T <- mapM (fun kt => t <- extend_T (x_dt e) x new_chi (snd (fst kt)) (snd kt) ;; Ok (fst kt, t)) (x_T e) ;;
  Ok {| x_chi := new_chi; x_dt := gdt; x_C := C; x_T := T |}.
End Extend.
Arguments envx K : clear implicits.

(** ** clone and detach with aliasing, env.py:130-133, 149-152: tensors and dictionaries live in
    a store, [c.clone()] copies a tensor, [c.detach()] shares its storage, the comprehensions make
    new dictionaries *)
Section Heap.
Context {K : Type}.
Record store := { tens : list (tensor K); dicts : list (dict (coord * coord) nat) }.
Record envp := { p_chi : nat; p_dt : dtype; p_C : nat; p_T : nat }.   (* addresses of the dictionaries *)

(** [d[k]] *)
Definition rd (s : store) (a : nat) (k : coord * coord) : option (tensor K) :=
  match nth_error (dicts s) a with
  | None => None
  | Some d => match dget d k with None => None | Some l => nth_error (tens s) l end
  end.
Definition put {X} (l : list X) (n : nat) (x : X) : list X := firstn n l ++ x :: skipn (S n) l.
(** [d[k] = t] *)
Definition setitem (s : store) (a : nat) (k : coord * coord) (t : tensor K) : store :=
  match nth_error (dicts s) a with
  | None => s
  | Some d => {| tens := tens s ++ [t]; dicts := put (dicts s) a (dset d k (length (tens s))) |}
  end.
(** an in-place operation on [d[k]] *)
Definition inplace (s : store) (a : nat) (k : coord * coord) (f : tensor K -> tensor K) : store :=
  match nth_error (dicts s) a with
  | None => s
  | Some d =>
      match dget d k with
      | None => s
      | Some l => match nth_error (tens s) l with
                  | None => s
                  | Some t => {| tens := put (tens s) l (f t); dicts := dicts s |}
                  end
      end
  end.

Fixpoint clone_items (h : list (tensor K)) (d : dict (coord * coord) nat) : res (list (tensor K) * dict (coord * coord) nat) :=
  match d with
  | [] => Ok (h, [])
  | (k, l) :: d' =>
      match nth_error h l with
      | None => Err RuntimeError
      | Some t => ' (h', r) <- clone_items (h ++ [t]) d' ;; Ok (h', (k, length h) :: r)
      end
  end.
Definition clone_dict (s : store) (a : nat) : res (store * nat) :=
  match nth_error (dicts s) a with
  | None => Err RuntimeError
  | Some d => ' (h, d') <- clone_items (tens s) d ;;
      Ok ({| tens := h; dicts := dicts s ++ [d'] |}, length (dicts s))
  end.
Definition detach_dict (s : store) (a : nat) : res (store * nat) :=
  match nth_error (dicts s) a with
  | None => Err RuntimeError
  | Some d => Ok ({| tens := tens s; dicts := dicts s ++ [map (fun kl => (fst kl, snd kl)) d] |}, length (dicts s))
  end.
(** the new environment takes its element type from global_args (env.py:81) *)
Definition with_dicts (f : store -> nat -> res (store * nat)) (gdt : dtype) (s : store) (e : envp) : res (store * envp) :=
  ' (s1, c) <- f s (p_C e) ;;
  ' (s2, t) <- f s1 (p_T e) ;;
  Ok (s2, {| p_chi := p_chi e; p_dt := gdt; p_C := c; p_T := t |}).
Definition env_clone := with_dicts clone_dict.
Definition env_detach := with_dicts detach_dict.
End Heap.
Arguments store K : clear implicits.
