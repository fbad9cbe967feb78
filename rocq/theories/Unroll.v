(** Model of contractions with unrolled indices, oe_ext/oe_ext.py.  No proofs here.

    The arguments [T0, ig0, T1, ig1, ..., out] in interleaved format are a list of pairs and the
    output group; the docstring (oe_ext.py:517-518) requires the output group.

    Simplifications: [oe.contract] is the einsum of Net.v, which fixes the value and not the
    order of pairwise contractions; the expression built in advance from shapes
    (oe_ext.py:606-608) is not modelled, so that a dimension 0, which [i > 0] drops from those
    shapes (oe_ext.py:575, 581), is not rejected; devices, dtypes, logging, checkpointing (which
    recomputes the same function) and the cuquantum backend are left out. *)
From Verif Require Import Base Tensor Net.
Open Scope list_scope.
Open Scope nat_scope.
Open Scope res_scope.

Section Unroll.
Context {K : Type} (z o : K) (add mul : K -> K -> K).

(** [t[ix]] where every entry of the tuple [ix] is an integer or [slice(None)]; missing trailing
    entries are [slice(None)] *)
Fixpoint kept (dims : list nat) (ix : list (option nat)) : res (list nat) :=
  match ix, dims with
  | [], _ => Ok dims
  | _ :: _, [] => Err IndexError
  | Some i :: ix', d :: dims' => if i <? d then kept dims' ix' else Err IndexError
  | None :: ix', d :: dims' => r <- kept dims' ix' ;; Ok (d :: r)
  end.
(** the full index whose free entries are [jx] *)
Fixpoint fill (ix : list (option nat)) (jx : list nat) : list nat :=
  match ix with
  | [] => jx
  | Some i :: ix' => i :: fill ix' jx
  | None :: ix' => match jx with j :: jx' => j :: fill ix' jx' | [] => [] end
  end.
Definition getitem (t : tensor K) (ix : list (option nat)) : res (tensor K) :=
  dims <- kept (tdims t) ix ;; Ok (tbuild dims (fun jx => tel z t (fill ix jx))).
(** the entries of [kx] at the slices of [ix], when [kx] has the fixed entries of [ix] *)
Fixpoint unfill (ix : list (option nat)) (kx : list nat) : option (list nat) :=
  match ix, kx with
  | [], _ => Some kx
  | _ :: _, [] => None
  | Some i :: ix', k :: kx' => if i =? k then unfill ix' kx' else None
  | None :: ix', k :: kx' => option_map (cons k) (unfill ix' kx')
  end.
(** [t[ix] = v]; v is not broadcast *)
Definition setitem (t : tensor K) (ix : list (option nat)) (v : tensor K) : res (tensor K) :=
  dims <- kept (tdims t) ix ;;
  if eqb dims (tdims v)
  then Ok (tbuild (tdims t) (fun kx => match unfill ix kx with Some jx => tel z v jx | None => tel z t kx end))
  else Err RuntimeError.

(** oe_ext.py:48-50: number of index groups, the output among them, that contain the index *)
Definition groups_with (u : nat) (groups : list (list nat)) : nat := length (filter (memb u) groups).
(** oe_ext.py:72-76 and 620-624: the dictionary label -> dimension *)
Definition i_to_s (ops : list (tensor K * list nat)) : dict nat nat := dict_of (label_dims ops).
(** oe_ext.py:627-629 *)
Definition strip (unroll ig : list nat) : list nat := filter (fun i => negb (memb i unroll)) ig.
(** [tuple(ui_map[i] if i in unroll else slice(None) for i in ig)]; [ui_map] has the keys [unroll] *)
Definition slices (unroll : list nat) (ui_map : dict nat nat) (ig : list nat) : list (option nat) :=
  map (fun i => if memb i unroll then dget ui_map i else None) ig.

(** one pass of the loop, oe_ext.py:644-679.  [ckpt]: checkpoint_unrolled, every tensor is
    indexed (613-617, 660-668); otherwise only those with an unrolled index, the others being
    constants of the expression (564-577, 670-679) *)
Definition narrow (ckpt : bool) (unroll : list nat) (ui_map : dict nat nat) (op : tensor K * list nat)
  : res (tensor K * list nat) :=
  if ckpt || existsb (fun i => memb i unroll) (snd op)
  then t <- getitem (fst op) (slices unroll ui_map (snd op)) ;; Ok (t, strip unroll (snd op))
  else Ok (fst op, strip unroll (snd op)).
Definition loop_body (ckpt : bool) (ops : list (tensor K * list nat)) (out unroll : list nat)
    (partials : tensor K) (ui_vals : list nat) : res (tensor K) :=
  let ui_map := dict_of (combine unroll ui_vals) in
  let ig_out := slices unroll ui_map out in
  let ig_contracted_unrolled := map (dget ui_map) (filter (fun i => negb (memb i out)) unroll) in
  unrolled_ops <- mapM (narrow ckpt unroll ui_map) ops ;;
  part <- einsum z o add mul unrolled_ops (strip unroll out) ;;
  setitem partials (ig_out ++ ig_contracted_unrolled) part.

(** oe_ext.py:601-693; [junk] is the content of the uninitialised tensor [torch.empty] *)
Definition contract_with_unroll_oe (junk : list nat -> K) (ckpt : bool)
    (ops : list (tensor K * list nat)) (out unroll : list nat) : res (tensor K) :=
  shape_out <- mapM (dget_exn (i_to_s ops)) out ;;
  let contracted := filter (fun i => negb (memb i out)) unroll in
  shape_c <- mapM (dget_exn (i_to_s ops)) contracted ;;
  let partials := tbuild (shape_out ++ shape_c) junk in
  ranges <- mapM (dget_exn (i_to_s ops)) unroll ;;
  partials <- foldM (loop_body ckpt ops out unroll) (indices ranges) partials ;;
  einsum z o add mul [(partials, out ++ contracted)] out.

(** oe_ext.py:513-599; the assertion is made in 47-50 *)
Definition contract_with_unroll (junk : list nat -> K) (ckpt : bool)
    (ops : list (tensor K * list nat)) (out unroll : list nat) : res (tensor K) :=
  match unroll with
  | [] => einsum z o add mul ops out
  | _ =>
    _ <- py_assert (forallb (fun u => 2 <=? groups_with u (map snd ops ++ [out])) unroll) ;;
    contract_with_unroll_oe junk ckpt ops out unroll
  end.
End Unroll.
