(** Specification: zero-padded embeddings of tensors, and contractions of networks. *)
From Verif Require Import Base Tensor TensorLemmas Extend.
Open Scope list_scope.

Section Spec.
Context {K : Type} (z : K).

(** [t'] has shape [dims'], equals [t] where both are defined, and zero elsewhere *)
Definition padded (t : tensor K) (dims' : list nat) (t' : tensor K) : Prop :=
  twf t' /\ tdims t' = dims' /\
  forall ix, in_range dims' ix -> tget t' ix = Some (match tget t ix with Some v => v | None => z end).

(** every element is a value the type can hold *)
Definition storable (conv : K -> K) (t : tensor K) : Prop := Forall (fun v => conv v = v) (tdata t).

(** networks: every leg of a tensor is attached to a bond, which is summed, or fixed *)
Inductive leg := Bond (b : nat) | Open (i : nat).
Definition leg_index (ix : list nat) (l : leg) : nat := match l with Bond b => nth b ix O | Open i => i end.

Variables (add mul : K -> K -> K) (one : K).
Definition ksum (l : list K) : K := fold_right add z l.
Definition kprod (l : list K) : K := fold_right mul one l.
Definition elem (t : tensor K) (ix : list nat) : K := match tget t ix with Some v => v | None => z end.
(** sum over the bonds of the product of the tensors *)
Definition contract (bdims : list nat) (net : list (tensor K * list leg)) : K :=
  ksum (map (fun ix => kprod (map (fun tl => elem (fst tl) (map (leg_index ix) (snd tl))) net)) (indices bdims)).

(** bond b has the dimensions given, fixed legs lie in the tensor *)
Definition fits_leg (bdims : list nat) (d : nat) (l : leg) : Prop :=
  match l with Bond b => nth_error bdims b = Some d | Open i => i < d end%nat.
Definition well_formed_net (bdims : list nat) (net : list (tensor K * list leg)) : Prop :=
  Forall (fun tl => Forall2 (fits_leg bdims) (tdims (fst tl)) (snd tl)) net /\
  forall b, (b < length bdims)%nat -> exists tl, In tl net /\ In (Bond b) (snd tl).

(** the tensors of a network taken from a state: (site, conjugated, legs) *)
Variable conj : K -> K.
Definition state_net (sites : dict coord (tensor K)) (lab : list (coord * bool * list leg)) : list (tensor K * list leg) :=
  map (fun l => match l with (c, cj, legs) =>
         match dget sites c with
         | Some t => (if cj : bool then tmap conj t else t, legs)
         | None => (mkT [] [], legs)
         end end) lab.
End Spec.

(** environments: the shape of the tensor in direction [dir] for environment dimension chi and
    double-layer dimension n, env.py:90-105 *)
Section Env.
Context {K : Type} (z : K).
Definition c_dims (chi : nat) : list nat := [chi; chi].
Definition t_dims (dir : coord) (chi n : nat) : option (list nat) :=
  if eqb dir (0, -1)%Z then Some [chi; n; chi]
  else if eqb dir (-1, 0)%Z then Some [chi; chi; n]
  else if eqb dir (0, 1)%Z then Some [n; chi; chi]
  else if eqb dir (1, 0)%Z then Some [chi; n; chi]
  else None.
(** corners and half-row/column tensors of an environment of dimension chi *)
Definition c_shaped (chi : nat) (k : coord * coord) (t : tensor K) : Prop := twf t /\ tdims t = c_dims chi.
Definition t_shaped (chi : nat) (k : coord * coord) (t : tensor K) : Prop :=
  twf t /\ exists n, t_dims (snd k) chi n = Some (tdims t).
(** entry by entry: same key, zero-padded or cut to the new dimension *)
Definition c_resized (new_chi : nat) (a b : (coord * coord) * tensor K) : Prop :=
  fst a = fst b /\ padded z (snd a) (c_dims new_chi) (snd b).
Definition t_resized (chi new_chi : nat) (a b : (coord * coord) * tensor K) : Prop :=
  fst a = fst b /\ exists n d', t_dims (snd (fst a)) chi n = Some (tdims (snd a)) /\
    t_dims (snd (fst a)) new_chi n = Some d' /\ padded z (snd a) d' (snd b).
End Env.

(** states and environments the functions are meant for *)
Section Good.
Context {K : Type}.
Section St.
Variables (re : K -> K) (dt : dtype).
Open Scope nat_scope.
Definition rank5 (t : tensor K) : Prop := twf t /\ length (tdims t) = 5.
Definition aux_le (D : nat) (t : tensor K) : Prop := Forall (fun d => d <= D) (tl (tdims t)).
Definition new_dims (D : nat) (t : tensor K) : list nat := [hd 0 (tdims t); D; D; D; D].

(** distinct keys, rank-5 tensors whose elements have the state's type *)
Definition good_state (sites : dict coord (tensor K)) : Prop :=
  NoDup (dkeys sites) /\ forall c t, dget sites c = Some t -> rank5 t /\ storable (cast re dt) t.

End St.
Section En.
Variable re : K -> K.
Definition env_good (e : envx K) : Prop :=
  Forall (fun kc => c_shaped (x_chi e) (fst kc) (snd kc) /\ storable (cast re (x_dt e)) (snd kc)) (x_C e) /\
  Forall (fun kt => t_shaped (x_chi e) (fst kt) (snd kt) /\ storable (cast re (x_dt e)) (snd kt)) (x_T e).

End En.
End Good.

(** stores without dangling locations *)
Section HeapS.
Context {K : Type}.
Open Scope nat_scope.
Implicit Types (s : store K) (h : list (tensor K)).
Definition dict_ok h (d : dict (coord * coord) nat) : Prop := forall k l, In (k, l) d -> l < length h.
Definition store_ok s : Prop := Forall (dict_ok (tens s)) (dicts s).

(** what is visible through the dictionaries of [s] is visible in [s'] *)
Definition keeps s s' : Prop := forall a k, a < length (dicts s) -> rd s' a k = rd s a k.

(** operations a user can do through a dictionary *)
Inductive op := SetItem (a : nat) (k : coord * coord) (t : tensor K) | InPlace (a : nat) (k : coord * coord) (f : tensor K -> tensor K).
Definition op_addr (o : op) : nat := match o with SetItem a _ _ => a | InPlace a _ _ => a end.
Definition run_op s (o : op) : store K := match o with SetItem a k t => setitem s a k t | InPlace a k f => inplace s a k f end.

Definition locs s a : nat -> Prop := fun l => exists d k, nth_error (dicts s) a = Some d /\ In (k, l) d.
Definition apart s (A B : list nat) : Prop := (forall a b, In a A -> In b B -> a <> b) /\ forall a b l, In a A -> In b B -> locs s a l -> locs s b l -> False.

Definition env_ok s (e : envp) : Prop := p_C e < length (dicts s) /\ p_T e < length (dicts s).

End HeapS.
