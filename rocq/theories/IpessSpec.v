(** What the kagome iPESS ansatz promises. *)
From Verif Require Import Base Tensor Ipess.
Open Scope string_scope.
Open Scope list_scope.
Open Scope nat_scope.

Section Spec.
Context {K : Type} (k0 : K) (kadd kmul : K -> K -> K) (kopp cj : K -> K).
Notation ten := (tensor K).
(** an element, zero outside of the tensor *)
Definition at3 (t : ten) (i j k : nat) : K := match tget t [i; j; k] with Some x => x | None => k0 end.
Definition sum_to (n : nat) (f : nat -> K) : K := fold_right kadd k0 (map f (seq 0 n)).
(** the drawing
      a       b
       \     /
         T_u
          | i
         B_c -- u
          | j
         T_d
       k/   \l
   v--B_b   B_a--w
      |c      |d      *)
Record five := mk5 { t_u : ten; t_d : ten; b_a : ten; b_b : ten; b_c : ten }.
Definition amplitude (F : five) (Di Dj Dk Dl : nat) (u v w a b c d : nat) : K :=
  sum_to Di (fun i => sum_to Dj (fun j => sum_to Dk (fun k => sum_to Dl (fun l =>
    kmul (at3 (t_u F) i a b) (kmul (at3 (b_c F) u j i) (kmul (at3 (t_d F) j k l) (kmul (at3 (b_b F) v k c) (at3 (b_a F) w l d)))))))).
(** shapes that can be contracted *)
Definition fitting (F : five) (pa pb pc Da Db Dc Dd Di Dj Dk Dl : nat) : Prop :=
  (twf (t_u F) /\ twf (t_d F) /\ twf (b_a F) /\ twf (b_b F) /\ twf (b_c F)) /\
  tdims (t_u F) = [Di; Da; Db] /\ tdims (b_c F) = [pc; Dj; Di] /\ tdims (t_d F) = [Dj; Dk; Dl] /\ tdims (b_b F) = [pb; Dk; Dc] /\ tdims (b_a F) = [pa; Dl; Dd].

(** irreducible representations: bond tensors under exchange of their two bonds, trivalent tensors under rotations and reflections; complex conjugation
    is combined with the odd operations *)
Definition bond_irrep (sign : K -> K) (t : ten) : Prop := forall s a b, at3 t s b a = sign (cj (at3 t s a b)).
Definition tri_irrep (sign : K -> K) (t : ten) : Prop := (forall a b c, at3 t b c a = at3 t a b c) /\ (forall a b c, at3 t a c b = sign (cj (at3 t a b c))).
Definition irrep (k pg : string) (t : ten) : Prop :=
  if existsb (String.eqb k) ["B_a"; "B_b"; "B_c"] then
    if String.eqb pg "A" then bond_irrep (fun x => x) t else bond_irrep kopp t
  else if String.eqb pg "A_1" then tri_irrep (fun x => x) t else tri_irrep kopp t.
(** the irreps a tensor can have *)
Definition known (k pg : string) : Prop :=
  (In k ["B_a"; "B_b"; "B_c"] /\ In pg ["A"; "B"]) \/ (In k ["T_u"; "T_d"] /\ In pg ["A_1"; "A_2"]).
(** the on-site tensor of five tensors with p_c, p_b, p_a spin states and bonds of size D: amplitudes divided by the largest one *)
Definition all_amplitudes (F : five) (pa pb pc D : nat) : list K :=
  map (fun ix => match ix with [u; v; w; a; b; c; d] => amplitude F D D D D u v w a b c d | _ => k0 end) (indices [pc; pb; pa; D; D; D; D]).
Definition is_onsite (kdiv : K -> K -> K) (amax : list K -> K) (F : five) (pa pb pc D : nat) (A : ten) : Prop :=
  twf A /\ tdims A = [pc * (pb * pa); D; D; D; D] /\
  forall u v w a b c d, u < pc -> v < pb -> w < pa -> a < D -> b < D -> c < D -> d < D ->
    tget A [u * (pb * pa) + (v * pa + w); a; b; c; d] = Some (kdiv (amplitude F D D D D u v w a b c d) (amax (all_amplitudes F pa pb pc D))).
(** the five tensors of a state: T_d is T_u when up and down triangles are equal, B_a and B_b are B_c when the sites are equal *)
Definition tensors_of (ud bs : bool) (e : dict string ten) : option five :=
  match dget e "T_u", dget e (if ud then "T_u" else "T_d"), dget e (if bs then "B_c" else "B_a"), dget e (if bs then "B_c" else "B_b"), dget e "B_c" with
  | Some u, Some d, Some a, Some b, Some c => Some (mk5 u d a b c)
  | _, _, _, _, _ => None
  end.
Definition usable (F : five) (pa pb pc D : nat) : Prop := fitting F pa pb pc D D D D D D D D /\ 0 < D /\ 0 < pa /\ 0 < pb /\ 0 < pc.
(** a cell holding the five tensors *)
Definition holds (cell : dict string ten) (F : five) : Prop :=
  dget cell "T_u" = Some (t_u F) /\ dget cell "T_d" = Some (t_d F) /\ dget cell "B_a" = Some (b_a F) /\ dget cell "B_b" = Some (b_b F) /\ dget cell "B_c" = Some (b_c F).
(** the elementary tensors given to the constructor *)
Definition given (ud bs : bool) (u c d a b : ten) : dict string ten := [("T_u", u); ("B_c", c)] ++ (if ud then [] else [("T_d", d)]) ++ (if bs then [] else [("B_a", a); ("B_b", b)]).
(** projection of an element onto an irrep: the average over the operations of the group with the characters of the irrep *)
Definition projected (ksub : K -> K -> K) (half third : K) (k pg : string) (t : ten) (i j l : nat) : K :=
  let pm x y := if existsb (String.eqb pg) ["A"; "A_1"] then kadd x y else ksub x y in
  if existsb (String.eqb k) ["B_a"; "B_b"; "B_c"] then kmul half (pm (at3 t i j l) (cj (at3 t i l j)))
  else let r i j l := kmul third (kadd (kadd (at3 t i j l) (at3 t l i j)) (at3 t j l i)) in kmul half (pm (r i j l) (cj (r i l j))).
(** what becomes of a tensor that is to be projected *)
Definition made_symmetric (ksub : K -> K -> K) (half third : K) (g : dict string (option string)) (k : string) (t t' : ten) : Prop :=
  twf t' /\ tdims t' = tdims t /\
  match dget g k with
  | Some (Some pg) => irrep k pg t' /\ (forall i j l, at3 t' i j l = projected ksub half third k pg t i j l) /\ (irrep k pg t -> t' = t)
  | _ => t' = t
  end.
(** the other irrep of the same group *)
Definition other (pg : string) : string :=
  if String.eqb pg "A" then "B" else if String.eqb pg "B" then "A" else if String.eqb pg "A_1" then "A_2" else "A_1".
(** real coefficients c of a tensor of irrep pg: the tensors of pg in their order, then those of the other irrep times i *)
Definition ordered (im : K) (pg : string) (l : list (string * ten)) : list (nat -> nat -> nat -> K) :=
  map (fun x => at3 (snd x)) (filter (fun x => String.eqb (fst x) pg) l) ++ map (fun x i j k => kmul im (at3 (snd x) i j k)) (filter (fun x => String.eqb (fst x) (other pg)) l).
Definition coefficient (c : ten) (m : nat) : K := match tget c [m] with Some v => v | None => k0 end.
Definition combination (n : nat) (c : ten) (fs : list (nat -> nat -> nat -> K)) (i j k : nat) : K :=
  sum_to n (fun m => kmul (coefficient c m) (nth m fs (fun _ _ _ => k0) i j k)).
(** a state with one site made of the five tensors F *)
Definition site_of (kdiv : K -> K -> K) (amax : list K -> K) (s : @pgstate K) (F : five) (pa pb pc D : nat) : Prop :=
  tensors_of (sud s) (sbs s) (elem s) = Some F /\ usable F pa pb pc D /\
  (exists cell, ipess s = [((0, 0)%Z, cell)] /\ holds cell F) /\ (exists A, sites s = [((0, 0)%Z, A)] /\ is_onsite kdiv amax F pa pb pc D A).
(** tensors to which the operations of the groups apply *)
Definition symmetrisable (e : dict string ten) : Prop :=
  forall k t, dget e k = Some t -> twf t /\ exists p n, tdims t = (if existsb (String.eqb k) ["B_a"; "B_b"; "B_c"] then [p; n; n] else [n; n; n]).
(** point groups of known tensors with irreps they can have *)
Definition groups_ok (g : dict string (option string)) : Prop :=
  NoDup (dkeys g) /\ (forall k pg, In (k, Some pg) g -> known k pg) /\ (forall k o, In (k, o) g -> In k ["T_u"; "T_d"; "B_a"; "B_b"; "B_c"]).
End Spec.
