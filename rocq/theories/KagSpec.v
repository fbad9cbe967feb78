(** Specification: spin Hamiltonian of a triangle.  Matrices and operators are functions of row and column. *)
From Verif Require Import Base Su3Spec.
Open Scope list_scope.
Open Scope nat_scope.

Section Spec.
Context {K : Type} (k0 k1 : K) (kadd kmul ksub : K -> K -> K) (kopp : K -> K) (half im : K) (cj : K -> K).
Notation "a + b" := (kadd a b).
Notation "a * b" := (kmul a b).
Notation "a - b" := (ksub a b).
Variables (m : nat) (sz sp sm : nat -> nat -> K).
Definition mat := nat -> nat -> K.
Definition op3 := list nat -> list nat -> K.
Definition unit_mat : mat := fun i a => dirac k0 k1 (i =? a).
Definition sx : mat := fun i a => half * (sp i a + sm i a).
Definition sy : mat := fun i a => kopp (half * im) * (sp i a - sm i a).
(** A on site s and B on site t, unity elsewhere; s <> t *)
Definition place (f : nat -> mat) : op3 := fun i a => f 0 (nth 0 i 0) (nth 0 a 0) * (f 1 (nth 1 i 0) (nth 1 a 0) * f 2 (nth 2 i 0) (nth 2 a 0)).
Definition on1 (s : nat) (A : mat) : op3 := place (fun k => if k =? s then A else unit_mat).
Definition on2 (s t : nat) (A B : mat) : op3 := place (fun k => if k =? s then A else if k =? t then B else unit_mat).
Definition plus (A B : op3) : op3 := fun i a => A i a + B i a.
Definition minus (A B : op3) : op3 := fun i a => A i a - B i a.
Definition scale (c : K) (A : op3) : op3 := fun i a => c * A i a.
Definition states : list (list nat) := flat_map (fun x => flat_map (fun y => map (fun w => [x; y; w]) (seq 0 m)) (seq 0 m)) (seq 0 m).
(** product of operators *)
Definition times (A B : op3) : op3 := fun i a => fold_right kadd k0 (map (fun b => A i b * B b a) states).
(** S_s . S_t and the z component of S_s x S_t *)
Definition dot (s t : nat) : op3 := plus (on2 s t sx sx) (plus (on2 s t sy sy) (on2 s t sz sz)).
Definition cross_z (s t : nat) : op3 := minus (on2 s t sx sy) (on2 s t sy sx).
(** the sum over the bonds 0-1, 1-2, 2-0 *)
Definition bonds (f : nat -> nat -> op3) : op3 := plus (f 0 1) (plus (f 1 2) (f 2 0)).
(** S_0 . (S_1 x S_2) *)
Definition triple : op3 :=
  let t A B C := place (fun k => match k with 0 => A | 1 => B | _ => C end) in
  plus (minus (t sx sy sz) (t sx sz sy)) (plus (minus (t sy sz sx) (t sy sx sz)) (minus (t sz sx sy) (t sz sy sx))).
Definition H_kagome (j1 JD j1sq jtrip jperm h : K) : op3 :=
  plus (bonds (fun s t => plus (scale j1 (dot s t)) (plus (scale JD (cross_z s t)) (scale j1sq (times (dot s t) (dot s t))))))
 (plus (scale jtrip triple)
 (plus (plus (scale jperm (moves k0 k1 cyc)) (scale (cj jperm) (moves k0 k1 cyc')))
       (scale h (plus (on1 0 sz) (plus (on1 1 sz) (on1 2 sz)))))).
End Spec.
