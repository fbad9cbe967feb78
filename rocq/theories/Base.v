(** Shared vocabulary of all model files: exceptions as values, Python
    dictionaries as insertion-ordered association lists, lattice coordinates,
    Python [range], [min], [sorted].  No proofs here except decidability. *)
From Coq Require Export String.
From Coq Require Export Bool ZArith Lia Permutation Sorted List.
Export ListNotations.
Open Scope Z_scope.

(** Python exceptions that occur on modelled paths.  [PyException] is
    [raise Exception(..)]; [OutOfFuel] never corresponds to Python behaviour, it
    marks exhausted recursion fuel of a model function and is excluded by the
    theorems about that function. *)
Inductive pyerr : Type :=
| PyException | KeyError | IndexError | ValueError | TypeError | AssertionError
| NotImplementedError | RuntimeError | AttributeError | NameError
| UnboundLocalError | ZeroDivisionError | SystemExit | OutOfFuel.

Inductive res (A : Type) : Type :=
| Ok (a : A)
| Err (e : pyerr).
Arguments Ok {A} a.
Arguments Err {A} e.

Definition bind {A B : Type} (m : res A) (f : A -> res B) : res B :=
  match m with Ok a => f a | Err e => Err e end.

Declare Scope res_scope.
Delimit Scope res_scope with res.
Notation "x <- m ;; k" := (bind m (fun x => k))
  (at level 61, m at next level, right associativity) : res_scope.
Notation "' p <- m ;; k" := (bind m (fun p => k))
  (at level 61, p pattern, m at next level, right associativity) : res_scope.

(** [assert b] *)
Definition py_assert (b : bool) : res unit := if b then Ok tt else Err AssertionError.

(** left fold in the exception monad: a Python [for] loop over a list *)
Fixpoint foldM {A S : Type} (f : S -> A -> res S) (l : list A) (s : S) : res S :=
  match l with
  | [] => Ok s
  | a :: l' => bind (f s a) (fun s' => foldM f l' s')
  end.

(** list comprehension whose element expression may raise *)
Fixpoint mapM {A B : Type} (f : A -> res B) (l : list A) : res (list B) :=
  match l with
  | [] => Ok []
  | a :: l' => bind (f a) (fun b => bind (mapM f l') (fun bs => Ok (b :: bs)))
  end.

(** decidable equality used for dictionary keys / labels (Python [==] on
    hashable values) *)
Class EqDec (A : Type) := eq_dec : forall x y : A, {x = y} + {x <> y}.
#[global] Instance EqDec_Z : EqDec Z := Z.eq_dec.
#[global] Instance EqDec_nat : EqDec nat := Nat.eq_dec.
#[global] Instance EqDec_bool : EqDec bool := Bool.bool_dec.
#[global] Instance EqDec_string : EqDec string := String.string_dec.
#[global] Instance EqDec_prod {A B} `{EqDec A} `{EqDec B} : EqDec (A * B).
Proof. intros [a b] [a' b']; destruct (eq_dec a a'); [destruct (eq_dec b b')|];
  [left | right | right]; congruence. Defined.
#[global] Instance EqDec_list {A} `{EqDec A} : EqDec (list A) := List.list_eq_dec eq_dec.
#[global] Instance EqDec_option {A} `{EqDec A} : EqDec (option A).
Proof. intros [a|] [b|]; [destruct (eq_dec a b)| | |]; [left|right|right|right|left]; congruence. Defined.

(** boolean version *)
Definition eqb {A} `{EqDec A} (x y : A) : bool := if eq_dec x y then true else false.

(** ** dictionaries: association lists in insertion order *)
Definition dict (K V : Type) := list (K * V).

Section Dict.
Context {K V : Type} `{EqDec K}.

(** [d.get(k)] *)
Fixpoint dget (d : dict K V) (k : K) : option V :=
  match d with
  | [] => None
  | (k', v) :: d' => if eq_dec k k' then Some v else dget d' k
  end.

(** [d[k]] *)
Definition dget_exn (d : dict K V) (k : K) : res V :=
  match dget d k with Some v => Ok v | None => Err KeyError end.

(** [d[k] = v]: an existing key keeps its position, a new key is appended *)
Fixpoint dset (d : dict K V) (k : K) (v : V) : dict K V :=
  match d with
  | [] => [(k, v)]
  | (k', v') :: d' => if eq_dec k k' then (k', v) :: d' else (k', v') :: dset d' k v
  end.

Definition dkeys (d : dict K V) : list K := map fst d.
Definition dvals (d : dict K V) : list V := map snd d.

(** [k in d] *)
Definition dmem (d : dict K V) (k : K) : bool :=
  match dget d k with Some _ => true | None => false end.

(** [{k: v for (k,v) in l}] / [dict(l)]: later items overwrite earlier ones *)
Definition dict_of (l : list (K * V)) : dict K V :=
  fold_left (fun d kv => dset d (fst kv) (snd kv)) l [].
End Dict.

(** ** lattice coordinates *)
Definition coord := (Z * Z)%type.
Definition cadd (a b : coord) : coord := (fst a + fst b, snd a + snd b).
Definition cneg (a : coord) : coord := (- fst a, - snd a).
Definition csub (a b : coord) : coord := (fst a - fst b, snd a - snd b).

(** Python's tuple comparison [a <= b] on pairs of ints *)
Definition cleb (a b : coord) : bool :=
  (fst a <? fst b) || ((fst a =? fst b) && (snd a <=? snd b)).

(** Python [min] of a non-empty list of tuples (first minimal element);
    ValueError on an empty sequence *)
Fixpoint cmin_from (m : coord) (l : list coord) : coord :=
  match l with
  | [] => m
  | c :: l' => cmin_from (if cleb m c then m else c) l'
  end.
Definition cmin (l : list coord) : res coord :=
  match l with [] => Err ValueError | c :: l' => Ok (cmin_from c l') end.

(** Python [sorted] on tuples: insertion sort *)
Fixpoint cinsert (c : coord) (l : list coord) : list coord :=
  match l with
  | [] => [c]
  | c' :: l' => if cleb c c' then c :: l else c' :: cinsert c l'
  end.
Fixpoint csort (l : list coord) : list coord :=
  match l with [] => [] | c :: l' => cinsert c (csort l') end.

(** Python [range(n)]; empty for non-positive n *)
Definition zrange (n : Z) : list Z := map Z.of_nat (seq 0 (Z.to_nat n)).

(** [min]/[max] of a list of ints, ValueError on empty *)
Definition zmin_list (l : list Z) : res Z :=
  match l with [] => Err ValueError | z :: l' => Ok (fold_left Z.min l' z) end.
Definition zmax_list (l : list Z) : res Z :=
  match l with [] => Err ValueError | z :: l' => Ok (fold_left Z.max l' z) end.

(** Python [a % b]: raises ZeroDivisionError for b = 0, otherwise the result has
    the sign of b - which is Coq's [Z.modulo]. *)
Definition pymod (a b : Z) : res Z :=
  if b =? 0 then Err ZeroDivisionError else Ok (a mod b).
