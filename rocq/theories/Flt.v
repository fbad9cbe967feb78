(** Floating point scalars as an abstract interface, vectors over them, and the
    state-and-exception monad used by the optimizer models.  Three instances: exact reals,
    exact reals with infinities and not-a-number (IEEE special-value rules), and rationals for
    running examples. *)
From Coq Require Import Reals QArith.
From Verif Require Import Base.
Open Scope list_scope.

(** operations of the scalar type; [fq n d] is the literal n/d *)
Record fops (F : Type) := {
  fq : Z -> positive -> F;
  fadd : F -> F -> F; fsub : F -> F -> F; fmul : F -> F -> F; fdiv : F -> F -> F;
  fneg : F -> F; fabs : F -> F; fsqrt : F -> F;
  flt : F -> F -> bool; fle : F -> F -> bool; feq : F -> F -> bool }.
Arguments fq {F}. Arguments fadd {F}. Arguments fsub {F}. Arguments fmul {F}. Arguments fdiv {F}.
Arguments fneg {F}. Arguments fabs {F}. Arguments fsqrt {F}. Arguments flt {F}. Arguments fle {F}. Arguments feq {F}.

(** ** flat tensors.  A complex tensor is represented by its interleaved real and imaginary
    parts, so that [real(conj(a).dot(b))] is the dot product of the representations. *)
Section Vec.
Context {F : Type} (o : fops F).
Notation vec := (list F).
Fixpoint map2 (f : F -> F -> F) (a b : vec) : vec :=
  match a, b with x :: a', y :: b' => f x y :: map2 f a' b' | _, _ => [] end.
Definition vadd : vec -> vec -> vec := map2 (fadd o).
Definition vsub : vec -> vec -> vec := map2 (fsub o).
Definition vneg : vec -> vec := map (fneg o).
Definition vscale (c : F) : vec -> vec := map (fun x => fmul o x c).
(** [a.add(b, alpha=c)] *)
Definition vaxpy (c : F) : vec -> vec -> vec := map2 (fun x y => fadd o x (fmul o c y)).
Definition vdot (a b : vec) : F := fold_left (fadd o) (map2 (fmul o) a b) (fq o 0 1).
End Vec.

(** ** exceptions that the optimizers treat specially *)
Inductive exn := NoFixedPoint | EnvErr | Py (e : pyerr).

(** ** state and exceptions: the state reached when an exception is raised is kept *)
Definition M (St A : Type) : Type := St -> St * (exn + A).
Definition ret {St A} (a : A) : M St A := fun s => (s, inr a).
Definition raise {St A} (e : exn) : M St A := fun s => (s, inl e).
Definition mbind {St A B} (m : M St A) (k : A -> M St B) : M St B :=
  fun s => match m s with (s', inr a) => k a s' | (s', inl e) => (s', inl e) end.
Declare Scope st_scope.
Delimit Scope st_scope with st.
Notation "x <-- m ;; k" := (mbind m (fun x => k)) (at level 61, m at next level, right associativity) : st_scope.
Notation "' p <-- m ;; k" := (mbind m (fun p => k)) (at level 61, p pattern, m at next level, right associativity) : st_scope.
Definition lift {St A} (r : res A) : M St A := match r with Ok a => ret a | Err e => raise (Py e) end.

(** ** exact reals *)
Definition Rltb (x y : R) : bool := if Rlt_dec x y then true else false.
Definition Rleb (x y : R) : bool := if Rle_dec x y then true else false.
Definition Reqb (x y : R) : bool := if Req_EM_T x y then true else false.
Definition Rops : fops R := {|
  fq := fun n d => (IZR n / IZR (Zpos d))%R;
  fadd := Rplus; fsub := Rminus; fmul := Rmult; fdiv := Rdiv; fneg := Ropp; fabs := Rabs; fsqrt := sqrt;
  flt := Rltb; fle := Rleb; feq := Reqb |}.

(** ** reals extended by infinities and not-a-number *)
Inductive ext := Fin (r : R) | PInf | NInf | NaN.
Definition sgn_inf (r : R) (pos : bool) : ext :=
  if Req_EM_T r 0%R then NaN else if Rlt_dec 0 r then (if pos then PInf else NInf) else (if pos then NInf else PInf).
Definition ext_neg (a : ext) : ext := match a with Fin x => Fin (- x) | PInf => NInf | NInf => PInf | NaN => NaN end.
Definition ext_add (a b : ext) : ext :=
  match a, b with
  | Fin x, Fin y => Fin (x + y)
  | NaN, _ | _, NaN => NaN
  | PInf, NInf | NInf, PInf => NaN
  | PInf, _ | _, PInf => PInf
  | NInf, _ | _, NInf => NInf
  end.
Definition ext_sub (a b : ext) : ext := ext_add a (ext_neg b).
Definition ext_mul (a b : ext) : ext :=
  match a, b with
  | Fin x, Fin y => Fin (x * y)
  | NaN, _ | _, NaN => NaN
  | Fin x, PInf | PInf, Fin x => sgn_inf x true
  | Fin x, NInf | NInf, Fin x => sgn_inf x false
  | PInf, PInf | NInf, NInf => PInf
  | _, _ => NInf
  end.
(** division by zero gives an infinity or not-a-number; the sign of zero is not represented,
    a zero divisor counts as positive *)
Definition ext_div (a b : ext) : ext :=
  match a, b with
  | NaN, _ | _, NaN => NaN
  | Fin x, Fin y =>
      if Req_EM_T y 0%R then (if Req_EM_T x 0%R then NaN else if Rlt_dec 0 x then PInf else NInf) else Fin (x / y)
  | Fin _, _ => Fin 0
  | PInf, Fin y => if Rlt_dec y 0 then NInf else PInf
  | NInf, Fin y => if Rlt_dec y 0 then PInf else NInf
  | _, _ => NaN
  end.
Definition ext_abs (a : ext) : ext := match a with Fin x => Fin (Rabs x) | NaN => NaN | _ => PInf end.
Definition ext_sqrt (a : ext) : ext :=
  match a with Fin x => if Rlt_dec x 0 then NaN else Fin (sqrt x) | PInf => PInf | _ => NaN end.
Definition ext_lt (a b : ext) : bool :=
  match a, b with
  | Fin x, Fin y => Rltb x y
  | NaN, _ | _, NaN => false
  | NInf, NInf | PInf, _ => false
  | NInf, _ | _, PInf => true
  | Fin _, NInf => false
  end.
Definition ext_eq (a b : ext) : bool :=
  match a, b with Fin x, Fin y => Reqb x y | PInf, PInf | NInf, NInf => true | _, _ => false end.
Definition ext_le (a b : ext) : bool := ext_lt a b || ext_eq a b.
Definition Eops : fops ext := {|
  fq := fun n d => Fin (IZR n / IZR (Zpos d));
  fadd := ext_add; fsub := ext_sub; fmul := ext_mul; fdiv := ext_div; fneg := ext_neg; fabs := ext_abs; fsqrt := ext_sqrt;
  flt := ext_lt; fle := ext_le; feq := ext_eq |}.

(** ** rationals, for evaluating examples (no square roots) *)
Definition Qltb (x y : Q) : bool := negb (Qle_bool y x).
Definition Qops : fops Q := {|
  fq := fun n d => Qred (n # d);
  fadd := fun x y => Qred (x + y); fsub := fun x y => Qred (x - y); fmul := fun x y => Qred (x * y);
  fdiv := fun x y => Qred (x / y); fneg := Qopp; fabs := Qabs.Qabs; fsqrt := fun x => x;
  flt := Qltb; fle := Qle_bool; feq := Qeq_bool |}.
