(** Specification vocabulary for tilings, independent of the model's helpers. *)
From Verif Require Import Base.
Open Scope Z_scope.

Section Spec.
Context {L : Type}.

(** the label a pattern (list of rows) puts on an arbitrary vertex (x,y) of the
    infinite lattice: row y, column x, periodically repeated *)
Definition tile (rows : list (list L)) (v : coord) : option L :=
  match nth_error rows (Z.to_nat (snd v mod Z.of_nat (length rows))) with
  | None => None
  | Some row => nth_error row (Z.to_nat (fst v mod Z.of_nat (length row)))
  end.

Definition rectangular (rows : list (list L)) : Prop :=
  forall r1 r2, In r1 rows -> In r2 rows -> length r1 = length r2.

(** unit vectors: left, up, right, down *)
Definition is_unit (d : coord) : Prop :=
  d = (-1, 0) \/ d = (0, -1) \/ d = (1, 0) \/ d = (0, 1).

(** vertices with equal labels have equal labels on the four neighbours *)
Definition locally_consistent (rows : list (list L)) : Prop :=
  forall v w d, is_unit d -> tile rows v = tile rows w ->
    tile rows (cadd v d) = tile rows (cadd w d).

(** [c] is a cell of the pattern *)
Definition in_cell (rows : list (list L)) (c : coord) : Prop :=
  0 <= snd c < Z.of_nat (length rows) /\
  exists row, nth_error rows (Z.to_nat (snd c)) = Some row /\
              0 <= fst c < Z.of_nat (length row).

(** lexicographic order on coordinates *)
Definition lex_le (a b : coord) : Prop :=
  fst a < fst b \/ (fst a = fst b /\ snd a <= snd b).
Definition lex_lt (a b : coord) : Prop :=
  fst a < fst b \/ (fst a = fst b /\ snd a < snd b).

(** [c] is the smallest cell of the pattern carrying its label *)
Definition smallest_of_label (rows : list (list L)) (c : coord) : Prop :=
  in_cell rows c /\
  forall c', in_cell rows c' -> tile rows c' = tile rows c -> lex_le c c'.
End Spec.

(** a map from vertices to sites is translation consistent when equal sites at
    two vertices force equal sites at all commonly displaced vertices *)
Definition translation_consistent (f : coord -> coord) : Prop :=
  forall v w d, f v = f w -> f (cadd v d) = f (cadd w d).
