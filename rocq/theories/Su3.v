(** Model of groups/su3.py (get_op 188-246, SU3_DEFINING.Cartan_Weyl 110-128, J_Gell_Mann 130-147, C1 149-160, C2 162-185)
    and of the operators on a triangle built from SU(3) spins: models/su3_kagome.py (KAGOME_SU3.get_h 73-92, chirality 191),
    models/SU3_chiral.py (fmap 22-31, module constants 34-86, h_triangle 104), models/SU3_AKLT.py (14-72).

    Scalars are an abstract ring with the numbers 1/2, 1/3, i and sqrt 3; 0.75 is 1/2 + 1/4.  Left out: devices, printing, the check of
    the labels (p,q) of the representation.  [cplx]: the dtype is complex; storing a complex number in a real tensor keeps its real part. *)
From Verif Require Import Base Tensor Net Plaq.
Open Scope list_scope.
Open Scope nat_scope.
Open Scope res_scope.

Inductive op3 := Id3 | Tz | Yp | Tp | Tm | Vp | Vm | Up | Um.

Section Su3.
Context {K : Type} (k0 k1 : K) (kadd kmul ksub : K -> K -> K) (kopp : K -> K) (half third im s3 : K) (re : K -> K).
Notation ten := (tensor K).
Notation "a +t b" := (tadd kadd a b) (at level 50, left associativity).
Notation "a -t b" := (tsub ksub a b) (at level 50, left associativity).
Notation "c *t a" := (tscl kmul c a) (at level 40, left associativity).
Notation einsum := (einsum k0 k1 kadd kmul).
Notation el := (el k0).
Definition two : K := kadd k1 k1.
Definition ksum (n : nat) (f : nat -> K) : K := fold_right kadd k0 (map f (seq 0 n)).

(** zeros(3,3) with the given elements *)
Definition entries (l : list (nat * nat * K)) : ten :=
  tbuild [3; 3] (fun ix => match ix with [i; j] => match dget l (i, j) with Some v => v | None => k0 end | _ => k0 end).
(** su3.py:188-246; [None]: a name not in the list *)
Definition gen (op : op3) : ten :=
  match op with
  | Id3 => entries [((0, 0), k1); ((1, 1), k1); ((2, 2), k1)]
  | Tz => entries [((0, 0), half); ((1, 1), kopp half)]
  | Yp => entries [((0, 0), third); ((1, 1), third); ((2, 2), kopp (kadd third third))]
  | Tp => entries [((0, 1), k1)]
  | Tm => entries [((1, 0), k1)]
  | Vp => entries [((0, 2), k1)]
  | Vm => entries [((2, 0), k1)]
  | Up => entries [((1, 2), k1)]
  | Um => entries [((2, 1), k1)]
  end.
Definition get_op (op : option op3) : res ten := match op with Some op => Ok (gen op) | None => Err PyException end.

(** J = zeros(8,3,3); J[k,:,:] = l_k *)
Definition stack (cplx : bool) (l : list ten) : ten :=
  tbuild [8; 3; 3] (fun ix => match ix with [k; i; j] =>
    match nth_error l k with Some t => if cplx then el t [i; j] else re (el t [i; j]) | None => k0 end | _ => k0 end).
Definition cartan_weyl (cplx : bool) : ten := stack cplx (map gen [Tp; Tm; Tz; Vp; Vm; Up; Um; Yp]).
Definition lambdas : list ten :=
  [gen Tp +t gen Tm; kopp im *t (gen Tp -t gen Tm); two *t gen Tz; gen Vp +t gen Vm; kopp im *t (gen Vp -t gen Vm);
   gen Up +t gen Um; kopp im *t (gen Up -t gen Um); s3 *t gen Yp].
Definition gell_mann (cplx : bool) : ten := stack cplx lambdas.

(** einsum('ij,ab->iajb'); i,j,a,b = 0..3 *)
Definition kron3 (A B : ten) : res ten := einsum [(A, [0; 1]); (B, [2; 3])] [0; 2; 1; 3].
Definition c1 : res ten :=
  zz <- kron3 (gen Tz) (gen Tz) ;; yy <- kron3 (gen Yp) (gen Yp) ;;
  t1 <- kron3 (gen Tp) (gen Tm) ;; t2 <- kron3 (gen Tm) (gen Tp) ;;
  v1 <- kron3 (gen Vp) (gen Vm) ;; v2 <- kron3 (gen Vm) (gen Vp) ;;
  u1 <- kron3 (gen Up) (gen Um) ;; u2 <- kron3 (gen Um) (gen Up) ;;
  Ok (zz +t kadd half (kmul half half) *t yy +t half *t (t1 +t t2 +t v1 +t v2 +t u1 +t u2)).

(** F_1, ..., F_8 *)
Definition fs : list ten :=
  [half *t (gen Tp +t gen Tm); kopp (kmul half im) *t (gen Tp -t gen Tm); gen Tz; half *t (gen Vp +t gen Vm); kopp (kmul half im) *t (gen Vp -t gen Vm);
   half *t (gen Up +t gen Um); kopp (kmul half im) *t (gen Up -t gen Um); kmul half s3 *t gen Yp].
Definition mm3 (A B : ten) : ten :=
  tbuild [3; 3] (fun ix => match ix with [i; j] => ksum 3 (fun k => kmul (el A [i; k]) (el B [k; j])) | _ => k0 end).
Definition trace3 (A : ten) : K := ksum 3 (fun i => el A [i; i]).
Definition d_coef (A B C : ten) : K := kmul two (trace3 (mm3 (mm3 A B +t mm3 B A) C)).
Definition triples (l : list ten) : list (ten * (ten * ten)) := list_prod l (list_prod l l).
(** su3.py:162-185.  With a real dtype f2, f5 and f7 are complex and [f1@f1 @ f2] has operands of different dtypes *)
Definition c2 (cplx : bool) : res ten :=
  if cplx then
    foldM (fun acc q => let '(A, (B, C)) := q in
             x <- einsum [(A, [0; 1]); (B, [2; 3]); (C, [4; 5])] [0; 2; 4; 1; 3; 5] ;;
             Ok (acc +t d_coef A B C *t x)) (triples fs) (tzeros k0 [3; 3; 3; 3; 3; 3])
  else Err RuntimeError.

(** ** models/su3_kagome.py:73-92; i,j,k,a,b,c,l = 0..6 *)
Definition eye_view (n : nat) (dims : list nat) : res ten :=
  view (tbuild [n; n] (fun ix => match ix with [i; j] => if i =? j then k1 else k0 | _ => k0 end)) dims.
Definition perm2 : res ten :=
  c <- c1 ;; e <- eye_view 9 [3; 3; 3; 3] ;; Ok (two *t c +t third *t e).
Record kagome_ops := mkKag { perm2_tri : ten; perm3_l : ten; perm3_r : ten; h2_tri : ten; h3_tri : ten; h_tri : ten }.
Definition kagome_h (j k h : K) : res kagome_ops :=
  p <- perm2 ;;
  l <- einsum [(p, [0; 1; 3; 6]); (p, [6; 2; 4; 5])] [0; 1; 2; 3; 4; 5] ;;
  r <- einsum [(p, [0; 1; 3; 6]); (p, [2; 6; 4; 5])] [0; 2; 1; 3; 4; 5] ;;
  p1 <- einsum [(p, [0; 1; 3; 4]); (gen Id3, [2; 5])] [0; 1; 2; 3; 4; 5] ;;
  p2 <- einsum [(p, [0; 2; 3; 5]); (gen Id3, [1; 4])] [0; 1; 2; 3; 4; 5] ;;
  p3 <- einsum [(p, [1; 2; 4; 5]); (gen Id3, [0; 3])] [0; 1; 2; 3; 4; 5] ;;
  let p2t := p1 +t p2 +t p3 in
  let h2 := j *t p2t in
  let h3 := kadd k (kmul h im) *t l +t ksub k (kmul h im) *t r in
  Ok (mkKag p2t l r h2 h3 (h2 +t h3)).
(** 139, 191 *)
Definition chirality (o : kagome_ops) : ten := im *t (perm3_l o -t perm3_r o).

(** ** models/SU3_chiral.py *)
Definition fmap (n1 n2 n3 : nat) : nat := n3 + 3 * n2 + 9 * n1.
Definition fmap_inv (s : nat) : nat * nat * nat :=
  let n1 := s / 9 in let n2 := (s - 9 * n1) / 3 in (n1, n2, s - 9 * n1 - 3 * n2).
(** [for i: for j: for k: t[g(i,j,k)] = 1.] for several g in the body *)
Definition ijk : list (nat * (nat * nat)) := list_prod (seq 0 3) (list_prod (seq 0 3) (seq 0 3)).
Definition set_ones (n : nat) (gs : list (nat -> nat -> nat -> list nat)) : res ten :=
  foldM (fun t q => let '(i, (j, k)) := q in
           foldM (fun t g => tupdate t (map Z.of_nat (g i j k)) (fun _ => k1)) gs t) ijk (tzeros k0 (repeat 3 n)).
Definition exchange_bond : res ten :=
  foldM (fun t q => tupdate t (map Z.of_nat [fst q; snd q; snd q; fst q]) (fun _ => k1)) (list_prod (seq 0 3) (seq 0 3)) (tzeros k0 [3; 3; 3; 3]).
Definition exchange_bond_triangle : res ten :=
  set_ones 6 [(fun i j k => [i; j; k; j; i; k]); (fun i j k => [i; j; k; i; k; j]); (fun i j k => [i; j; k; k; j; i])].
Definition permute_triangle : res ten := set_ones 6 [(fun i j k => [i; j; k; j; k; i])].
Definition permute_triangle_inv : res ten := set_ones 6 [(fun i j k => [i; j; k; k; i; j])].
Definition chiral_h (Kr Ki j1 : K) : res ten :=
  p <- permute_triangle ;; q <- permute_triangle_inv ;; e <- exchange_bond_triangle ;;
  Ok (kadd Kr (kmul im Ki) *t p +t ksub Kr (kmul im Ki) *t q +t j1 *t e).
Definition lambda_3 : ten := entries [((0, 0), k1); ((1, 1), kopp k1)].
Definition lambda_8 : ten := kmul third s3 *t entries [((0, 0), k1); ((1, 1), k1); ((2, 2), kopp two)].
(** eye(27) with the diagonal of a matrix of one of the three sites; [site] 0, 1, 2 *)
Definition pick3 (site : nat) (q : nat * nat * nat) : nat := match site with 0 => fst (fst q) | 1 => snd (fst q) | _ => snd q end.
Definition diag27 (lam : ten) (site : nat) : ten :=
  tbuild [27; 27] (fun ix => match ix with [s; t] => if s =? t then let n := pick3 site (fmap_inv s) in el lam [n; n] else k0 | _ => k0 end).
(** su3_gens[:,:,k]; 1/sqrt 3 is s3/3 *)
Definition su3_gens : list ten :=
  [entries [((0, 1), k1); ((1, 0), k1)]; entries [((0, 1), kopp im); ((1, 0), im)]; lambda_3;
   entries [((0, 2), k1); ((2, 0), k1)]; entries [((0, 2), kopp im); ((2, 0), im)];
   entries [((1, 2), k1); ((2, 1), k1)]; entries [((1, 2), kopp im); ((2, 1), im)]; lambda_8].

(** ** models/SU3_AKLT.py:24-36: zeros(27,27), mat[s,g(fmap_inv(s))] = 1. *)
Definition mat27 (g : nat -> nat -> nat -> nat) : res ten :=
  foldM (fun t s => let '(n1, n2, n3) := fmap_inv s in tupdate t [Z.of_nat s; Z.of_nat (g n1 n2 n3)] (fun _ => k1)) (seq 0 27) (tzeros k0 [27; 27]).
Definition matP_12 := mat27 (fun n1 n2 n3 => fmap n2 n1 n3).
Definition matP_23 := mat27 (fun n1 n2 n3 => fmap n1 n3 n2).
Definition matP_31 := mat27 (fun n1 n2 n3 => fmap n3 n2 n1).
Definition matP_t := mat27 (fun n1 n2 n3 => fmap n2 n3 n1).
Definition matP_t2 := mat27 (fun n1 n2 n3 => fmap n3 n1 n2).
End Su3.
