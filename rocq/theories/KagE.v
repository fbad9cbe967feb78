(** Model of the energies and observables of the kagome models: models/spin_half_kagome.py (S_HALF_KAGOME.energy_triangle_dn 133-152, energy_triangle_up 176-197,
    the NoCheck variants 201-215, P_dn 226-231, P_up 233-239, the magnetisations and bond correlations of eval_obs 315-351), the energy per site of
    examples/kagome/optim_spin_half_kagome.py (energy_f 170-180, energy_f_complex 182-187) and models/su3_kagome.py (KAGOME_SU3.energy_1site 94-123,
    eval_obs 125-163, eval_obs_2x2subsystem 171-213, energy_triangles_2x2subsystem 244-274, energy_per_site_2x2subsystem 276-292, eval_generators 294-324).

    The contractions of ctm/pess_kagome/rdm_kagome.py (C80) are arguments: [up] is rdm2x2_up_triangle_open, [dn] rdm2x2_dn_triangle_with_operator (the
    normalised value and the norm), [tr] trace1x1_dn_kagome, [keep] is rdm2x2_kagome, all for a
    fixed state and environment.  [ks] are the keys of state.sites, [d] is phys_dim, [re] the part _cast_to_real keeps.  Left out: devices, the warnings
    and the RuntimeError of _cast_to_real (with fail_on_check), correlation lengths, the Casimir operators (eval_C1, eval_C2), the strings of the labels. *)
From Verif Require Import Base Tensor Net Plaq Su3 Kag RdmKag.
Open Scope list_scope.
Open Scope nat_scope.
Open Scope res_scope.

Section KagE.
Context {K : Type} (k0 k1 : K) (kadd kmul ksub : K -> K -> K) (kopp : K -> K) (kdiv : K -> K -> K) (im : K) (re : K -> K).
Notation ten := (tensor K).
Notation einsum := (einsum k0 k1 kadd kmul).
Variables (d : nat) (up : coord -> res ten) (dn : coord -> ten -> res (K * K)) (tr : coord -> ten -> res K).
Variables (keep : coord -> list abc -> list abc -> list abc -> list abc -> res ten).
Variable ks : list coord.

Definition item (t : ten) : res K := match tdata t with [x] => Ok x | _ => Err RuntimeError end.
(** einsum('ijkijk', r) *)
Definition norm3 (r : ten) : res K := t <- einsum [(r, [0; 1; 2; 0; 1; 2])] [] ;; item t.
(** einsum of two tensors without free indices: the labels of the first are 0, 1, 2, ... *)
Definition contract (l : list nat) (r h : ten) : res K := t <- einsum [(r, seq 0 (length l)); (h, l)] [] ;; item t.
(** einsum('ijkmno,mnoijk', r, h) *)
Definition value3 : ten -> ten -> res K := contract [3; 4; 5; 0; 1; 2].
(** einsum('ijlabc,ijlabc', r, h) *)
Definition overlap3 : ten -> ten -> res K := contract [0; 1; 2; 3; 4; 5].
(** einsum('ijlabd,lijdab', r, h) *)
Definition ring3 : ten -> ten -> res K := contract [2; 0; 1; 5; 3; 4].
Fixpoint num (n : nat) : K := match n with O => k0 | S n => kadd k1 (num n) end.

(** ** S_HALF_KAGOME *)
Definition energy_triangle_dn (cast : K -> K) (h : ten) : res (list (coord * (K * K))) :=
  mapM (fun c => ' (e, n) <- dn c h ;; Ok (c, (cast e, n))) ks.
Definition energy_triangle_up (cast : K -> K) (h : ten) : res (list (coord * (K * K))) :=
  mapM (fun c => r <- up c ;; n <- norm3 r ;; e <- value3 r h ;; Ok (c, (cast e, n))) ks.
(** sum(e.values()) *)
Definition total_e (l : list (coord * (K * K))) : K := fold_left (fun s p => kadd s (fst (snd p))) l k0.
(** energy_f and energy_f_complex: [cast] is [re] or the identity *)
Definition energy_f (cast : K -> K) (h : ten) : res K :=
  e_dn <- energy_triangle_dn cast h ;; e_up <- energy_triangle_up cast h ;;
  Ok (kdiv (kadd (total_e e_up) (total_e e_dn)) (num (3 * length ks))).
(** the keyword operator= is not a parameter of the function; op is missing *)
Definition P_dn : res (list (coord * (K * K))) := mapM (fun _ => Err TypeError) ks.
Definition P_up (P : ten) := energy_triangle_up (fun x => x) P.
(** sz_i, sp_i, sm_i and m2_i of the cell c, i = 0, 1, 2 *)
Definition eye (n : nat) : ten := tbuild [n; n] (fun ix => match ix with [i; j] => if i =? j then k1 else k0 | _ => k0 end).
Definition onsite (c : coord) (norm : K) (op : ten) : res K :=
  m <- view op [d * (d * d); d * (d * d)] ;; t <- tr c m ;; Ok (kdiv t norm).
Definition magnet (c : coord) (norm : K) (sz sp sm : ten) : res (K * K * K * K) :=
  a <- onsite c norm sz ;; b <- onsite c norm sp ;; e <- onsite c norm sm ;; Ok (a, b, e, kadd (kmul a a) (kmul b e)).
Definition magnets (c : coord) (Id1 Sz Sp Sm : ten) : res (list (K * K * K * K)) :=
  norm <- tr c (eye (d * (d * d))) ;;
  ' (z0, z1, z2) <- obs_op k0 k1 kadd kmul Id1 Sz ;; ' (p0, p1, p2) <- obs_op k0 k1 kadd kmul Id1 Sp ;; ' (m0, m1, m2) <- obs_op k0 k1 kadd kmul Id1 Sm ;;
  mapM (fun o => let '(z, p, m) := o in magnet c norm z p m) [(z0, p0, m0); (z1, p1, m1); (z2, p2, m2)].
(** SS_dn_01, SS_dn_12, SS_dn_02, SS_up_01, SS_up_12, SS_up_02 *)
Definition bond_corr (c : coord) (o : kag) : res (list K) :=
  ' (t0, t1, t2) <- bond_ops k0 o ;;
  ' (a0, _) <- dn c t0 ;; ' (a1, _) <- dn c t1 ;; ' (a2, _) <- dn c t2 ;;
  r <- up c ;; b0 <- value3 r t0 ;; b1 <- value3 r t1 ;; b2 <- value3 r t2 ;; Ok [a0; a1; a2; b0; b1; b2].

(** ** KAGOME_SU3 *)
Definition c00 : coord := (0, 0)%Z.
Definition id3 : res ten := let idp := eye d in einsum [(idp, [0; 3]); (idp, [1; 4]); (idp, [2; 5])] [0; 1; 2; 3; 4; 5].
Definition energy_1site (h : ten) : res K :=
  i <- id3 ;; norm <- tr c00 i ;; e <- tr c00 h ;;
  r <- keep c00 [sB] [sC] [] [sA] ;; x <- ring3 r h ;;
  Ok (re (kdiv (kadd (kadd k0 (kdiv e norm)) x) (kmul (num (length ks)) (num 3)))).
Definition energy_triangles_2x2 (h : ten) : res (K * K) :=
  ' (e, _) <- dn c00 h ;; r <- keep c00 [] [sB] [sA] [sC] ;; x <- value3 r h ;; Ok (re e, re x).
Definition energy_per_site_2x2 (h : ten) : res K := ' (a, b) <- energy_triangles_2x2 h ;; Ok (kdiv (kadd a b) (num 3)).
(** chirality_dn, avg_bonds_dn, chirality_up, avg_bonds_up *)
Definition su3_obs (chi p2 : ten) : res (K * K * K * K) :=
  norm <- tr c00 (eye (d * (d * d))) ;; a <- tr c00 chi ;; b <- tr c00 p2 ;;
  r <- up c00 ;; x <- overlap3 r chi ;; y <- overlap3 r p2 ;;
  Ok (re (kdiv a norm), kdiv (re (kdiv b norm)) (num 3), re x, kdiv (re y) (num 3)).
(** chirality_dn, e_t_dn, avg_bonds_dn, chirality_up, e_t_up, avg_bonds_up *)
Definition su3_obs_2x2 (h chi p2 : ten) : res (K * K * K * (K * K * K)) :=
  ' (a, _) <- dn c00 chi ;; ' (e, _) <- dn c00 h ;; ' (b, _) <- dn c00 p2 ;;
  r <- up c00 ;; x <- value3 r chi ;; f <- value3 r h ;; y <- value3 r p2 ;;
  Ok (re a, re e, kdiv (re b) (num 3), (re x, re f, kdiv (re y) (num 3))).
(** J[i,:,:] *)
Definition row (J : ten) (i : nat) : ten := tbuild [d; d] (fun ix => el k0 J (i :: ix)).
(** 'ab,ijkl->aijbkl', 'ab,ijkl->iajkbl', 'ab,ijkl->ijaklb'; a,b,i,j,k,l = 0..5 *)
Definition gen_out (s : nat) : list nat := match s with 0 => [0; 2; 3; 1; 4; 5] | 1 => [2; 0; 3; 4; 1; 5] | _ => [2; 3; 0; 4; 5; 1] end.
Definition gen_op (J : ten) (s i : nat) : res ten :=
  id2 <- view (eye (d * d)) [d; d; d; d] ;; einsum [(row J i, [0; 1]); (id2, [2; 3; 4; 5])] (gen_out s).
(** gens['A'], gens['B'], gens['C'] for s = 0, 1, 2, and m2 *)
Definition generators (J : ten) (n : nat) (s : nat) : res (list K * K) :=
  norm <- tr c00 (eye (d * (d * d))) ;;
  g <- mapM (fun i => o <- gen_op J s i ;; t <- tr c00 o ;; Ok (kdiv (re t) (re norm))) (seq 0 n) ;;
  Ok (g, fold_right kadd k0 (map (fun x => kmul x x) g)).
End KagE.
