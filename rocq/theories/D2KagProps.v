(** C83: ladder states IPEPS_D2SYM (ipeps/ipeps_d2.py) and kagome states IPEPS_KAGOME (ipeps/ipeps_kagome.py). *)
From Verif Require Import Base Text Tensor TensorIO TensorIOProofs Lattice StateIO StateIOSpec StateIOProofs StateIOProps Extend ExtendSpec C4v
  D2Kag D2KagSpec D2KagProofs D2KagProofs2 D2KagProofs3.
Open Scope list_scope.
Open Scope nat_scope.

(** the state of a parent tensor: mirror images on alternating rows, the mirror between the rows y and 1-y, legs that fit, left-right symmetry passed on *)
Theorem C83_d2_state : forall {K} (zero : K) A, rank5 A -> exists s, d2_new zero (Some A) = Ok s /\ parent s = Some A /\ i_lX (base s) = 1%Z /\ i_lY (base s) = 2%Z /\
  d2_get_aux_bond_dims s = Ok [leg A 1; leg A 2; leg A 3; leg A 4] /\
  (forall v, exists t, ipeps_site (base s) v = Ok t /\ on_ladder A v t) /\
  (forall x y t t', ipeps_site (base s) (x, y) = Ok t -> ipeps_site (base s) (x, 1 - y)%Z = Ok t' -> mirrored t t') /\
  (forall x y t t', ipeps_site (base s) (x, y) = Ok t -> ipeps_site (base s) (x, y + 1)%Z = Ok t' -> leg t 3 = leg t' 1) /\
  (lr_symmetric A -> forall v t, ipeps_site (base s) v = Ok t -> lr_symmetric t).
Proof. exact @state_ok. Qed.
Print Assumptions C83_d2_state.

(** add_noise: the symmetric part of the noisy tensor, divided by its largest element; the state of that tensor *)
Theorem C83_d2_noise : forall {K} (zero half : K) (add mul div : K -> K -> K) (amax : list K -> K), (forall a b, add a b = add b a) ->
  forall A s noise rnd p u l d, twf A -> twf rnd -> tdims A = [p; u; l; d; l] -> tdims rnd = tdims A -> 0 < p * u * l * d ->
  d2_new zero (Some A) = Ok s -> exists S s', d2_add_noise zero half add mul div amax s noise rnd = Ok s' /\
  twf S /\ tdims S = tdims A /\
  (forall a i j k m x y r r', a < p -> i < u -> j < l -> k < d -> m < l ->
    tget A [a; i; j; k; m] = Some x -> tget A [a; i; m; k; j] = Some y -> tget rnd [a; i; j; k; m] = Some r -> tget rnd [a; i; m; k; j] = Some r' ->
    tget S [a; i; j; k; m] = Some (mul half (add (add x (mul noise r)) (add y (mul noise r'))))) /\
  parent s' = Some (tmap (fun x => div x (amax (tdata S))) S) /\ d2_new zero (parent s') = Ok s' /\
  (forall v t, ipeps_site (base s') v = Ok t -> lr_symmetric t).
Proof. exact @noise_ok. Qed.
Print Assumptions C83_d2_noise.

Theorem C83_d2_extend : forall {K} (zero : K) A s D, rank5 A -> d2_new zero (Some A) = Ok s ->
  (aux_le D A -> exists A' s', d2_extend zero s D = Ok s' /\ padded zero A (new_dims D A) A' /\ parent s' = Some A' /\ d2_new zero (Some A') = Ok s' /\
    (lr_symmetric A -> lr_symmetric A')) /\
  (~ aux_le D A -> d2_extend zero s D = Err ValueError).
Proof. exact @extend_ok. Qed.
Print Assumptions C83_d2_extend.

(** a checkpoint restores the state, both into an empty state and over another one *)
Theorem C83_d2_checkpoint : forall {K} (zero : K) A s0, rank5 A -> d2_new zero None = Ok s0 -> forall s, d2_new zero (Some A) = Ok s ->
  d2_load_checkpoint (flip_t zero) s0 A = Ok s /\ d2_get_checkpoint s = Ok A /\
  (forall A' s', rank5 A' -> d2_new zero (Some A') = Ok s' -> d2_load_checkpoint (flip_t zero) s' A = Ok s).
Proof. exact @checkpoint_ok. Qed.
Print Assumptions C83_d2_checkpoint.

Theorem C83_d2_io : forall {R} (zero : R) add fmt parse fmtc parsec normalized,
  (forall x, parse (fmt x) = Some x) -> (forall x, token (fmt x) = true) -> (forall z, parsec (fmtc z) = Some z) -> (forall x, add zero x = x) ->
  forall f cd (A : ten R), f <> Fother -> onsite A -> promote zero cd A = A -> exists s js, d2_newr zero (Some A) = Ok s /\
  (forall s0, parent s0 = Some A -> d2_write zero fmt fmtc normalized f aux_default false s0 = Ok js) /\ d2_read zero add parse parsec cd aux_default js = Ok s.
Proof. exact @d2_io. Qed.
Print Assumptions C83_d2_io.

(** files of other cells are refused *)
Theorem C83_d2_read_other : forall {R} (zero : R) add parse parsec cd aux js st sites, read_ipeps zero add parse parsec cd None aux js = Ok st -> i_sites st = Some sites ->
  (length sites <> 2 \/ i_lX st <> 1%Z \/ i_lY st <> 2%Z) -> d2_read zero add parse parsec cd aux js = Err AssertionError.
Proof. exact @d2_read_other. Qed.
Print Assumptions C83_d2_read_other.

(** the documented symmetry A[s,u,l,d,r]=A[s,u,r,d,l] is not imposed by the constructor *)
Theorem C83_d2_symmetry_refuted : exists (A : tensor Z) s, rank5 A /\ d2_new 0%Z (Some A) = Ok s /\ parent s = Some A /\ ipeps_site (base s) (0, 0)%Z = Ok A /\ ~ lr_symmetric A.
Proof. exact asymmetric. Qed.
Print Assumptions C83_d2_symmetry_refuted.

(** the second tensor of a file is dropped without a check *)
Theorem C83_d2_read_refuted : exists st js st' s, xinit (Some [((0, 0)%Z, xt 5); ((0, 1)%Z, xt 6)]) None None None None = Ok st /\ xw Flegacy aux_default false st = Ok js /\
  xr false None aux_default js = Ok st' /\ xdr js = Ok s /\ ipeps_site st' (0, 1)%Z = Ok (xt 6) /\ ipeps_site (base s) (0, 1)%Z = Ok (xt 5).
Proof. exact other_file. Qed.
Print Assumptions C83_d2_read_refuted.

(** ** kagome *)
Theorem C83_kagome_physical_dim : forall {R L} (root : nat -> nat) (s : kag (R := R) (L := L)) sites, i_sites (k_st s) = Some sites ->
  (forall d, kag_get_physical_dim root s = Ok d -> forall c t, In (c, t) sites -> hd 0 (ten_dims t) = d * d * d) /\
  (forall d, (forall n, root (n * n * n) = n) -> sites <> [] -> (forall c t, In (c, t) sites -> exists l, ten_dims t = d * d * d :: l) -> kag_get_physical_dim root s = Ok d).
Proof. exact (fun R L root s sites Hs => conj (fun d E => phys_sound root s d sites Hs E) (fun d HR => phys_complete root s d sites HR Hs)). Qed.
Print Assumptions C83_kagome_physical_dim.

(** enlarging a state whose stored sites reach all sides of its cell *)
Theorem C83_kagome_extend_partial : forall {R} (zero : R) {L} `{EqDec L} (s : kag (R := R) (L := L)) sites D, i_sites (k_st s) = Some sites ->
  (sites <> [] -> uniform ten_cplx ten_device sites = true -> (forall c t, In (c, t) sites -> onsite t /\ ten_fits D t) -> spans (dkeys sites) (i_lX (k_st s)) (i_lY (k_st s)) ->
   exists s' sites', kag_extend zero s D = Ok s' /\ i_sites (k_st s') = Some sites' /\ i_v2s (k_st s') = i_v2s (k_st s) /\
    i_lX (k_st s') = i_lX (k_st s) /\ i_lY (k_st s') = i_lY (k_st s) /\
    Forall2 (fun a b => fst a = fst b /\ ten_padded zero D (snd a) (snd b)) sites sites') /\
  (forall c t, (forall c t, In (c, t) sites -> onsite t) -> In (c, t) sites -> ~ ten_fits D t -> kag_extend zero s D = Err ValueError).
Proof. exact (fun R zero L HL s sites D Hs => conj (fun a b c d => kag_extend_ok zero s sites D Hs a b c d) (fun c t a b d => kag_extend_err zero s sites D c t Hs a b d)). Qed.
Print Assumptions C83_kagome_extend_partial.

(** other states lose their cell: a checkerboard, enlarged to its own bond dimension, written and read back becomes a stripe *)
Theorem C83_kagome_extend_refuted : exists s js0 s0 s1 js1 s2,
  xkag (Some [((0, 0)%Z, xt 5); ((1, 0)%Z, xt 6)]) None (Some (PatRows [[0; 1]; [1; 0]]%Z)) None None = Ok s /\
  xkw s = Ok js0 /\ xkr js0 = Ok s0 /\ kag_extend 0%Z s 1 = Ok s1 /\ xkw s1 = Ok js1 /\ xkr js1 = Ok s2 /\
  i_sites (k_st s1) = i_sites (k_st s) /\ i_lY (k_st s) = 2%Z /\ i_lY (k_st s1) = 1%Z /\
  ipeps_site (k_st s0) (0, 1)%Z = Ok (xt 6) /\ ipeps_site (k_st s1) (0, 1)%Z = Ok (xt 6) /\ ipeps_site (k_st s2) (0, 1)%Z = Ok (xt 5).
Proof. exact extend_loses_cell. Qed.
Print Assumptions C83_kagome_extend_refuted.

Theorem C83_kagome_io : forall {R} (zero : R) add fmt parse fmtc parsec normalized,
  (forall x, parse (fmt x) = Some x) -> (forall x, token (fmt x) = true) -> (forall z, parsec (fmtc z) = Some z) -> (forall x, add zero x = x) ->
  forall f cd {L} (s : kag (R := R) (L := L)) sites, f <> Fother -> regular (k_st s) sites -> (forall c t, In (c, t) sites -> onsite t /\ promote zero cd t = t) ->
  uniform ten_cplx ten_device sites = true ->
  exists js s', kag_write fmt fmtc normalized f aux_default false s = Ok js /\ kag_read zero add parse parsec cd None aux_default js = Ok s' /\
  i_sites (k_st s') = Some sites /\ i_lX (k_st s') = i_lX (k_st s) /\ i_lY (k_st s') = i_lY (k_st s) /\ (forall v, i_v2s (k_st s') v = i_v2s (k_st s) v) /\ k_pat s' = option_map PatRows (js_pattern js).
Proof. exact @kag_io. Qed.
Print Assumptions C83_kagome_io.

(** reading with a map of vertices, or a file without a pattern, never succeeds *)
Theorem C83_kagome_read_refuted : forall {R} (zero : R) add parse parsec cd v2s aux js s,
  v2s <> None \/ js_pattern js = None -> kag_read zero add parse parsec cd v2s aux js <> Ok s.
Proof. intros R zero add parse parsec cd [f|] aux js s [H|H]; [apply kag_read_map|apply kag_read_map|congruence|now apply kag_read_nopattern]. Qed.
Print Assumptions C83_kagome_read_refuted.
