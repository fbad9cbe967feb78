(** Starting environments of concrete states. *)
From Verif Require Import Base BaseLemmas Lattice Tensor TensorLemmas Net NetSpec NetProofs NetTrace Extend Corners CornersSpec RdmC4vExamples EnvInit EnvInitSpec EnvInitProofs EnvInitProofs2 EnvInitProofs3 EnvInitProofs4 EnvInitProofs5.
From Verif Require Ctm ExtendSpec CornersExamples.
Open Scope list_scope.
Open Scope nat_scope.
Open Scope res_scope.

(** the largest absolute value of integers *)
Definition maxabs (t : tensor Z) : Z := fold_right (fun x m => Z.max (Z.abs x) m) 0%Z (tdata t).
Definition zero (x : Z) : bool := (x =? 0)%Z.
Definition blank (dims : list nat) : tensor Z := tzeros 9%Z dims.
Definition nornd (_ : coord * coord) (dims : list nat) : tensor Z := tzeros 5%Z dims.
Notation idZ := (fun x : Z => x).
Notation initZ := (init_env 0%Z 1%Z Z.add Z.mul Z.div idZ zero maxabs idZ nornd).

(** Vertical stripes of two sites: the bond from b to a, to the left of a, has dimension 2, the
    others 1. *)
Definition ea : tensor Z := mkT [1; 1; 2; 1; 1] [3; -3]%Z.
Definition eb : tensor Z := mkT [1; 1; 1; 1; 2] [1; -1]%Z.
Definition est : ipeps (tensor Z) := mk_ipeps (Some [((0, 0)%Z, ea); ((1, 0)%Z, eb)]) 2 1 (fun v => Ok ((fst v) mod 2, 0)%Z).
Definition esites : dict coord (tensor Z) := [((0, 0)%Z, ea); ((1, 0)%Z, eb)].
Lemma mod2 x : (x mod 2 = 0 \/ x mod 2 = 1)%Z.
Proof. assert (H := Z.mod_pos_bound x 2). lia. Qed.
Lemma est_whole : whole est esites site5.
Proof. split; [reflexivity|]. split; [discriminate|]. split.
  - intros v. destruct (mod2 (fst v)) as [E|E]; cbn [i_v2s est]; rewrite E; eexists; eexists; split; reflexivity.
  - intros k A [E|[E|[]]]; apply pair_equal_spec in E as [_ <-]; split; reflexivity. Qed.
Lemma est_consistent : consistent est.
Proof. intros v k d. cbn [i_v2s est]. intros E. injection E as <-. unfold cadd. cbn [fst snd]. now rewrite Zplus_mod_idemp_l. Qed.
Lemma est_site v A : ipeps_site est v = Ok A -> A = ea \/ A = eb.
Proof. unfold ipeps_site. cbn [i_sites i_v2s est bind]. destruct (mod2 (fst v)) as [-> | ->]; cbn; intros E; injection E as <-; auto. Qed.
Lemma nonzero_by {K} (z o : K) (add mul : K -> K -> K) (amax : tensor K -> K) (is0 : K -> bool) cl d (A B M0 : tensor K) :
  is_contraction (bd A) z o add mul (layers cl (inward d) A B) (fused (inward d)) M0 -> NoDup (flat_map bonds (fused (inward d))) ->
  is0 (amax M0) = false -> nonzero z o add mul amax is0 cl d A B.
Proof. intros H0 ND HN M HM. now rewrite (contraction_unique z o add mul _ _ _ M M0 ND HM H0). Qed.
Lemma fused_nodup op : NoDup (flat_map bonds (fused op)).
Proof. assert (G : exists b0 b1 b2 b3, op 0 = b0 /\ op 1 = b1 /\ op 2 = b2 /\ op 3 = b3) by (do 4 eexists; repeat split; reflexivity).
  destruct G as (b0 & b1 & b2 & b3 & E0 & E1 & E2 & E3). unfold fused, sides. cbn [filter]. rewrite E0, E1, E2, E3.
  destruct b0, b1, b2, b3; cbn; repeat constructor; cbn; intuition discriminate. Qed.
Ltac nz L := match goal with |- nonzero _ _ _ _ _ _ _ _ ?A ?B =>
  let M := fresh "M" in let EM := fresh "EM" in let HM := fresh "HM" in
  destruct (L Z 0%Z 1%Z Z.add Z.mul Z_ring A B ltac:(split; reflexivity) eq_refl eq_refl) as (M & EM & HM);
  apply (nonzero_by _ _ _ _ _ _ _ _ _ _ M HM (fused_nodup _)); vm_compute in EM; injection EM as <-; reflexivity end.
Lemma est_nonzero v d A : In d (corner_dirs ++ edge_dirs) -> ipeps_site est (cadd v d) = Ok A -> nonzero 0%Z 1%Z Z.add Z.mul maxabs zero Traced d A (tmap idZ A).
Proof. intros Hd HA. apply est_site in HA. cbn in Hd. destruct HA as [-> | ->];
  (destruct Hd as [<-|[<-|[<-|[<-|[<-|[<-|[<-|[<-|[]]]]]]]]]; [nz @pbc_LU|nz @pbc_RU|nz @pbc_RD|nz @pbc_LD|nz @pbc_U|nz @pbc_L|nz @pbc_D|nz @pbc_R]). Qed.
Definition env0 : Ctm.envt (tensor Z) := Ctm.mkE [] [].
(** the half-row tensor to the left of a stands for b, its facing leg is the bond of dimension 2;
    the one to the left of b stands for a, whose left leg is closed: 3*3+3*3, scaled *)
Lemma est_left : exists e', initZ "CTMRG" est 2 env0 = Ok e' /\
  Ctm.getT _ e' (0, 0)%Z (-1, 0)%Z = Ok (mkT [2; 2; 4] [1; -1; -1; 1; 0; 0; 0; 0; 0; 0; 0; 0; 0; 0; 0; 0]%Z) /\
  Ctm.getT _ e' (1, 0)%Z (-1, 0)%Z = Ok (mkT [2; 2; 1] [1; 0; 0; 0]%Z) /\
  Ctm.getC _ e' (0, 0)%Z (-1, -1)%Z = Ok (mkT [2; 2] [1; -1; 0; 0]%Z).
Proof. eexists. split; [vm_compute; reflexivity|]. repeat split; vm_compute; reflexivity. Qed.
Lemma est_new : exists e', new_env blank est 2 = Ok e' /\
  Ctm.getT _ e' (0, 0)%Z (-1, 0)%Z = Ok (blank [2; 2; 4]) /\ Ctm.getT _ e' (1, 0)%Z (-1, 0)%Z = Ok (blank [2; 2; 1]).
Proof. eexists. split; [reflexivity|]. split; reflexivity. Qed.

(** ** The upper tensor of product environments is not scaled *)
Definition two : tensor Z := mkT [1; 1; 1; 1; 1] [2]%Z.
Definition one_site {K} (A : tensor K) : ipeps (tensor K) := mk_ipeps (Some [((0, 0)%Z, A)]) 1 1 (fun _ => Ok (0, 0)%Z).
Lemma one_whole {K} (A : tensor K) (P : tensor K -> Prop) : P A -> whole (one_site A) [((0, 0)%Z, A)] P.
Proof. intros HP. split; [reflexivity|]. split; [discriminate|]. split.
  - intros v. exists (0, 0)%Z, A. split; reflexivity.
  - intros k B [E|[]]. apply pair_equal_spec in E as [_ <-]. exact HP. Qed.
Lemma one_consistent {K} (A : tensor K) : consistent (one_site A).
Proof. intros v k d _. reflexivity. Qed.
Definition prod_out : Ctm.envt (tensor Z) := match (e <- new_env blank (one_site two) 1 ;; initZ "PROD" (one_site two) 1 e) with Ok e => e | Err _ => env0 end.
Lemma prod_up : exists e, new_env blank (one_site two) 1 = Ok e /\ initZ "PROD" (one_site two) 1 e = Ok prod_out /\
  Ctm.getT _ prod_out (0, 0)%Z (0, -1)%Z = Ok (mkT [1; 1; 1] [4]%Z) /\
  Forall (fun d => Ctm.getT _ prod_out (0, 0)%Z d = Ok (mkT [1; 1; 1] [1]%Z)) [(-1, 0); (0, 1); (1, 0)]%Z.
Proof. eexists. split; [reflexivity|]. split; [vm_compute; reflexivity|]. split; [vm_compute; reflexivity|]. repeat constructor; vm_compute; reflexivity. Qed.
Lemma prod_up_not : ~ built (one_site two) (Ctm.getT _ prod_out) edge_dirs
  (fun d A t => is_product 0%Z 1%Z Z.add Z.mul (unit_scale Z.div maxabs) 1 d A (tmap idZ A) t).
Proof. intros H. destruct (H (0, 0)%Z (0, -1)%Z (or_introl eq_refl)) as (k & A & t & Ek & EA & Et & M & HM & Ht).
  injection Ek as <-. injection EA as <-. destruct prod_up as (_ & _ & _ & E & _). rewrite E in Et. injection Et as <-.
  destruct (prod_U 0%Z 1%Z Z.add Z.mul Z_ring two (conj idZ two) ltac:(split; reflexivity) eq_refl eq_refl) as (M0 & E0 & H0).
  rewrite (contraction_unique _ _ _ _ _ _ _ M M0 (fused_nodup _) HM H0) in Ht. vm_compute in E0. injection E0 as <-.
  destruct Ht as (_ & _ & G). specialize (G [0; 0; 0] ltac:(repeat constructor)). vm_compute in G. discriminate G. Qed.

(** ** Open boundaries do not conjugate the bra *)
Import CornersExamples.
Definition gmax (t : tensor gi) : gi := (fold_right (fun x m => Z.max (Z.abs (fst x)) m) 0%Z (tdata t), 0%Z).
Definition gdiv (x y : gi) : gi := (fst x / fst y, snd x / fst y)%Z.
Definition gzero (x : gi) : bool := (fst x =? 0)%Z && (snd x =? 0)%Z.
Definition im : tensor gi := mkT [1; 1; 1; 1; 1] [(0, 1)%Z].
Definition gempty : Ctm.envt (tensor gi) := Ctm.mkE [] [].
Definition initG := init_env g0 g1 gadd gmul gdiv gconj gzero gmax (fun x => x) (fun _ dims => tzeros g0 dims).
Definition obc_out : Ctm.envt (tensor gi) := match initG "CTMRG_OBC" (one_site im) 1 gempty with Ok e => e | Err _ => gempty end.
Lemma obc_out_ok : initG "CTMRG_OBC" (one_site im) 1 gempty = Ok obc_out /\ Ctm.getC _ obc_out (0, 0)%Z (-1, -1)%Z = Ok (mkT [1; 1] [(-1, 0)%Z]).
Proof. split; vm_compute; reflexivity. Qed.
Lemma obc_not : ~ built (one_site im) (Ctm.getC _ obc_out) corner_dirs (fun d A t => is_start g0 g1 gadd gmul gdiv gmax Summed 1 d A (tmap gconj A) t).
Proof. intros H. destruct (H (0, 0)%Z (-1, -1)%Z (or_introl eq_refl)) as (k & A & t & Ek & EA & Et & M & HM & Ht).
  injection Ek as <-. injection EA as <-. rewrite (proj2 obc_out_ok) in Et. injection Et as <-.
  destruct (obc_LU g0 g1 gadd gmul gi_ring im (conj gconj im) ltac:(split; reflexivity) eq_refl eq_refl) as (M0 & E0 & H0).
  rewrite (contraction_unique _ _ _ _ _ _ _ M M0 (fused_nodup _) HM H0) in Ht. vm_compute in E0. injection E0 as <-.
  destruct Ht as (_ & _ & G). specialize (G [0; 0] ltac:(repeat constructor)). vm_compute in G. discriminate G. Qed.

(** ** A corner supplied for the C4v variant leaves the rest of the old corner in place *)
Lemma given_not : exists C' T', c4v_given 0%Z idZ 2 (mkT [2; 2] [7; 7; 7; 7]%Z) (mkT [1; 1] [1]%Z) (mkT [1; 1; 1] [1]%Z) = Ok (C', T') /\
  tdata C' = [1; 7; 7; 7]%Z /\ tdata T' = [1; 0; 0; 0]%Z /\ ~ ExtendSpec.padded 0%Z (mkT [1; 1] [1]%Z) [2; 2] C'.
Proof. eexists. eexists. split; [vm_compute; reflexivity|]. split; [reflexivity|]. split; [reflexivity|]. intros (_ & _ & G).
  specialize (G [1; 1] ltac:(repeat constructor)). vm_compute in G. discriminate G. Qed.
(** the C4v variant conjugates *)
Lemma c4v_obc_im : c4v_init_obc g0 g1 gadd gmul gdiv gconj gzero gmax (fun x => x) 1 im = Ok (mkT [1; 1] [g1], mkT [1; 1; 1] [g1]).
Proof. vm_compute. reflexivity. Qed.
Lemma given_refuted : exists chi C0 C T C' T', tdims C0 = [chi; chi] /\ c4v_given 0%Z idZ chi C0 C T = Ok (C', T') /\ ~ ExtendSpec.padded 0%Z C [chi; chi] C'.
Proof. destruct given_not as (C' & T' & E & _ & _ & H). exists 2, (mkT [2; 2] [7; 7; 7; 7]%Z), (mkT [1; 1] [1]%Z), (mkT [1; 1; 1] [1]%Z), C', T'. split; [reflexivity|]. split; [exact E|exact H]. Qed.
Definition three : tensor Z := mkT [1; 1; 1; 1; 1] [3]%Z.
Lemma overlap_case : same_period est (one_site two) /\ exists e e', new_env blank (one_site two) 2 = Ok e /\
  init_prod_overlap 0%Z 1%Z Z.add Z.mul Z.div idZ zero maxabs idZ (one_site two) (one_site three) 2 e = Ok e' /\
  Ctm.getT _ e' (0, 0)%Z (0, -1)%Z = Ok (mkT [2; 1; 2] [1; 0; 0; 0]%Z) /\ Ctm.getC _ e' (0, 0)%Z (1, 1)%Z = Ok (mkT [2; 2] [1; 0; 0; 0]%Z).
Proof. split; [intros v k d _; reflexivity|]. eexists. eexists. split; [reflexivity|]. split; [vm_compute; reflexivity|]. split; vm_compute; reflexivity. Qed.
(** the corner of this site is diagonal, with elements 0, 0, 0, 1 after scaling; the eigenvectors
    are basis vectors in descending order of the eigenvalues *)
Definition diagonal_site : tensor Z := tbuild [1; 2; 2; 2; 2] (fun ix => match ix with [_; u; l; d; r] => if (u =? 1) && (l =? 1) && (d =? 1) && (r =? 1) then (-2)%Z else 0%Z | _ => 0%Z end).
Definition swap_eig (a : tensor Z) (n : nat) : res (list Z * tensor Z) :=
  Ok ([1; 0; 0; 0]%Z, mkT [4; 4] [0; 1; 0; 0;  0; 0; 1; 0;  0; 0; 0; 1;  1; 0; 0; 0]%Z).
Definition all_small (_ _ : tensor Z) : bool := true.
Lemma pbc_case : c4v_init_pbc 0%Z 1%Z Z.add Z.mul Z.div Z.sub idZ zero maxabs idZ swap_eig all_small 2 diagonal_site
  = Ok (mkT [2; 2] [1; 0; 0; 0]%Z, mkT [2; 2; 4] [0; 0; 0; 1; 0; 0; 0; 0; 0; 0; 0; 0; 0; 0; 0; 0]%Z).
Proof. vm_compute. reflexivity. Qed.
