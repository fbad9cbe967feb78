(** Concrete cases for C83. *)
From Coq Require Import QArith Qcanon.
From Verif Require Import Base Text Tensor TensorIO Lattice StateIO StateIOProps Extend ExtendSpec C4v D2Kag D2KagSpec D2KagProofs3.
Open Scope list_scope.
Open Scope nat_scope.

Definition exA : tensor Z := mkT [1; 2; 2; 1; 2] [1; 2; 3; 4; 5; 6; 7; 8]%Z.
(** A on even rows, up and down exchanged on odd ones *)
Example ex_state : exists s a b, d2_new 0%Z (Some exA) = Ok s /\ ipeps_site (base s) (7, -4)%Z = Ok a /\ ipeps_site (base s) (-3, 5)%Z = Ok b /\
  tdims a = [1; 2; 2; 1; 2] /\ tdims b = [1; 1; 2; 2; 2] /\ tget a [0; 1; 0; 0; 1] = Some 6%Z /\ tget b [0; 0; 0; 1; 1] = Some 6%Z.
Proof. do 3 eexists. do 3 (split; [vm_compute; reflexivity|]). vm_compute. auto. Qed.
Example ex_extend : exists s s' b, d2_new 0%Z (Some exA) = Ok s /\ d2_extend 0%Z s 3 = Ok s' /\ ipeps_site (base s') (0, 1)%Z = Ok b /\
  tget b [0; 0; 0; 1; 1] = Some 6%Z /\ tget b [0; 1; 0; 1; 1] = Some 0%Z /\ d2_extend 0%Z s 1 = Err ValueError.
Proof. do 3 eexists. do 3 (split; [vm_compute; reflexivity|]). vm_compute. auto. Qed.
(** noise 1/10 of the tensor itself; division by a fixed number *)
Definition qz (z : Z) : Qc := Q2Qc (inject_Z z).
Definition exQ : tensor Qc := mkT [1; 1; 2; 1; 2] (map qz [1; 2; 3; 4]%Z).
Example ex_noise : exists s s' a, d2_new (Q2Qc 0) (Some exQ) = Ok s /\
  d2_add_noise (Q2Qc 0) (Q2Qc (1 # 2)) Qcplus Qcmult Qcdiv (fun _ => qz 11) s (Q2Qc (1 # 10)) exQ = Ok s' /\ ipeps_site (base s') (0, 0)%Z = Ok a /\
  option_map this (tget a [0; 0; 0; 0; 1]) = Some (1 # 4)%Q /\ option_map this (tget a [0; 0; 1; 0; 0]) = Some (1 # 4)%Q /\ option_map this (tget a [0; 0; 1; 0; 1]) = Some (2 # 5)%Q.
Proof. do 3 eexists. do 3 (split; [vm_compute; reflexivity|]). vm_compute. auto. Qed.
(** kagome: eight states of a site are two states of a spin *)
Definition ex8 : ten Z := TReal (tbuild [8; 1; 1; 1; 1] (fun _ => 1%Z)).
Definition ex_root (n : nat) : nat := match n with 1 => 1 | 8 => 2 | 27 => 3 | 64 => 4 | _ => 0 end.
Example ex_phys : exists s s9, xkag (Some [((0, 0)%Z, ex8)]) None None None None = Ok s /\
  xkag (Some [((0, 0)%Z, TReal (tbuild [9; 1; 1; 1; 1] (fun _ => 1%Z)))]) None None None None = Ok s9 /\
  kag_get_physical_dim ex_root s = Ok 2 /\ kag_get_physical_dim ex_root s9 = Err AssertionError.
Proof. apply (ok2 (xkag _ _ _ _ _) (fun _ => xkag _ _ _ _ _) (fun a b => kag_get_physical_dim _ a = _ /\ kag_get_physical_dim _ b = _)). vm_compute. auto. Qed.
Example ex_kag : exists s s', xkag (Some [((0, 0)%Z, xt 5); ((1, 0)%Z, xt 6)]) None None (Some 2%Z) (Some 1%Z) = Ok s /\ kag_extend 0%Z s 2 = Ok s' /\ i_lX (k_st s) = 2%Z /\ i_lY (k_st s) = 1%Z /\ i_lX (k_st s') = 2%Z /\ i_lY (k_st s') = 1%Z /\ kag_extend 0%Z s 0 = Err ValueError.
Proof. apply (ok2 (xkag _ _ _ _ _) (fun a => kag_extend 0%Z a 2) (fun a b => i_lX (k_st a) = _ /\ i_lY (k_st a) = _ /\ i_lX (k_st b) = _ /\ i_lY (k_st b) = _ /\ kag_extend 0%Z a 0 = _)). vm_compute. auto 10. Qed.
Example ex_spans : spans [(0, 0)%Z; (1, 0)%Z] 2 1.
Proof. split; [intros k [<-|[<-|[]]]; cbn; lia|]. cbn. auto 10. Qed.
Example ex_read_map : exists s js, xkag (Some [((0, 0)%Z, xt 5)]) None None None None = Ok s /\ xkw s = Ok js /\ kag_read 0%Z Z.add parse_int (fun _ => None) false (Some (fun _ => Ok (0, 0)%Z)) aux_default js = Err AttributeError /\ match xkr js with Ok s' => ipeps_site (k_st s') (3, 4)%Z = Ok (xt 5) | Err _ => False end.
Proof. apply (ok2 (xkag _ _ _ _ _) (fun a => xkw a) (fun a b => kag_read _ _ _ _ _ _ _ b = _ /\ match xkr b with Ok s' => ipeps_site (k_st s') _ = _ | Err _ => False end)). vm_compute. auto. Qed.
(** a ladder state through a file *)
Example ex_d2_file : exists s js, d2_newr 0%Z (Some (x2 [5; 6]%Z)) = Ok s /\ d2_write 0%Z xfmt xfmtc (fun t => t) Flegacy aux_default false s = Ok js /\ match xdr js with Ok s' => ipeps_site (base s') (0, 1)%Z = Ok (TReal (mkT [1; 1; 1; 2; 1] [5; 6]%Z)) | Err _ => False end.
Proof. apply (ok2 (d2_newr _ _) (fun a => d2_write _ _ _ _ _ _ _ a) (fun a b => match xdr b with Ok s' => ipeps_site (base s') _ = _ | Err _ => False end)). vm_compute. reflexivity. Qed.
