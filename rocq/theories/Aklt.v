(** Model of the operators of models/akltS2.py: AKLTS2.get_h (37-47), AKLTS2_C4V_BIPARTITE.get_h (193-209).

    Elements are exact real numbers.  Not modelled: dtype and device. *)
From Verif Require Import Base Tensor Su2 Net.
From Coq Require Import Reals.
Open Scope list_scope.
Open Scope res_scope.

Definition el2 (t : tensor R) (i j : nat) : R := match tget t [i; j] with Some v => v | None => 0%R end.
(** [A@B] for matrices of dimension n *)
Definition matmul (n : nat) (A B : tensor R) : tensor R :=
  tbuild [n; n] (fun ix => match ix with [i; j] => fold_right Rplus 0%R (map (fun k => (el2 A i k * el2 B k j)%R) (seq 0 n)) | _ => 0%R end).

(** the models have [self.phys_dim = 5] *)
Section Dim.
Variable pd : nat.
(** 40-42, 196-198: the sum of the three Kronecker products *)
Definition aklt_SS : res (tensor R) :=
  sz <- get_op pd OpSz ;; sp <- get_op pd OpSp ;; sm <- get_op pd OpSm ;;
  Ok (tplus (kron pd sz sz) (tscale (5/10) (tplus (kron pd sp sm) (kron pd sm sp)))).
(** 43-46, 201-203 *)
Definition quartic_of (M : tensor R) : tensor R :=
  let n := pd * pd in
  tscale (1/14) (tplus (tplus (tplus M (matmul n (tscale (7/10) M) M)) (matmul n (matmul n (tscale (7/45) M) M) M))
                       (matmul n (matmul n (matmul n (tscale (1/90) M) M) M) M)).
(** AKLTS2.get_h: [h, SS] *)
Definition aklt_h : res (tensor R * tensor R) :=
  SS <- aklt_SS ;; SS <- view SS [pd * pd; pd * pd] ;;
  h <- view (quartic_of SS) [pd; pd; pd; pd] ;;
  SS <- view SS [pd; pd; pd; pd] ;;
  Ok (h, SS).
(** einsum('jl,ilak,kb->ijab',r,A,r) *)
Definition rot_second (r A : tensor R) : tensor R :=
  tbuild [pd; pd; pd; pd] (fun ix => match ix with [i; j; a; b] =>
    fold_right Rplus 0%R (map (fun l => fold_right Rplus 0%R (map (fun k =>
      (el2 r j l * match tget A [i; l; a; k] with Some v => v | None => 0 end * el2 r k b)%R) (seq 0 pd))) (seq 0 pd)) | _ => 0%R end).
(** AKLTS2_C4V_BIPARTITE.get_h: [h_rot, SS, SS_rot] *)
Definition aklt_c4v_h : res (tensor R * tensor R * tensor R) :=
  SS <- aklt_SS ;; r <- get_rot_op pd ;;
  let SS_rot := rot_second r SS in
  SS <- view SS [pd * pd; pd * pd] ;;
  h <- view (quartic_of SS) [pd; pd; pd; pd] ;;
  let h_rot := rot_second r h in
  SS <- view SS [pd; pd; pd; pd] ;;
  Ok (h_rot, SS, SS_rot).
End Dim.
