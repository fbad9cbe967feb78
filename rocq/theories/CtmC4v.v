(** Model of the C4v symmetric CTM algorithm for one site:
    ctm/one_site_c4v/ctm_components_c4v.py:9-129 (enlarged corner),
    ctm/one_site_c4v/ctmrg_c4v.py:16-108 (run), 181-200 (normalization), 203-319 (ctm_MOVE_dl),
    322-463 (ctm_MOVE_sl), 465-598 (ctm_MOVE_QR_sl);
    ctm/one_site_c4v/env_c4v.py:249-254 (init_random).

    Oracles: the truncated eigen-decomposition, the QR decomposition, the vector norm, the FPCM
    acceleration, the convergence check.  Left out: checkpointing, devices, timing, printing.
    A division by zero, which fills a tensor with infinities or not-a-numbers, is the error
    ZeroDivisionError here. *)
From Verif Require Import Base Tensor Net C4v Corners.
Open Scope list_scope.
Open Scope nat_scope.
Open Scope res_scope.

Section CtmC4v.
Context {K : Type} (z o half : K) (add mul div : K -> K -> K) (cj vabs : K -> K) (is0 : K -> bool).
Notation ten := (tensor K).
Notation contract := (tensordot z o add mul).
Notation permute := (permute z).
Notation conj := (conj cj).

(** ctm_components_c4v.py:9-51 *)
Definition c2x2_dl (A C T : ten) : res ten :=
  x <- contract C T [1] [1] ;;
  x <- contract x T [0] [0] ;;
  x <- contract x A [1;3] [0;1] ;;
  x <- permute x [1;2;0;3] ;;
  view x [size T 1 * size A 3; size T 1 * size A 2].
(** ctm_components_c4v.py:53-129 *)
Definition c2x2_sl (a C T : ten) : res ten :=
  x <- contract C T [1] [1] ;;
  x <- contract x T [0] [0] ;;
  x <- view x [size x 0; size a 1; size a 1; size x 2; size a 2; size a 2] ;;
  x <- contract x a [1;4] [1;2] ;;
  x <- contract x (conj a) [1;3;4] [1;2;0] ;;
  y <- permute x [1;2;4;0;3;5] ;;
  view y [size x 1 * size a 3 * size a 3; size x 0 * size a 4 * size a 4].

(** [torch.diag(D)] *)
Definition tdiag (D : list K) : ten :=
  tbuild [length D; length D] (fun ix => match ix with [i; j] => if i =? j then nth i D z else z | _ => z end).
(** [t/scale] *)
Definition tdiv (t : ten) (s : K) : res ten := if is0 s then Err ZeroDivisionError else Ok (tmap (fun x => div x s) t).
(** ctmrg_c4v.py:181-200; [vnorm inf] is torch.linalg.vector_norm with ord inf or 2 *)
Variable vnorm : bool -> list K -> K.
Definition move_normalize (inf : bool) (nC nT : ten) : res (ten * ten) :=
  match tget nC [0; 0] with
  | None => Err IndexError
  | Some c =>
      nC' <- tdiv nC (vabs c) ;;
      nT' <- tdiv nT (vnorm inf (tdata nT)) ;;
      Ok (nC', nT')
  end.
(** ctmrg_c4v.py:306 and 446: [0.5*(nT + nT.permute(1,0,2).conj())] *)
Definition symmetrize (nT : ten) : res ten :=
  p <- permute nT [1;0;2] ;;
  s <- tbin z add nT (conj p) ;;
  Ok (tmap (mul half) s).

(** ctmrg_c4v.py:260-303: the new half-row tensor, P given as a matrix *)
Definition absorb_dl (chi : nat) (A T P : ten) : res ten :=
  P <- view P [chi; size T 2; chi] ;;
  x <- contract P T [0] [0] ;;
  x <- contract x A [0;3] [0;1] ;;
  x <- contract x (conj P) [1;2] [0;1] ;;
  permute x [0;2;1].
(** ctmrg_c4v.py:373-443 *)
Definition absorb_sl (chi : nat) (a T P : ten) : res ten :=
  P <- view P [chi; size T 2; chi] ;;
  x <- contract P T [0] [0] ;;
  x <- view x [size a 1; size a 1; size x 1; size x 2; size a 2; size a 2] ;;
  x <- contract x a [0;4] [1;2] ;;
  x <- contract x (conj a) [0;3;4] [1;2;0] ;;
  y <- permute x [0;1;2;4;3;5] ;;
  x <- view y [size x 0; size x 1; size a 3 ^ 2; size a 4 ^ 2] ;;
  x <- contract x (conj P) [1;2] [0;1] ;;
  permute x [0;2;1].

(** the environment: C, T *)
Definition env_c4v : Type := ten * ten.
(** env_c4v.py:249-254; [rC], [rT]: the random tensors *)
Definition init_random (rC rT : ten) : res env_c4v :=
  p <- permute (conj rC) [1;0] ;;
  s <- tbin z add rC p ;;
  Ok (tmap (mul half) s, rT).
Section Move.
(** the decomposition of an enlarged corner: spectral values and vectors *)
Variable decomp : ten -> nat -> res (list K * ten).
Variables (inf : bool) (chi : nat).
(** ctmrg_c4v.py:226-319 with a site tensor of rank 5 *)
Definition ctm_MOVE_dl (a : ten) (e : env_c4v) : res env_c4v :=
  let '(C, T) := e in
  A <- double_layer z o add mul cj a ;;
  c2x2 <- c2x2_dl A C T ;;
  dp <- decomp c2x2 chi ;;
  nT <- absorb_dl chi A T (snd dp) ;;
  nT <- symmetrize nT ;;
  move_normalize inf (tdiag (fst dp)) nT.
(** ctmrg_c4v.py:344-463 *)
Definition ctm_MOVE_sl (a : ten) (e : env_c4v) : res env_c4v :=
  let '(C, T) := e in
  c2x2 <- c2x2_sl a C T ;;
  dp <- decomp c2x2 chi ;;
  nT <- absorb_sl chi a T (snd dp) ;;
  nT <- symmetrize nT ;;
  move_normalize inf (tdiag (fst dp)) nT.

(** [torch.linalg.qr(M)], the first factor *)
Variable qr : ten -> res ten.
(** ctmrg_c4v.py:481-598 *)
Definition ctm_MOVE_QR_sl (a : ten) (e : env_c4v) : res env_c4v :=
  let '(C, T) := e in
  c2x2 <- c2x2_sl a C T ;;
  h <- contract C T [1] [1] ;;
  h <- permute h [0;2;1] ;;
  h <- (if (chi =? 0) || negb (length (tdata h) mod chi =? 0) then Err RuntimeError
        else view h [length (tdata h) / chi; chi]) ;;
  P <- qr h ;;
  Pt <- permute P [1;0] ;;
  x <- contract Pt c2x2 [1] [0] ;;
  nC <- contract x P [1] [0] ;;
  nT <- absorb_sl chi a T P ;;
  nT <- symmetrize nT ;;
  move_normalize inf nC nT.

(** ctmrg_c4v.py:70-108.  [fpcm i]: is the acceleration used in iteration i (line 77), and
    [fpcm_move] its result; [useQR i]: line 86; [conv i e]: the convergence check *)
Variables (fpcm useQR : nat -> bool) (fpcm_move : nat -> env_c4v -> res env_c4v) (conv : nat -> env_c4v -> bool).
Definition iteration (a : ten) (i : nat) (e : env_c4v) : res env_c4v :=
  e <- (if fpcm i then fpcm_move i e else Ok e) ;;
  if useQR i then ctm_MOVE_QR_sl a e else ctm_MOVE_sl a e.
Fixpoint iterations (a : ten) (is : list nat) (e : env_c4v) : res env_c4v :=
  match is with
  | [] => Ok e
  | i :: is' => e <- iteration a i e ;; if conv i e then Ok e else iterations a is' e
  end.
Definition run (a : ten) (max_iter : nat) (e : env_c4v) : res env_c4v := iterations a (seq 0 max_iter) e.
(** ctmrg_c4v.py:110-176 *)
Definition iteration_dl (a : ten) (i : nat) (e : env_c4v) : res env_c4v :=
  e <- (if fpcm i then fpcm_move i e else Ok e) ;; ctm_MOVE_dl a e.
Fixpoint iterations_dl (a : ten) (is : list nat) (e : env_c4v) : res env_c4v :=
  match is with
  | [] => Ok e
  | i :: is' => e <- iteration_dl a i e ;; if conv i e then Ok e else iterations_dl a is' e
  end.
Definition run_dl (a : ten) (max_iter : nat) (e : env_c4v) : res env_c4v := iterations_dl a (seq 0 max_iter) e.
End Move.
End CtmC4v.
