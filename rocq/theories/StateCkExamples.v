(** Concrete states: a tensor is a list of integers with a flag saying whether it is complex. *)
From Coq Require Import String List ZArith Bool Lia.
From Verif Require Import Base BaseLemmas StateCk StateCkSpec StateCkProofs StateCkProofs2 StateCkProofs3.
Import ListNotations.
Open Scope list_scope.

Definition V : Type := (bool * list Z)%type.
Definition v_cplx (v : V) : bool := fst v.
Definition v_numel (v : V) : Z := Z.of_nat (length (snd v)).
Definition v_flip (v : V) : V := (fst v, rev (snd v)).
Definition v_cat (u v : V) : V := (fst u || fst v, snd u ++ snd v).
(** sum of [c_i t_i]; one coefficient is used for all tensors *)
Definition v_lincomb (ts : list (bool * V)) (c : V) : res V :=
  let n := length ts in
  let cs := match snd c with [x] => repeat x n | l => l end in
  if Nat.eqb (length cs) n then
    Ok (existsb fst ts || existsb (fun t => fst (snd t)) ts,
        fold_right (fun ct acc => map (fun p => fst p + snd p)%Z
                       (combine (map (Z.mul (fst ct)) (snd (snd (snd ct)))) acc))
                   [0; 0]%Z (combine cs ts))
  else Err RuntimeError.
Definition v_dress (a b : V) : res V := Ok (v_cat a b).
Definition v_trgl (a b : V) : res V := Ok (v_cat a b).
Definition v_ipess (a b c d e : V) : res V := Ok (v_cat a (v_cat b (v_cat c (v_cat d e)))).

Definition re (l : list Z) (g : bool) : tens V := mkt (false, l) g.
Definition im (l : list Z) (g : bool) : tens V := mkt (true, l) g.
Definition meta (p : string) : pyv V := PDict [(KStr "meta", PDict [(KStr "pg", PStr p)])].
Definition el (p : string) (l : list Z) : pyv V := PTup [meta p; PT (re l false)].

(** two sites *)
Definition ex_ipeps : @StateCk.ipeps V :=
  mk_ipeps (PDict [(KCoord (0, 0)%Z, PT (re [1; 2]%Z true)); (KCoord (1, 0)%Z, PT (im [3; 4]%Z true))]) true.
Definition ex_ipeps0 : @StateCk.ipeps V := mk_ipeps (PDict [(KCoord (0, 0)%Z, PT (re [7]%Z false))]) false.
Lemma ex_ipeps_made : ipeps_made ex_ipeps.
Proof. exists [(KCoord (0, 0)%Z, re [1; 2]%Z true); (KCoord (1, 0)%Z, im [3; 4]%Z true)]. reflexivity. Qed.

Definition ex_q : @ipeps_q V :=
  mk_q (PDict [(KCoord (0, 0)%Z, PT (re [1; 2]%Z true))]) (PT (re [5; 6]%Z true)) false.
Lemma ex_q_made : q_made ex_q.
Proof.
  split; [|exists (re [5; 6]%Z true); reflexivity].
  exists [(KCoord (0, 0)%Z, re [1; 2]%Z true)]. reflexivity.
Qed.

(** elementary tensors of both irreps, the one of A_2 first *)
Definition ex_elem : pyv V := PList [el "A_2" [1; 0]%Z; el "A_1" [0; 1]%Z; el "A_1" [1; 1]%Z].
Definition ex_coeffs : pyv V := PDict [(KCoord (0, 0)%Z, PT (re [5; 7; 11]%Z true))].
Definition ex_lc : @lc V :=
  mk_lc ex_elem ex_coeffs ["A_2"%string; "A_1"%string; "A_1"%string]
    (PDict [(KCoord (0, 0)%Z, PT (mkt (true, [18; 12]%Z) true))]).
Lemma ex_lc_new : lc_new v_lincomb ex_elem ex_coeffs = Ok ex_lc.
Proof. reflexivity. Qed.
Lemma ex_lc_made : lc_made v_numel v_lincomb ex_lc.
Proof.
  exists ex_elem, ex_coeffs. eexists. split; [reflexivity|]. split; [reflexivity|].
  do 3 eexists. split; [reflexivity|]. split; [left; reflexivity|]. reflexivity.
Qed.

(** one coefficient for three tensors *)
Definition ex_lc1 : @lc V :=
  mk_lc ex_elem (PDict [(KCoord (0, 0)%Z, PT (re [2]%Z false))]) ["A_2"%string; "A_1"%string; "A_1"%string]
    (PDict [(KCoord (0, 0)%Z, PT (mkt (true, [4; 4]%Z) false))]).

Definition ex_bp_elem : pyv V :=
  PDict [(KStr "site", PList [el "A_1" [0; 1]%Z; el "A_1" [1; 1]%Z]); (KStr "bond", PList [el "A" [2; 3]%Z])].
Definition ex_bp_coeffs : pyv V :=
  PDict [(KStr "site", PT (re [5; 7]%Z false)); (KStr "bond", PT (re [1]%Z false))].

Definition sub5 (n : Z) (g : bool) : pyv V :=
  PDict [(KStr "T_u", PT (re [n] g)); (KStr "T_d", PT (re [n + 1]%Z g)); (KStr "B_a", PT (re [n + 2]%Z g));
         (KStr "B_b", PT (re [n + 3]%Z g)); (KStr "B_c", PT (re [n + 4]%Z g))].
Definition ex_kag_ip : pyv V := PDict [(KCoord (0, 0)%Z, sub5 1 true); (KCoord (1, 0)%Z, sub5 10 true)].
Definition ex_kag : @kag V :=
  mk_kag ex_kag_ip
    (PDict [(KCoord (0, 0)%Z, PT (mkt (false, [1; 5; 2; 4; 3]%Z) true));
            (KCoord (1, 0)%Z, PT (mkt (false, [10; 14; 11; 13; 12]%Z) true))]).
Lemma sub5_five n g : five_tensors (sub5 n g).
Proof.
  exists [(KStr "T_u", re [n] g); (KStr "T_d", re [n + 1]%Z g); (KStr "B_a", re [n + 2]%Z g);
         (KStr "B_b", re [n + 3]%Z g); (KStr "B_c", re [n + 4]%Z g)].
  split; [reflexivity|]. intros k. reflexivity.
Qed.
Lemma ex_kag_made : kag_made v_ipess ex_kag.
Proof.
  exists ex_kag_ip. split; [reflexivity|]. intros d k s Hd Hin. injection Hd as <-.
  destruct Hin as [E|[E|[]]]; inversion E; subst; apply sub5_five.
Qed.

(** different tensors on up and down triangles *)
Definition ex_kpg_elem (g : bool) : pyv V :=
  PDict [(KStr "T_u", PT (re [1]%Z g)); (KStr "B_c", PT (re [2]%Z g)); (KStr "T_d", PT (re [3]%Z g))].
Definition ex_kpg : @kpg V :=
  mk_kpg false true (ex_kpg_elem true)
    (PDict [(KCoord (0, 0)%Z, PDict [(KStr "T_u", PT (re [1]%Z true)); (KStr "T_d", PT (re [3]%Z true));
      (KStr "B_c", PT (re [2]%Z true)); (KStr "B_a", PT (re [2]%Z true)); (KStr "B_b", PT (re [2]%Z true))])])
    (PDict [(KCoord (0, 0)%Z, PT (mkt (false, [1; 2; 3; 2; 2]%Z) true))]).
Lemma ex_kpg_new : kpg_new v_ipess (fun _ a => a) false true (re [1]%Z true) (re [2]%Z true)
  (Some (re [3]%Z true)) None None = Ok ex_kpg.
Proof. reflexivity. Qed.
Lemma ex_kpg_made : kpg_made v_ipess ex_kpg.
Proof. repeat eexists. exact ex_kpg_new. Qed.
(** the same tensor on both *)
Definition ex_kpg_same : @kpg V :=
  mk_kpg true true (PDict [(KStr "T_u", PT (re [1]%Z false)); (KStr "B_c", PT (re [2]%Z false))])
    (PDict [(KCoord (0, 0)%Z, PDict [(KStr "T_u", PT (re [1]%Z false)); (KStr "T_d", PT (re [1]%Z false));
      (KStr "B_c", PT (re [2]%Z false)); (KStr "B_a", PT (re [2]%Z false)); (KStr "B_b", PT (re [2]%Z false))])])
    (PDict [(KCoord (0, 0)%Z, PT (mkt (false, [1; 2; 1; 2; 2]%Z) false))]).
Lemma ex_kpg_same_made : kpg_made v_ipess ex_kpg_same.
Proof. exists (fun _ a => a), true, true, (re [1]%Z false), (re [2]%Z false), None, None, None. reflexivity. Qed.

Definition ex_cb (l : list Z) : @cb V := (re l true, PList [el "A_1" [1; 0]%Z; el "A_2" [0; 1]%Z]).
Definition ex_cbb (l : list Z) : @cb V := (re l true, PList [el "B" [1; 0]%Z; el "A" [0; 1]%Z]).
Definition ex_pgs : dict string string := [("T_u"%string, "A_2"%string); ("B_c"%string, "B"%string)].
Definition ex_klc : @klc V :=
  match klc_new v_lincomb v_ipess true true ex_pgs (ex_cb [2; 3]%Z) (ex_cbb [5; 7]%Z) None None None with
  | Ok st => st
  | Err _ => mk_klc true true [] POther POther POther POther POther
  end.
Lemma ex_klc_new :
  klc_new v_lincomb v_ipess true true ex_pgs (ex_cb [2; 3]%Z) (ex_cbb [5; 7]%Z) None None None = Ok ex_klc.
Proof. reflexivity. Qed.
Lemma ex_klc_made : klc_made v_lincomb v_ipess ex_klc.
Proof. repeat eexists. exact ex_klc_new. Qed.

Definition ex_klc2 : @klc V :=
  match klc_new v_lincomb v_ipess false true ex_pgs (ex_cb [2; 3]%Z) (ex_cbb [5; 7]%Z)
          (Some (ex_cb [4; 1]%Z)) None None with
  | Ok st => st
  | Err _ => mk_klc true true [] POther POther POther POther POther
  end.
Lemma ex_klc2_new :
  klc_new v_lincomb v_ipess false true ex_pgs (ex_cb [2; 3]%Z) (ex_cbb [5; 7]%Z)
    (Some (ex_cb [4; 1]%Z)) None None = Ok ex_klc2.
Proof. reflexivity. Qed.

(** *** refutations *)
Lemma ex_dtype_ipeps :
  let real := mk_ipeps (PDict [(KCoord (0, 0)%Z, PT (re [7]%Z false))]) false in
  exists st', ipeps_made real /\
    ipeps_load v_cplx ex_ipeps (store_checkpoint 1 POther POther (ipeps_checkpoint real)) = Ok st' /\
    i_complex st' = true /\ ~ dtype_agrees v_cplx (i_complex st') (i_sites st').
Proof.
  cbv zeta. eexists. split; [exists [(KCoord (0, 0)%Z, re [7]%Z false)]; reflexivity|].
  split; [reflexivity|]. split; [reflexivity|]. intros H.
  specialize (H [(KCoord (0, 0)%Z, re [7]%Z false)] eq_refl). discriminate.
Qed.

Lemma ex_dtype_d2 :
  exists st0 st st', d2_made v_cplx v_flip st0 /\ d2_made v_cplx v_flip st /\
    d2_load v_flip st0 (store_checkpoint 1 POther POther (d2_checkpoint st)) = Ok st' /\
    d_complex st' = false /\ ~ dtype_agrees v_cplx (d_complex st') (d_sites st').
Proof.
  exists (mk_d2 (PT (re [1; 2]%Z false)) (PDict [(KCoord (0, 0)%Z, PT (re [1; 2]%Z false)); (KCoord (0, 1)%Z, PT (re [2; 1]%Z false))]) false).
  exists (mk_d2 (PT (im [1; 2]%Z false)) (PDict [(KCoord (0, 0)%Z, PT (im [1; 2]%Z false)); (KCoord (0, 1)%Z, PT (im [2; 1]%Z false))]) true).
  eexists. split; [exists false, (re [1; 2]%Z false); reflexivity|].
  split; [exists false, (im [1; 2]%Z false); reflexivity|]. split; [reflexivity|]. split; [reflexivity|].
  intros H. specialize (H [(KCoord (0, 0)%Z, im [1; 2]%Z false); (KCoord (0, 1)%Z, im [2; 1]%Z false)] eq_refl).
  discriminate.
Qed.

Lemma ex_grad : exists st', klc_made v_lincomb v_ipess ex_klc /\ klc_equal ex_klc /\
  klc_load v_lincomb v_ipess ex_klc (store_checkpoint 1 POther POther (klc_checkpoint ex_klc)) = Ok st' /\
  ~ detached (klc_parameters st').
Proof.
  eexists. split; [exact ex_klc_made|]. split; [split; reflexivity|]. split; [reflexivity|].
  intros (l & Hl & H). injection Hl as <-. specialize (H (re [2; 3]%Z true) (or_introl eq_refl)). discriminate.
Qed.

Lemma not_same_sites : ~ same_sites (A:=V)
   (PDict [(KCoord (0, 0)%Z, PT (mkt (false, [1; 2; 3; 2; 2]%Z) true))])
   (PDict [(KCoord (0, 0)%Z, PT (mkt (false, [1; 2; 1; 2; 2]%Z) false))]).
Proof.
  intros (d & d' & Hd & Hd' & E). destruct d as [|[k t] [|]]; try discriminate.
  destruct d' as [|[k' t'] [|]]; try discriminate. cbn in Hd, Hd'. injection Hd as <- <-. injection Hd' as <- <-.
  discriminate.
Qed.

Lemma ex_flags :
  (exists st', kpg_load v_ipess ex_kpg_same (store_checkpoint 1 POther POther (kpg_checkpoint ex_kpg)) = Ok st' /\
     same_parameters (kpg_parameters ex_kpg) (kpg_parameters st') /\
     ~ same_sites (p_sites ex_kpg) (p_sites st')) /\
  kpg_load v_ipess ex_kpg (store_checkpoint 1 POther POther (kpg_checkpoint ex_kpg_same)) = Err KeyError.
Proof.
  split; [|reflexivity]. eexists. split; [reflexivity|]. split.
  - do 2 eexists. exists [re [1]%Z true; re [2]%Z true; re [3]%Z true], [re [1]%Z false; re [2]%Z false; re [3]%Z false].
    repeat split.
  - exact not_same_sites.
Qed.
