(** States meeting the hypotheses of the CTM theorems; concrete instances. *)
From Verif Require Import Base BaseLemmas Lattice LatticeSpec Tilings StateIOSpec Ctm CtmSpec CtmProofs CtmProofs2.
Open Scope Z_scope.
Open Scope list_scope.

Lemma regular_is_state {X} (st : ipeps X) sites : regular st sites -> exists f, is_state X st sites f.
Proof.
  intros [Rs Rn _ Rt Rf _ _ Rtr].
  set (f := fun v => match i_v2s st v with Ok k => k | Err _ => (0, 0) end).
  assert (Hf : forall v, i_v2s st v = Ok (f v)).
  { intros v. unfold f. destruct (Rt v) as (k & -> & _). reflexivity. }
  exists f. split; [assumption|]. split; [assumption|]. split; [assumption|]. split; [|split].
  - intros v. unfold f. destruct (Rt v) as (k & -> & I). exact I.
  - intros k I. unfold f. rewrite (Rf k I). reflexivity.
  - intros v w d E. assert (E2 : i_v2s st v = i_v2s st w) by (rewrite !Hf, E; reflexivity).
    apply (Rtr v w d) in E2. rewrite !Hf in E2. congruence.
Qed.

(** a bipartite two-site state with symbolic tensors: a tensor is the list of names that
    went into it *)
Definition xT := list string.
Definition x_sites : dict coord xT := [((0, 0), ["A"]); ((1, 0), ["B"])]%string.
Definition x_st : ipeps xT := mk_ipeps (Some x_sites) 2 2 (fun v => Ok (tiling_bipartite v)).
Definition x_name (p : string) (c : coord) : xT := [String.append p (if Z.eqb (fst c) 0 then "A" else "B")]%string.
Definition x_env : envt xT :=
  mkE (flat_map (fun c => map (fun v => ((c, v), x_name (match v with (-1, -1) => "C1" | (1, -1) => "C2" | (1, 1) => "C3" | _ => "C4" end)%string c)) corner_dirs) (dkeys x_sites))
      (flat_map (fun c => map (fun v => ((c, v), x_name (match v with (0, -1) => "T1" | (-1, 0) => "T4" | (0, 1) => "T3" | _ => "T2" end)%string c)) edge_dirs) (dkeys x_sites)).
Definition x_proj (d : dirn) (l : list xT) : res (xT * xT) := Ok (["P"; "("]%string ++ concat l ++ [")"]%string, ["Pt"; "("]%string ++ concat l ++ [")"]%string).
Definition x_f3 (d : dirn) (a b c : xT) : xT := a ++ b ++ c.
Definition x_f4 (d : dirn) (a b c e : xT) : xT := a ++ b ++ c ++ e.
Definition x_move := ctm_move xT xT x_proj x_proj x_f3 x_f3 x_f4 (fun x => x).

Lemma x_state : is_state xT x_st x_sites tiling_bipartite.
Proof.
  split; [reflexivity|]. split; [reflexivity|]. 
  split; [|split; [|split]].
  - cbn. repeat constructor; cbn; intuition congruence.
  - intros v. assert (H : tiling_bipartite v = (0, 0) \/ tiling_bipartite v = (1, 0)).
    { unfold tiling_bipartite. set (x := (fst v + _) mod 2 + Z.abs (snd v)).
      pose proof (Z.mod_pos_bound x 2 ltac:(lia)). assert (x mod 2 = 0 \/ x mod 2 = 1) as [-> | ->] by lia; auto. }
    cbn. destruct H as [-> | ->]; auto.
  - cbn. intros k [<-|[<-|[]]]; reflexivity.
  - intros v w d. unfold tiling_bipartite, cadd. cbn [fst snd]. intros [= E]. f_equal.
    revert E. rewrite !Z.add_mod_idemp_l by lia.
    assert (P : forall a b, (a + Z.abs a * 2 + Z.abs b) mod 2 = (a + b) mod 2).
    { intros a b. destruct (Z.abs_spec b) as [[_ ->]|[_ ->]].
      - rewrite <- (Z.mod_add (a + b) (Z.abs a) 2) by lia. f_equal; lia.
      - rewrite <- (Z.mod_add (a + b) (Z.abs a - b) 2) by lia. f_equal; lia. }
    rewrite !P. intros E.
    replace (fst v + fst d + (snd v + snd d)) with ((fst v + snd v) + (fst d + snd d)) by lia.
    replace (fst w + fst d + (snd w + snd d)) with ((fst w + snd w) + (fst d + snd d)) by lia.
    rewrite (Z.add_mod (fst v + snd v)), (Z.add_mod (fst w + snd w)), E by lia. reflexivity.
Qed.

Lemma x_complete : complete xT x_sites x_env.
Proof. split; intros k c; cbn; intros [<-|[<-|[]]]; intros [<-|[<-|[<-|[<-|[]]]]]; tauto. Qed.
