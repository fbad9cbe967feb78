From Coq Require Import Reals QArith.
From Verif Require Import Base BaseLemmas Flt Armijo Lbfgs LbfgsSpec LbfgsProofs LbfgsExamples OptRun OptRunSpec OptRunExamples
  OptRunProofs OptRunProofs2 OptRunProofs3 OptRunProofs4 OptRunProofs6 OptRunProofs7.
Open Scope list_scope.

Lemma comparisons : comparison Rops /\ comparison Eops /\ comparison Qops.
Proof. exact (conj comparison_R (conj comparison_E comparison_Q)). Qed.

Section W.
Context {F E : Type} (o : fops F).
Notation params := (list (list F)).
Variable pinf : F.
Variable loss_fn : bool -> params -> @tdata F -> E -> E * (exn + F).
Variable gradient : params -> F -> E -> E * (exn + list F).
Variable post_proc : option (params -> E -> E * (exn + params)).
Section Torch.
Variables (fuel : nat) (strategy : opt F -> params -> list (params * F * list F) -> params + (exn + params * opt F)).
Lemma ad_file tol max_iter x a (e : E) file : comparison o ->
  let w := p_w (r_s (fst (optimize_ad o pinf loss_fn gradient post_proc fuel strategy tol max_iter x a e file))) in
  holds_best o pinf (w_evals w) file (w_file w) /\ recorded loss_fn w.
Proof.
  intros C w. destruct (file_torch o loss_fn gradient post_proc fuel strategy C false tol pinf (Z.of_nat max_iter) max_iter 0 x a e file) as [G H].
  rewrite all_starts in H by exact C. split; [exact H|exact G].
Qed.
Lemma sgd_file tol max_iter x a (e : E) file : comparison o ->
  let w := p_w (r_s (fst (optimize_sgd o loss_fn gradient post_proc fuel strategy tol max_iter x a e file))) in
  holds_best o (fq o 10000000000000000 1) (w_evals w) file (w_file w) /\ recorded loss_fn w.
Proof.
  intros C w. destruct (file_torch o loss_fn gradient post_proc fuel strategy C true tol (big o) (Z.of_nat max_iter) max_iter 0 x a e file) as [G H].
  rewrite all_starts in H by exact C. split; [exact H|exact G].
Qed.
End Torch.
Section Fd.
Variables (yastn : bool) (maxabs sumabs : list F -> F).
Variable wolfe : F -> list F -> F -> list F -> F -> list (F * F * list F) -> F + (F * list F * F * Z).
Variable fuel : nat.
Lemma fd_file max_iter x a (e : E) file : comparison o ->
  let w := p_w (r_s (fst (optimize_fd o loss_fn gradient post_proc yastn maxabs sumabs wolfe fuel max_iter x a e file))) in
  holds_best o (fq o 10000000000000000 1) (starts_of (w_evals w)) file (w_file w) /\ recorded loss_fn w.
Proof. intros C w. destruct (file_fd o loss_fn gradient post_proc yastn maxabs sumabs wolfe fuel C max_iter x a e file) as [G H]. split; [exact H|exact G]. Qed.
Variables (f : params -> F) (df : params -> list F) (h : params -> params).
Hypothesis PL : pure_loss loss_fn f. Hypothesis PG : pure_grad gradient df. Hypothesis PP : pure_post post_proc h.
Lemma fd_lag_one max_iter x a e file : g_max_iter (o_grp a) = 1%Z ->
  let cks := r_ck (fst (optimize_fd o loss_fn gradient post_proc yastn maxabs sumabs wolfe fuel max_iter x a e file)) in
  map c_loss cks = map f (firstn (length cks) (x :: map c_params cks)).
Proof. intros M1. eapply lag_fd; eassumption. Qed.
Lemma fd_resume max_iter x a e file max_iter' e' file' before c after a' :
  let optimize := optimize_fd o loss_fn gradient post_proc yastn maxabs sumabs wolfe fuel in
  r_ck (fst (optimize max_iter x a e file)) = before ++ c :: after ->
  load_optimizer_state o None (c_opt c) = Ok a' ->
  prefix_related (map (fun c => (c_params c, c_opt c)) after)
                 (map (fun c => (c_params c, c_opt c)) (r_ck (fst (optimize max_iter' (c_params c) a' e' file')))).
Proof. intros opti H L. injection L as <-. unfold opti. eapply resume_fd; eassumption. Qed.
End Fd.
Section Mod.
Variables (noise : params -> E -> E * params) (gauge : params -> E -> E * (exn + params)) (g : grp F).
Variables (regauge yastn : bool) (antivar : E -> bool) (maxabs sumabs : list F -> F).
Variable wolfe : F -> list F -> F -> list F -> F -> list (F * F * list F) -> F + (F * list F * F * Z).
Variable fuel : nat.
Lemma nosearch (g0 : grp F) : (g_ls g0 = LSnone \/ g_ls g0 = LSdefault) -> searches g0 = false.
Proof. unfold searches. intros [-> | ->]; reflexivity. Qed.
Lemma mod_file_nols max_iter x a (e : E) file :
  comparison o -> (g_ls (o_grp a) = LSnone \/ g_ls (o_grp a) = LSdefault) -> (g_ls g = LSnone \/ g_ls g = LSdefault) ->
  let w := p_w (r_s (fst (optimize_mod o loss_fn gradient post_proc noise gauge g regauge yastn antivar maxabs sumabs wolfe fuel max_iter x a e file))) in
  holds_best o (fq o 10000000000000000 1) (w_evals w) file (w_file w) /\ recorded loss_fn w.
Proof.
  intros C S1 S2 w. destruct (file_mod_nols o loss_fn gradient post_proc noise gauge g regauge yastn antivar maxabs sumabs wolfe fuel C max_iter x a e file (nosearch _ S1) (nosearch _ S2)) as [G H].
  split; [exact H|exact G].
Qed.
Lemma mod_file max_iter x a (e : E) file : comparison o ->
  let w := p_w (r_s (fst (optimize_mod o loss_fn gradient post_proc noise gauge g regauge yastn antivar maxabs sumabs wolfe fuel max_iter x a e file))) in
  holds_as_good o (fq o 10000000000000000 1) (w_evals w) file (w_file w) /\ recorded loss_fn w.
Proof.
  intros C w. destruct (file_mod o loss_fn gradient post_proc noise gauge g regauge yastn antivar maxabs sumabs wolfe fuel C max_iter x a e file) as [G H]. split; [exact H|exact G].
Qed.
Variables (f : params -> F) (df : params -> list F) (h : params -> params).
Hypothesis PL : pure_loss loss_fn f. Hypothesis PG : pure_grad gradient df. Hypothesis PP : pure_post post_proc h.
Lemma nowolfe (g0 : grp F) : g_ls g0 <> LSwolfe -> no_wolfe g0 = true.
Proof. unfold no_wolfe. destruct (g_ls g0); congruence. Qed.
Lemma mod_lag max_iter x a e file : g_ls (o_grp a) <> LSwolfe -> g_max_iter (o_grp a) = 1%Z ->
  let cks := r_ck (fst (optimize_mod o loss_fn gradient post_proc noise gauge g regauge yastn antivar maxabs sumabs wolfe fuel max_iter x a e file)) in
  map c_loss cks = map f (firstn (length cks) (x :: map c_params cks)).
Proof. intros NW M1. eapply lag_mod; [exact PL|exact PG|exact PP|exact (nowolfe _ NW)|exact M1|reflexivity]. Qed.
Lemma mod_resume max_iter x a e file max_iter' e' file' before c after a' : g_ls (o_grp a) <> LSwolfe -> g_max_iter (o_grp a) = 1%Z ->
  let optimize := optimize_mod o loss_fn gradient post_proc noise gauge g regauge yastn antivar maxabs sumabs wolfe fuel in
  r_ck (fst (optimize max_iter x a e file)) = before ++ c :: after ->
  load_optimizer_state o None (c_opt c) = Ok a' ->
  prefix_related (map (fun c => (c_params c, c_opt c)) after)
                 (map (fun c => (c_params c, c_opt c)) (r_ck (fst (optimize max_iter' (c_params c) a' e' file')))).
Proof.
  intros NW M1 opti H L. injection L as <-. unfold opti. eapply resume_mod; [exact PL|exact PG|exact PP|exact (nowolfe _ NW)|exact M1|reflexivity|exact H].
Qed.
End Mod.
End W.

Section L.
Context {F : Type} (o : fops F).
Lemma keeps_newest acc g (ck : opt F) al dirs :
  (1 <= g_hist g)%Z -> (1 <= g_hist (o_grp ck))%Z -> history o acc ck -> o_al ck = Some al -> m_dirs (o_mem ck) = Some dirs ->
  exists a, load_optimizer_state o (Some g) ck = Ok a /\
    holds_newest o (Z.to_nat (Z.min (g_hist g) (g_hist (o_grp ck)))) acc (o_mem a) /\
    (exists al', o_al a = Some al' /\ length al' = Z.to_nat (g_hist g)) /\
    o_grp a = {| g_lr := g_lr g; g_max_iter := g_max_iter g; g_max_eval := g_max_eval (o_grp ck); g_tol_grad := g_tol_grad g;
                 g_tol_change := g_tol_change g; g_ls := g_ls g; g_ls_eps := g_ls_eps g; g_hist := g_hist g |} /\
    o_niter a = o_niter ck /\ m_d (o_mem a) = m_d (o_mem ck) /\ m_t (o_mem a) = m_t (o_mem ck) /\ m_H (o_mem a) = m_H (o_mem ck) /\
    m_pg (o_mem a) = m_pg (o_mem ck) /\ m_pl (o_mem a) = m_pl (o_mem ck).
Proof. intros H1 H2 H3 H4 H5. destruct (load_keeps_newest o acc g ck al dirs H1 H2 H3 H4 H5) as (a & A1 & A2 & A3). exists a. auto. Qed.
Lemma load_continues acc g (ck a : opt F) al dirs :
  (1 <= g_hist g)%Z -> (1 <= g_hist (o_grp ck))%Z -> history o acc ck -> o_al ck = Some al -> m_dirs (o_mem ck) = Some dirs ->
  load_optimizer_state o (Some g) ck = Ok a ->
  let kept := lastn (Z.to_nat (g_hist (o_grp ck))) acc in
  history o kept a /\
  forall (W : Type) maxabs sumabs (clo clo_g : list (list F) -> W -> W * (exn + F * list F)) clo_ls wolfe yastn fuel nl ng (s : @pst F W),
  p_opt s = a ->
  let s' := fst (step_2c o maxabs sumabs clo clo_g clo_ls wolfe yastn fuel nl ng s) in
  o_grp (p_opt s') = o_grp a /\ exists new, history o (kept ++ new) (p_opt s').
Proof.
  intros H1 H2 H3 H4 H5 HL kept. destruct (load_keeps_newest o acc g ck al dirs H1 H2 H3 H4 H5) as (a' & A1 & A2 & A3 & A4 & A5 & _).
  rewrite HL in A1. injection A1 as <-. split; [exact A2|]. intros W maxabs sumabs clo clo_g clo_ls wolfe yastn fuel nl ng s <-.
  apply step_hist; [rewrite A5; exact H1|exact A2].
Qed.
End L.

Lemma all_evaluations_refuted : exists (f df : Q -> Q) x,
  let r := xmod f df LSbacktracking 1 2 x (opt0 (xg LSbacktracking 1)) None in
  exists c y, In c (w_evals (p_w (r_s (fst r)))) /\ file_of r = Some y /\ (e_loss c < f (the y))%Q.
Proof.
  exists kink, kink', [[0 # 1]]. exists (true, [[1 # 1]], 999991 # 100000), [[50000 # 99991]].
  split; [vm_compute; auto|]. split; [vm_compute; reflexivity|]. vm_compute. reflexivity.
Qed.
Definition nul : ckpt := {| c_epoch := 0; c_loss := 0 # 1; c_params := []; c_opt := opt0 (xg LSnone 1) |}.
Definition trap_ck : ckpt := hd nul (r_ck (fst (xmod trap trap' LSnone 1 1 [[0 # 1]] (opt0 (xg LSnone 1)) None))).
Lemma resumed_refuted : exists (f df : Q -> Q) x c y y',
  let r := xmod f df LSnone 1 1 x (opt0 (xg LSnone 1)) None in
  r_ck (fst r) = [c] /\ file_of r = Some y /\
  file_of (xmod f df LSnone 1 1 (c_params c) (c_opt c) (file_of r)) = Some y' /\ (f (the y) < f (the y'))%Q.
Proof.
  exists trap, trap', [[0 # 1]], trap_ck, [[0 # 1]], [[-1 # 1]]. vm_compute. auto.
Qed.
Lemma pairing_refuted : exists (f df : Q -> Q) x c,
  In c (r_ck (fst (xmod f df LSnone 1 3 x (opt0 (xg LSnone 1)) None))) /\ ~ (c_loss c == f (the (c_params c)))%Q.
Proof.
  exists par, par', [[3 # 1]], (hd nul (r_ck (fst (xmod par par' LSnone 1 3 [[3 # 1]] (opt0 (xg LSnone 1)) None)))).
  split; [vm_compute; auto|]. vm_compute. discriminate.
Qed.
Lemma wolfe_refuted : exists (f df : Q -> Q) x c c',
  let r := xmod f df LSwolfe 1 3 x (opt0 (xg LSwolfe 1)) None in
  r_ck (fst r) = [c; c'] /\ c_loss c' = f (the x) /\ (f (the (c_params c')) < f (the (c_params c)))%Q /\ (f (the (c_params c)) < f (the x))%Q.
Proof.
  exists par, par', [[3 # 1]].
  exists (nth 0 (r_ck (fst (xmod par par' LSwolfe 1 3 [[3 # 1]] (opt0 (xg LSwolfe 1)) None))) nul).
  exists (nth 1 (r_ck (fst (xmod par par' LSwolfe 1 3 [[3 # 1]] (opt0 (xg LSwolfe 1)) None))) nul). vm_compute. auto.
Qed.
Lemma first_checkpoint_refuted : exists (f df : Q -> Q) x c cs g,
  r_ck (fst (xmod f df LSnone 1 3 x (opt0 (xg LSnone 1)) None)) = c :: cs /\
  load_optimizer_state Qops (Some g) (c_opt c) = Err KeyError.
Proof.
  exists par, par', [[3 # 1]], (hd nul (r_ck (fst (xmod par par' LSnone 1 3 [[3 # 1]] (opt0 (xg LSnone 1)) None)))),
    (tl (r_ck (fst (xmod par par' LSnone 1 3 [[3 # 1]] (opt0 (xg LSnone 1)) None)))), (xg LSnone 1). vm_compute. auto.
Qed.
Definition two_steps : opt Q := match qsteps 3 (qstart LSbacktracking 1 10) with Some s => p_opt s | None => opt0 (xg LSnone 1) end.
Lemma size_zero_refuted : exists (ck a : opt Q) dirs g,
  g_hist g = 0%Z /\ m_dirs (o_mem ck) = Some dirs /\ (1 <= length dirs)%nat /\
  load_optimizer_state Qops (Some g) ck = Ok a /\ m_dirs (o_mem a) = Some dirs.
Proof.
  exists two_steps, (match load_optimizer_state Qops (Some (qgrp LSbacktracking 1 0)) two_steps with Ok a => a | Err _ => opt0 (xg LSnone 1) end),
    (match m_dirs (o_mem two_steps) with Some d => d | None => [] end), (qgrp LSbacktracking 1 0).
  split; [reflexivity|]. split; [vm_compute; reflexivity|]. split; [vm_compute; auto|]. split; vm_compute; reflexivity.
Qed.
Lemma torch_ro_refuted : exists h h0 (dirs stps : list (list Q)) ro al dirs' stps' ro' al',
  length stps = length dirs /\ length ro = length dirs /\ length al = Z.to_nat h0 /\ (Z.of_nat (length dirs) <= h0)%Z /\ (1 <= h)%Z /\
  load_torch Qops h h0 dirs stps ro al = (dirs', stps', ro', al') /\ length ro' <> length dirs'.
Proof.
  exists 3%Z, 5%Z, [[1 # 1]; [2 # 1]], [[1 # 1]; [1 # 1]], [Some (1 # 1); Some (1 # 2)], [Some (1 # 1); Some (2 # 1); None; None; None].
  do 4 eexists. repeat split; try reflexivity; try (vm_compute; discriminate).
Qed.
