From Verif Require Import Base BaseLemmas Flt Armijo Lbfgs LbfgsSpec LbfgsProofs OptRun OptRunSpec OptRunProofs OptRunProofs2 OptRunProofs4 OptRunProofs5.
Open Scope list_scope.

Section Connect.
Context {F : Type} (o : fops F) {E : Type}.
Notation params := (list (list F)).
Notation world := (@world F E).
Notation pst := (@pst F world).
Variable loss_fn : bool -> params -> @tdata F -> E -> E * (exn + F).
Variable gradient : params -> F -> E -> E * (exn + list F).
Variable post_proc : option (params -> E -> E * (exn + params)).
Variable noise : params -> E -> E * params.
Variable gauge : params -> E -> E * (exn + params).
Variable g : grp F.
Variables (regauge yastn : bool) (status_antivar : E -> bool).
Variables maxabs sumabs : list F -> F.
Variable wolfe : F -> list F -> F -> list F -> F -> list (F * F * list F) -> F + (F * list F * F * Z).
Variable fuel : nat.
Variables (f : params -> F) (df : params -> list F) (h : params -> params).
Hypothesis PL : pure_loss loss_fn f. Hypothesis PG : pure_grad gradient df. Hypothesis PP : pure_post post_proc h.

(** *** closures *)
Lemma mod_value wr ls x w : snd (closure_mod o loss_fn gradient wr ls x w) = inr (f x, df x).
Proof.
  unfold closure_mod, eval_loss. pose proof (PL ls x (w_t w) (w_env w)) as H. destruct (loss_fn ls x (w_t w) (w_env w)) as [e r]. cbn in H. subst r.
  unfold eval_grad. match goal with |- context [gradient ?a ?b ?c] => pose proof (PG a b c) as H; destruct (gradient a b c) as [e' r] end.
  cbn in H. subst r. reflexivity.
Qed.
Lemma fd_value ls x w : snd (closure_fd o loss_fn gradient ls x w) = inr (f x, df x).
Proof.
  unfold closure_fd, eval_loss. pose proof (PL ls x (w_t w) (w_env w)) as H. destruct (loss_fn ls x (w_t w) (w_env w)) as [e r]. cbn in H. subst r.
  unfold eval_grad. match goal with |- context [gradient ?a ?b ?c] => pose proof (PG a b c) as H; destruct (gradient a b c) as [e' r] end.
  cbn in H. subst r. reflexivity.
Qed.
Lemma ls_value wr x w : snd (closure_linesearch o loss_fn wr x w) = inr (f x).
Proof.
  unfold closure_linesearch, eval_loss. pose proof (PL true x (w_t w) (w_env w)) as H. destruct (loss_fn true x (w_t w) (w_env w)) as [e r]. cbn in H. subst r. reflexivity.
Qed.
Lemma fixed_of {A} (c : params -> world -> world * (exn + A)) v : (forall x w, snd (c x w) = inr (v x)) -> fixed c /\ total c.
Proof. intros H. split; [intros x w w'; rewrite !H; reflexivity|]. intros x w. exists (v x). apply H. Qed.
(** the recorded losses *)
Definition lastloss (l : F) (w : world) : Prop := last_opt (t_loss (w_t w)) = Some l.
Lemma last_snoc {A} (l : list A) a : last_opt (l ++ [a]) = Some a.
Proof. unfold last_opt. rewrite rev_app_distr. reflexivity. Qed.
Lemma mod_last wr x w : lastloss (f x) (fst (closure_mod o loss_fn gradient wr false x w)).
Proof.
  unfold closure_mod, eval_loss. pose proof (PL false x (w_t w) (w_env w)) as H. destruct (loss_fn false x (w_t w) (w_env w)) as [e r]. cbn in H. subst r.
  unfold eval_grad. match goal with |- context [gradient ?a ?b ?c] => pose proof (PG a b c) as H; destruct (gradient a b c) as [e' r] end.
  cbn in H. subst r. cbn. apply last_snoc.
Qed.
Lemma fd_last x w : lastloss (f x) (fst (closure_fd o loss_fn gradient false x w)).
Proof.
  unfold closure_fd, eval_loss. pose proof (PL false x (w_t w) (w_env w)) as H. destruct (loss_fn false x (w_t w) (w_env w)) as [e r]. cbn in H. subst r.
  unfold eval_grad. match goal with |- context [gradient ?a ?b ?c] => pose proof (PG a b c) as H; destruct (gradient a b c) as [e' r] end.
  cbn in H. subst r. cbn. apply last_snoc.
Qed.
Lemma mod_ls_last wr x w l : lastloss l w -> lastloss l (fst (closure_mod o loss_fn gradient wr true x w)).
Proof.
  intros L. unfold closure_mod, eval_loss. destruct (loss_fn true x (w_t w) (w_env w)) as [e [ex|r]]; [exact L|].
  unfold eval_grad. match goal with |- context [gradient ?a ?b ?c] => destruct (gradient a b c) as [e' [ex|v]] end; exact L.
Qed.
Lemma fd_ls_last x w l : lastloss l w -> lastloss l (fst (closure_fd o loss_fn gradient true x w)).
Proof.
  intros L. unfold closure_fd, eval_loss. destruct (loss_fn true x (w_t w) (w_env w)) as [e [ex|r]]; [exact L|].
  unfold eval_grad. match goal with |- context [gradient ?a ?b ?c] => destruct (gradient a b c) as [e' [ex|v]] end; exact L.
Qed.
Lemma ls_last wr x w l : lastloss l w -> lastloss l (fst (closure_linesearch o loss_fn wr x w)).
Proof. intros L. unfold closure_linesearch, eval_loss. destruct (loss_fn true x (w_t w) (w_env w)) as [e [ex|r]]; exact L. Qed.
Definition some_last (w : world) : Prop := exists l, lastloss l w.

Lemma post_value s : exists e, post post_proc s = (with_params s (h (p_x s)) e, inr tt) \/ post_proc = None /\ post post_proc s = (s, inr tt).
Proof.
  unfold post. unfold pure_post in PP. destruct post_proc as [p|]; [|exists (w_env (p_w s)); right; auto].
  specialize (PP (p_x s) (w_env (p_w s))). destruct (p (p_x s) (w_env (p_w s))) as [e r]. cbn in PP. subst r. exists e. left. reflexivity.
Qed.
Lemma post_x s : snd (post post_proc s) = inr tt /\ p_x (fst (post post_proc s)) = h (p_x s) /\ p_opt (fst (post post_proc s)) = p_opt s /\
  w_t (p_w (fst (post post_proc s))) = w_t (p_w s).
Proof.
  destruct (post_value s) as [e [->|[N ->]]]; repeat split. cbn. unfold pure_post in PP. rewrite N in PP. symmetry. apply PP.
Qed.

(** *** ad_optim_lbfgs_mod.py *)
Notation stepm := (step_mod o loss_fn gradient yastn maxabs sumabs wolfe fuel).
Notation epochm := (epoch_mod o loss_fn gradient post_proc noise gauge g regauge yastn status_antivar maxabs sumabs wolfe fuel).
Notation epochsm := (epochs_mod o loss_fn gradient post_proc noise gauge g regauge yastn status_antivar maxabs sumabs wolfe fuel).
Definition mst : Type := option F * option (list F) * pst.
Definition ef_mod (s : mst) : mst * ending :=
  let '(s', nl', ng', b) := epochm (fst (fst s)) (snd (fst s)) (snd s) in ((nl', ng', s'), b).
Definition pr_mod (s : mst) : params * opt F := (p_x (snd s), p_opt (snd s)).
Definition ls_mod (s : mst) : list F := t_loss (w_t (p_w (snd s))).

Lemma store_ck n (r : @run F E) nl ng : r_ck (fst (store n r)) = r_ck r ++ stored pr_mod ls_mod n (nl, ng, r_s r).
Proof. unfold store, stored, ls_mod, pr_mod. cbn [snd fst]. destruct (last_opt _); cbn; [reflexivity|]. rewrite app_nil_r. reflexivity. Qed.
Lemma finish_ck n (r : @run F E) nl ng : r_ck (fst (finish n r)) = r_ck r ++ stored pr_mod ls_mod n (nl, ng, r_s r).
Proof.
  unfold finish. destruct (t_loss (w_t (p_w (r_s r)))) eqn:T; [|apply store_ck]. unfold stored, ls_mod. cbn [snd]. rewrite T. cbn. rewrite app_nil_r. reflexivity.
Qed.
Lemma epochs_mod_ck mx : forall k ep nl ng r, (0 <= ep)%Z ->
  r_ck (fst (epochsm mx (S k) ep nl ng r)) =
  r_ck r ++ (if (0 <? ep)%Z then stored pr_mod ls_mod ep (nl, ng, r_s r) else []) ++ tails ef_mod pr_mod ls_mod mx k ep (nl, ng, r_s r).
Proof.
  assert (One : forall ep nl ng r, let r1 := if (0 <? ep)%Z && negb (match t_loss (w_t (p_w (r_s r))) with [] => true | _ => false end) then fst (store ep r) else r in
    r_s r1 = r_s r /\ r_ck r1 = r_ck r ++ (if (0 <? ep)%Z then stored pr_mod ls_mod ep (nl, ng, r_s r) else [])).
  { intros ep nl ng r r1. unfold r1. destruct (0 <? ep)%Z; cbn [andb]; [|rewrite app_nil_r; auto].
    destruct (t_loss (w_t (p_w (r_s r)))) eqn:T; cbn [negb].
    - split; [reflexivity|]. unfold stored, ls_mod. cbn [snd]. rewrite T. cbn. rewrite app_nil_r. reflexivity.
    - split; [apply store_keeps|apply store_ck]. }
  induction k; intros ep nl ng r P0.
  - cbn [epochs_mod tails]. destruct (One ep nl ng r) as [O1 O2]. set (r1 := if (_ && _)%bool then fst (store ep r) else r) in *.
    unfold ef_mod. cbn [fst snd]. rewrite <- O1. rewrite <- O1 in O2. rewrite app_assoc, <- O2.
    destruct (epochm nl ng (r_s r1)) as [[[s' nl'] ng'] b]. destruct b as [| |e].
    + rewrite (finish_ck _ _ nl' ng'). reflexivity.
    + rewrite (finish_ck _ _ nl' ng'). reflexivity.
    + cbn. rewrite app_nil_r. reflexivity.
  - cbn [tails]. remember (S k) as k' eqn:K. cbn [epochs_mod]. destruct (One ep nl ng r) as [O1 O2]. set (r1 := if (_ && _)%bool then fst (store ep r) else r) in *.
    unfold ef_mod at 1. cbn [fst snd]. rewrite <- O1. rewrite <- O1 in O2. rewrite app_assoc, <- O2.
    destruct (epochm nl ng (r_s r1)) as [[[s' nl'] ng'] b]. destruct b as [| |e].
    + rewrite IHk by lia. cbn [r_ck r_s]. assert (Q : (0 <? ep + 1)%Z = true) by (apply Z.ltb_lt; lia). rewrite Q. reflexivity.
    + rewrite (finish_ck _ _ nl' ng'). reflexivity.
    + cbn. rewrite app_nil_r. reflexivity.
Qed.

Section OneStep.
Variable g0 : grp F.
Hypothesis NW : no_wolfe g0 = true. Hypothesis M1 : g_max_iter g0 = 1%Z.
Definition I_mod (s : mst) : Prop := snd (fst s) = None /\ o_grp (p_opt (snd s)) = g0.
Definition R_mod (s1 s2 : mst) : Prop := I_mod s1 /\ I_mod s2 /\ rel (snd s1) (snd s2).

(** a step *)
Lemma step_facts nl s : o_grp (p_opt s) = g0 ->
  o_grp (p_opt (fst (stepm nl None s))) = g0 /\ lastloss (f (p_x s)) (p_w (fst (stepm nl None s))) /\
  match snd (stepm nl None s) with inl e => is_py e | inr r => snd r = None end.
Proof.
  intros G. destruct (fixed_of _ _ (mod_value true false)) as [A1 B1]. destruct (fixed_of _ _ (mod_value true true)) as [A2 B2].
  destruct (fixed_of _ _ (ls_value true)) as [A3 B3].
  split; [|split].
  - exact (proj1 (proj2 (sim_step o maxabs sumabs _ _ _ wolfe yastn fuel A1 A2 A3 g0 nl nl NW M1 s s (conj eq_refl eq_refl) G))).
  - destruct (closure_mod o loss_fn gradient true false (p_x s) (p_w s)) as [w [e|lg]] eqn:C;
      pose proof (mod_value true false (p_x s) (p_w s)) as V; pose proof (mod_last true (p_x s) (p_w s)) as L; rewrite C in V, L; cbn in V, L; [discriminate|].
    refine (proj1 (inv_after_start o maxabs sumabs (closure_mod o loss_fn gradient true false) (closure_mod o loss_fn gradient true true) (closure_linesearch o loss_fn true)
      wolfe yastn fuel (lastloss (f (p_x s))) g0 _ _ nl s w lg C L G (or_intror M1))).
    + intros _ x w0. apply mod_ls_last.
    + intros _ x w0. apply ls_last.
  - pose proof (sim_step o maxabs sumabs _ _ _ wolfe yastn fuel A1 A2 A3 g0 nl nl NW M1 s s (conj eq_refl eq_refl) G) as (_ & _ & O).
    pose proof (opy_step o maxabs sumabs _ _ _ wolfe yastn fuel B1 B2 B3 nl None s) as P0. unfold step_mod.
    match goal with |- match snd ?t with inl _ => _ | inr _ => _ end => destruct t as [s' [e|r]] end; [exact P0|]. cbn in O. apply O.
Qed.
Lemma after_step_facts ng s : exists s' b, after_step o post_proc g status_antivar maxabs ng s = (s', b) /\
  s' = fst (post post_proc (reset_ls o s)) .
Proof.
  unfold after_step. destruct (post post_proc (reset_ls o s)) as [s1 [e|[]]] eqn:Ep; cbn [fst]; [eauto|].
  destruct (stagnates _ _ _); [eauto|]. destruct (match ng with Some _ => _ | None => false end); [eauto|].
  destruct (m_d (o_mem (p_opt s1))) as [d|]; [destruct (m_t (o_mem (p_opt s1))); [|eauto]; destruct (fle o _ _); [eauto|]|].
  all: destruct (match g_ls g with LSnone | LSdefault => false | _ => _ end); eauto.
Qed.
(** an epoch: either it fails, or it is a step followed by post_proc *)
Lemma epoch_facts nl s s' nl' ng' b : o_grp (p_opt s) = g0 -> epochm nl None s = (s', nl', ng', b) ->
  (exists e, b = Fail e) \/
  ng' = None /\ o_grp (p_opt s') = g0 /\ lastloss (f (p_x s)) (p_w s') /\
  p_x s' = h (p_x (fst (stepm nl None s))) /\ p_opt s' = p_opt (fst (stepm nl None s)).
Proof.
  intros G. destruct (step_facts nl s G) as (S1 & S2 & S3). unfold epoch_mod. destruct (stepm nl None s) as [s1 [e|[[l n1] g1]]]; cbn [fst snd] in *.
  - destruct yastn; cbn [negb]; [|intros H; injection H as _ _ _ <-; left; eauto]. destruct e; try contradiction. intros H. injection H as _ _ _ <-. left; eauto.
  - subst g1. destruct (after_step_facts None s1) as (s2 & b2 & Ha & ->). rewrite Ha. intros H. injection H as <- <- <- <-.
    destruct (post_x (reset_ls o s1)) as (P1 & P2 & P3 & P4). right. split; [reflexivity|]. split; [rewrite P3; exact S1|].
    split; [unfold lastloss; rewrite P4; exact S2|]. split; [exact P2|exact P3].
Qed.
Lemma HI_mod s s' b : I_mod s -> ef_mod s = (s', b) -> (exists e, b = Fail e) \/ I_mod s'.
Proof.
  destruct s as [[nl ng] s]. unfold I_mod, ef_mod. cbn [fst snd]. intros [-> G]. destruct (epochm nl None s) as [[[s1 n1] g1] b1] eqn:Ee.
  intros H. injection H as <- <-. destruct (epoch_facts _ _ _ _ _ _ G Ee) as [H|(H1 & H2 & H3 & H4 & H5)]; [left; exact H|right]. cbn. auto.
Qed.
Lemma HL_mod s s' b : I_mod s -> ef_mod s = (s', b) -> (exists e, b = Fail e) \/ last_opt (ls_mod s') = Some (f (fst (pr_mod s))).
Proof.
  destruct s as [[nl ng] s]. unfold I_mod, ef_mod. cbn [fst snd]. intros [-> G]. destruct (epochm nl None s) as [[[s1 n1] g1] b1] eqn:Ee.
  intros H. injection H as <- <-. destruct (epoch_facts _ _ _ _ _ _ G Ee) as [H|(H1 & H2 & H3 & H4 & H5)]; [left; exact H|right]. exact H3.
Qed.
Lemma HR_mod s1 s2 : R_mod s1 s2 -> forall s1' b1 s2' b2, ef_mod s1 = (s1', b1) -> ef_mod s2 = (s2', b2) ->
  (exists e, b1 = Fail e) \/ (exists e, b2 = Fail e) \/
  (R_mod s1' s2' /\ pr_mod s1' = pr_mod s2' /\ (exists l, last_opt (ls_mod s1') = Some l) /\ (exists l, last_opt (ls_mod s2') = Some l)).
Proof.
  destruct s1 as [[nl1 ng1] s1], s2 as [[nl2 ng2] s2]. unfold R_mod, I_mod, ef_mod. cbn [fst snd]. intros ([-> G1] & [-> G2] & R0) s1' b1 s2' b2.
  destruct (epochm nl1 None s1) as [[[t1 n1] g1] c1] eqn:E1. intros H. injection H as <- <-.
  destruct (epochm nl2 None s2) as [[[t2 n2] g2] c2] eqn:E2. intros H. injection H as <- <-.
  destruct (epoch_facts _ _ _ _ _ _ G1 E1) as [H|(A1 & A2 & A3 & A4 & A5)]; [left; exact H|right].
  destruct (epoch_facts _ _ _ _ _ _ G2 E2) as [H|(B1 & B2 & B3 & B4 & B5)]; [left; exact H|right].
  destruct (fixed_of _ _ (mod_value true false)) as [X1 _]. destruct (fixed_of _ _ (mod_value true true)) as [X2 _]. destruct (fixed_of _ _ (ls_value true)) as [X3 _].
  destruct (sim_step o maxabs sumabs _ _ _ wolfe yastn fuel X1 X2 X3 g0 nl1 nl2 NW M1 s1 s2 R0 G1) as ([R1 R2] & _ & _).
  assert (Rel : rel t1 t2) by (split; [rewrite A4, B4; f_equal; exact R1|rewrite A5, B5; exact R2]).
  cbn [fst snd]. split; [auto|]. split; [unfold pr_mod; cbn; destruct Rel; congruence|]. split; eexists; [exact A3|exact B3].
Qed.

Notation optm := (optimize_mod o loss_fn gradient post_proc noise gauge g regauge yastn status_antivar maxabs sumabs wolfe fuel).
Lemma optimize_mod_ck k x a e file : r_ck (fst (optm (S k) x a e file)) =
  tails ef_mod pr_mod ls_mod (Z.of_nat (S k)) k 0 (None, None, {| p_x := x; p_opt := a; p_w := world0 o (big o) e file |}).
Proof. unfold optimize_mod. rewrite epochs_mod_ck by lia. reflexivity. Qed.
Lemma lag_mod n x a e file : o_grp a = g0 -> let t := r_ck (fst (optm n x a e file)) in
  map c_loss t = map f (firstn (length t) (x :: map c_params t)).
Proof.
  intros G. destruct n; [reflexivity|]. cbv zeta. rewrite optimize_mod_ck.
  exact (lag_tails ef_mod pr_mod ls_mod I_mod HI_mod f HL_mod _ n 0%Z (None, None, {| p_x := x; p_opt := a; p_w := world0 o (big o) e file |}) (conj eq_refl G)).
Qed.
Lemma resume_mod n x a e file n2 e2 file2 pre c post : o_grp a = g0 -> r_ck (fst (optm n x a e file)) = pre ++ c :: post ->
  prefix_related (map (fun c => (c_params c, c_opt c)) post) (map (fun c => (c_params c, c_opt c)) (r_ck (fst (optm n2 (c_params c) (c_opt c) e2 file2)))).
Proof.
  intros G H. destruct n; [destruct pre; discriminate|]. rewrite optimize_mod_ck in H.
  destruct n2; [apply prefix_sym, prefix_nil|]. rewrite optimize_mod_ck.
  destruct (split_tails ef_mod pr_mod ls_mod I_mod HI_mod _ n 0%Z (None, None, {| p_x := x; p_opt := a; p_w := world0 o (big o) e file |}) (conj eq_refl G) _ _ _ H) as [->|(k' & ep' & s' & H1 & H2 & ->)]; [apply prefix_nil|].
  apply (prefix_tails ef_mod pr_mod ls_mod R_mod HR_mod). unfold pr_mod, pp in H2. injection H2 as H2 H3. destruct H1 as [H0 H1].
  repeat split; auto. cbn. rewrite <- H3. exact H1.
Qed.
End OneStep.

(** *** fd_optim_lbfgs_mod.py *)
Notation stepf := (step_2c o maxabs sumabs (closure_fd o loss_fn gradient false) (closure_fd o loss_fn gradient true) (closure_linesearch o loss_fn false) wolfe yastn fuel None None).
Notation epochsf := (epochs_fd o loss_fn gradient post_proc yastn maxabs sumabs wolfe fuel).
Definition ef_fd (s : pst) : pst * ending :=
  match stepf s with
  | (s, inl e) => (s, Fail e)
  | (s, inr _) => match post post_proc (reset_ls o s) with (s, inl e) => (s, Fail e) | (s, inr _) => (s, Continue) end
  end.
Definition pr_fd (s : pst) : params * opt F := (p_x s, p_opt s).
Definition ls_fd (s : pst) : list F := t_loss (w_t (p_w s)).
Lemma fd_start s : exists w lg, closure_fd o loss_fn gradient false (p_x s) (p_w s) = (w, inr lg) /\ lastloss (f (p_x s)) w.
Proof.
  pose proof (fd_value false (p_x s) (p_w s)) as V. pose proof (fd_last (p_x s) (p_w s)) as L.
  destruct (closure_fd o loss_fn gradient false (p_x s) (p_w s)) as [w r]. cbn in V, L. subst r. eauto.
Qed.
Lemma fd_some s : some_last (p_w (fst (stepf s))).
Proof.
  destruct (fd_start s) as (w & lg & C & L).
  refine (proj1 (inv_after_start o maxabs sumabs _ _ _ wolfe yastn fuel some_last (o_grp (p_opt s)) _ _ None s w lg C _ eq_refl (or_introl _))).
  - intros _ x w0 [l H]. exists l. apply fd_ls_last. exact H.
  - intros _ x w0 [l H]. exists l. apply ls_last. exact H.
  - eexists. exact L.
  - intros x w0 H. eexists. apply fd_last.
Qed.
Lemma fd_lag s : g_max_iter (o_grp (p_opt s)) = 1%Z -> lastloss (f (p_x s)) (p_w (fst (stepf s))).
Proof.
  intros M1. destruct (fd_start s) as (w & lg & C & L).
  refine (proj1 (inv_after_start o maxabs sumabs _ _ _ wolfe yastn fuel (lastloss (f (p_x s))) (o_grp (p_opt s)) _ _ None s w lg C L eq_refl (or_intror M1))).
  - intros _ x w0 H. apply fd_ls_last. exact H.
  - intros _ x w0 H. apply ls_last. exact H.
Qed.
Lemma fd_grp s : o_grp (p_opt (fst (stepf s))) = o_grp (p_opt s).
Proof.
  refine (proj2 (pinv_step o maxabs sumabs _ _ _ wolfe yastn fuel (fun _ => True) (o_grp (p_opt s)) _ _ None None _ s _)); try (intros; exact I); [intros x w _; exact I|split; [exact I|reflexivity]].
Qed.
Lemma ef_fd_facts s s' b : ef_fd s = (s', b) -> (exists e, b = Fail e) \/
  b = Continue /\ p_x s' = h (p_x (fst (stepf s))) /\ p_opt s' = p_opt (fst (stepf s)) /\ w_t (p_w s') = w_t (p_w (reset_ls o (fst (stepf s)))).
Proof.
  unfold ef_fd. destruct (stepf s) as [s1 [e|r]]; cbn [fst]; [intros H; injection H as _ <-; left; eauto|].
  destruct (post_x (reset_ls o s1)) as (P1 & P2 & P3 & P4). destruct (post post_proc (reset_ls o s1)) as [s2 r2]. cbn [fst snd] in *. subst r2.
  intros H. injection H as <- <-. right. auto.
Qed.
Lemma store_fd n (r : @run F E) : r_ck (fst (store n r)) = r_ck r ++ stored pr_fd ls_fd n (r_s r).
Proof. unfold store, stored, ls_fd, pr_fd. destruct (last_opt _); cbn; [reflexivity|]. rewrite app_nil_r. reflexivity. Qed.
Lemma epochs_fd_ck mx : forall k ep r, (0 <= ep)%Z -> ((0 < ep)%Z -> some_last (p_w (r_s r))) ->
  r_ck (fst (epochsf mx (S k) ep r)) = r_ck r ++ (if (0 <? ep)%Z then stored pr_fd ls_fd ep (r_s r) else []) ++ tails ef_fd pr_fd ls_fd mx k ep (r_s r).
Proof.
  assert (One : forall ep r, ((0 < ep)%Z -> some_last (p_w (r_s r))) -> exists r1, (if (0 <? ep)%Z then store ep r else (r, inr tt)) = (r1, inr tt) /\
    r_s r1 = r_s r /\ r_ck r1 = r_ck r ++ (if (0 <? ep)%Z then stored pr_fd ls_fd ep (r_s r) else [])).
  { intros ep r H. destruct (Z.ltb_spec 0 ep); [|exists r; rewrite app_nil_r; auto]. exists (fst (store ep r)).
    split; [|split; [apply store_keeps|apply store_fd]]. destruct (H H0) as [l L]. unfold store. rewrite L. reflexivity. }
  induction k; intros ep r P0 P1.
  - cbn [epochs_fd tails]. destruct (One ep r P1) as (r1 & -> & O1 & O2). rewrite <- O1 in *. rewrite app_assoc, <- O2. unfold ef_fd.
    destruct (stepf (r_s r1)) as [s [e|u]]; [cbn; rewrite app_nil_r; reflexivity|].
    destruct (post post_proc (reset_ls o s)) as [s1 [e|u1]]; [cbn; rewrite app_nil_r; reflexivity|]. rewrite store_fd. reflexivity.
  - cbn [tails]. remember (S k) as k' eqn:K. cbn [epochs_fd]. destruct (One ep r P1) as (r1 & -> & O1 & O2). rewrite <- O1 in *. rewrite app_assoc, <- O2.
    destruct (ef_fd (r_s r1)) as [s' b] eqn:E0. pose proof (ef_fd_facts _ _ _ E0) as Fa. unfold ef_fd in E0.
    pose proof (fd_some (r_s r1)) as Sm. destruct (stepf (r_s r1)) as [s [e|u]]; cbn [fst] in *; [injection E0 as <- <-; cbn; rewrite app_nil_r; reflexivity|].
    destruct (post post_proc (reset_ls o s)) as [s1 [e|u1]]; injection E0 as <- <-; [cbn; rewrite app_nil_r; reflexivity|].
    rewrite IHk; [|lia|].
    + assert (Q : (0 <? ep + 1)%Z = true) by (apply Z.ltb_lt; lia). rewrite Q. reflexivity.
    + intros _. destruct Fa as [[e Fe]|(_ & _ & _ & Ft)]; [discriminate|]. cbn [r_s]. destruct Sm as [l L]. exists l. unfold lastloss. rewrite Ft. exact L.
Qed.
Notation optf := (optimize_fd o loss_fn gradient post_proc yastn maxabs sumabs wolfe fuel).
Lemma optimize_fd_ck k x a e file : r_ck (fst (optf (S k) x a e file)) =
  tails ef_fd pr_fd ls_fd (Z.of_nat (S k)) k 0 {| p_x := x; p_opt := a; p_w := world0 o (big o) e file |}.
Proof. unfold optimize_fd. rewrite epochs_fd_ck by lia. reflexivity. Qed.
Lemma lag_fd n x a e file : g_max_iter (o_grp a) = 1%Z -> let t := r_ck (fst (optf n x a e file)) in
  map c_loss t = map f (firstn (length t) (x :: map c_params t)).
Proof.
  intros G. destruct n; [reflexivity|]. cbv zeta. rewrite optimize_fd_ck.
  refine (lag_tails ef_fd pr_fd ls_fd (fun s => g_max_iter (o_grp (p_opt s)) = 1%Z) _ f _ _ n 0%Z {| p_x := x; p_opt := a; p_w := world0 o (big o) e file |} G).
  - intros s s' b Hs He. destruct (ef_fd_facts _ _ _ He) as [H|(H1 & H2 & H3 & H4)]; [auto|right]. rewrite H3, fd_grp. exact Hs.
  - intros s s' b Hs He. destruct (ef_fd_facts _ _ _ He) as [H|(H1 & H2 & H3 & H4)]; [auto|right]. unfold ls_fd. rewrite H4. exact (fd_lag s Hs).
Qed.
Lemma resume_fd n x a e file n2 e2 file2 pre c post : r_ck (fst (optf n x a e file)) = pre ++ c :: post ->
  prefix_related (map (fun c => (c_params c, c_opt c)) post) (map (fun c => (c_params c, c_opt c)) (r_ck (fst (optf n2 (c_params c) (c_opt c) e2 file2)))).
Proof.
  intros H. destruct n; [cbn in H|rewrite optimize_fd_ck in H].
  { destruct pre; discriminate. }
  destruct n2; [apply prefix_sym, prefix_nil|]. rewrite optimize_fd_ck.
  destruct (split_tails ef_fd pr_fd ls_fd (fun _ => True) (fun _ _ _ _ _ => or_intror I) _ n 0%Z _ I _ _ _ H) as [->|(k' & ep' & s' & H1 & H2 & ->)]; [apply prefix_nil|].
  apply (prefix_tails ef_fd pr_fd ls_fd rel); [|unfold pr_fd, pp in H2; injection H2 as H2 H3; split; assumption].
  intros s1 s2 R0 s1' b1 s2' b2 E1 E2.
  destruct (ef_fd_facts _ _ _ E1) as [Hf|(A1 & A2 & A3 & A4)]; [auto|]. destruct (ef_fd_facts _ _ _ E2) as [Hf|(B1 & B2 & B3 & B4)]; [auto|]. right. right.
  destruct (fixed_of _ _ (fd_value false)) as [X1 _]. destruct (fixed_of _ _ (fd_value true)) as [X2 _]. destruct (fixed_of _ _ (ls_value false)) as [X3 _].
  destruct (sim_step_eq o maxabs sumabs _ _ _ wolfe yastn fuel X1 X2 X3 None None s1 s2 R0) as ([R1 R2] & _).
  assert (Rel : rel s1' s2') by (split; [rewrite A2, B2; f_equal; exact R1|rewrite A3, B3; exact R2]).
  split; [exact Rel|]. split; [unfold pr_fd; destruct Rel; congruence|].
  split; [destruct (fd_some s1) as [l L]|destruct (fd_some s2) as [l L]]; exists l; unfold ls_fd; rewrite ?A4, ?B4; exact L.
Qed.
End Connect.
