From Verif Require Import Base BaseLemmas Flt Armijo Lbfgs LbfgsSpec LbfgsProofs OptRun OptRunSpec OptRunProofs.
Open Scope list_scope.

(** ** drivers preserve what closures preserve *)
Section Drivers.
Context {F : Type} (o : fops F) {E : Type}.
Notation params := (list (list F)).
Notation world := (@world F E).
Variable pinf : F.
Variable loss_fn : bool -> params -> @tdata F -> E -> E * (exn + F).
Variable gradient : params -> F -> E -> E * (exn + list F).
Variable post_proc : option (params -> E -> E * (exn + params)).
Variable noise : params -> E -> E * params.
Variable gauge : params -> E -> E * (exn + params).
Variable g : grp F.
Variables (regauge yastn : bool) (status_antivar : E -> bool).
Variables maxabs sumabs : list F -> F.
Variable wolfe : F -> list F -> F -> list F -> F -> list (F * F * list F) -> F + (F * list F * F * Z).
Variable fuel : nat.
Variable strategy : opt F -> params -> list (params * F * list F) -> params + (exn + params * opt F).

Variable Inv : world -> Prop.
Definition reset_w (w : world) : world :=
  {| w_t := {| t_loss := t_loss (w_t w); t_min := t_min (w_t w); t_ls := []; t_min_ls := big o |};
     w_env := w_env w; w_file := w_file w; w_evals := w_evals w |}.
Hypothesis Henv : forall w e, Inv w -> Inv (set_env w e).
Hypothesis Hreset : forall w, Inv w -> Inv (reset_w w).
(** a loss may be recorded only if [loss_fn] has returned it *)
Definition returned (ls : bool) (x : params) (l : F) : Prop := exists t e, snd (loss_fn ls x t e) = inr l.
Hypothesis Hrec : forall x l w, returned false x l -> Inv w -> Inv (record_loss o x l w).

Lemma eval_loss_inv ls x w : Inv w -> Inv (fst (eval_loss loss_fn ls x w)) /\
  forall l, snd (eval_loss loss_fn ls x w) = inr l -> returned ls x l.
Proof.
  intros H. unfold eval_loss. destruct (loss_fn ls x (w_t w) (w_env w)) as [e r] eqn:L. cbn. split; [auto|].
  intros l ->. exists (w_t w), (w_env w). rewrite L. reflexivity.
Qed.
Lemma eval_grad_inv x l w : Inv w -> Inv (fst (eval_grad gradient x l w)).
Proof. intros H. unfold eval_grad. destruct (gradient x l (w_env w)). cbn. auto. Qed.

Lemma closure_mod_inv write x w : Inv w -> Inv (fst (closure_mod o loss_fn gradient write false x w)).
Proof.
  intros H. unfold closure_mod. destruct (eval_loss_inv false x w H) as [H1 H2].
  destruct (eval_loss loss_fn false x w) as [w1 [e|l]]; cbn in *; auto. pose proof (eval_grad_inv x l w1 H1) as H3.
  destruct (eval_grad gradient x l w1) as [w2 [e|v]]; cbn in *; auto.
Qed.
Lemma closure_fd_inv x w : Inv w -> Inv (fst (closure_fd o loss_fn gradient false x w)).
Proof.
  intros H. unfold closure_fd. destruct (eval_loss_inv false x w H) as [H1 H2].
  destruct (eval_loss loss_fn false x w) as [w1 [e|l]]; cbn in *; auto.
  assert (H4 : Inv (record_loss o x l w1)) by auto. pose proof (eval_grad_inv x l _ H4) as H3.
  destruct (eval_grad gradient x l (record_loss o x l w1)) as [w2 [e|v]]; cbn in *; auto.
Qed.
Section LS.
Variable write : bool.
Hypothesis Hls : forall x l w, returned true x l -> Inv w -> Inv (record_ls o write x l w).
Lemma closure_mod_ls_inv x w : Inv w -> Inv (fst (closure_mod o loss_fn gradient write true x w)).
Proof.
  intros H. unfold closure_mod. destruct (eval_loss_inv true x w H) as [H1 H2].
  destruct (eval_loss loss_fn true x w) as [w1 [e|l]]; cbn in *; auto. pose proof (eval_grad_inv x l w1 H1) as H3.
  destruct (eval_grad gradient x l w1) as [w2 [e|v]]; cbn in *; auto.
Qed.
Lemma closure_ls_inv x w : Inv w -> Inv (fst (closure_linesearch o loss_fn write x w)).
Proof.
  intros H. unfold closure_linesearch. destruct (eval_loss_inv true x w H) as [H1 H2].
  destruct (eval_loss loss_fn true x w) as [w1 [e|l]]; cbn in *; auto.
Qed.
End LS.
Lemma closure_fd_ls_inv x w : (forall x l w, returned true x l -> Inv w -> Inv (record_ls o false x l w)) ->
  Inv w -> Inv (fst (closure_fd o loss_fn gradient true x w)).
Proof.
  intros Hls H. unfold closure_fd. destruct (eval_loss_inv true x w H) as [H1 H2].
  destruct (eval_loss loss_fn true x w) as [w1 [e|l]]; cbn in *; auto.
  assert (H4 : Inv (record_ls o false x l w1)) by auto. pose proof (eval_grad_inv x l _ H4) as H3.
  destruct (eval_grad gradient x l (record_ls o false x l w1)) as [w2 [e|v]]; cbn in *; auto.
Qed.

Lemma post_inv s : Inv (p_w s) -> Inv (p_w (fst (post post_proc s))) /\ p_opt (fst (post post_proc s)) = p_opt s.
Proof.
  intros H. unfold post. destruct post_proc as [f|]; [|auto]. destruct (f (p_x s) (w_env (p_w s))) as [e [ex|x]]; cbn; auto.
Qed.
Lemma reset_inv (s : pst) : Inv (p_w s) -> Inv (p_w (reset_ls o s)).
Proof. intros H. exact (Hreset _ H). Qed.

Variable ga : grp F.
Definition one_of (s : @pst F world) : Prop := Inv (p_w s) /\ (o_grp (p_opt s) = ga \/ o_grp (p_opt s) = g).
Hypothesis Hls : searches ga = true \/ searches g = true ->
  forall x l w, returned true x l -> Inv w -> Inv (record_ls o true x l w).

Lemma step_mod_inv nl ng s : one_of s ->
  one_of (fst (step_mod o loss_fn gradient yastn maxabs sumabs wolfe fuel nl ng s)).
Proof.
  intros [H1 H2]. unfold step_mod.
  assert (K : forall g0, (g0 = ga \/ g0 = g) -> o_grp (p_opt s) = g0 ->
    P Inv g0 (fst (step_2c o maxabs sumabs (closure_mod o loss_fn gradient true false) (closure_mod o loss_fn gradient true true)
      (closure_linesearch o loss_fn true) wolfe yastn fuel nl ng s))).
  { intros g0 G E0. apply pinv_step; [| |intros x w Hw; apply closure_mod_inv; auto|split; auto].
    all: intros S x w Hw; assert (S' : searches ga = true \/ searches g = true) by (destruct G; subst; auto).
    - apply closure_mod_ls_inv; auto.
    - apply closure_ls_inv; auto. }
  destruct H2 as [H2|H2]; [destruct (K ga (or_introl eq_refl) H2) as [K1 K2]|destruct (K g (or_intror eq_refl) H2) as [K1 K2]]; split; auto.
Qed.
Lemma after_step_inv ng s : one_of s -> one_of (fst (after_step o post_proc g status_antivar maxabs ng s)).
Proof.
  intros [H1 H2]. unfold after_step. destruct (post_inv (reset_ls o s) (reset_inv s H1)) as [H3 H4].
  assert (H5 : one_of (fst (post post_proc (reset_ls o s)))) by (split; [exact H3|rewrite H4; exact H2]). clear H3 H4.
  destruct (post post_proc (reset_ls o s)) as [s1 [e|[]]]; cbn [fst] in *; [exact H5|].
  destruct (stagnates _ _ _); [exact H5|]. destruct (match ng with Some _ => _ | None => false end); [exact H5|].
  destruct (m_d (o_mem (p_opt s1))) as [d|]; [destruct (m_t (o_mem (p_opt s1))); [|exact H5]; destruct (fle o _ _); [exact H5|]|].
  all: destruct (match g_ls g with LSnone | LSdefault => false | _ => _ end); exact H5.
Qed.
Lemma epoch_mod_inv nl ng s : one_of s ->
  one_of (fst (fst (fst (epoch_mod o loss_fn gradient post_proc noise gauge g regauge yastn status_antivar maxabs sumabs wolfe fuel nl ng s)))).
Proof.
  intros H. unfold epoch_mod. pose proof (step_mod_inv nl ng s H) as H1.
  destruct (step_mod _ _ _ _ _ _ _ _ _ _ s) as [s1 [e|[[l nl'] ng']]]; cbn [fst] in *.
  - destruct (negb yastn); [exact H1|]. destruct e.
    + destruct (noise (p_x s1) (w_env (p_w s1))). split; [apply Henv, H1|right; reflexivity].
    + destruct regauge.
      * destruct (gauge (p_x s1) (w_env (p_w s1))) as [e [ex|x]].
        -- destruct H1. split; [apply Henv; assumption|assumption].
        -- split; [apply Henv, H1|right; reflexivity].
      * pose proof (after_step_inv ng s1 H1) as H2. destruct (after_step o post_proc g status_antivar maxabs ng s1). exact H2.
    + exact H1.
  - pose proof (after_step_inv ng' s1 H1) as H2. destruct (after_step o post_proc g status_antivar maxabs ng' s1). exact H2.
Qed.
Lemma store_keeps n (r : @run F E) : r_s (fst (store n r)) = r_s r.
Proof. unfold store. destruct (last_opt _); reflexivity. Qed.
Lemma finish_keeps n (r : @run F E) : r_s (fst (finish n r)) = r_s r.
Proof. unfold finish. destruct (t_loss _); [reflexivity|apply store_keeps]. Qed.

Lemma epochs_mod_inv mx : forall k ep nl ng r, one_of (r_s r) ->
  one_of (r_s (fst (epochs_mod o loss_fn gradient post_proc noise gauge g regauge yastn status_antivar maxabs sumabs wolfe fuel mx k ep nl ng r))).
Proof.
  induction k; intros ep nl ng r H; cbn [epochs_mod]; [rewrite finish_keeps; exact H|].
  set (r1 := if (_ && _)%bool then fst (store ep r) else r).
  assert (H1 : one_of (r_s r1)) by (unfold r1; destruct (_ && _)%bool; [rewrite store_keeps|]; exact H).
  pose proof (epoch_mod_inv nl ng (r_s r1) H1) as H2.
  destruct (epoch_mod _ _ _ _ _ _ _ _ _ _ _ _ _ _ nl ng (r_s r1)) as [[[s nl'] ng'] b]; cbn [fst] in H2.
  destruct b; [apply IHk; exact H2|rewrite finish_keeps; exact H2|exact H2].
Qed.

(** ** the other drivers *)
Lemma step_fd_inv s : (forall x l w, returned true x l -> Inv w -> Inv (record_ls o false x l w)) -> Inv (p_w s) ->
  Inv (p_w (fst (step_2c o maxabs sumabs (closure_fd o loss_fn gradient false) (closure_fd o loss_fn gradient true)
    (closure_linesearch o loss_fn false) wolfe yastn fuel None None s))).
Proof.
  intros L H. refine (proj1 (pinv_step o maxabs sumabs _ _ _ wolfe yastn fuel Inv (o_grp (p_opt s)) _ _ None None _ s _)).
  - intros. apply closure_fd_ls_inv; auto.
  - intros. apply closure_ls_inv; auto.
  - intros x w Hw. apply closure_fd_inv; auto.
  - split; auto.
Qed.
Lemma epochs_fd_inv mx : (forall x l w, returned true x l -> Inv w -> Inv (record_ls o false x l w)) -> forall k ep r, Inv (p_w (r_s r)) ->
  Inv (p_w (r_s (fst (epochs_fd o loss_fn gradient post_proc yastn maxabs sumabs wolfe fuel mx k ep r)))).
Proof.
  intros L. induction k; intros ep r H; cbn [epochs_fd]; [rewrite store_keeps; exact H|].
  assert (H0 : Inv (p_w (r_s (fst (if (0 <? ep)%Z then store ep r else (r, inr tt)))))).
  { destruct (0 <? ep)%Z; [rewrite store_keeps|]; exact H. }
  destruct (if (0 <? ep)%Z then store ep r else (r, inr tt)) as [r1 [e|[]]]; cbn [fst] in *; [exact H0|].
  pose proof (step_fd_inv (r_s r1) L H0) as H1.
  destruct (step_2c _ _ _ _ _ _ _ _ _ _ _ (r_s r1)) as [s [e|[[? ?] ?]]]; cbn [fst] in *; [exact H1|].
  pose proof (proj1 (post_inv (reset_ls o s) (reset_inv s H1))) as H2.
  destruct (post post_proc (reset_ls o s)) as [s1 [e|[]]]; cbn [fst] in *; [exact H2|]. apply IHk. exact H2.
Qed.
Lemma torch_step_inv clo x0 : (forall x w, Inv w -> Inv (fst (clo x w))) -> forall n seen s, Inv (p_w s) ->
  Inv (p_w (fst (torch_step strategy clo n x0 seen s))).
Proof.
  intros Hc. induction n; intros seen s H; cbn [torch_step]; [exact H|].
  destruct (strategy (p_opt s) x0 seen) as [x|[e|[x a]]]; [|exact H|exact H].
  specialize (Hc x (p_w s) H). destruct (clo x (p_w s)) as [w [e|[l v]]]; cbn [fst] in *; [exact Hc|]. apply IHn. exact Hc.
Qed.
Lemma epochs_torch_inv sgd tol mx : forall k ep r, Inv (p_w (r_s r)) ->
  Inv (p_w (r_s (fst (epochs_torch o loss_fn gradient post_proc fuel strategy sgd tol mx k ep r)))).
Proof.
  induction k; intros ep r H; cbn [epochs_torch]; [rewrite store_keeps; exact H|].
  assert (H0 : Inv (p_w (r_s (fst (if (0 <? ep)%Z then store ep r else (r, inr tt)))))).
  { destruct (0 <? ep)%Z; [rewrite store_keeps|]; exact H. }
  destruct (if (0 <? ep)%Z then store ep r else (r, inr tt)) as [r1 [e|[]]]; cbn [fst] in *; [exact H0|].
  assert (H1 : Inv (p_w (fst (torch_step strategy (if sgd then closure_mod o loss_fn gradient false false else closure_fd o loss_fn gradient false)
    fuel (p_x (r_s r1)) [] (r_s r1))))).
  { apply torch_step_inv; [|exact H0]. intros. destruct sgd; [apply closure_mod_inv|apply closure_fd_inv]; auto. }
  destruct (torch_step _ _ _ _ _ _) as [s [e|[]]]; cbn [fst] in *; [exact H1|].
  assert (H2 : Inv (p_w (fst (if sgd then (reset_ls o s, inr tt) else post post_proc s)))).
  { destruct sgd; [apply reset_inv; exact H1|apply post_inv; exact H1]. }
  destruct (if sgd then _ else _) as [s1 [e|[]]]; cbn [fst] in *; [exact H2|].
  destruct (stagnates o tol (w_t (p_w s1))); [rewrite store_keeps; exact H2|]. apply IHk. exact H2.
Qed.
End Drivers.

(** ** the best-state file *)
Section Best.
Context {F : Type} (o : fops F) {E : Type}.
Notation params := (list (list F)).
Notation world := (@world F E).
Variable loss_fn : bool -> params -> @tdata F -> E -> E * (exn + F).
Hypothesis CMP : comparison o.
Variables (m : F) (file0 : option params).

Definition genuine (w : world) : Prop := recorded loss_fn w.
Definition IA (w : world) : Prop := genuine w /\
  let l := starts_of (w_evals w) in
  (Forall (fun c => flt o (e_loss c) m = false) l /\ t_min (w_t w) = m /\ w_file w = file0 \/
   exists l1 c l2, l = l1 ++ c :: l2 /\ w_file w = Some (e_point c) /\ t_min (w_t w) = e_loss c /\ flt o (e_loss c) m = true /\
    Forall (fun b => flt o (e_loss c) (e_loss b) = true \/ flt o (e_loss b) m = false) l1 /\
    Forall (fun b => flt o (e_loss b) (e_loss c) = false) l2).
Lemma starts_app (a b : list (bool * params * F)) : starts_of (a ++ b) = starts_of a ++ starts_of b.
Proof. unfold starts_of. apply filter_app. Qed.
Lemma genuine_start x l w : returned loss_fn false x l -> genuine w -> genuine (record_loss o x l w).
Proof.
  intros R [H1 H2]. split; cbn [record_loss w_evals w_t t_loss].
  - apply Forall_app. split; [exact H1|]. constructor; [exact R|constructor].
  - rewrite starts_app, map_app, H2. reflexivity.
Qed.
Lemma genuine_ls wr x l w : returned loss_fn true x l -> genuine w -> genuine (record_ls o wr x l w).
Proof.
  intros R [H1 H2]. split; cbn [record_ls w_evals w_t t_loss].
  - apply Forall_app. split; [exact H1|]. constructor; [exact R|constructor].
  - rewrite starts_app, map_app, H2. cbn. rewrite app_nil_r. reflexivity.
Qed.

Lemma IA_record x l w : returned loss_fn false x l -> IA w -> IA (record_loss o x l w).
Proof.
  intros R [G H]. split; [apply genuine_start; assumption|].
  unfold record_loss. cbn [w_evals w_file w_t t_min]. cbv zeta. rewrite starts_app. cbn [starts_of filter fst negb].
  destruct CMP as (IRR & TR & NT).
  destruct H as [(H1 & H2 & H3)|(l1 & c & l2 & H1 & H2 & H3 & H4 & H5 & H6)].
  - rewrite H2. destruct (flt o l m) eqn:L.
    + right. exists (starts_of (w_evals w)), (false, x, l), []. repeat split; auto. cbn.
      eapply Forall_impl; [|exact H1]. cbn. auto.
    + left. repeat split; auto. apply Forall_app. split; auto.
  - rewrite H3. destruct (flt o l (e_loss c)) eqn:L.
    + right. exists (starts_of (w_evals w)), (false, x, l), []. repeat split; auto; cbn [e_loss snd].
      * exact (TR _ _ _ L H4).
      * rewrite H1. apply Forall_app. split; [|constructor].
        -- eapply Forall_impl; [|exact H5]. cbn. intros b [B|B]; [left; exact (TR _ _ _ L B)|auto].
        -- auto.
        -- eapply Forall_impl; [|exact H6]. cbn. intros b B. destruct (flt o (e_loss b) m) eqn:M; [left|auto]. exact (NT _ _ _ _ L M B).
    + right. exists l1, c, (l2 ++ [(false, x, l)]). rewrite H1, <- app_assoc. repeat split; auto. apply Forall_app. split; auto.
Qed.
Lemma IA_ls x l w : returned loss_fn true x l -> IA w -> IA (record_ls o false x l w).
Proof.
  intros R [G H]. split; [apply genuine_ls; assumption|]. cbn [record_ls w_evals w_file w_t t_min andb]. cbv zeta. rewrite starts_app.
  change (starts_of [(true, x, l)]) with (@nil (bool * params * F)). rewrite app_nil_r. exact H.
Qed.
Lemma IA_holds w : IA w -> holds_best o m (starts_of (w_evals w)) file0 (w_file w).
Proof.
  intros [_ [(H1 & H2 & H3)|(l1 & c & l2 & H1 & H2 & H3 & H4 & H5 & H6)]]; [left; auto|right]. exists l1, c, l2. auto.
Qed.

(** nothing but starts *)
Definition IS (w : world) : Prop := IA w /\ starts_of (w_evals w) = w_evals w.
Lemma IS_record x l w : returned loss_fn false x l -> IS w -> IS (record_loss o x l w).
Proof.
  intros R [H1 H2]. split; [apply IA_record; assumption|]. cbn [record_loss w_evals]. rewrite starts_app, H2. reflexivity.
Qed.

(** with line searches that write the file *)
Definition IB (w : world) : Prop := genuine w /\
  Forall (fun b => flt o (e_loss b) (t_min (w_t w)) = false) (starts_of (w_evals w)) /\
  (Forall (fun c => flt o (e_loss c) m = false) (w_evals w) /\ t_min (w_t w) = m /\ t_min_ls (w_t w) = m /\ w_file w = file0 \/
   exists c, In c (w_evals w) /\ w_file w = Some (e_point c) /\ flt o (e_loss c) m = true /\
     Forall (fun b => flt o (e_loss b) (e_loss c) = false) (starts_of (w_evals w)) /\
     (t_min (w_t w) = e_loss c \/ flt o (e_loss c) (t_min (w_t w)) = true) /\
     (t_min (w_t w) = m \/ flt o (t_min (w_t w)) m = true)).
Lemma starts_one (x : params) (l : F) : starts_of [(false, x, l)] = [(false, x, l)].
Proof. reflexivity. Qed.
Lemma weaken (l : list (bool * params * F)) a b : flt o a b = true -> Forall (fun c => flt o (e_loss c) b = false) l -> Forall (fun c => flt o (e_loss c) a = false) l.
Proof.
  intros L H. eapply Forall_impl; [|exact H]. cbn. intros c C. destruct (flt o (e_loss c) a) eqn:D; [|reflexivity].
  rewrite (proj1 (proj2 CMP) _ _ _ D L) in C. discriminate.
Qed.
Lemma IB_record x l w : returned loss_fn false x l -> IB w -> IB (record_loss o x l w).
Proof.
  intros R (G & H0 & H). split; [apply genuine_start; assumption|].
  cbn [record_loss w_evals w_file w_t t_min t_min_ls]. cbv zeta. rewrite starts_app, starts_one.
  destruct CMP as (IRR & TR & NT). destruct (flt o l (t_min (w_t w))) eqn:L.
  - assert (K : Forall (fun b => flt o (e_loss b) l = false) (starts_of (w_evals w) ++ [(false, x, l)])).
    { apply Forall_app. split; [exact (weaken _ _ _ L H0)|]. constructor; [apply IRR|constructor]. }
    assert (LM : flt o l m = true).
    { destruct H as [(H1 & H2 & H3 & H4)|(c & H1 & H2 & H3 & H4 & H5 & [H6|H6])].
      - rewrite H2 in L. exact L.
      - rewrite H6 in L. exact L.
      - exact (TR _ _ _ L H6). }
    split; [exact K|]. right. exists (false, x, l). repeat split; auto. apply in_or_app. right. left. reflexivity.
  - split; [apply Forall_app; split; [exact H0|constructor; [exact L|constructor]]|].
    destruct H as [(H1 & H2 & H3 & H4)|(c & H1 & H2 & H3 & H4 & H5 & H6)].
    + left. rewrite H2 in L. repeat split; auto. apply Forall_app. split; auto.
    + right. exists c. repeat split; auto; [apply in_or_app; auto|]. apply Forall_app. split; [exact H4|]. constructor; [|constructor]. cbn [e_loss snd].
      destruct H5 as [H5|H5]; [rewrite <- H5; exact L|]. destruct (flt o l (e_loss c)) eqn:D; [|reflexivity]. rewrite (TR _ _ _ D H5) in L. discriminate.
Qed.
Lemma IB_ls x l w : returned loss_fn true x l -> IB w -> IB (record_ls o true x l w).
Proof.
  intros R (G & H0 & H). split; [apply genuine_ls; assumption|].
  cbn [record_ls w_evals w_file w_t t_min t_min_ls andb]. cbv zeta. rewrite starts_app.
  change (starts_of [(true, x, l)]) with (@nil (bool * params * F)). rewrite app_nil_r. split; [exact H0|].
  destruct CMP as (IRR & TR & NT). destruct H as [(H1 & H2 & H3 & H4)|(c & H1 & H2 & H3 & H4 & H5 & H6)].
  - rewrite H2, H3. destruct (flt o l m) eqn:L.
    + right. exists (true, x, l). cbn [e_loss e_point fst snd]. repeat split; auto.
      * apply in_or_app. right. left. reflexivity.
      * rewrite H2 in H0. exact (weaken _ _ _ L H0).
    + left. repeat split; auto. apply Forall_app. split; auto.
  - right. destruct (flt o l (t_min_ls (w_t w)) && flt o l (t_min (w_t w))) eqn:L.
    + apply andb_prop in L. destruct L as [_ L]. exists (true, x, l). cbn [e_loss e_point fst snd]. repeat split; auto.
      * apply in_or_app. right. left. reflexivity.
      * destruct H6 as [H6|H6]; [rewrite H6 in L; exact L|exact (TR _ _ _ L H6)].
      * exact (weaken _ _ _ L H0).
    + exists c. repeat split; auto. apply in_or_app. auto.
Qed.
End Best.
