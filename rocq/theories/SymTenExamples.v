(** Concrete tables. *)
From Coq Require Import Ascii Lia.
From Verif Require Import Base BaseLemmas Text TextLemmas Tensor TensorLemmas SymTen SymTenSpec SymTenProofs SymTenProofs2.
Open Scope char_scope.
Open Scope list_scope.

(** integers only, possibly in parentheses *)
Definition ev (s : text) : option Z :=
  match s with
  | "(" :: r => parse_int (string_of_list_ascii (removelast r))
  | _ => parse_int (string_of_list_ascii s)
  end.
(** as su2sym/D3.txt: the first element counts from zero, the others from one *)
Definition ex_fix : text := txt "[({'irreps': (1, 0), 'pg': A_1, 'name': T_1}, [((0, 0, 1, 1, 1), 7), ((2, 2, 1, 2, 2), (-3))]), ({'pg': B_1}, [((1, 0, 0, 0, 0), 1)])]".
(** as u1sym/D2_U1_B.txt: line breaks, a trailing comma, no comma before 'charges' *)
Definition nl : text := ["010"].
Definition ex_zero : text :=
  txt "[" ++ nl ++ txt "({'pg': A_1, 'name': T0, 'occupations': (0) 'charges': (1,-1,0,2) }," ++ nl ++ txt "[" ++ nl ++
  txt "((0, 0, 0, 0, 0), 1)," ++ nl ++ txt "((1, 0, 0, 1, 0), 5)," ++ nl ++ txt "])" ++ nl ++ txt "]".
Example read_fix : exists m t, import_sym_tensors_FIX ev 0%Z 2 2 (txt "A_1") ex_fix = Ok [(m, t)] /\
  dget m (txt "irreps") = Some (txt "(1, 0)") /\ dget m (txt "name") = Some (txt "T_1") /\
  tget t [0; 0; 1; 1; 1]%nat = Some 7%Z /\ tget t [1; 1; 0; 1; 1]%nat = Some (-3)%Z /\ tget t [1; 1; 1; 1; 1]%nat = Some 0%Z.
Proof. eexists. eexists. split; [vm_compute; reflexivity|]. repeat split. Qed.
(** read by the other function, the same table is out of range *)
Example read_fix_plain : import_sym_tensors ev 0%Z 2 2 (txt "A_1") ex_fix = Err IndexError.
Proof. vm_compute. reflexivity. Qed.
(** the missing comma hides the charges *)
Example read_zero : exists m t, import_sym_tensors ev 0%Z 2 2 (txt "A_1") ex_zero = Ok [(m, t)] /\
  dget m (txt "occupations") = Some (txt "(0) 'charges': (1,-1,0,2)") /\ dget m (txt "charges") = None /\
  tget t [0; 0; 0; 0; 0]%nat = Some 1%Z /\ tget t [1; 0; 0; 1; 0]%nat = Some 5%Z /\ tget t [1; 0; 0; 0; 1]%nat = Some 0%Z.
Proof. eexists. eexists. split; [vm_compute; reflexivity|]. repeat split. Qed.

(** ** the format covers both tables *)
Definition ix_ (pre : string) (n : nat) : index := {| x_pre := txt pre; x_val := n; x_post := [] |}.
Definition ixs_ (l : list nat) : list index := match l with [] => [] | n :: l => ix_ "" n :: map (ix_ " ") l end.
Definition el_ (l : list nat) (v sep : string) : element := {| l_ix := ixs_ l; l_pre := txt " "; l_val := txt v; l_sep := txt sep |}.
Definition fd_ (k v post : string) : field := {| f_key := txt k; f_pre := txt " "; f_val := txt v; f_post := txt post |}.
Definition zero_entries : list entry :=
  [{| n_fields := [fd_ "pg" "A_1" ""; fd_ "name" "T0" ""; fd_ "occupations" "(0) 'charges': (1,-1,0,2)" " "];
      n_elems := [el_ [0; 0; 0; 0; 0] "1" ","; el_ [1; 0; 0; 1; 0] "5" ","]%nat;
      n_a := []; n_b := txt ","; n_first := []; n_c := []; n_sep := txt "]" |}].
Ltac not_in := let c := fresh in let Hc := fresh in let Hi := fresh in
  intros c Hc Hi; cbn in Hc; cbn in Hi;
  repeat match goal with H : _ \/ _ |- _ => destruct H as [H|H] end; try contradiction; subst; discriminate.
Lemma no_item (s : text) : find_nat (txt ", '") s = None -> forall u v, s <> u ++ txt ", '" ++ v.
Proof.
  intros H u v ->. revert H. induction u as [|c u IH].
  - cbn [app]. destruct v; cbn; discriminate.
  - cbn [app find_nat]. destruct (prefix _ _); [discriminate|]. destruct (find_nat _ _); [discriminate | auto].
Qed.
Definition trimmedb (s : text) : bool :=
  match s with [] => true | c :: _ => negb (is_ws c) && match rev s with d :: _ => negb (is_ws d) | [] => true end end.
Lemma trimmed_b s : trimmedb s = true -> trimmed s.
Proof.
  intros H. split; intros c u ->; cbn in H.
  - destruct (is_ws c); [discriminate | reflexivity].
  - destruct u as [|d u]; cbn in H.
    + destruct (is_ws c); [discriminate | reflexivity].
    + apply andb_prop in H. destruct H as [_ H]. rewrite rev_app_distr in H. cbn in H. destruct (is_ws c); [discriminate | reflexivity].
Qed.
Definition lacksb (cs s : text) : bool := forallb (fun c => negb (existsb (Ascii.eqb c) cs)) s.
Lemma lacks_b cs s : lacksb cs s = true -> lacks cs s.
Proof.
  intros H c Hc Hi. unfold lacksb in H. rewrite forallb_forall in H. specialize (H c Hc).
  apply negb_true_iff in H. assert (E : existsb (Ascii.eqb c) cs = true) by (apply existsb_exists; exists c; split; [exact Hi | apply Ascii.eqb_refl]). congruence.
Qed.
Lemma ws_b s : forallb is_ws s = true -> all_ws s.
Proof. intros H c Hc. rewrite forallb_forall in H. auto. Qed.
Lemma fd_wf k v post : lacksb (txt ":") (txt k) = true -> forallb is_ws (txt post) = true -> trimmedb (txt v) = true ->
  lacksb (txt "{}") (field_text (fd_ k v post)) = true -> find_nat (txt ", '") (field_text (fd_ k v post)) = None -> field_wf (fd_ k v post).
Proof.
  intros H1 H2 H3 H4 H5. split; [now apply lacks_b|]. split; [apply ws_b; reflexivity|]. split; [now apply ws_b|]. split; [now apply trimmed_b|].
  split; [now apply lacks_b | now apply no_item].
Qed.
Lemma el_wf l v sep : l <> [] -> lacksb (txt "(){] ") (txt v) = true -> lacksb ["009"] (txt v) = true -> lacksb (txt "(){]") (txt sep) = true -> element_wf (el_ l v sep).
Proof.
  intros Hl Hv Hv2 Hs. apply lacks_b in Hv, Hv2, Hs. split; [destruct l; [congruence | discriminate]|]. split.
  { apply Forall_forall. intros x Hx. destruct l as [|n l]; [destruct Hx|]. destruct Hx as [<- |Hx].
    - split; apply ws_b; reflexivity.
    - apply in_map_iff in Hx. destruct Hx as (k & <- & _). split; apply ws_b; reflexivity. }
  cbn [l_pre l_val l_sep el_]. split; [intros c [<- |[]]; now left|]. split.
  { intros c u E. split; intros ->.
    - apply (Hv " "); [rewrite E; now left | cbn; auto 10].
    - apply (Hv2 "009"); [rewrite E; now left | now left]. }
  split; [apply balanced_lacks; revert Hv; apply lacks_sub; intros c [<- |[<- |[]]]; cbn; auto|].
  split; [|exact Hs]. revert Hv. apply lacks_sub. intros c [<- |[<- |[]]]; cbn; auto.
Qed.
Example zero_is_table : is_table ex_zero (txt "[") zero_entries.
Proof.
  split; [|vm_compute; reflexivity]. split; [apply lacks_b; reflexivity|]. constructor; [|constructor]. unfold entry_wf. cbn [n_fields n_elems n_a n_b n_first n_c n_sep].
  split; [discriminate|]. split; [repeat (constructor; [apply fd_wf; reflexivity|]); constructor|].
  split; [repeat (constructor; [apply el_wf; [discriminate | reflexivity..]|]); constructor|].
  repeat split; apply lacks_b; reflexivity.
Qed.
Lemma rng5 dims l : length l = length dims -> forallb (fun p => Nat.ltb (fst p) (snd p)) (combine l dims) = true -> in_range dims l.
Proof.
  revert dims. induction l as [|i l IH]; intros [|d dims] Hl H; try discriminate; [constructor|]. cbn in H. apply andb_prop in H. destruct H as [H1 H2].
  constructor; [now apply Nat.ltb_lt | apply IH; [now injection Hl | exact H2]].
Qed.
Example zero_readable : Forall (readable ev from_zero [2; 2; 2; 2; 2]%nat (txt "A_1")) zero_entries.
Proof.
  constructor; [|constructor]. split; [vm_compute; discriminate|]. split; [repeat constructor; vm_compute; discriminate|]. intros _.
  exists [[0; 0; 0; 0; 0]; [1; 0; 0; 1; 0]]%nat. split; [|reflexivity]. repeat (constructor; [apply rng5; reflexivity|]). constructor.
Qed.
(** read with the conventions of the SU(2) tables the same table is read without complaint into the
    wrong place: 5 lands at (0,1,1,0,1), the position -1 of every index that is zero *)
Lemma fix_wraps : exists r, import_sym_tensors_FIX ev 0%Z 2 2 (txt "A_1") ex_zero = Ok r /\
  ~ Forall2 (tensor_of ev 0%Z from_zero [2; 2; 2; 2; 2]%nat) (filter (of_group (txt "A_1")) zero_entries) r.
Proof.
  eexists. split; [vm_compute; reflexivity|]. intros H.
  assert (F : filter (of_group (txt "A_1")) zero_entries = zero_entries) by (vm_compute; reflexivity). rewrite F in H. clear F.
  inversion H as [|? ? ? ? H1 _ Q1 Q2]. subst. destruct H1 as (_ & l & vs & [_ HP] & HV & (_ & _ & Hg)). cbn [snd] in Hg.
  cbn in HP. subst l. inversion HV as [|? v1 ? ? E1 HV1]. subst. inversion HV1 as [|? v2 ? ? E2 HV2]. subst. inversion HV2. subst.
  vm_compute in E1, E2. injection E1 as <-. injection E2 as <-.
  specialize (Hg [1; 0; 0; 1; 0]%nat (rng5 [2; 2; 2; 2; 2]%nat [1; 0; 0; 1; 0]%nat eq_refl eq_refl)). vm_compute in Hg. discriminate Hg.
Qed.
(** the argument is changed: used a second time the same list gives another tensor *)
Lemma fix_twice : exists (t t2 : tensor Z) es1 es2, fill_from_sparse_coo_FIX (tzeros 0%Z [2; 2]%nat) [([0; 0]%Z, 1%Z)] = Ok (t, es1) /\
  fill_from_sparse_coo_FIX (tzeros 0%Z [2; 2]%nat) es1 = Ok (t2, es2) /\ t <> t2.
Proof. do 4 eexists. split; [vm_compute; reflexivity|]. split; [vm_compute; reflexivity|]. discriminate. Qed.
