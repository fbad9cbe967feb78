(** C82 on concrete states.  Numbers: x + i y with x, y modulo 5, written as the pair (x + 2 y, x - 2 y); then i is (2, 3), conj exchanges the two, and 1/2 and 1/3 are 3 and 2. *)
From Verif Require Import Base BaseLemmas Tensor TensorLemmas Net Plaq Ipess IpessSpec IpessProofs IpessProofs2 IpessProofs3 IpessProofs4 IpessProofs5 IpessProofs6 IpessProps.
Open Scope string_scope.
Open Scope list_scope.
Open Scope nat_scope.

Inductive F5 := f0 | f1 | f2 | f3 | f4.
Definition val (x : F5) : nat := match x with f0 => 0 | f1 => 1 | f2 => 2 | f3 => 3 | f4 => 4 end.
Fixpoint num (n : nat) : F5 := match n with 0 => f0 | 1 => f1 | 2 => f2 | 3 => f3 | 4 => f4 | S (S (S (S (S n)))) => num n end.
Definition G := (F5 * F5)%type.
Definition op (f : nat -> nat -> nat) (x y : F5) : F5 := num (f (val x) (val y)).
Definition gadd (x y : G) : G := (op Nat.add (fst x) (fst y), op Nat.add (snd x) (snd y)).
Definition gmul (x y : G) : G := (op Nat.mul (fst x) (fst y), op Nat.mul (snd x) (snd y)).
Definition gopp (x : G) : G := (num (5 - val (fst x)), num (5 - val (snd x))).
Definition gsub (x y : G) : G := gadd x (gopp y).
Definition gcj (x : G) : G := (snd x, fst x).
Definition g0 : G := (f0, f0).
Definition g1 : G := (f1, f1).
Definition gi : G := (f2, f3).
Definition h5 : G := (f3, f3).
Definition t5 : G := (f2, f2).
Definition gdec (x y : G) : {x = y} + {x <> y}. Proof. decide equality; decide equality. Defined.
(** stand-ins of the largest modulus and of the quotient *)
Definition gmax (l : list G) : G := if existsb (fun x => negb (if gdec x g0 then true else false)) l then g1 else g0.
Definition gdiv (x y : G) : G := gmul x (op (fun a _ => a * a * a) (fst y) f0, op (fun a _ => a * a * a) (snd y) f0).
Lemma op_rt : ring_theory f0 f1 (op Nat.add) (op Nat.mul) (fun x y => op Nat.add x (num (5 - val y))) (fun x => num (5 - val x)) eq.
Proof. constructor; intros; repeat match goal with x : F5 |- _ => destruct x end; reflexivity. Qed.
Lemma g_rt : ring_theory g0 g1 gadd gmul gsub gopp eq.
Proof. destruct op_rt. constructor; intros; repeat match goal with x : G |- _ => destruct x end; unfold gadd, gmul, gsub, gopp, g0, g1; cbn [fst snd]; f_equal; auto. Qed.
Lemma cj_add x y : gcj (gadd x y) = gadd (gcj x) (gcj y). Proof. reflexivity. Qed.
Lemma cj_mul x y : gcj (gmul x y) = gmul (gcj x) (gcj y). Proof. reflexivity. Qed.
Lemma cj_cj x : gcj (gcj x) = x. Proof. now destruct x. Qed.
Lemma gmax_ok l l' : l <> [] -> l' <> [] -> (forall x, x <> g0 -> (In x l <-> In x l')) -> gmax l = gmax l'.
Proof. intros _ _ H. unfold gmax. assert (E : existsb (fun x => negb (if gdec x g0 then true else false)) l = existsb (fun x => negb (if gdec x g0 then true else false)) l'); [|now rewrite E].
  apply Bool.eq_iff_eq_true. rewrite !existsb_exists. split; intros (x & Hx & N); exists x; (split; [|exact N]); destruct (gdec x g0) as [E|E]; try discriminate N; now apply (H x E). Qed.
(** i squared is -1 *)
Example ex_i : gmul gi gi = gopp g1. Proof. reflexivity. Qed.
Notation st := (@pgstate G).
Notation MK := (mk_pg g0 g1 gadd gmul gsub gdiv h5 t5 gcj gmax).
Definition wild (k : nat) (ix : list nat) : G := match ix with [a; b; c] => (num (k + a + 2 * b + c * (k + 1) + a * b * c), num (3 * k + 4 * a + b * b + c + a * c)) | _ => g0 end.
Definition tu : tensor G := tbuild [2; 2; 2] (wild 1).
Definition td : tensor G := tbuild [2; 2; 2] (wild 2).
Definition ba : tensor G := tbuild [1; 2; 2] (wild 3).
Definition bb : tensor G := tbuild [2; 2; 2] (wild 4).
Definition bc : tensor G := tbuild [2; 2; 2] (wild 2).
Definition grp : pg_groups := [("T_u", Some "A_2"); ("T_d", Some "A_1"); ("B_b", None); ("B_c", Some "B")].
Lemma grp_ok : groups_ok grp.
Proof. split; [|split].
  - repeat constructor; cbn; intuition discriminate.
  - intros k pg H. cbn in H. unfold known. cbn [In]. destruct H as [H|[H|[H|[H|[]]]]]; try discriminate H; injection H as <- <-; tauto.
  - intros k o H. cbn in H. destruct H as [H|[H|[H|[H|[]]]]]; injection H as <- <-; cbn; tauto. Qed.
Lemma use5 : usable (mk5 tu td ba bb bc) 1 2 2 2.
Proof. split; [|lia]. split; [|repeat split]. cbn [t_u t_d b_a b_b b_c]. repeat split; apply twf_tbuild. Qed.
(** all four different, two point groups; the constructor symmetrises *)
Definition s0 : res st := MK tu bc (Some td) (Some ba) (Some bb) false false (Some grp) true.
Example ex_state : exists s F, s0 = Ok s /\ pgs s = grp /\ site_of g0 gadd gmul gdiv gmax s F 1 2 2 2 /\
  exists t', dget (elem s) "T_u" = Some t' /\ irrep g0 gopp gcj "T_u" "A_2" t' /\ t' <> tu.
Proof. destruct (C82_state G g0 g1 gadd gmul gsub gopp gdiv h5 t5 gcj gmax g_rt eq_refl eq_refl cj_add cj_mul cj_cj eq_refl false false tu bc td ba bb (Some td) (Some ba) (Some bb) grp 1 2 2 2 true use5 (fun _ => eq_refl) (fun _ => Logic.conj eq_refl eq_refl) grp_ok) as (s & F & E & _ & _ & P & S & _ & M).
  exists s, F. split; [exact E|]. split; [exact P|]. split; [exact S|]. destruct (M "T_u" tu eq_refl) as (t' & E' & (_ & _ & Q)). exists t'. split; [exact E'|]. cbn in Q. destruct Q as (I & V & _). split; [exact I|].
  intros ->. specialize (V 0 0 0). vm_compute in V. discriminate V. Qed.
Example ex_value : exists s t A, s0 = Ok s /\ dget (elem s) "T_u" = Some t /\ tget t [0; 1; 1] = Some (f1, f4) /\ sites s = [((0, 0)%Z, A)] /\ tget A [1; 0; 1; 1; 0] = Some (f2, f4).
Proof. eexists _, _, _. split; [vm_compute; reflexivity|]. repeat split. Qed.
(** larger bonds, noise, files and checkpoints of this state *)
Example ex_extend : exists s s' A A', s0 = Ok s /\ extend_pg g0 g1 gadd gmul gsub gdiv h5 t5 gcj gmax s 3 = Ok s' /\ sites s = [((0, 0)%Z, A)] /\ sites s' = [((0, 0)%Z, A')] /\
  tdims A' = [4; 3; 3; 3; 3] /\ tget A' [3; 1; 0; 1; 1] = tget A [3; 1; 0; 1; 1] /\ tget A' [3; 1; 2; 1; 1] = Some g0.
Proof. destruct ex_state as (s & F & E & P & S & _).
  destruct (C82_extend G g0 g1 gadd gmul gsub gopp gdiv h5 t5 gcj gmax g_rt gmax_ok s F 1 2 2 2 3 S) as (s' & F' & A' & E' & _ & _ & _ & _ & _ & EA & D & V); [rewrite P; exact grp_ok|lia|].
  destruct S as (_ & _ & _ & (A & ES & (_ & _ & VA))). exists s, s', A, A'. repeat (split; [assumption|]). split.
  - change [3; 1; 0; 1; 1] with [1 * (2 * 1) + (1 * 1 + 0); 1; 0; 1; 1]. rewrite VA by lia. apply V; lia.
  - change [3; 1; 2; 1; 1] with [1 * (2 * 1) + (1 * 1 + 0); 1; 2; 1; 1]. destruct (V 1 1 0 1 2 1 1) as (-> & Z); try lia. rewrite Z by lia. unfold gdiv, gmul, g0. cbn [fst snd]. reflexivity. Qed.
Example ex_noise : exists s s' t', s0 = Ok s /\ add_noise g0 g1 gadd gmul gsub gdiv h5 t5 gcj gmax s (f2, f1) (fun k => if String.eqb k "B_a" then ba else td) = Ok s' /\ dget (elem s') "B_c" = Some t' /\
  tdata t' <> tdata bc /\ (at3 g0 t' 1 1 0 = gopp (gcj (at3 g0 t' 1 0 1))).
Proof. eexists _, _, _. split; [vm_compute; reflexivity|]. split; [vm_compute; reflexivity|]. split; [reflexivity|]. split; [vm_compute; discriminate|vm_compute; reflexivity]. Qed.
Example ex_io : exists s f, s0 = Ok s /\ write_pg g0 g1 gadd gmul gsub gdiv h5 t5 gcj gmax s false = Ok f /\ read_pg g0 g1 gadd gmul gsub gdiv h5 t5 gcj gmax f = Ok s /\ map fst (f_elem f) = ["T_u"; "B_c"; "T_d"; "B_a"; "B_b"].
Proof. destruct ex_state as (s & F & E & _). exists s. pose proof E as E2. unfold s0 in E2. destruct (C82_io _ _ _ _ _ _ _ _ _ _ _ _ _ _ _ _ _ _ _ _ _ E2) as ((f & W & R) & _). exists f. repeat (split; [assumption|]).
  injection W as <-. vm_compute in E. injection E as <-. reflexivity. Qed.
Example ex_checkpoint : exists s s', s0 = Ok s /\ MK tu bc None None None true true None false = Ok s' /\
  load_checkpoint g0 g1 gadd gmul gdiv gmax s (elem s') = Err KeyError /\ (exists s'', load_checkpoint g0 g1 gadd gmul gdiv gmax s' (elem s') = Ok s'' /\ sites s'' = sites s') /\
  load_checkpoint g0 g1 gadd gmul gdiv gmax s [("UP_T", tu); ("DOWN_T", td); ("BOND_S1", bc); ("BOND_S2", bb); ("BOND_S3", ba)] = Err NameError.
Proof. eexists _, _. split; [vm_compute; reflexivity|]. split; [vm_compute; reflexivity|]. split; [vm_compute; reflexivity|]. split; [|vm_compute; reflexivity]. eexists. split; vm_compute; reflexivity. Qed.
Example ex_unknown : to_pg g0 gadd gmul gsub h5 t5 gcj [("B_c", Some "A_1")] (given true true tu bc td ba bb) = Err RuntimeError.
Proof. reflexivity. Qed.
(** extend_bond_dim of a generic state fails on a state that can be extended *)
Example ex_generic : extend_generic g0 [((0, 0)%Z, [("T_u", tu); ("T_d", td); ("B_a", ba); ("B_b", bb); ("B_c", bc)])] 3 = Err AttributeError.
Proof. vm_compute. reflexivity. Qed.
(** linear combinations: one tensor of A and one of B *)
Definition eA : tensor G := mkT [1; 2; 2] [g1; gi; gopp gi; g1].
Definition eB : tensor G := mkT [1; 2; 2] [g0; g1; gopp g1; g0].
Definition lcb : dict string (list (string * tensor G)) := [("B_c", [("A", eA); ("B", eB)])].
Example ex_lc : exists t, build_elem g0 g1 gadd gmul gi [("B_c", Some "B")] [("B_c", mkT [2] [t5; h5])] lcb = Ok [("B_c", t)] /\ irrep g0 gopp gcj "B_c" "B" t /\
  at3 g0 t 0 0 1 = gadd (gmul t5 g1) (gmul h5 (gmul gi gi)).
Proof. destruct (C82_lc G g0 g1 gadd gmul gsub gopp gi gcj g_rt cj_add cj_mul eq_refl [("B_c", Some "B")] [("B_c", mkT [2] [t5; h5])] lcb) as (e & E & F).
  - intros k c [H|[]]. injection H as <- <-. exists "B", [("A", eA); ("B", eB)], 1, 2, 2. split; [reflexivity|]. split; [left; cbn; auto|]. split; [reflexivity|]. split; [discriminate|]. split; [reflexivity|].
    split; [intros [|[|m]]; reflexivity|]. intros q t [H|[H|[]]]; injection H as <- <-; (split; [left; cbn; auto|]; split; [|split; reflexivity]); intros [|s] [|[|a]] [|[|b]]; reflexivity.
  - vm_compute in E. injection E as <-. inversion F as [|? ? ? ? (_ & pg & l & Eg & El & _ & I & _) _]. injection Eg as <-. eexists. split; [vm_compute; reflexivity|]. split; [exact I|reflexivity]. Qed.
(** the first coefficient does not multiply the first tensor *)
Example ex_order : exists t, build_elem g0 g1 gadd gmul gi [("B_c", Some "B")] [("B_c", mkT [2] [g1; g0])] lcb = Ok [("B_c", t)] /\ t = eB /\ t <> eA.
Proof. eexists. split; [vm_compute; reflexivity|]. split; [reflexivity|discriminate]. Qed.
Example ex_update : lc_update g0 g1 gadd gmul gdiv gi gmax true false [] [("T_u", mkT [1] [g1]); ("B_a", mkT [1] [g1]); ("B_b", mkT [1] [g1]); ("B_c", mkT [1] [g1])]
  [("T_u", [("A_1", tu)]); ("B_a", [("A", bb)]); ("B_b", [("A", bb)]); ("B_c", [("A", bc)])] = Err TypeError.
Proof. vm_compute. reflexivity. Qed.
