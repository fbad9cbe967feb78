(** C35: a contraction with unrolled indices is the plain contraction (oe_ext/oe_ext.py). *)
From Verif Require Import Base Tensor Net NetSpec Unroll UnrollSpec UnrollProofs2 UnrollExamples.
From Coq Require Import Ring ArithRing.
Open Scope list_scope.
Open Scope nat_scope.

(** Whatever indices are unrolled, with or without checkpointing, and whatever the memory of the
    accumulator held before, the result is the contraction of the network. *)
Theorem C35_contraction : forall (K : Type) (z o : K) (add mul : K -> K -> K),
  semi_ring_theory z o add mul eq -> forall junk ckpt (D : nat -> nat) ops out unroll,
  (forall op, In op ops -> tdims (fst op) = map D (snd op)) -> NoDup out -> incl out (flat_map snd ops) ->
  (forall u, In u unroll -> in_two u (map snd ops ++ [out])) ->
  exists M, contract_with_unroll z o add mul junk ckpt ops out unroll = Ok M /\
    is_contraction D z o add mul (map (fun op => (fst op, map V (snd op))) ops) (map V out) M.
Proof. intros K z o add mul SR. exact (unroll_contraction z o add mul SR). Qed.
Print Assumptions C35_contraction.

(** Unrolling never changes a result that the plain contraction has. *)
Theorem C35_plain : forall (K : Type) (z o : K) (add mul : K -> K -> K),
  semi_ring_theory z o add mul eq -> forall junk ckpt ops out unroll M,
  (forall u, In u unroll -> in_two u (map snd ops ++ [out])) ->
  einsum z o add mul ops out = Ok M -> contract_with_unroll z o add mul junk ckpt ops out unroll = Ok M.
Proof. intros K z o add mul SR. exact (unroll_plain z o add mul SR). Qed.
Print Assumptions C35_plain.

(** An index that is in fewer than two groups is refused. *)
Theorem C35_rejected : forall (K : Type) (z o : K) (add mul : K -> K -> K) junk ckpt ops out unroll u,
  In u unroll -> ~ in_two u (map snd ops ++ [out]) ->
  contract_with_unroll z o add mul junk ckpt ops out unroll = Err AssertionError.
Proof. intros K z o add mul. exact (unroll_rejects z o add mul). Qed.
Print Assumptions C35_rejected.

(** The unrolled contraction accepts what the plain one refuses: the two dimensions of an
    unrolled index may differ, and the extra entries of the earlier tensor are dropped. *)
Theorem C35_mismatch_refuted : exists (ops : list (tensor nat * list nat)) out unroll,
  (forall u, In u unroll -> in_two u (map snd ops ++ [out])) /\
  (exists e, einsum 0 1 Nat.add Nat.mul ops out = Err e) /\
  exists M, contract_with_unroll 0 1 Nat.add Nat.mul (fun _ => 0) false ops out unroll = Ok M.
Proof. exact mismatch. Qed.
Print Assumptions C35_mismatch_refuted.
