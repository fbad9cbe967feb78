(** Concrete contractions with unrolled indices. *)
From Verif Require Import Base Tensor Net Unroll UnrollSpec UnrollProofs2.
Open Scope list_scope.
Open Scope nat_scope.

(** A matrix product with a traced-out third index: A[1,2,4] B[2,3,4], unrolling 2 and 3. *)
Definition exA : tensor nat := tbuild [2; 2; 2] (fun ix => match ix with [i; j; k] => 1 + 4 * i + 2 * j + k | _ => 0 end).
Definition exB : tensor nat := tbuild [2; 3; 2] (fun ix => match ix with [i; j; k] => 2 + 5 * i + j + 3 * k | _ => 0 end).
Example C35_example : contract_with_unroll 0 1 Nat.add Nat.mul (fun _ => 77) false [(exA, [1; 2; 4]); (exB, [2; 3; 4])] [3; 1] [2; 3]
  = Ok (mkT [3; 2] [73; 169; 83; 195; 93; 221]) /\
  einsum 0 1 Nat.add Nat.mul [(exA, [1; 2; 4]); (exB, [2; 3; 4])] [3; 1] = Ok (mkT [3; 2] [73; 169; 83; 195; 93; 221]) /\
  (forall u, In u [2; 3] -> in_two u (map snd [(exA, [1; 2; 4]); (exB, [2; 3; 4])] ++ [[3; 1]])).
Proof. split; [vm_compute; reflexivity|]. split; [vm_compute; reflexivity|].
  intros u [<-|[<-|[]]]; apply groups_with_two; vm_compute; repeat constructor. Qed.

Lemma mismatch : exists (ops : list (tensor nat * list nat)) out unroll,
  (forall u, In u unroll -> in_two u (map snd ops ++ [out])) /\
  (exists e, einsum 0 1 Nat.add Nat.mul ops out = Err e) /\
  exists M, contract_with_unroll 0 1 Nat.add Nat.mul (fun _ => 0) false ops out unroll = Ok M.
Proof. exists [(mkT [3] [1; 10; 100], [1]); (mkT [2] [1; 1], [1])], [], [1]. split; [|split].
  - intros u [<-|[]]. apply groups_with_two. vm_compute. repeat constructor.
  - exists RuntimeError. vm_compute. reflexivity.
  - exists (mkT [] [11]). vm_compute. reflexivity. Qed.
