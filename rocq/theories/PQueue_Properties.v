(* C14: the priority queue. *)
From Verif Require Import Util PQueue_Model PQueue_Spec PQueue_Proofs.
From Coq Require Import Sorting.Permutation Sorting.Sorted.
Open Scope nat_scope.

(* Any history of push, insert, replacement of the top, pop, top and clear on a new queue of any capacity: no access leaves
   the array, no unset cell is compared, and every answer is one a multiset with a least element can give. *)
Theorem C14_queue_is_multiset : forall (A : Type) (lt : A -> A -> bool), preorder A lt -> forall capa ops, legal A capa 0 ops ->
  exists rs q m, p_run A lt (pq_new A capa) ops = Some (rs, q) /\ q_steps A lt capa [] ops rs m /\ pq_size q = length m.
Proof. exact queue_history. Qed.
Print Assumptions C14_queue_is_multiset.

(* Pushing any list and popping until empty sorts it. *)
Theorem C14_pushed_elements_pop_in_order : forall (A : Type) (lt : A -> A -> bool), preorder A lt -> forall capa l,
  exists q r, push_all A lt (pq_new A capa) l = Some q /\ drain A lt (length l) q = Some r /\
  Permutation r l /\ StronglySorted (le A lt) r.
Proof. exact heap_sort. Qed.
Print Assumptions C14_pushed_elements_pop_in_order.

(* Inserting any list into a queue of capacity k keeps min k |l| elements, none of them below an element left out. *)
Theorem C14_best_k_are_kept : forall (A : Type) (lt : A -> A -> bool), preorder A lt -> forall k l,
  exists q r d, insert_all A lt (pq_new A k) l = Some q /\ drain A lt k q = Some r /\
  Permutation l (r ++ d) /\ StronglySorted (le A lt) r /\ length r = Nat.min k (length l) /\ (forall x y, In x d -> In y r -> le A lt x y).
Proof. exact top_k. Qed.
Print Assumptions C14_best_k_are_kept.

Lemma ltb_preorder : preorder nat Nat.ltb.
Proof.
  unfold preorder, le. split; intros *; rewrite !Nat.ltb_ge; lia.
Qed.
(* pairs ordered by the first component only: ties are possible *)
Definition fst_lt (a b : nat * nat) : bool := fst a <? fst b.
Lemma fst_lt_preorder : preorder (nat * nat) fst_lt.
Proof. unfold preorder, le, fst_lt. split; intros *; rewrite !Nat.ltb_ge; lia. Qed.
Definition c14_list : list nat := [7; 3; 9; 1; 4; 4; 8; 2; 6; 5; 0; 9].
Example C14_sort_example : match push_all nat Nat.ltb (pq_new nat 2) c14_list with Some q => drain nat Nat.ltb 12 q | None => None end =
  Some [0; 1; 2; 3; 4; 4; 5; 6; 7; 8; 9; 9].
Proof. vm_compute. reflexivity. Qed.
Example C14_top_example : match insert_all nat Nat.ltb (pq_new nat 4) c14_list with Some q => drain nat Nat.ltb 4 q | None => None end =
  Some [7; 8; 9; 9].
Proof. vm_compute. reflexivity. Qed.
(* among equal elements the first one stays *)
Example C14_tie_example : match insert_all _ fst_lt (pq_new _ 2) [(5, 1); (5, 2); (5, 3)] with Some q => drain _ fst_lt 2 q | None => None end =
  Some [(5, 1); (5, 2)].
Proof. vm_compute. reflexivity. Qed.
Example C14_history_example : legal nat 2 0 [QInsert 5; QInsert 3; QInsert 9; QTop; QReplace 1; QPush 4; QPop; QClear; QPop] /\
  match p_run nat Nat.ltb (pq_new nat 2) [QInsert 5; QInsert 3; QInsert 9; QTop; QReplace 1; QPush 4; QPop; QClear; QPop] with
  | Some (rs, _) => rs = [QIns Added; QIns Added; QIns Inserted; QElem (Some 5); QNone; QNone; QElem (Some 1); QNone; QElem None]
  | None => False end.
Proof. vm_compute. intuition lia. Qed.
Example C14_zero_capacity_example : match pq_insert nat Nat.ltb (pq_new nat 0) 7 with Some (i, q) => i = Dropped /\ pq_size q = 0 | None => False end.
Proof. vm_compute. auto. Qed.
