(* C53: growable arrays behave as lists. *)
From Verif Require Import Util Array_Model Array_Spec Array_Proofs.
Open Scope nat_scope.

(* Every sequence of operations that is defined on lists (no pop or shift of an empty one), stays below 2^29 elements and removes
   only when the block has two unused cells returns the list's results and ends with the list's elements; no access leaves the block. *)
Theorem C53_arrays_are_lists : forall (A : Type) c (os : list (aop A)) rs l,
  l_safe A (ary_new A c) os -> l_run A [] os = Some (rs, l) ->
  exists b, a_run A (ary_new A c) os = Some (rs, b) /\ contents b = l.
Proof. exact new_run. Qed.
Print Assumptions C53_arrays_are_lists.

Example C53_arrays_are_lists_example :
  let os := [Push (Some 1); Push (Some 2); Unshift (Some 0); SetAt 5 (Some 9); GetAt (-1); RemoveAt 1; SetAt (-9) None; Pop; Shift; GetAt 2] in
  l_safe nat (ary_new nat 2) os /\
  l_run nat [] os = Some ([RNone; RNone; RNone; RNone; RVal (Some 9); RVal (Some 1); RErr; RVal (Some 9); RVal (Some 0); RVal None], [Some 2; None; None]).
Proof. split; [|vm_compute; reflexivity]. vm_compute. repeat split; try reflexivity; intros; repeat constructor. Qed.

(* Removal when exactly one cell is unused moves memory from behind the block, after every such history and at every index. *)
Theorem C53_remove_overruns : forall (A : Type) c (os : list (aop A)) rs l b i,
  l_safe A (ary_new A c) os -> l_run A [] os = Some (rs, l) -> a_run A (ary_new A c) os = Some (rs, b) ->
  (0 <= i < Z.of_nat (length l))%Z -> sz b + 1 = capa b -> ary_remove A b i = None.
Proof. exact remove_overruns_reached. Qed.
Print Assumptions C53_remove_overruns.

(* Seven pushes and a removal. *)
Theorem C53_remove_refuted : exists (os : list (aop nat)) r l, l_run nat [] os = Some (r, l) /\ length os = 8 /\ a_run nat (ary_new nat 0) os = None.
Proof. exact remove_refuted. Qed.
Print Assumptions C53_remove_refuted.

Example C53_remove_example :
  (do a <- a_run nat (ary_new nat 0) (repeat (Push (Some 1)) 6); do r <- ary_remove nat (snd a) 5; Some (fst r, contents (snd r))) = Some (Some 1, repeat (Some 1) 5) /\
  (do a <- a_run nat (ary_new nat 0) (repeat (Push (Some 1)) 7); do r <- ary_remove nat (snd a) 6; Some (fst r, contents (snd r))) = None.
Proof. split; vm_compute; reflexivity. Qed.
