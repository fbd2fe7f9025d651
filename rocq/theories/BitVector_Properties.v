(* C08-C11, C54: bit vectors and deletion files. *)
From Verif Require Import Util Codec_Model BitVector_Model BitVector_Spec BitVector_Proofs.
Open Scope nat_scope.

(* ---------------- C08: a bit vector is a set of integers *)
(* any series of set / unset / clear on a new vector of any initial capacity *)
Theorem C08_updates_are_set_updates : forall capa ops, exists b, bv_run (bv_new_capa capa) ops = Some b /\
  (forall i, bv_get b i = Some (set_after (fun _ => false) ops i)) /\
  exists l, lists l (set_after (fun _ => false) ops) /\ bv_count b = Z.of_nat (length l).
Proof. exact run_is_set. Qed.
Print Assumptions C08_updates_are_set_updates.
Example C08_example : option_map (fun b => (bv_count b, map (bv_get b) [0; 3; 500; 501]))
  (bv_run (bv_new_capa 10) [SSet 3; SSet 500; SSet 3; SUnset 7; SUnset 0]) =
  Some (2%Z, [Some false; Some true; Some true; Some false]).
Proof. vm_compute. reflexivity. Qed.

(* bv_set_fast, used in ascending order and within the capacity, is bv_set *)
Theorem C08_set_fast : forall capa l, StronglySorted lt l ->
  Forall (fun i => i < 32 * Nat.max (TO_WORD capa) 4) l ->
  exists b, run_fast (bv_new_capa capa) l = Some b /\ bv_run (bv_new_capa capa) (map SSet l) = Some b.
Proof. exact fast_is_set. Qed.
Print Assumptions C08_set_fast.
Example C08_set_fast_example : option_map bv_count (run_fast (bv_new_capa 100) [1; 5; 127]) = Some 3%Z /\
  run_fast (bv_new_capa 100) [1; 5; 128] = None.
Proof. vm_compute. auto. Qed.

(* recounting does not change a vector, provided its size leaves a word to spare *)
Theorem C08_recount : forall junk e b, admissible e -> updatable e = true -> cofinite e = false ->
  eval junk e = Some b -> bv_size b < 32 * length (bv_bits b) -> bv_recount b = Some b.
Proof. exact recount_same. Qed.
Print Assumptions C08_recount.
Example C08_recount_example : let e := EUpd (ENew 200) [SSet 150; SSet 40] in
  match eval (fun _ => 0%Z) e with
  | Some b => bv_recount (mkBv (bv_bits b) (bv_size b) 77 (bv_curr b) false) = Some b
  | None => False end.
Proof. vm_compute. reflexivity. Qed.
(* ... and reads past the allocation when the size is exactly the capacity *)
Theorem C08_recount_full_refuted : ~ (forall capa ops b, bv_run (bv_new_capa capa) ops = Some b ->
  exists b', bv_recount b = Some b').
Proof.
  intros H. destruct (bv_run (bv_new_capa 128) [SSet 127]) as [b|] eqn:E; [|vm_compute in E; discriminate].
  destruct (H 128 [SSet 127] b E) as (b' & Hb). vm_compute in E. apply some_inj in E. subst b. vm_compute in Hb. discriminate.
Qed.
Print Assumptions C08_recount_full_refuted.
(* on the result of bv_not the count is the number of missing members, but updates count the wrong way *)
Theorem C08_count_after_not_refuted : ~ (forall junk ops ops' b l, 
  eval junk (EUpd (ENot false (EUpd (ENew 0) ops)) ops') = Some b ->
  lists l (fun i => negb (den (EUpd (ENot false (EUpd (ENew 0) ops)) ops') i)) ->
  bv_count b = Z.of_nat (length l)).
Proof.
  intros H. destruct (eval (fun _ => 0%Z) (EUpd (ENot false (EUpd (ENew 0) [SSet 0; SSet 1])) [SUnset 5])) as [b|] eqn:E;
    [|vm_compute in E; discriminate].
  specialize (H _ _ _ _ [0; 1; 5] E). vm_compute in E. apply some_inj in E. subst b.
  assert (HL : lists [0; 1; 5] (fun i => negb (den (EUpd (ENot false (EUpd (ENew 0) [SSet 0; SSet 1])) [SUnset 5]) i))).
  { split.
    - repeat constructor.
    - intros i. cbn [den set_after set_step In].
      destruct i as [|[|[|[|[|[|i]]]]]]; cbn; intuition (congruence || lia). }
  specialize (H HL). vm_compute in H. discriminate.
Qed.
Print Assumptions C08_count_after_not_refuted.

(* ---------------- C09: scanning *)
(* least member at or above the start, or -1 when there is none *)
Theorem C09_scan_next_from : forall junk e b bit, admissible e -> cofinite e = false -> eval junk e = Some b ->
  bit / 32 < length (bv_bits b) ->
  exists r b', bv_scan_next_from b bit = Some (r, b') /\
  ((r = (-1)%Z /\ forall i, bit <= i -> den e i = false) \/
   (exists j, r = Z.of_nat j /\ bit <= j /\ den e j = true /\ (forall i, bit <= i < j -> den e i = false) /\ bv_curr b' = r)).
Proof. exact eval_scan_from. Qed.
Print Assumptions C09_scan_next_from.
(* least missing member at or above the start and below the size, or -1 *)
Theorem C09_scan_next_unset : forall junk e b bit, admissible e -> eval junk e = Some b ->
  bit / 32 < length (bv_bits b) ->
  exists r b', bv_scan_next_unset_from b bit = Some (r, b') /\
  ((r = (-1)%Z /\ forall i, bit <= i < bv_size b -> den e i = true) \/
   (exists j, r = Z.of_nat j /\ bit <= j /\ den e j = false /\ (forall i, bit <= i < j -> den e i = true) /\ bv_curr b' = r)).
Proof. exact eval_scan_unset. Qed.
Print Assumptions C09_scan_next_unset.
(* repeated bv_scan_next lists the members in increasing order, each once, and then returns -1 *)
Theorem C09_scan_enumerates : forall junk e b, admissible e -> cofinite e = false -> eval junk e = Some b ->
  bv_size b < 32 * length (bv_bits b) ->
  exists l, lists l (den e) /\ forall n, length l < n -> scan_all n (bv_scan_reset b) = Some l.
Proof. exact eval_scan. Qed.
Print Assumptions C09_scan_enumerates.
(* the results of and/or/xor/not always leave the word to spare that the scan needs *)
Theorem C09_scan_after_operation : forall junk e, admissible e -> is_operation e -> cofinite e = false ->
  exists b l, eval junk e = Some b /\ lists l (den e) /\ forall n, length l < n -> scan_all n (bv_scan_reset b) = Some l.
Proof. exact eval_scan_op. Qed.
Print Assumptions C09_scan_after_operation.
Example C09_example : let e := EUpd (ENew 0) [SSet 3; SSet 64; SSet 40; SUnset 3] in
  match eval (fun _ => 0%Z) e with
  | Some b => scan_all 3 (bv_scan_reset b) = Some [40; 64] /\
              option_map fst (bv_scan_next_from b 41) = Some 64%Z /\
              option_map fst (bv_scan_next_unset_from b 40) = Some 41%Z
  | None => False end.
Proof. vm_compute. auto. Qed.
(* a vector filled to its capacity: the last bv_scan_next reads past the allocation *)
Theorem C09_scan_full_refuted : ~ (forall capa ops b, bv_run (bv_new_capa capa) ops = Some b ->
  exists l, scan_all (S (Z.to_nat (bv_count b))) (bv_scan_reset b) = Some l).
Proof.
  intros H. destruct (bv_run (bv_new_capa 256) [SSet 255]) as [b|] eqn:E; [|vm_compute in E; discriminate].
  destruct (H 256 [SSet 255] b E) as (b' & Hb). vm_compute in E. apply some_inj in E. subst b. vm_compute in Hb. discriminate.
Qed.
Print Assumptions C09_scan_full_refuted.

(* ---------------- C10: and / or / xor / not *)
(* every admissible program over vectors succeeds (whatever realloc leaves in fresh memory) and its
   result has exactly the members of the set expression *)
Theorem C10_set_algebra : forall junk e, admissible e ->
  exists b, eval junk e = Some b /\ forall i, bv_get b i = Some (den e i).
Proof. exact eval_pointwise. Qed.
Print Assumptions C10_set_algebra.
Theorem C10_count : forall junk e b, admissible e -> cofinite e = false -> eval junk e = Some b ->
  exists l, lists l (den e) /\ bv_count b = Z.of_nat (length l).
Proof. exact eval_count. Qed.
Print Assumptions C10_count.
Definition C10_demo : bexpr :=
  EBin BAnd false (ENot false (EUpd (ENew 0) [SSet 2; SSet 70]))
                  (EBin BOr true (EUpd (ENew 300) [SSet 1; SSet 2]) (EUpd (ENew 10) [SSet 299; SSet 70])).
Example C10_example : admissible C10_demo /\ cofinite C10_demo = false /\
  match eval (fun n => Z.of_nat n + 5)%Z C10_demo with
  | Some b => map (bv_get b) [0; 1; 2; 70; 299; 1000] =
      [Some false; Some true; Some false; Some false; Some true; Some false] /\ bv_count b = 2%Z
  | None => False end.
Proof. split; [cbn; tauto|]. vm_compute. auto. Qed.

(* in-place and with an operand extending as ones: members are lost *)
Theorem C10_inplace_and_refuted : ~ (forall junk a b r i,
  eval junk (EBin BAnd true (ENot false a) b) = Some r -> admissible a -> admissible b ->
  bv_get r i = Some (den (EBin BAnd true (ENot false a) b) i)).
Proof.
  intros H. destruct (eval (fun _ => 0%Z) (EBin BAnd true (ENot false (ENew 0)) (EUpd (ENew 0) [SSet 40]))) as [r|] eqn:E;
    [|vm_compute in E; discriminate].
  specialize (H _ _ _ _ 40 E). vm_compute in E. apply some_inj in E. subst r.
  assert (H' := H I ltac:(cbn; auto)). vm_compute in H'. discriminate.
Qed.
Print Assumptions C10_inplace_and_refuted.
(* same for the count *)
Theorem C10_inplace_count_refuted : ~ (forall junk a b r l,
  eval junk (EBin BAnd true (ENot false a) b) = Some r -> admissible a -> admissible b ->
  lists l (fun i => match bv_get r i with Some v => v | None => false end) -> bv_count r = Z.of_nat (length l)).
Proof.
  intros H. destruct (eval (fun _ => 0%Z) (EBin BAnd true (ENot false (ENew 0)) (EUpd (ENew 0) [SSet 31]))) as [r|] eqn:E;
    [|vm_compute in E; discriminate].
  specialize (H _ _ _ _ [] E I ltac:(cbn; auto)). vm_compute in E. apply some_inj in E. subst r.
  assert (HL : lists [] (fun i => match bv_get (mkBv [0; 4294967295; 4294967295; 4294967295; 4294967295; 4294967295; 4294967295; 4294967295]%Z 32 8 (-1) false) i with Some v => v | None => false end)).
  { split; [constructor|]. intros i. split; [intros []|].
    destruct (Nat.lt_ge_cases i 32) as [Hi|Hi].
    - do 32 (destruct i as [|i]; [vm_compute; discriminate|]). lia.
    - unfold bv_get. cbn [bv_size bv_ext]. destruct (Nat.leb_spec 32 i); [discriminate|lia]. }
  specialize (H HL). vm_compute in H. discriminate.
Qed.
Print Assumptions C10_inplace_count_refuted.
(* updating an allocated result that extends as ones: members beyond its size disappear *)
Theorem C10_update_after_or_refuted : ~ (forall junk a b i j r r', admissible a -> admissible b ->
  eval junk (EBin BOr false a b) = Some r -> bv_set r i = Some r' ->
  bv_get r j = Some true -> bv_get r' j = Some true).
Proof.
  intros H. destruct (eval (fun _ => 0%Z) (EBin BOr false (ENot false (ENew 0)) (ENew 0))) as [r|] eqn:E;
    [|vm_compute in E; discriminate].
  destruct (bv_set r 200) as [r'|] eqn:E'.
  - specialize (H _ _ _ 200 100 _ _ (I : admissible (ENot false (ENew 0))) (I : admissible (ENew 0)) E E').
    vm_compute in E. apply some_inj in E. subst r. vm_compute in E'. apply some_inj in E'. subst r'.
    specialize (H eq_refl). vm_compute in H. discriminate.
  - vm_compute in E. apply some_inj in E. subst r. vm_compute in E'. discriminate.
Qed.
Print Assumptions C10_update_after_or_refuted.

(* ---------------- C54: equality and hash code *)
Theorem C54_bv_eq_is_set_equality : forall junk e1 e2 b1 b2, admissible e1 -> admissible e2 ->
  eval junk e1 = Some b1 -> eval junk e2 = Some b2 ->
  exists r, bv_eq b1 b2 = Some r /\ (r = true <-> forall i, den e1 i = den e2 i).
Proof. exact eval_eq. Qed.
Print Assumptions C54_bv_eq_is_set_equality.
Theorem C54_equal_sets_equal_hash : forall junk e1 e2 b1 b2, admissible e1 -> admissible e2 ->
  eval junk e1 = Some b1 -> eval junk e2 = Some b2 -> (forall i, den e1 i = den e2 i) ->
  exists h, bv_hash b1 = Some h /\ bv_hash b2 = Some h.
Proof. exact eval_hash. Qed.
Print Assumptions C54_equal_sets_equal_hash.
Example C54_example : let e1 := EUpd (ENew 0) [SSet 3; SSet 500; SUnset 500] in let e2 := EUpd (ENew 900) [SSet 3] in
  match eval (fun _ => 0%Z) e1, eval (fun _ => 0%Z) e2 with
  | Some a, Some b => bv_eq a b = Some true /\ bv_hash a = bv_hash b /\ bv_size a <> bv_size b
  | _, _ => False end.
Proof. vm_compute. repeat split; discriminate. Qed.

(* ---------------- C11: deletion files *)
(* what bv_read makes of a written file is the same set, with the right count, and stays a correct
   set under further deletions, whatever bytes follow in the file *)
Theorem C11_deletion_file : forall junk e b, admissible e -> cofinite e = false -> eval junk e = Some b ->
  (Z.of_nat (bv_size b) < 2 ^ 31)%Z ->
  exists bs, bv_write b = Some bs /\ forall rest, exists b', bv_read (bs ++ rest) = ROk b' rest /\
    bv_count b' = bv_count b /\
    forall ops, exists b'', bv_run b' ops = Some b'' /\
      (forall i, bv_get b'' i = Some (set_after (den e) ops i)) /\
      exists l, lists l (set_after (den e) ops) /\ bv_count b'' = Z.of_nat (length l).
Proof. exact eval_file. Qed.
Print Assumptions C11_deletion_file.
Example C11_example : match bv_run (bv_new_capa 100) [SSet 1; SSet 33] with
  | Some b => bv_write b = Some [34; 0; 0; 0; 2; 0; 0; 0; 2]%Z /\
              match bv_read [34; 0; 0; 0; 2; 0; 0; 0; 2; 99]%Z with
              | ROk b' [99%Z] => bv_count b' = 2%Z /\ bv_get b' 33 = Some true
              | _ => False end
  | None => False end.
Proof. vm_compute. auto. Qed.
