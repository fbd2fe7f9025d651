(* C130, C131: FieldSymbol and Document. *)
From Verif Require Import Util Codec_Model Seg_Model SortStr_Model RubyDoc_Model RubyDoc_Spec RubyDoc_Proofs.
Open Scope Z_scope.

(* The type is the last one called, whatever was called in between. *)
Theorem C130_type : forall n cs t, type_of (run (Sym n) cs) = t <-> says_type cs t.
Proof. intros n cs t. split; [intros <-; apply run_type|]. intros H. exact (says_type_one _ _ _ (run_type n cs) H). Qed.
Print Assumptions C130_type.
Example C130_type_example : type_of (run (Sym [97]) [Type_ FInteger; Desc; Type_ FString; Desc]) = Some FString /\ type_of (run (Sym [97]) [Desc]) = None.
Proof. split; reflexivity. Qed.

(* desc? turns with each desc, types leave it. *)
Theorem C130_desc : forall n cs, desc_q (run (Sym n) cs) = Nat.odd (descs cs).
Proof. exact run_desc. Qed.
Print Assumptions C130_desc.
Example C130_desc_example : desc_q (run (Sym [97]) [Desc; Type_ FByte]) = true /\ desc_q (run (Sym [97]) [Desc; Type_ FByte; Desc]) = false.
Proof. split; reflexivity. Qed.

(* Other methods are those of the symbol. *)
Theorem C130_name : forall n cs, to_s (run (Sym n) cs) = n.
Proof. exact run_name. Qed.
Print Assumptions C130_name.
Example C130_name_example : to_s (run (Sym [116; 105]) [Desc; Type_ FByte; Desc]) = [116; 105].
Proof. reflexivity. Qed.

(* What they are documented for, :sort => :title.string.desc, raises an error, and so does any array with one. *)
Theorem C130_sort_refuted : forall h n cs b, cs <> [] ->
  sort_init h [rval_of (run (Sym n) cs)] b = ArgError /\ forall vs r, In (rval_of (run (Sym n) cs)) vs -> sort_init h vs b <> Ok r.
Proof. intros h n cs b C. split; [apply sort_fs_one; auto|]. intros vs r I. eapply sort_fs; eauto. Qed.
Print Assumptions C130_sort_refuted.
Example C130_sort_example : sort_init CONSTANTS [rval_of (run (Sym [97]) [Type_ FString; Desc])] false = ArgError /\
  sort_init CONSTANTS [rval_of (run (Sym [97]) [])] false = Ok (CONSTANTS ++ [mkSf (KName [97]) false false], [4; 2]%nat).
Proof. split; reflexivity. Qed.

(* A document has what was stored in it last. *)
Theorem C131_has : forall b ops, (forall k v, hget (d_hash (build b ops)) k = Some v <-> has ops k v) /\ (forall c, d_boost (build b ops) = c <-> boosted b ops c).
Proof. intros b ops. split; [intros; apply build_has|]. intros c. split; [intros <-; apply build_boost|]. apply boosted_one, build_boost. Qed.
Print Assumptions C131_has.
Example C131_has_example : build 1 [Store [1] (VStr [9]); Store [2] (VStr [8]); Boost 5; Store [1] (VArr []); Delete [2]] = mkDoc 5 [([1], VArr [])].
Proof. reflexivity. Qed.

(* Documents that are equal have the same boost and the same fields, but for arrays that stand for fields. *)
Theorem C131_equal : forall b ops c ops', eql (build b ops) (build c ops') = true ->
  (exists e, boosted b ops e /\ boosted c ops' e) /\ (forall k v, has ops k v -> exists w, has ops' k w /\ like v w) /\ (forall k w, has ops' k w -> exists v, has ops k v /\ like v w).
Proof. exact eql_says. Qed.
Print Assumptions C131_equal.
Example C131_equal_example : eql (build 1 [Store [1] (VStr [9]); Store [2] (VField [[8]] 2)]) (build 2 [Store [1] (VArr []); Boost 1; Store [2] (VField [[8]] 2); Store [1] (VStr [9])]) = true /\
  eql (build 1 [Store [1] (VField [[8]] 2)]) (build 1 [Store [1] (VField [[8]] 3)]) = false.
Proof. split; reflexivity. Qed.

(* Documents with the same boost and fields are equal if their keys come in the same order. *)
Theorem C131_same : forall b ops c ops', map fst (d_hash (build b ops)) = map fst (d_hash (build c ops')) -> (forall k v, has ops k v <-> has ops' k v) ->
  (exists e, boosted b ops e /\ boosted c ops' e) -> eql (build b ops) (build c ops') = true.
Proof. exact eql_same. Qed.
Print Assumptions C131_same.
Example C131_same_example : eql (build 1 [Store [1] (VStr [9]); Delete [1]; Store [2] (VArr [[7]]); Store [1] (VStr [9])]) (build 1 [Store [2] (VArr [[7]]); Store [1] (VStr [9])]) = true.
Proof. reflexivity. Qed.

Theorem C131_order : (forall d, eql d d = true) /\ forall d e f, eql d e = true -> eql e f = true -> eql d f = true.
Proof. split; [exact eql_refl|exact eql_trans]. Qed.
Print Assumptions C131_order.
Example C131_order_example : eql (build 1 [Store [1] (VArr [[2]; [3]])]) (build 1 [Store [1] (VField [[2]; [3]] 7)]) = true.
Proof. reflexivity. Qed.

(* Two documents with the same fields, stored in another order, are not equal. *)
Theorem C131_order_refuted : forall b k k' v w, k <> k' -> eql (build b [Store k v; Store k' w]) (build b [Store k' w; Store k v]) = false /\
  forall x u, has [Store k v; Store k' w] x u <-> has [Store k' w; Store k v] x u.
Proof. exact order_bad. Qed.
Print Assumptions C131_order_refuted.
Example C131_order_refuted_example : eql (build 1 [Store [1] (VStr [5]); Store [2] (VStr [6])]) (build 1 [Store [2] (VStr [6]); Store [1] (VStr [5])]) = false.
Proof. reflexivity. Qed.

(* == is not symmetric: an array equals a boosted field, which does not equal the array. *)
Theorem C131_symmetric_refuted : forall b k l c, eql (build b [Store k (VArr l)]) (build b [Store k (VField l c)]) = true /\ eql (build b [Store k (VField l c)]) (build b [Store k (VArr l)]) = false.
Proof. exact sym_bad. Qed.
Print Assumptions C131_symmetric_refuted.
Example C131_symmetric_example : v_eq (VArr [[1]]) (VField [[1]] 1000) = true /\ v_eq (VField [[1]] 1000) (VArr [[1]]) = false.
Proof. split; reflexivity. Qed.
