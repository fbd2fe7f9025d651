(* C41, C42, C43: what a search returns. *)
From Coq Require Import Sorting.Permutation Sorting.Sorted.
From Verif Require Import Util Strcmp PQueue_Model PQueue_Spec Search_Model Search_Spec Search_Proofs Query_Model Query_Spec Query_Proofs.
Open Scope Z_scope.

(* ---------- C41 *)
(* The page holds the ranks first .. first + num - 1 of the only ranking of the hits, the total is the number of hits, the maximum score is
   the maximum if no score is negative. *)
Theorem C41_page_partial coll s first num : sub_ok s -> 0 <= first -> 1 <= num -> (num = INT_MAX \/ num + first <= INT_MAX) ->
  exists R m, ranking by_score (hits_of s) R /\ (forall R', ranking by_score (hits_of s) R' -> R' = R) /\
    isea_search_w coll s first num false = Found (mkTd (Z.of_nat (length (hits_of s))) (slice first num R) m) /\
    (hits_of s <> [] -> Forall (fun h => 0 <= h_score h) (hits_of s) -> is_best (hits_of s) m).
Proof. exact (paged_search coll s first num). Qed.
Print Assumptions C41_page_partial.
(* five hits, three with the same score, one filtered out, one with a post filter that halves the score *)
Definition c41_sub : sub :=
  mkSub (Some [mkHit 0 6; mkHit 2 4; mkHit 3 8; mkHit 4 4; mkHit 7 4; mkHit 9 2]) 10 (Some (fun d => negb (d =? 4))) (Some (fun h => Some (if h_doc h =? 3 then h_score h / 2 else h_score h))) [] 10.
Lemma c41_ok : sub_ok c41_sub.
Proof. unfold sub_ok. cbn. repeat split; try lia; repeat constructor; cbn; try lia. Qed.
Example C41_page_example : sub_ok c41_sub /\ isea_search_w flat0 c41_sub 1 3 false = Found (mkTd 5 [mkHit 2 4; mkHit 3 4; mkHit 7 4] 6).
Proof. split; [exact c41_ok|reflexivity]. Qed.
(* bad arguments raise *)
Theorem C41_arguments coll s first num sort : (num <= 0 \/ first < 0) -> num + first <= INT_MAX -> num <> INT_MAX -> isea_search_w coll s first num sort = Raises.
Proof.
  intros H1 H2 H3. unfold isea_search_w, max_size. destruct (Z.eqb_spec num INT_MAX); [contradiction|]. destruct (Z.ltb_spec INT_MAX (num + first)); [lia|]. destruct (Z.leb_spec num 0); [reflexivity|]. destruct (Z.ltb_spec first 0); [reflexivity|lia].
Qed.
Print Assumptions C41_arguments.
Example C41_arguments_example : isea_search_w flat0 c41_sub 0 0 false = Raises /\ isea_search_w flat0 c41_sub (-1) 10 false = Raises.
Proof. split; reflexivity. Qed.
(* The size of the queue is computed before the arguments are checked and overflows: with the limit one below the largest int, offset 2. *)
Theorem C41_overflow_refuted coll : exists first num, 0 <= first <= INT_MAX /\ 1 <= num <= INT_MAX /\ forall s, isea_search_w coll s first num false = Undefined.
Proof. exists 2, (INT_MAX - 1). split; [unfold INT_MAX; lia|]. split; [unfold INT_MAX; lia|]. intros s. reflexivity. Qed.
Print Assumptions C41_overflow_refuted.
(* The maximum score starts at 0: with negative scores 0 is reported. *)
Theorem C41_negative_scores_refuted coll : exists s td, sub_ok s /\ isea_search_w coll s 0 10 false = Found td /\ td_hits td = hits_of s /\ hits_of s <> [] /\ ~ is_best (hits_of s) (td_max td).
Proof.
  exists (mkSub (Some [mkHit 0 (-3)]) 1 None None [] 1), (mkTd 1 [mkHit 0 (-3)] 0). split; [unfold sub_ok; cbn; repeat split; try lia; repeat constructor; cbn; lia|]. split; [reflexivity|]. split; [reflexivity|]. split; [discriminate|]. intros (_ & h & [<-|[]] & E). discriminate.
Qed.
Print Assumptions C41_negative_scores_refuted.

(* ---------- C42 *)
Theorem C42_sorted_partial coll s first num : coll_ok coll -> sub_ok s -> 0 <= first -> 1 <= num -> (num = INT_MAX \/ num + first <= INT_MAX) ->
  exists R m, ranking (by_keys coll (u_comps s)) (hits_of s) R /\ (forall R', ranking (by_keys coll (u_comps s)) (hits_of s) R' -> R' = R) /\
    isea_search_w coll s first num true = Found (mkTd (Z.of_nat (length (hits_of s))) (slice first num R) m).
Proof. exact (sorted_search coll s first num). Qed.
Print Assumptions C42_sorted_partial.
(* by a text that one document lacks, then backwards by a number, then by number of document *)
Definition c42_coll (a b : list Z) : Z := cmp3 (hd 0 a) (hd 0 b).
Lemma c42_coll_ok : coll_ok c42_coll.
Proof. exact (good_cmp3 (list Z) (hd 0)). Qed.
Definition c42_text : comp := mkComp TString false (fun _ => 0) (fun d => if d =? 1 then None else if d =? 4 then Some [5; 7] else Some [5]).
Definition c42_num : comp := mkComp TInteger true (fun d => if d =? 3 then 9 else 2) (fun _ => None).
Definition c42_sub : sub := mkSub (Some [mkHit 0 6; mkHit 1 4; mkHit 3 8; mkHit 4 4]) 5 None None [c42_text; c42_num] 5.
Lemma c42_ok : sub_ok c42_sub.
Proof. unfold sub_ok. cbn. repeat split; try lia; repeat constructor; cbn; try lia. Qed.
Example C42_sorted_partial_example : coll_ok c42_coll /\ sub_ok c42_sub /\ isea_search_w c42_coll c42_sub 0 3 true = Found (mkTd 4 [mkHit 3 8; mkHit 0 6; mkHit 4 4] 8) /\
  isea_search_w c42_coll c42_sub 2 9 true = Found (mkTd 4 [mkHit 4 4; mkHit 1 4] 8).
Proof. split; [exact c42_coll_ok|]. split; [exact c42_ok|]. split; reflexivity. Qed.

(* ---------- C43 *)
(* Collecting: a search over several searchers is the search over one that holds all their hits; the sort keys of the whole must be those of
   the parts. *)
Theorem C43_collect_partial coll ss cs first num sort : coll_ok coll -> Forall sub_ok ss -> whole_keys 0 cs ss -> total_docs ss <= INT_MAX -> 0 <= first -> 1 <= num -> (num = INT_MAX \/ num + first <= INT_MAX) ->
  msea_search_w coll ss (kinds cs) first num sort = isea_search_w coll (merged ss cs) first num sort.
Proof. exact (multi_search coll ss cs first num sort). Qed.
Print Assumptions C43_collect_partial.
Definition c43_key (start : Z) : comp := mkComp TInteger true (fun d => (d + start) / 3) (fun _ => None).
Definition c43_subs : list sub :=
  [mkSub (Some [mkHit 0 5; mkHit 3 7]) 4 None None [c43_key 0] 4; mkSub None 0 None None [c43_key 4] 3; mkSub (Some [mkHit 1 7; mkHit 2 5]) 5 None None [c43_key 7] 5].
Lemma c43_ok : Forall sub_ok c43_subs /\ whole_keys 0 [c43_key 0] c43_subs.
Proof.
  split; [repeat constructor; cbn; try lia; repeat constructor; cbn; try lia|]. cbn. repeat split; repeat constructor; intros d Hd; cbn; rewrite ?Z.add_0_r; reflexivity.
Qed.
Example C43_collect_example : Forall sub_ok c43_subs /\ whole_keys 0 [c43_key 0] c43_subs /\
  msea_search_w flat0 c43_subs (kinds [c43_key 0]) 0 3 true = Found (mkTd 4 [mkHit 9 5; mkHit 8 7; mkHit 3 7] 7) /\ msea_search_w flat0 c43_subs [] 1 2 false = Found (mkTd 4 [mkHit 8 7; mkHit 0 5] 7).
Proof. split; [apply c43_ok|]. split; [apply c43_ok|]. split; reflexivity. Qed.
(* Rewriting: if nothing that expands is below a prohibited clause, the combined query asks of a document what the query asks. *)
Theorem C43_rewrite_partial pat vs d q : positive q = true -> (exists v, In v vs /\ incl d v) -> (runs d (msea_rewrite pat vs q) = true <-> asks pat d q).
Proof. exact (msea_rewrite_ok pat vs d q). Qed.
Print Assumptions C43_rewrite_partial.
(* with one searcher that holds for every query *)
Theorem C43_rewrite_one pat v d q : incl d v -> (runs d (rewrite_q pat v q) = true <-> asks pat d q).
Proof. intros H. exact (full_ok pat v d H q). Qed.
Print Assumptions C43_rewrite_one.
Definition c43_pat (n : nat) (t : list Z) : bool := match t with b :: _ => b =? Z.of_nat n | [] => false end.
Definition c43_v1 : list (list Z) := [[97]; [98; 120]].  (* a, bx *)
Definition c43_v2 : list (list Z) := [[97]; [98; 121]].  (* a, by *)
Definition c43_pos : query := QBool false [(Must, QExp 98); (MustNot, QTerm [97]); (Should, QTerm [99])].
Example C43_rewrite_example : positive c43_pos = true /\
  msea_rewrite c43_pat [c43_v1; c43_v2] c43_pos = QBool true [(Should, QBool false [(Must, QMany [[98; 120]]); (MustNot, QTerm [97]); (Should, QTerm [99])]); (Should, QBool false [(Must, QMany [[98; 121]]); (MustNot, QTerm [97]); (Should, QTerm [99])])] /\
  runs [[98; 121]] (msea_rewrite c43_pat [c43_v1; c43_v2] c43_pos) = true /\ runs [[97]; [98; 121]] (msea_rewrite c43_pat [c43_v1; c43_v2] c43_pos) = false.
Proof. repeat split. Qed.
(* The rewritten queries of the searchers are joined by "or".  "+a -b*" over an index with the document {a, bx} and one with {a, by} finds
   both documents; over one index with both documents it finds none. *)
Theorem C43_prohibited_expansion_refuted : exists pat v1 v2 q d1 d2, incl d1 v1 /\ incl d2 v2 /\ ~ asks pat d1 q /\ ~ asks pat d2 q /\
  runs d1 (rewrite_q pat (v1 ++ v2) q) = false /\ runs d2 (rewrite_q pat (v1 ++ v2) q) = false /\
  runs d1 (msea_rewrite pat [v1; v2] q) = true /\ runs d2 (msea_rewrite pat [v1; v2] q) = true.
Proof.
  exists c43_pat, c43_v1, c43_v2, (QBool false [(Must, QTerm [97]); (MustNot, QExp 98)]), c43_v1, c43_v2. split; [apply incl_refl|]. split; [apply incl_refl|]. split; [|split; [|repeat split]].
  - rewrite asks_bool. intros (H & _). apply (H MustNot (QExp 98)); [right; left; reflexivity|]. exists [98; 120]. split; [right; left; reflexivity|reflexivity].
  - rewrite asks_bool. intros (H & _). apply (H MustNot (QExp 98)); [right; left; reflexivity|]. exists [98; 121]. split; [right; left; reflexivity|reflexivity].
Qed.
Print Assumptions C43_prohibited_expansion_refuted.
(* Sorting by bytes compares the places of the terms in the dictionary of each index.  Two indexes with one document each: "b" in the first,
   "a" in the second; sorted by this field "b" comes first, in one index with both "a" does. *)
Theorem C43_byte_sort_refuted coll : exists l1 l2 l, l1 = [([98], [0])] /\ l2 = [([97], [0])] /\ l = [([97], [1]); ([98], [0])] /\
  let key x := mkComp TByte false (byte_index 1 x (fun _ => 0)) (fun _ => None) in
  let one x := mkSub (Some [mkHit 0 1]) 1 None None [key x] 1 in
  msea_search_w coll [one l1; one l2] (kinds [key l]) 0 10 true = Found (mkTd 2 [mkHit 0 1; mkHit 1 1] 1) /\
  isea_search_w coll (merged [one l1; one l2] [key l]) 0 10 true = Found (mkTd 2 [mkHit 1 1; mkHit 0 1] 1).
Proof. do 3 eexists. split; [reflexivity|]. split; [reflexivity|]. split; [reflexivity|]. split; reflexivity. Qed.
Print Assumptions C43_byte_sort_refuted.
