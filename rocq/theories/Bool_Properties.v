(* C33: the documents of boolean queries. *)
From Coq Require Import Sorting.Sorted.
From Verif Require Import Util Query_Model Bool_Model Bool_Spec BoolQuery_Proofs.
Open Scope Z_scope.
(* A query in which no conjunction is asked to skip stops at the matching documents, once each, in order. *)
Theorem C33_documents_partial q : leaves_ok q -> tame false q = true ->
  match scorer_of q with
  | None => forall d, matches d q = false
  | Some s => exists l, (exists n, forall f, (n <= f)%nat -> docs_of f s = Some l) /\ StronglySorted Z.lt l /\ forall d, In d l <-> matches d q = true
  end.
Proof. exact (query_docs q). Qed.
Print Assumptions C33_documents_partial.
(* skip_to goes to the first matching document from d on *)
Theorem C33_skip_partial q d : leaves_ok q -> tame true q = true -> 0 <= d ->
  match scorer_of q with
  | None => forall x, matches x q = false
  | Some s => exists b s', (exists n, forall f, (n <= f)%nat -> run f (Some d) s = Some (b, s')) /\
      if b then d <= doc_of s' /\ matches (doc_of s') q = true /\ forall x, d <= x < doc_of s' -> matches x q = false
      else forall x, d <= x -> matches x q = false
  end.
Proof. exact (query_skip q d). Qed.
Print Assumptions C33_skip_partial.
Definition c33_t (l : list Z) : bquery := BTerm (Some l).
(* +(a b -c) +d e -(f g), with an optional clause whose term does not exist *)
Definition c33_q : bquery :=
  BBool [(Must, BBool [(Should, c33_t [1; 3; 5; 9]); (Should, c33_t [2; 3; 6; 8]); (MustNot, c33_t [5; 6])]); (Must, c33_t [1; 2; 3; 5; 8; 9]); (Should, c33_t [9]); (Should, BTerm None); (MustNot, BBool [(Should, c33_t [0; 2]); (Should, c33_t [2; 9])])].
Example C33_documents_example : leaves_ok c33_q /\ tame false c33_q = true /\ (do s <- scorer_of c33_q; docs_of 60 s) = Some [1; 3; 8] /\ map (fun d => matches d c33_q) [1; 2; 3; 5; 8; 9] = [true; false; true; false; true; false].
Proof. split; [cbn; repeat split; repeat constructor; lia|]. split; [reflexivity|]. split; reflexivity. Qed.
(* a disjunction of a term and the documents from 0 to 19 which are not deleted, minus a term *)
Definition c33_q2 : bquery := BBool [(Should, c33_t [4; 30]); (Should, BAll 20 (fun d => d <? 12)); (MustNot, c33_t [12; 14])].
Example C33_skip_example : leaves_ok c33_q2 /\ tame true c33_q2 = true /\ (do s <- scorer_of c33_q2; do r <- run 60 (Some 5) s; Some (fst r, doc_of (snd r))) = Some (true, 13) /\ (do s <- scorer_of c33_q2; do r <- run 60 (Some 31) s; Some (fst r)) = Some false.
Proof. split; [cbn; repeat split; repeat constructor; lia|]. split; [reflexivity|]. split; reflexivity. Qed.
(* csc_skip_to sets more to true although sorting the sub-scorers found one exhausted.  "+c +(+a +b)" with a in 1 and 10, b in 1 and 5, c in 5 and 10:
   document 10 is returned, which does not contain b. *)
Definition c33_and : bquery := BBool [(Must, c33_t [1; 10]); (Must, c33_t [1; 5])].
Theorem C33_nested_conjunction_refuted : exists q s d, leaves_ok q /\ scorer_of q = Some s /\ docs_of 60 s = Some [d] /\ matches d q = false.
Proof.
  exists (BBool [(Must, c33_t [5; 10]); (Must, c33_and)]). eexists. exists 10. split; [cbn; repeat split; repeat constructor; lia|]. split; [reflexivity|]. split; reflexivity.
Qed.
Print Assumptions C33_nested_conjunction_refuted.
(* "+x -(+a +b)" with x in 2, 3 and 10 loses document 10. *)
Theorem C33_prohibited_conjunction_refuted : exists q s d, leaves_ok q /\ scorer_of q = Some s /\ docs_of 60 s = Some [2; 3] /\ d = 10 /\ matches d q = true.
Proof.
  exists (BBool [(Must, c33_t [2; 3; 10]); (MustNot, c33_and)]). eexists. exists 10. split; [cbn; repeat split; repeat constructor; lia|]. split; [reflexivity|]. split; [reflexivity|]. split; reflexivity.
Qed.
Print Assumptions C33_prohibited_conjunction_refuted.
