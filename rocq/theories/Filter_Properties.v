(* C44: constant score queries and filtered queries against the documents their filter selects. *)
From Coq Require Import Sorting.Sorted.
From Verif Require Import Util BitVector_Model Query_Model Bool_Model Bool_Spec Bool_Proofs Filter_Model Filter_Spec Filter_Proofs.
Open Scope nat_scope.

(* A filter that has not been used with the reader before: the search loop over a constant score query returns exactly the documents of
   the index that the filter selects, in increasing order. *)
Theorem C44_first_search_partial mx docs (HW : forall f del, within mx (docs f del)) w f : lookup f (w_cache w) = None -> spare mx (docs f (w_deleted w)) ->
  forall n, mx < n -> exists w', cs_search mx docs n w f = Some (selected (docs f (w_deleted w)) mx, w').
Proof. exact (first_search mx docs HW w f). Qed.
Print Assumptions C44_first_search_partial.
(* the same for any mix of next and skip_to *)
Theorem C44_first_moves_partial mx docs (HW : forall f del, within mx (docs f del)) w f w' ops : lookup f (w_cache w) = None -> spare mx (docs f (w_deleted w)) ->
  filt_get_bv mx docs w f = Some w' -> forward mx (-1) (map Z.of_nat (selected (docs f (w_deleted w)) mx)) ops ->
  cs_moves w' f ops = Some (visits (map Z.of_nat (selected (docs f (w_deleted w)) mx)) ops).
Proof. exact (first_moves mx docs HW w f w' ops). Qed.
Print Assumptions C44_first_moves_partial.

(* two filters on 200 documents *)
Definition c44_docs (f : nat) (del : list nat) : list nat := filter (fun d => negb (member del d)) (match f with 0 => [150; 3; 64] | 1 => [64; 65] | _ => [] end).
Lemma c44_within f del : within 200 (c44_docs f del).
Proof. unfold within, c44_docs. apply Forall_forall. intros d Hd. apply filter_In in Hd. destruct Hd as (Hd & _). destruct f as [|[|f]]; cbn [In] in Hd; lia. Qed.
Example C44_first_example :
  option_map fst (cs_search 200 c44_docs 201 (mkW [] []) 0) = Some [3; 64; 150] /\
  (do w <- filt_get_bv 200 c44_docs (mkW [] []) 0; cs_moves w 0 [Some 4%Z; None; Some 151%Z]) = Some [Some 64%Z; Some 150%Z; None] /\
  forward 200 (-1) (map Z.of_nat (selected (c44_docs 0 []) 200)) [Some 4%Z; None; Some 151%Z].
Proof. split; [|split]; [vm_compute; reflexivity|vm_compute; reflexivity|]. change (map Z.of_nat (selected (c44_docs 0 []) 200)) with [3%Z; 64%Z; 150%Z]. cbn. lia. Qed.

(* Running the same constant score query again (the same filter, the same reader) returns no document at all, whatever the filter: the
   scan goes on where the first search stopped. *)
Theorem C44_second_search_empty_refuted mx docs (HW : forall f del, within mx (docs f del)) w f w' n l m : lookup f (w_cache w) = None -> spare mx (docs f (w_deleted w)) -> mx < n -> 0 < m ->
  cs_search mx docs n w f = Some (l, w') -> exists w2, cs_search mx docs m w' f = Some ([], w2).
Proof. exact (second_search mx docs HW w f w' n l m). Qed.
Print Assumptions C44_second_search_empty_refuted.
Theorem C44_each_time_refuted : ~ (forall mx docs w f w' l n, (forall f del, within mx (docs f del)) -> spare mx (docs f (w_deleted w)) -> mx < n ->
  cs_search mx docs n w f = Some (l, w') -> exists w2, cs_search mx docs n w' f = Some (l, w2)).
Proof.
  intros H. assert (E : match cs_search 200 c44_docs 201 (mkW [] []) 0 with Some (l, w') => l = [3; 64; 150] /\ option_map fst (cs_search 200 c44_docs 201 w' 0) = Some [] | None => False end) by (vm_compute; auto).
  destruct (cs_search 200 c44_docs 201 (mkW [] []) 0) as [(l & w')|] eqn:E1; [|exact E]. destruct E as (-> & E2). destruct (H 200 c44_docs (mkW [] []) 0 w' [3; 64; 150] 201 c44_within) as (w2 & Ew); [right; left; discriminate|lia|exact E1|]. rewrite Ew in E2. discriminate.
Qed.
Print Assumptions C44_each_time_refuted.
(* Two scorers of one filter at the same time (two clauses of a boolean query, say): each skips what the other one has seen. *)
Theorem C44_two_scorers_refuted : exists w1 w2, steps 200 c44_docs (mkW [] []) [Open 0; Open 0] = Some w1 /\
  cs_move w1 0 None = Some (Some 3, w2) /\ option_map fst (cs_move w2 0 None) = Some (Some 64).
Proof.
  destruct (steps 200 c44_docs (mkW [] []) [Open 0; Open 0]) as [w1|] eqn:E1; [|vm_compute in E1; discriminate].
  assert (E : (do w <- steps 200 c44_docs (mkW [] []) [Open 0; Open 0]; do r <- cs_move w 0 None; do x <- cs_move (snd r) 0 None; Some (fst r, fst x)) = Some (Some 3, Some 64)) by (vm_compute; reflexivity). rewrite E1 in E. cbn [obind] in E.
  destruct (cs_move w1 0 None) as [(d & w2)|] eqn:E2; [|discriminate]. cbn [obind fst snd] in E. exists w1, w2. destruct (cs_move w2 0 None) as [(x & w3)|]; [|discriminate]. cbn [obind fst snd] in E. apply some_inj in E. injection E as -> ->. splits; auto.
Qed.
Print Assumptions C44_two_scorers_refuted.
(* A document deleted after the filter's first use is still returned: the vector is not computed again. *)
Theorem C44_deleted_refuted : ~ (forall mx docs f d l w w', (forall f del, within mx (docs f del)) -> (forall f del, In d del -> ~ In d (docs f del)) ->
  spare mx (docs f []) -> steps mx docs (mkW [] []) [Open f; Del d] = Some w -> cs_search mx docs (S mx) w f = Some (l, w') -> ~ In d l).
Proof.
  intros H. assert (E : (do w <- steps 200 c44_docs (mkW [] []) [Open 0; Del 64]; do r <- cs_search 200 c44_docs 201 w 0; Some (fst r)) = Some [3; 64; 150]) by (vm_compute; reflexivity).
  destruct (steps 200 c44_docs (mkW [] []) [Open 0; Del 64]) as [w|] eqn:E1; [|discriminate]. cbn [obind] in E. destruct (cs_search 200 c44_docs 201 w 0) as [(l & w')|] eqn:E2; [|discriminate]. cbn [obind fst] in E. apply some_inj in E. subst l.
  apply (H 200 c44_docs 0 64 [3; 64; 150] w w' c44_within); auto; [|right; left; discriminate|right; left; reflexivity].
  intros f del Hd Hi. unfold c44_docs in Hi. apply filter_In in Hi. destruct Hi as (_ & Hi). rewrite (proj2 (member_in del 64) Hd) in Hi. discriminate.
Qed.
Print Assumptions C44_deleted_refuted.
(* An index whose number of documents is a multiple of 32 (and at least 128) and whose last document is selected: the last next of the
   search reads behind the vector. *)
Theorem C44_last_document_refuted : exists docs : nat -> list nat -> list nat, (forall f del, within 128 (docs f del)) /\ forall n, cs_search 128 docs n (mkW [] []) 0 = None.
Proof.
  exists (fun _ _ => [127]). split; [intros; repeat constructor|]. intros [|[|n]]; [vm_compute; reflexivity|vm_compute; reflexivity|].
  assert (E : (do w <- filt_get_bv 128 (fun _ _ => [127]) (mkW [] []) 0; do r <- cs_move w 0 None; Some (fst r, cs_move (snd r) 0 None)) = Some (Some 127, None)) by (vm_compute; reflexivity).
  unfold cs_search. destruct (filt_get_bv 128 (fun _ _ => [127]) (mkW [] []) 0) as [w|]; [|discriminate]. cbn [obind] in *. cbn [cs_loop]. destruct (cs_move w 0 None) as [(d & w2)|]; [|reflexivity]. cbn [obind fst snd] in *. apply some_inj in E. injection E as -> Ew. cbn [obind fst snd]. rewrite Ew. reflexivity.
Qed.
Print Assumptions C44_last_document_refuted.

(* A filtered query returns exactly the documents that its query matches and its filter selects, in increasing order, whatever was done
   before with this filter and others: scorers opened, moved, abandoned (nothing is deleted meanwhile). *)
Theorem C44_filtered_partial mx docs (HW : forall f del, within mx (docs f del)) del l w f q s : Forall quiet l -> steps mx docs (mkW del []) l = Some w ->
  leaves_ok q -> tame false q = true -> scorer_of q = Some s ->
  exists r w', (exists n, forall n', n <= n' -> fq_search mx docs n' w f (Some s) = Some (r, w')) /\ StronglySorted Z.lt r /\ forall d, In d r <-> matches d q = true /\ In (Z.to_nat d) (docs f del).
Proof. exact (filtered_search mx docs HW del l w f q s). Qed.
Print Assumptions C44_filtered_partial.
Theorem C44_filtered_moves_partial mx docs (HW : forall f del, within mx (docs f del)) del l w w' f q s ops : Forall quiet l -> steps mx docs (mkW del []) l = Some w ->
  filt_get_bv mx docs w f = Some w' -> leaves_ok q -> tame (existsb skips ops) q = true -> scorer_of q = Some s ->
  exists r, StronglySorted Z.lt r /\ (forall d, In d r <-> matches d q = true /\ In (Z.to_nat d) (docs f del)) /\
    (forward mx (-1) r ops -> exists n, forall n', n <= n' -> fq_moves n' w' f s ops = Some (visits r ops)).
Proof. exact (filtered_moves mx docs HW del l w w' f q s ops). Qed.
Print Assumptions C44_filtered_moves_partial.
Definition c44_q : bquery := BBool [(Should, BTerm (Some [3%Z; 5%Z; 64%Z])); (Should, BTerm (Some [150%Z; 160%Z]))].
Example C44_filtered_example :
  option_map fst (do w <- steps 200 c44_docs (mkW [] []) [Open 0; Move 0 None; Move 0 (Some 70); Open 1]; fq_search 200 c44_docs 40 w 0 (scorer_of c44_q)) = Some [3%Z; 64%Z; 150%Z] /\
  (do w <- steps 200 c44_docs (mkW [] []) [Open 0; Move 0 None]; do s <- scorer_of c44_q; fq_moves 40 w 0 s [None; Some 65%Z; None]) = Some [Some 3%Z; Some 150%Z; None] /\
  leaves_ok c44_q /\ tame true c44_q = true.
Proof. splits; [vm_compute; reflexivity|vm_compute; reflexivity| |reflexivity]. cbn. splits; repeat constructor; lia. Qed.
(* A query without a scorer (a phrase in a field the index does not have, say) matches nothing; with a filter the search crashes. *)
Theorem C44_no_scorer_refuted : scorer_of (BTerm None) = None /\ (forall d, matches d (BTerm None) = false) /\
  forall mx docs n w f, fq_search mx docs n w f (scorer_of (BTerm None)) = None.
Proof. splits; [reflexivity|reflexivity|]. intros. unfold fq_search. destruct (filt_get_bv mx docs w f); reflexivity. Qed.
Print Assumptions C44_no_scorer_refuted.
