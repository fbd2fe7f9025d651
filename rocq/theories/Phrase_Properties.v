(* C34, C35: phrase queries. *)
From Coq Require Import Sorting.Permutation Sorting.Sorted.
From Verif Require Import Util PQueue_Model Phrase_Model Phrase_Spec Phrase_Proofs PhraseSloppy_Proofs.
Open Scope Z_scope.
(* next and skip_to go to the first document with an occurrence of the phrase, whatever qsort does with equal elements; if no position is repeated the frequency is
   the number of occurrences *)
Theorem C34_exact_phrase_partial qsort ph s cur op : sorts qsort -> phrase_ok ph -> reached (exact_run qsort) (phsc_new ph) s cur -> beyond cur op -> exists b s', gives (exact_run qsort) op s (b, s') /\
  if b then after cur op (h_doc s') /\ phrase_in ph (h_doc s') /\ (forall d, after cur op d -> phrase_in ph d -> h_doc s' <= d) /\ 0 < h_freq s' /\ (no_repeats ph -> occurrences ph (h_doc s') (h_freq s'))
  else forall d, after cur op d -> ~ phrase_in ph d.
Proof. intros Hq Hph. exact (exact_phrase qsort Hq ph Hph s cur op). Qed.
Print Assumptions C34_exact_phrase_partial.
(* a sort *)
Fixpoint c34_ins (cmp : pp -> pp -> Z) (a : pp) (l : list pp) : list pp := match l with [] => [a] | b :: t => if cmp a b <=? 0 then a :: l else b :: c34_ins cmp a t end.
Definition c34_sort (cmp : pp -> pp -> Z) (l : list pp) : list pp := fold_right (c34_ins cmp) [] l.
Lemma c34_sorts : sorts c34_sort.
Proof.
  intros cmp Htot Htr. induction l as [|a l (IH1 & IH2)]; [split; constructor|]. change (c34_sort cmp (a :: l)) with (c34_ins cmp a (c34_sort cmp l)).
  assert (HP : forall m, Permutation (a :: m) (c34_ins cmp a m)). { induction m as [|b m IH]; cbn [c34_ins]; [reflexivity|]. destruct (cmp a b <=? 0); [reflexivity|]. rewrite perm_swap. constructor. exact IH. }
  split; [rewrite IH1 at 1; apply HP|]. clear IH1. induction IH2 as [|b m HS IH HF]; cbn [c34_ins]; [repeat constructor|]. destruct (Z.leb_spec (cmp a b) 0) as [Hc|Hc].
  - constructor; [constructor; assumption|]. constructor; [exact Hc|]. eapply Forall_impl; [|exact HF]. intros c. apply Htr. exact Hc.
  - constructor; [exact IH|]. apply (Permutation_Forall (HP m)). constructor; [|exact HF]. destruct (Htot a b); [lia|assumption].
Qed.
(* "a _ b c": document 2 has a 1 4 9, b 3 6 11, c 4 7 13; document 5 has all the terms but not the phrase *)
Definition c34_ph : phrase := [(0, [(1, [1]); (2, [1; 4; 9]); (5, [1]); (7, [2])]); (2, [(2, [3; 6; 11]); (5, [3]); (7, [4])]); (3, [(0, [2]); (2, [4; 7; 13]); (5, [5]); (7, [5])])].
Example C34_exact_phrase_example : sorts c34_sort /\ phrase_ok c34_ph /\ no_repeats c34_ph /\
  (do r <- exact_run c34_sort 60 None (phsc_new c34_ph); do r2 <- exact_run c34_sort 60 None (snd r); do r3 <- exact_run c34_sort 60 None (snd r2); Some [(fst r, h_doc (snd r), h_freq (snd r)); (fst r2, h_doc (snd r2), h_freq (snd r2)); (fst r3, 0, 0)]) = Some [(true, 2, 2); (true, 7, 1); (false, 0, 0)].
Proof. split; [exact c34_sorts|]. split; [split; [discriminate|unfold INT_MAX; repeat first [constructor | lia | discriminate]]|]. split; [repeat first [constructor | lia]|]. vm_compute. reflexivity. Qed.
(* Alternatives that share positions: "a|b c|d" over a document in which a and b are at position 5 and c and d at position 6.  The phrase occurs at one place;
   its frequency is 2. *)
Definition c34_alt : phrase := [(0, [(3, [5; 5])]); (1, [(3, [6; 6])])].
Theorem C34_frequency_refuted : forall qsort, sorts qsort -> exists s', phrase_ok c34_alt /\ gives (exact_run qsort) None (phsc_new c34_alt) (true, s') /\ occurrences c34_alt (h_doc s') 1 /\ h_freq s' = 2.
Proof.
  intros qsort Hq.
  assert (Hcmp : forall l, Permutation l (qsort pp_cmp l)) by (intros l; apply (cmp_sorts qsort Hq l)). assert (Hpos : forall l, Permutation l (qsort pp_pos_cmp l)) by (intros l; apply (pos_sorts qsort Hq l)).
  assert (Hok : phrase_ok c34_alt) by (split; [discriminate|unfold INT_MAX; repeat first [constructor | lia | discriminate]]).
  assert (Hocc : occurrences c34_alt 3 1).
  { exists [5]. split; [repeat constructor; intros []|]. split; [|reflexivity]. intros b. split.
    - intros [<-|[]]. repeat constructor; eexists; (split; [left; reflexivity|cbn; auto]).
    - intros H. apply Forall_inv in H. destruct H as (ps & [E|[]] & H). inversion E; subst ps. cbn in H. left. lia. }
  set (p1 := mkPp true [5; 5] [5; 5] [] 0 (-1) 3 0). set (p2 := mkPp true [6; 6] [6; 6] [] 1 (-1) 3 0).
  set (q1 := mkPp true [5; 5] [5] [] 0 1 3 5). set (q2 := mkPp true [6; 6] [6] [] 1 1 3 5).
  assert (M : move_all None (h_pos (phsc_new c34_alt)) = Some (true, [p1; p2])) by reflexivity.
  assert (P1 : forall l, Permutation [q1; q2] l -> exists l' i, forall f, scan (S (S (S f))) 0 0 (length l - 1) l = Some (2, i, l')).
  { intros l HP. apply Permutation_length_2_inv in HP. destruct HP as [-> | ->]; eexists; eexists; intros f; reflexivity. }
  assert (P2 : forall l, Permutation [p1; p2] l -> exists l' i, forall f, ephsc_phrase_freq qsort (S (S (S f))) 0 l = Some (2, i, l')).
  { intros l HP. assert (E : exists m, first_all l = Some m /\ Permutation [q1; q2] m). { apply Permutation_length_2_inv in HP. destruct HP as [-> | ->]; eexists; (split; [reflexivity|]); [reflexivity|apply perm_swap]. }
    destruct E as (m & E1 & E2). destruct (P1 (qsort pp_pos_cmp m)) as (l' & i & E3); [rewrite E2; apply Hpos|]. exists l', i. intros f. unfold ephsc_phrase_freq. rewrite E1. cbn [obind]. apply E3. }
  pose proof (Hcmp [p1; p2]) as HC. destruct (P2 _ HC) as (l' & i & E). exists (mkPh 3 2 l' i false true). split; [exact Hok|]. split; [|split; [exact Hocc|reflexivity]]. exists 5%nat. intros [|[|[|[|[|f]]]]] Hf; try lia. unfold exact_run, phsc_run. change (h_first (phsc_new c34_alt)) with true. cbv iota. rewrite M. cbn [obind fst snd]. unfold start.
  apply Permutation_length_2_inv in HC. destruct HC as [HC|HC]; rewrite HC in *; cbn [length]; change (prev_num 0 2) with 1%nat; cbn [do_next nth_error obind]; unfold p1 at 1 2, p2 at 1 2; cbn [p_doc]; change (3 <? 3) with false; cbv iota; rewrite E; reflexivity.
Qed.
Print Assumptions C34_frequency_refuted.

(* A sloppy phrase whose term occurs once but is asked for three times, at different offsets, has no match; the same for two positions that are not next to each other
   in the array of the scorer. *)
Theorem C35_three_times_partial fuel slop l x i j k p1 p2 p3 r : nth_error l i = Some p1 -> nth_error l j = Some p2 -> nth_error l k = Some p3 -> single x p1 -> single x p2 -> single x p3 -> p_off p1 <> p_off p2 -> p_off p1 <> p_off p3 -> p_off p2 <> p_off p3 ->
  sphsc_matches fuel true slop l = Some r -> fst r = [].
Proof. exact (three_times fuel slop l x i j k p1 p2 p3 r). Qed.
Print Assumptions C35_three_times_partial.
Theorem C35_not_adjacent_partial fuel slop l x i k p1 p3 r : (i + 1 < k)%nat -> nth_error l i = Some p1 -> nth_error l k = Some p3 -> single x p1 -> single x p3 -> p_off p1 <> p_off p3 ->
  sphsc_matches fuel true slop l = Some r -> fst r = [].
Proof. exact (not_adjacent fuel slop l x i k p1 p3 r). Qed.
Print Assumptions C35_not_adjacent_partial.
Definition c35_p (off x : Z) : pp := mkPp true [x] [x] [] off (-1) 0 0.
Example C35_three_times_example : (do r <- sphsc_matches 20 true 9 [c35_p 0 5; c35_p 1 5; c35_p 2 5]; Some (fst r)) = Some [] /\ (do r <- sphsc_matches 20 true 9 [c35_p 0 5; c35_p 1 7; c35_p 2 9]; Some (fst r)) = Some [2] /\ (do r <- sphsc_matches 20 true 9 [c35_p 0 5; c35_p 1 7; c35_p 2 5]; Some (fst r)) = Some [].
Proof. repeat split; vm_compute; reflexivity. Qed.
(* The check for repeated terms is called with the number of the earlier positions minus one: "a a"~1 matches a document with a single a. *)
Definition c35_aa : phrase := [(0, [(0, [5])]); (1, [(0, [5])])].
Theorem C35_repeated_term_refuted : forall qsort, sorts qsort -> exists s', phrase_ok c35_aa /\ gives (sloppy_run qsort true 1) None (phsc_new c35_aa) (true, s') /\ h_doc s' = 0 /\ 0 < h_freq s'.
Proof.
  intros qsort Hq. assert (Hok : phrase_ok c35_aa) by (split; [discriminate|unfold INT_MAX; repeat first [constructor | lia | discriminate]]).
  set (p1 := mkPp true [5] [5] [] 0 (-1) 0 0). set (p2 := mkPp true [5] [5] [] 1 (-1) 0 0). assert (M : move_all None (h_pos (phsc_new c35_aa)) = Some (true, [p1; p2])) by reflexivity.
  assert (HC : Permutation [p1; p2] (qsort pp_cmp [p1; p2])) by (apply (cmp_sorts qsort Hq)).
  assert (H : exists s', forall f, start (sloppy_freq true 1) (S (S (S (S (S (S (S (S f)))))))) 0 0 true 0 (qsort pp_cmp [p1; p2]) = Some (true, s') /\ h_doc s' = 0 /\ 0 < h_freq s').
  { apply Permutation_length_2_inv in HC. destruct HC as [-> | ->]; eexists; intros f; (split; [vm_compute; reflexivity|split; reflexivity]). }
  destruct H as (s' & H). exists s'. split; [exact Hok|]. split; [|exact (proj2 (H 0%nat))]. exists 8%nat. intros f Hf. do 8 (destruct f as [|f]; [lia|]). unfold sloppy_run, phsc_run. change (h_first (phsc_new c35_aa)) with true. cbv iota. rewrite M. cbn [obind fst snd]. apply (proj1 (H f)).
Qed.
Print Assumptions C35_repeated_term_refuted.
