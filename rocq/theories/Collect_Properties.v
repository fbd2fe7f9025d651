(* C113: the positions a query marks.  C114: sloppy phrases.  C115: ranges of numbers.  C116: phrases of one part. *)
From Coq Require Import Sorting.Sorted Sorting.Permutation.
From Verif Require Import Util Strcmp Match_Model Match_Spec Match_Properties Collect_Model Collect_Spec Collect_Proofs CollectTyped_Proofs CollectExact_Proofs CollectSloppy_Proofs CollectTree_Proofs Ring.
From Verif Require Range_Model Range_Properties.
Open Scope Z_scope.

(* ---------- C113 *)
(* each match begins and ends at positions of the field; those in matches are those the query marks *)
Theorem C113_matches : forall num nle nlt zero sscanf psort v q, psorts psort -> tv_ok v -> hq_ok num sscanf v q ->
  exists ms n, (forall f, (n <= f)%nat -> collect num nle nlt zero sscanf psort f v q = Some ms) /\ (forall r, In r ms -> held v (fst r) /\ held v (snd r) /\ fst r <= snd r) /\
    (forall p, inside ms p -> marks num nle nlt sscanf v q p) /\ (no_sloppy q -> forall p, marks num nle nlt sscanf v q p -> inside ms p) /\ ((exists p, marks num nle nlt sscanf v q p) -> ms <> []).
Proof. intros num nle nlt zero sscanf psort v q HS HV Hq. exact (right_all num nle nlt zero sscanf psort HS v HV q Hq). Qed.
Print Assumptions C113_matches.
(* in the text of the whole field exactly these are tagged *)
Theorem C113_highlight : forall num nle nlt zero sscanf psort qsort v q text offs pre post, psorts psort -> qsorts qsort -> tv_ok v -> hq_ok num sscanf v q -> no_sloppy q -> text_ok text offs v -> text <> [] ->
  exists ms n out, (forall f, (n <= f)%nat -> collect num nle nlt zero sscanf psort f v q = Some ms) /\ apart 0 out /\ (forall p, covers out p <-> marks num nle nlt sscanf v q p) /\
    highlight_field qsort (vec_of ms) (mkLdf text (Z.of_nat (length text)) false) offs pre post = Some (tagged text pre post 0 (map (offset_pair offs) out)) /\ tagged text [] [] 0 (map (offset_pair offs) out) = text.
Proof.
  intros num nle nlt zero sscanf psort qsort v q text offs pre post HS HQ HV Hq Hn HT Hne. destruct (shows num nle nlt zero sscanf psort HS v HV qsort q text offs pre post HQ Hq HT Hne) as (ms & n & out & H1 & H2 & H3 & H4 & _ & H6 & H7). exists ms, n, out. splits; [exact H1|exact H2|intros p; split; [apply H3|apply H4; exact Hn]|exact H6|exact H7].
Qed.
Print Assumptions C113_highlight.
(* "ax by cz ax by" *)
Definition c113_v : tv := mkTv 1 [([97; 120], [0; 3]); ([98; 121], [1; 4]); ([99; 122], [2])].
Definition c113_text : list Z := [97; 120; 32; 98; 121; 32; 99; 122; 32; 97; 120; 32; 98; 121].
Definition c113_offs : list (Z * Z) := [(0, 2); (3, 5); (6, 8); (9, 11); (12, 14)].
Fixpoint pins (a : Z * list (list Z)) (l : list (Z * list (list Z))) : list (Z * list (list Z)) := match l with [] => [a] | b :: t => if fst a <=? fst b then a :: l else b :: pins a t end.
Definition psort0 (l : list (Z * list (list Z))) : list (Z * list (list Z)) := fold_right pins [] l.
Example C113_psort_example : psorts psort0.
Proof.
  assert (HI : forall a l, Permutation (a :: l) (pins a l)) by (intros a l; induction l as [|b t IH]; cbn [pins]; [reflexivity|]; destruct (fst a <=? fst b); [reflexivity|]; rewrite perm_swap; constructor; exact IH).
  intros l. split; [induction l as [|a l IH]; cbn; [constructor|]; etransitivity; [constructor; exact IH|apply HI]|].
  induction l as [|a l IH]; cbn [psort0 fold_right]; [constructor|]. fold (psort0 l). revert IH. generalize (psort0 l). intros q. induction q as [|b t IHt]; intros Hq; cbn [pins map]; [repeat constructor|]. cbn [map] in Hq. destruct (Z.leb_spec (fst a) (fst b)) as [H|H].
  - cbn [map]. constructor; [exact Hq|]. apply up_inv in Hq. constructor; [exact H|]. apply Forall_forall. intros x Hx. pose proof (proj2 Hq x Hx). lia.
  - cbn [map]. apply up_inv in Hq. constructor; [apply IHt; apply Hq|]. apply Forall_forall. intros x Hx. apply in_map_iff in Hx. destruct Hx as (y & <- & Hy). apply (Permutation_in _ (Permutation_sym (HI a t))) in Hy. destruct Hy as [<-|Hy]; [lia|]. apply (proj2 Hq). apply in_map. exact Hy.
Qed.
Notation coll := (collect Z Z.leb Z.ltb 0 (Range_Properties.isc 0) psort0).
(* the phrase "by cz" or "by ax", the range [cz, +oo), not ax *)
Definition c113_q : hq := HBool [(false, HPhrase 1 0 [(1, [[97; 120]; [99; 122]]); (0, [[98; 121]])]); (false, HRange 1 (Range_Model.mkRange (Some [99; 122]) None true false)); (true, HTerm 1 [97; 120]); (false, HTerm 2 [97; 120]); (false, HOther)].
Example C113_example : coll 20 c113_v c113_q = Some [(2, 2); (1, 2)] /\ tv_ok c113_v /\ text_ok c113_text c113_offs c113_v /\
  (do ms <- coll 20 c113_v c113_q; highlight_field isort (vec_of ms) (mkLdf c113_text 14 false) c113_offs [60] [62]) = Some [97; 120; 32; 60; 98; 121; 32; 99; 122; 62; 32; 97; 120; 32; 98; 121].
Proof.
  split; [vm_compute; reflexivity|]. split; [|split; [|vm_compute; reflexivity]].
  - split; [repeat constructor; vm_compute; reflexivity|]. repeat constructor; cbn; try discriminate; lia.
  - assert (HH : forall p, held c113_v p -> 0 <= p < 5) by (intros p (t & ps & Hin & Hp); cbn in Hin; destruct Hin as [E|[E|[E|[]]]]; injection E as <- <-; cbn in Hp; intuition lia). split; [intros p Hp; exact (HH p Hp)|]. split.
    + intros p o _ H. do 5 (destruct p as [|p]; [apply some_inj in H; subst o; cbn; lia|]). cbn in H. destruct p; discriminate.
    + intros p q o r _ _ Hlt H1 H2. do 5 (destruct p as [|p]; [do 5 (destruct q as [|q]; [apply some_inj in H1, H2; subst o r; cbn; lia|]); cbn in H2; destruct q; discriminate|]). cbn in H1. destruct p; discriminate.
Qed.

(* ---------- C114 *)
Theorem C114_sloppy : forall psort v field slop poss, tv_ok v -> (2 <= length poss)%nat -> begins v poss -> 0 < slop ->
  exists ms n, (forall f, (n <= f)%nat -> phq_matchv psort f v field slop poss = Some ms) /\ (forall r, In r ms -> tv_field v = field /\ exists xs, sloppy_match v slop poss xs r) /\
    (tv_field v = field -> forall xs, placed v poss xs -> close_by slop xs -> exists r ys, In r ms /\ sloppy_match v slop poss ys r /\ between ys xs).
Proof. intros psort v field slop poss HV. exact (sloppy_ok v HV psort field slop poss). Qed.
Print Assumptions C114_sloppy.
Theorem C114_exact : forall psort v field slop poss, tv_ok v -> psorts psort -> poss <> [] -> slop <= 0 ->
  exists ms n, (forall f, (n <= f)%nat -> phq_matchv psort f v field slop poss = Some ms) /\ forall r, In r ms <-> tv_field v = field /\ exact_match v poss r.
Proof. intros psort v field slop poss HV. exact (exact_ok v HV psort field slop poss). Qed.
Print Assumptions C114_exact.
(* "cz by"~2 and "ax cz"~1 *)
Example C114_example : phq_matchv psort0 20 c113_v 1 2 [(0, [[99; 122]]); (1, [[98; 121]])] = Some [(1, 2); (2, 4)] /\ phq_matchv psort0 20 c113_v 1 1 [(0, [[97; 120]]); (1, [[99; 122]])] = Some [(0, 2)] /\
  phq_matchv psort0 20 c113_v 1 0 [(1, [[98; 121]]); (0, [[97; 120]])] = Some [(0, 1); (3, 4)].
Proof. vm_compute. auto. Qed.

(* ---------- C115 *)
Theorem C115_numbers_partial : forall num nle nlt zero sscanf v field g, tv_ok v -> Forall (fun t => fst t <> []) (tv_terms v) -> (forall l, Range_Model.r_lower g = Some l -> exists n, number num sscanf l n) -> (forall u, Range_Model.r_upper g = Some u -> exists n, number num sscanf u n) -> no_stale num sscanf v g ->
  exists ms, trq_matchv num nle nlt zero sscanf v field g = Some ms /\ forall r, In r ms <-> tv_field v = field /\ exists t p x, number num sscanf t x /\ num_between num nle nlt sscanf g x /\ occurs v t p /\ r = (p, p).
Proof. exact trq_ok. Qed.
Print Assumptions C115_numbers_partial.
(* if a bound is no number, the range is one of words *)
Theorem C115_words : forall num nle nlt zero sscanf v field g, tv_ok v -> no_number num sscanf (Range_Model.r_lower g) \/ no_number num sscanf (Range_Model.r_upper g) ->
  exists ms, trq_matchv num nle nlt zero sscanf v field g = Some ms /\ forall r, In r ms <-> tv_field v = field /\ exists t p, in_range g t /\ occurs v t p /\ r = (p, p).
Proof. exact trq_words. Qed.
Print Assumptions C115_words.
(* the term that is looked at first is no number but as long as the bound *)
Theorem C115_stale_refuted : forall num nle nlt zero sscanf v field g t r x, tv_field v = field -> tv_terms v = r ++ [t] -> Range_Model.r_upper g = None -> (exists l, Range_Model.r_lower g = Some l /\ number num sscanf l x /\ length (fst t) = length l) -> (forall y l, sscanf (fst t) <> Range_Model.SOk num y l) ->
  trq_matchv num nle nlt zero sscanf v field g = None.
Proof. exact stale_bad. Qed.
Print Assumptions C115_stale_refuted.
(* "7 12 a 3" in [4, +oo) and [12, +oo) *)
Definition c115_v : tv := mkTv 1 [([49; 50], [1]); ([51], [3]); ([55], [0]); ([97], [2])].
Example C115_example : trq_matchv Z Z.leb Z.ltb 0 (Range_Properties.isc 0) c115_v 1 (Range_Model.mkRange (Some [52]) None true false) = None /\ trq_matchv Z Z.leb Z.ltb 0 (Range_Properties.isc 0) c115_v 1 (Range_Model.mkRange (Some [49; 48]) None true false) = Some [(1, 1)].
Proof. vm_compute. auto. Qed.
(* [4, b): of "7 12 a 3" the words from "4" up to "b" *)
Example C115_words_example : trq_matchv Z Z.leb Z.ltb 0 (Range_Properties.isc 0) c115_v 1 (Range_Model.mkRange (Some [52]) (Some [98]) true false) = Some [(0, 0); (2, 2)] /\ no_number Z (Range_Properties.isc 0) (Some [98]).
Proof. split; [vm_compute; reflexivity|]. exists [98]. split; [reflexivity|]. left. vm_compute. reflexivity. Qed.
Example C115_stale_example : Range_Properties.isc 0 [97] = Range_Model.SFail Z /\ number Z (Range_Properties.isc 0) [49; 48] 10.
Proof. vm_compute. auto. Qed.

(* ---------- C116 *)
Theorem C116_one_part_refuted : forall psort v slop part x, tv_ok v -> 0 < slop -> part_at v x part -> forall f, phq_matchv psort f v (tv_field v) slop [part] = None.
Proof. intros psort v slop part x HV. exact (sloppy_one v HV psort slop part x). Qed.
Print Assumptions C116_one_part_refuted.
Example C116_example : phq_matchv psort0 50 c113_v 1 2 [(0, [[99; 122]])] = None /\ phq_matchv psort0 50 c113_v 1 0 [(0, [[99; 122]])] = Some [(2, 2)].
Proof. vm_compute. auto. Qed.
