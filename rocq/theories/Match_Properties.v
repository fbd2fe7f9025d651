(* C49: compaction of match ranges.  C62, C63: highlighting a whole field.  C64: excerpts. *)
From Coq Require Import Sorting.Permutation Sorting.Sorted.
From Verif Require Import Util Ring Match_Model Match_Spec Match_Proofs.
Open Scope Z_scope.

Lemma proper_of ms : (forall m, In m ms -> fst m <= snd m) -> proper (map range ms).
Proof. intros H m Hm. apply in_map_iff in Hm. destruct Hm as (x & <- & Hx). exact (H x Hx). Qed.
Lemma ne_map {A B} (f : A -> B) l : l <> [] -> map f l <> [].
Proof. destruct l; [congruence|discriminate]. Qed.
Lemma compact_cov qsort ms : qsorts qsort -> ms <> [] -> (forall m, In m ms -> fst m <= snd m) ->
  exists w out, compact qsort false (vec_of ms) = Some w /\ v_list w = Some out /\ apart 1 out /\ proper out /\ forall p, covers out p <-> covers (map range ms) p.
Proof. intros Hq Hne Hp. destruct (compact_ok false qsort Hq _ _ (vec_ok ms) (ne_map _ _ Hne) (proper_of ms Hp)) as (w & out & E1 & E2 & [A P _ C _ _ _ _ _]). exists w, out. splits; auto. Qed.
Theorem C49_compact_partial : forall qsort ms, qsorts qsort -> ms <> [] -> (forall m, In m ms -> fst m <= snd m) ->
  exists w out, compact qsort false (vec_of ms) = Some w /\ v_list w = Some out /\ apart 1 out /\ proper out /\ forall p, covers out p <-> covers (map range ms) p.
Proof. exact compact_cov. Qed.
Print Assumptions C49_compact_partial.
(* with breaks: neighbours stay in one range only if a match has both; the score of a range is that of the matches in it *)
Lemma compact_br qsort ms : qsorts qsort -> ms <> [] -> (forall m, In m ms -> fst m <= snd m) ->
  exists w out, compact qsort true (vec_of ms) = Some w /\ v_list w = Some out /\ apart 0 out /\ proper out /\ (forall p, covers out p <-> covers (map range ms) p) /\
    (forall p, joins out p <-> joins (map range ms) p) /\ forall o, In o out -> m_score o = total (filter (within o) (map range ms)).
Proof. intros Hq Hne Hp. destruct (compact_ok true qsort Hq _ _ (vec_ok ms) (ne_map _ _ Hne) (proper_of ms Hp)) as (w & out & E1 & E2 & [A P _ C _ J _ _ S]). exists w, out. splits; auto. Qed.
Theorem C49_breaks_partial : forall qsort ms, qsorts qsort -> ms <> [] -> (forall m, In m ms -> fst m <= snd m) ->
  exists w out, compact qsort true (vec_of ms) = Some w /\ v_list w = Some out /\ apart 0 out /\ proper out /\ (forall p, covers out p <-> covers (map range ms) p) /\
    (forall p, joins out p <-> joins (map range ms) p) /\ forall o, In o out -> m_score o = total (filter (within o) (map range ms)).
Proof. exact compact_br. Qed.
Print Assumptions C49_breaks_partial.
(* without matches there is one afterwards, which was never written *)
Lemma empty_compact qsort br : qsorts qsort -> exists w, compact qsort br matchv_new = Some w /\ v_size w = 1%nat /\ v_list w = None.
Proof. intros Hq. assert (E : qsort mr_cmp [] = []) by (destruct (qsort_ok br qsort Hq []) as (H & _); apply Permutation_nil in H; exact H). unfold compact, matchv_sort. cbn [v_list matchv_new v_size v_mem INIT_CAPA repeat length Nat.leb firstn all_some obind]. rewrite E. cbn. eexists. split; [reflexivity|]. split; reflexivity. Qed.
Theorem C49_empty_refuted : forall qsort br, qsorts qsort -> exists w, compact qsort br matchv_new = Some w /\ v_size w = 1%nat /\ v_list w = None.
Proof. exact empty_compact. Qed.
Print Assumptions C49_empty_refuted.

(* a qsort: insertion *)
Fixpoint ins (cmp : mr -> mr -> Z) (a : mr) (l : list mr) : list mr := match l with [] => [a] | b :: t => if cmp a b <=? 0 then a :: l else b :: ins cmp a t end.
Definition isort (cmp : mr -> mr -> Z) (l : list mr) : list mr := fold_right (ins cmp) [] l.
Lemma ins_perm cmp a l : Permutation (a :: l) (ins cmp a l).
Proof. induction l as [|b t IH]; cbn [ins]; [reflexivity|]. destruct (cmp a b <=? 0); [reflexivity|]. rewrite perm_swap. constructor. exact IH. Qed.
Example C49_qsort_example : qsorts isort.
Proof.
  intros cmp Ht Hc l. split; [induction l as [|a l IH]; cbn; [constructor|]; etransitivity; [constructor; exact IH|apply ins_perm]|].
  induction l as [|a l IH]; cbn [isort fold_right]; [constructor|]. fold (isort cmp l). revert IH. generalize (isort cmp l). intros q Hq. induction Hq as [|b t Hs IHs HF]; cbn [ins]; [constructor; constructor|]. destruct (Z.leb_spec (cmp a b) 0) as [H|H].
  - constructor; [constructor; assumption|]. constructor; [exact H|]. rewrite Forall_forall in *. intros x Hx. apply (Hc a b x); auto.
  - constructor; [exact IHs|]. assert (Hba : cmp b a <= 0) by (destruct (Ht a b); lia). rewrite Forall_forall in *. intros x Hx. apply (Permutation_in _ (Permutation_sym (ins_perm cmp a t))) in Hx. destruct Hx as [<-|Hx]; auto.
Qed.
Definition show (v : option mvec) : option (list (Z * Z * Z)) := do w <- v; do l <- v_list w; Some (map (fun m => (m_start m, m_end m, m_score m)) l).
Example C49_example : let ms := [(6, 8); (3, 5); (12, 12); (4, 4); (8, 9); (12, 12); (13, 13); (1, 1); (20, 22); (21, 30); (7, 7)] in
  show (compact isort true (vec_of ms)) = Some [(1, 1, 1); (3, 5, 2); (6, 9, 3); (12, 12, 2); (13, 13, 1); (20, 30, 2)] /\
  option_map (map fst) (show (compact isort false (vec_of ms))) = Some [(1, 1); (3, 9); (12, 13); (20, 30)].
Proof. vm_compute. auto. Qed.

(* ---------- C62 *)
Lemma highlights qsort text offs ms pre post : qsorts qsort -> offsets_ok text offs ms -> ms <> [] ->
  exists out, apart 0 out /\ (forall p, covers out p <-> covers (map range ms) p) /\ (forall p, joins out p <-> joins (map range ms) p) /\
    highlight_field qsort (vec_of ms) (mkLdf text (Z.of_nat (length text)) false) offs pre post = Some (tagged text pre post 0 (map (offset_pair offs) out)) /\ tagged text [] [] 0 (map (offset_pair offs) out) = text.
Proof. intros Hq HO Hne. destruct (highlight_ok qsort Hq text offs ms HO pre post Hne) as (out & [A P _ C _ J _ _ S] & E1 & E2). exists out. splits; auto. Qed.
Theorem C62_highlight : forall qsort text offs ms pre post, qsorts qsort -> offsets_ok text offs ms -> ms <> [] ->
  exists out, apart 0 out /\ (forall p, covers out p <-> covers (map range ms) p) /\ (forall p, joins out p <-> joins (map range ms) p) /\
    highlight_field qsort (vec_of ms) (mkLdf text (Z.of_nat (length text)) false) offs pre post = Some (tagged text pre post 0 (map (offset_pair offs) out)) /\ tagged text [] [] 0 (map (offset_pair offs) out) = text.
Proof. exact highlights. Qed.
Print Assumptions C62_highlight.
Lemma nothing qsort text offs pre post : text <> [] -> highlight_field qsort matchv_new (mkLdf text (Z.of_nat (length text)) false) offs pre post = Some text.
Proof.
  intros Hne. assert (Hl : (1 <= length text)%nat) by (destruct text; [congruence|cbn; lia]). unfold highlight_field. cbn [v_size matchv_new Nat.ltb Nat.leb f_len]. unfold get_bytes. cbn [f_comp f_len f_text]. rewrite (proj2 (Z.leb_gt (Z.of_nat (length text)) 0)) by lia. cbn [Z.ltb Z.compare orb]. rewrite (proj2 (Z.ltb_ge _ (0 + _))) by lia. cbn [obind fst snd Z.to_nat skipn f_len]. rewrite Nat2Z.id, firstn_all. unfold put. cbn [length app]. rewrite (proj2 (Z.leb_le _ _)) by lia. cbn [obind].
  rewrite (proj2 (Z.leb_le 0 _)) by lia. rewrite (proj2 (Z.ltb_lt _ _)) by lia. rewrite Z.leb_refl. cbn [andb]. rewrite firstn_all. reflexivity.
Qed.
Theorem C62_no_match : forall qsort text offs pre post, text <> [] -> highlight_field qsort matchv_new (mkLdf text (Z.of_nat (length text)) false) offs pre post = Some text.
Proof. exact nothing. Qed.
Print Assumptions C62_no_match.
(* "a bb ccc dd" with the words 1 and 2 as one match, 2 as another *)
Definition c62_text : list Z := [97; 32; 98; 98; 32; 99; 99; 99; 32; 100; 100].
Definition c62_offs : list (Z * Z) := [(0, 1); (2, 4); (5, 8); (9, 11)].
Example C62_example : highlight_field isort (vec_of [(2, 2); (1, 2); (0, 0)]) (mkLdf c62_text 11 false) c62_offs [60] [62] = Some [60; 97; 62; 32; 60; 98; 98; 32; 99; 99; 99; 62; 32; 100; 100].
Proof. vm_compute. reflexivity. Qed.
Example C62_offsets_example : offsets_ok c62_text c62_offs [(2, 2); (1, 2); (0, 0)].
Proof.
  split; [intros m [<-|[<-|[<-|[]]]]; cbn; lia|]. split.
  - intros p o _ H. do 4 (destruct p as [|p]; [apply some_inj in H; subst o; cbn; lia|]). cbn in H. destruct p; discriminate.
  - intros p q o r _ _ Hlt H1 H2. do 4 (destruct p as [|p]; [do 4 (destruct q as [|q]; [apply some_inj in H1, H2; subst o r; cbn; lia|]); cbn in H2; destruct q; discriminate|]). cbn in H1. destruct p; discriminate.
Qed.

(* ---------- C63: a compressed field whose text is longer than its stored form *)
Lemma compressed_none qsort text len offs pre post : 0 < len -> len < Z.of_nat (length text) -> highlight_field qsort matchv_new (mkLdf text len true) offs pre post = None.
Proof.
  intros H1 H2. unfold highlight_field. cbn [v_size matchv_new Nat.ltb Nat.leb f_len]. unfold get_bytes. cbn [f_comp f_len f_text]. destruct (_ || _); [reflexivity|]. destruct (len <=? 0); [reflexivity|]. destruct (_ <? 0 + len); [reflexivity|]. cbn [obind fst snd Z.to_nat skipn f_len]. unfold put. cbn [length app]. destruct (_ <=? _); [|reflexivity]. cbn [obind].
  rewrite (proj2 (Z.leb_gt _ (Z.of_nat (length (firstn _ _))))) by (rewrite firstn_length; lia). rewrite andb_false_r. reflexivity.
Qed.
Theorem C63_no_match_refuted : forall qsort text len offs pre post, 0 < len -> len < Z.of_nat (length text) -> highlight_field qsort matchv_new (mkLdf text len true) offs pre post = None.
Proof. exact compressed_none. Qed.
Print Assumptions C63_no_match_refuted.
Lemma put_len capa out bs o : put capa out bs = Some o -> Z.of_nat (length o) <= capa.
Proof. unfold put. destruct (Z.leb_spec (Z.of_nat (length out + length bs)) capa) as [H|H]; [|discriminate]. intros E. apply some_inj in E. subst o. rewrite app_length. exact H. Qed.
(* with one match at the start the text is written, whatever the length of the buffer *)
Lemma compressed_one text len : (40 <= length text)%nat -> 0 < len -> len <= 20 -> highlight_field isort (vec_of [(0, 0)]) (mkLdf text len true) [(0, 1)] [60] [62] = None.
Proof.
  intros H1 H2 H3. unfold highlight_field. cbn [vec_of fold_left matchv_add matchv_new v_size v_mem INIT_CAPA repeat length Nat.leb upd fst snd Nat.ltb f_len].
  set (capa := 10 + len + _). assert (Ec : capa = len + 12) by (unfold capa; lia). clearbody capa. subst capa. vm_compute (compact isort true _). cbn [obind]. vm_compute (v_list _). cbn [obind]. vm_compute (set_all _ _). cbn [obind h_loop]. change (0 - 0) with 0. change (1 - 0) with 1.
  destruct text as [|b text]; [cbn in H1; lia|]. cbn [length] in H1. unfold copy at 1. cbn [Z.eqb obind fst snd]. unfold put at 1. cbn [length Nat.add]. rewrite (proj2 (Z.leb_le _ _)) by lia. cbn [obind app]. unfold copy at 1. cbn [Z.eqb]. unfold get_bytes at 1. cbn [f_comp f_len f_text length]. rewrite (proj2 (Z.leb_gt (Z.of_nat (S (length text))) 0)) by lia. cbn [Z.ltb Z.leb Z.compare orb]. rewrite (proj2 (Z.ltb_ge _ (0 + 1))) by lia. cbn [obind fst snd]. change (Z.to_nat 0) with 0%nat. change (Z.to_nat 1) with 1%nat. cbn [skipn firstn]. unfold put at 1. cbn [length Nat.add]. rewrite (proj2 (Z.leb_le _ _)) by lia. cbn [obind fst snd app]. unfold put at 1. cbn [length Nat.add]. rewrite (proj2 (Z.leb_le _ _)) by lia. cbn [obind app f_len].
  unfold copy. replace (Z.of_nat (S (length text)) - 1) with (Z.of_nat (length text)) by lia. destruct (Z.eqb_spec (Z.of_nat (length text)) 0) as [E|E]; [lia|]. destruct (get_bytes _ 1 _) as [[bs dd]|] eqn:EG; [|reflexivity]. cbn [obind fst snd]. assert (Hb : length bs = length text).
  { unfold get_bytes in EG. cbn [f_comp f_len f_text] in EG. destruct (_ || _); [discriminate|]. destruct (_ <=? 0); [discriminate|]. destruct (_ <? _); [discriminate|]. apply some_inj in EG. injection EG as <- _. change (Z.to_nat 1) with 1%nat. cbn [skipn]. rewrite firstn_length. lia. }
  unfold put at 1. rewrite (proj2 (Z.leb_gt _ _)) by (rewrite Hb; cbn [length]; lia). reflexivity.
Qed.
Theorem C63_overflow_refuted : forall text len, (40 <= length text)%nat -> 0 < len -> len <= 20 -> highlight_field isort (vec_of [(0, 0)]) (mkLdf text len true) [(0, 1)] [60] [62] = None.
Proof. exact compressed_one. Qed.
Print Assumptions C63_overflow_refuted.
Example C63_example : highlight_field isort (vec_of [(0, 0)]) (mkLdf (repeat 97 40) 20 true) [(0, 1)] [60] [62] = None /\ highlight_field isort (vec_of [(0, 0)]) (mkLdf (repeat 97 40) 40 false) [(0, 1)] [60] [62] = Some ([60; 97; 62] ++ repeat 97 39).
Proof. vm_compute. auto. Qed.

(* ---------- C64 *)
Theorem C64_excerpts_partial : forall len ms, (forall i j, (i <= j < length ms)%nat -> fst (nth i ms (0, 0)) <= fst (nth j ms (0, 0))) -> (forall i, (i < length ms)%nat -> snd (nth i ms (0, 0)) <= fst (nth i ms (0, 0)) + len) ->
  forall i, (i < length ms)%nat -> exists j, nth_error (excerpts_of len ms) i = Some (Z.of_nat i, Z.of_nat j) /\ fits len ms i j /\ excerpt_offsets ms (Z.of_nat i, Z.of_nat j) = Some (fst (nth i ms (0, 0)), snd (nth j ms (0, 0))).
Proof. exact excerpts_ok. Qed.
Print Assumptions C64_excerpts_partial.
(* a match longer than an excerpt: the match before the first one is read *)
Lemma long_match len s e : s + len < e -> excerpts_of len [(s, e)] = [(0, -1)] /\ excerpt_offsets [(s, e)] (0, -1) = None.
Proof. intros H. split; [|reflexivity]. unfold excerpts_of. cbn [length seq map fst combine candidates Nat.ltb Nat.leb grow nth_error snd]. rewrite (proj2 (Z.leb_gt _ _)) by lia. reflexivity. Qed.
Theorem C64_long_match_refuted : forall len s e, s + len < e -> excerpts_of len [(s, e)] = [(0, -1)] /\ excerpt_offsets [(s, e)] (0, -1) = None.
Proof. exact long_match. Qed.
Print Assumptions C64_long_match_refuted.
Example C64_example : excerpts_of 10 [(0, 3); (4, 9); (8, 12); (30, 31); (39, 40); (40, 44)] = [(0, 1); (1, 2); (2, 2); (3, 4); (4, 5); (5, 5)].
Proof. vm_compute. reflexivity. Qed.
