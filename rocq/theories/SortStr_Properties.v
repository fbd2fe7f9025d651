(* C121: sort strings.  C122: Sort.new with reverse. *)
From Coq Require Import String.
From Verif Require Import Util Codec_Model Seg_Model SortStr_Model SortStr_Spec SortStr_Proofs.
Open Scope Z_scope.

(* ---------- C121 *)
Theorem C121_parse : forall xs ds, Forall2 written xs ds -> xs <> [] -> parse_sort_str (join xs) = Some ds /\ parse_sort_str (join xs ++ [44]) = Some ds.
Proof. exact parse_written. Qed.
Print Assumptions C121_parse.
(* no access outside of the string, unless it starts with a comma *)
Theorem C121_safe : forall x, Forall (fun c => c <> 0) x -> (forall y, x <> 44 :: y) -> parse_sort_str x <> None.
Proof. intros x F H E. apply parse_safe in E; [|exact F]. destruct E as (y & ->). exact (H y eq_refl). Qed.
Print Assumptions C121_safe.
Theorem C121_sort_new : forall h xs ds, heap_ok h -> Forall2 written xs ds -> xs <> [] ->
  exists h' ps, sort_init h [RStr (join xs)] false = Ok (h', ps) /\ shows h' ps = Some (ds ++ [(KDoc, false)]) /\ forall p f, nth_error h p = Some f -> nth_error h' p = Some f.
Proof. intros h xs ds Hh F Hne. apply sort_string; [exact Hh|]. apply parse_written; assumption. Qed.
Print Assumptions C121_sort_new.
Lemma name_date : name_ok (str "date").
Proof. split; [repeat constructor; discriminate|]. split; [exists 100, (str "ate"); cbn; unfold blank; repeat split; auto; lia|exists (str "dat"), 101; unfold blank; split; [reflexivity|lia]]. Qed.
Lemma name_score : name_ok (str "SCORE").
Proof. split; [repeat constructor; discriminate|]. split; [exists 83, (str "CORE"); cbn; unfold blank; repeat split; auto; lia|exists (str "SCOR"), 69; unfold blank; split; [reflexivity|lia]]. Qed.
(* "date, :date DESC ,SCORE" *)
Example C121_example : Forall2 written [str "date"; str " :date DESC "; str "SCORE"] [(KName (str "date"), false); (KName (str "date"), true); (KScore, false)] /\
  parse_sort_str (str "date, :date DESC ,SCORE") = Some [(KName (str "date"), false); (KName (str "date"), true); (KScore, false)] /\ parse_sort_str [] = Some [] /\ parse_sort_str (str "DESC") = Some [(KName (str "DESC"), false)] /\
  parse_sort_str (str "a,,b") = Some [(KName (str "a"), false); (KName [], false); (KName (str "b"), false)].
Proof.
  split; [|repeat split; vm_compute; reflexivity]. constructor; [|constructor; [|constructor; [|constructor]]].
  - apply (Wr_up [] (str "date") [] (KName (str "date"))); [constructor|exact name_date|constructor| |constructor; discriminate]. intros [|a [|b t]] Ht E; [congruence|discriminate|apply (f_equal (@length Z)) in E; cbn in E; rewrite app_length in E; cbn in E; lia].
  - apply (Wr_down (str " :") (str "date") (str " ") (str " ") (KName (str "date"))); [constructor; [left; right; reflexivity|constructor; [right; reflexivity|constructor]]|exact name_date| | |constructor; discriminate]; (constructor; [right; reflexivity|constructor]).
  - apply (Wr_up [] (str "SCORE") [] KScore); [constructor|exact name_score|constructor| |constructor]. intros [|a [|b t]] Ht E; [congruence|discriminate|apply (f_equal (@length Z)) in E; cbn in E; rewrite app_length in E; cbn in E; lia].
Qed.

(* ---------- C122 *)
Theorem C122_symbols_partial : forall h ns b, heap_ok h ->
  exists h' ps, sort_init h (map RSym ns) b = Ok (h', ps) /\ shows h' ps = Some (map (fun n => (KName n, b)) ns ++ [(KDoc, false)]) /\ forall p f, nth_error h p = Some f -> nth_error h' p = Some f.
Proof. exact sort_symbols. Qed.
Print Assumptions C122_symbols_partial.
Theorem C122_fields_partial : forall h ps x, heap_ok h -> shows h ps = Some x ->
  exists qs, sort_init h (map RField ps) false = Ok (h, qs) /\ (In SORT_FIELD_DOC ps -> shows h qs = Some x) /\ (~ In SORT_FIELD_DOC ps -> shows h qs = Some (x ++ [(KDoc, false)])).
Proof. exact sort_fields. Qed.
Print Assumptions C122_fields_partial.
Definition c122_heap : heap := CONSTANTS ++ [mkSf (KName (str "date")) false false].
Example C122_example : heap_ok c122_heap /\ (exists h' ps, sort_init c122_heap [RSym (str "a"); RSym (str "b")] true = Ok (h', ps) /\ shows h' ps = Some [(KName (str "a"), true); (KName (str "b"), true); (KDoc, false)]) /\
  sort_init c122_heap [RField 4; RField 2] false = Ok (c122_heap, [4%nat; 2%nat]) /\ shows c122_heap [4%nat; 2%nat] = Some [(KName (str "date"), false); (KDoc, false)].
Proof. split; [repeat split; reflexivity|]. split; [eexists _, _; split; reflexivity|split; reflexivity]. Qed.
(* a string: reverse makes no difference *)
Theorem C122_string_refuted : forall h x, sort_init h [RStr x] true = sort_init h [RStr x] false.
Proof. reflexivity. Qed.
Print Assumptions C122_string_refuted.
(* a SortField: it is turned round for the Sorts that already have it, too, and back by the next call *)
Theorem C122_shared_refuted : forall h p f, heap_ok h -> nth_error h p = Some f -> sf_const f = false ->
  exists h' qs, sort_init h [RField p] false = Ok (h, qs) /\ shows h qs = Some [(sf_key f, sf_rev f); (KDoc, false)] /\
    sort_init h [RField p] true = Ok (h', qs) /\ shows h' qs = Some [(sf_key f, negb (sf_rev f)); (KDoc, false)] /\
    sort_init h' [RField p] true = Ok (h, qs).
Proof. exact sort_shared. Qed.
Print Assumptions C122_shared_refuted.
(* SortField::SCORE, SCORE_REV, DOC_ID, DOC_ID_REV: constants are written *)
Theorem C122_constant_refuted : forall h p vs, heap_ok h -> (p < 4)%nat -> sort_init h (RField p :: vs) true = Undef.
Proof. exact sort_constant. Qed.
Print Assumptions C122_constant_refuted.
(* a field whose name ends in DESC cannot be named in a string *)
Theorem C122_name_refuted : forall n k, name_ok n -> names n k -> parse_sort_str (n ++ str "DESC") = Some [(k, true)].
Proof.
  intros n k H Hk. assert (W : Forall2 written [n ++ str "DESC"] [(k, true)]). { constructor; [|constructor]. pose proof (Wr_down [] n [] [] k (Forall_nil _) H (Forall_nil _) (Forall_nil _) Hk) as W. cbn [app] in W. rewrite app_nil_r in W. exact W. }
  exact (proj1 (parse_written _ _ W ltac:(discriminate))).
Qed.
Print Assumptions C122_name_refuted.
(* a string that starts with a comma: the byte before the copy is read *)
Theorem C122_comma_refuted : forall h y b, sort_init h [RStr (44 :: y)] b = Undef.
Proof. intros h y b. unfold sort_init. cbn [sort_add_all sort_add]. rewrite comma_first. reflexivity. Qed.
Print Assumptions C122_comma_refuted.
Example C122_refuted_example : nth_error c122_heap 4 = Some (mkSf (KName (str "date")) false false) /\ parse_sort_str (str "birthDESC") = Some [(KName (str "birth"), true)] /\
  sort_init c122_heap [RStr (str "date")] true = Ok (c122_heap ++ [mkSf (KName (str "date")) false false], [5%nat; 2%nat]).
Proof. repeat split; reflexivity. Qed.
