(* C106-C107: the strings of queries, clauses, sorts, documents, field infos and explanations. *)
From Coq Require Import String Ascii.
From Coq Require Import List ZArith Bool Arith Lia.
From Verif Require Import Util Text_Model Text_Spec Text_Proofs TextQ_Proofs TextAll_Proofs TextOther_Proofs.
Import ListNotations.
Open Scope Z_scope.
Open Scope list_scope.

Definition zs (s : string) : str := map (fun a => Z.of_nat (nat_of_ascii a)) (list_ascii_of_string s).

(* C106: to_s gives the string meant, and every byte it writes or reads is in the block it allocated and was written *)
Theorem C106_spelled : forall df q, fine q -> to_s df q = Some (spell df q).
Proof. exact spelled. Qed.
Print Assumptions C106_spelled.
(* calling it again gives the same *)
Theorem C106_again : forall df q, to_s df (after_to_s q) = to_s df q.
Proof. exact to_s_again. Qed.
Print Assumptions C106_again.
(* a boost that is infinite or not a number: bytes that nothing wrote are read *)
Theorem C106_infinite_refuted : forall df f t b, clean f -> clean t -> b = Infinite \/ b = NotANumber -> to_s df (Term f t (Some b)) = None.
Proof. exact term_unsafe. Qed.
Print Assumptions C106_infinite_refuted.
(* 40 clauses or more in a SpanNearQuery: bytes behind the block are written *)
Theorem C106_near_refuted : forall df qs, (40 <= List.length qs)%nat -> fine_all qs -> to_s df (SpanNear qs) = None.
Proof. exact near_unsafe. Qed.
Print Assumptions C106_near_refuted.
(* positions too far apart: the size overflows *)
Theorem C106_gap_refuted : forall df f ps slop b, 2 ^ 31 <= 3 * (fst (last (sort ps) (0, [])) - fst (hd (0, []) (sort ps))) -> to_s df (Phrase f ps slop b) = None.
Proof. exact gap_unsafe. Qed.
Print Assumptions C106_gap_refuted.
(* to_s sorts the positions of the query it is called on: afterwards it equals what it equalled before only if they were sorted *)
Theorem C106_sorts_refuted : forall f ps s b, let q := Phrase f ps s b in phq_eq q q = true /\ (phq_eq (after_to_s q) q = true <-> sort ps = ps).
Proof. exact sorts. Qed.
Print Assumptions C106_sorts_refuted.

Definition im (i f x : string) : image := mkIm false (zs i) (zs f) (zs x).
Definition n25 : num := Finite (im "2" "500000" "") (im "2" "500000" "e+00").
Definition n3m : num := Finite (im "3000000" "" "") (im "3" "000000" "e+06").
Definition ex106 : query :=
  Bool [(Must, Term (zs "content") (zs "cat") (Some n25));
        (MustNot, Bool [(Should, Phrase (zs "title") [(3, [zs "b"]); (0, [zs "a"]); (1, [zs "x"; zs "y"])] 2 None); (Should, Prefix (zs "title") (zs "do") (Some n3m))] None);
        (Should, Const (QueryF (Term (zs "content") (zs "dog") None)) None);
        (Should, SpanNear [SpanTerm (zs "content") (zs "p"); SpanFirst (SpanTerm (zs "title") (zs "q")) 5])] (Some n25).
Definition s106 : string := "(+cat^2.5 -(title:""a x|y <> b""~2 title:do*^3.0e+06) ConstantScore(QueryFilter< content:dog >) span_near[span_terms(p),span_first(span_terms(title:q), 5)])^2.5".
Lemma finite_n25 : finite n25.
Proof. split; [|split; [|discriminate]]; (split; [discriminate|split; [repeat constructor|split; [repeat constructor|split; [|cbn; lia]]]]); [left; reflexivity|right; eexists; split; [reflexivity|repeat constructor; discriminate]]. Qed.
Lemma finite_n3m : finite n3m.
Proof. split; [|split; [|discriminate]]; (split; [discriminate|split; [repeat constructor|split; [repeat constructor|split; [|cbn; lia]]]]); [left; reflexivity|right; eexists; split; [reflexivity|repeat constructor; discriminate]]. Qed.
Ltac cleans := repeat constructor; discriminate.
Example C106_fine : fine ex106.
Proof.
  unfold ex106. cbn [fine snd fine_filter]. repeat match goal with |- _ /\ _ => split end; try exact finite_n25; try exact finite_n3m; try exact Logic.I; try cleans; try (unfold word; lia); try (cbn; lia).
Qed.
Example C106_example : to_s (Some (zs "content")) ex106 = Some (zs s106).
Proof. vm_compute. reflexivity. Qed.
Example C106_sorts_example : let q := Phrase (zs "f") [(0, [zs "b"]); (0, [zs "a"])] 0 None in
  to_s None q = Some (zs "f:""a&b""") /\ phq_eq q q = true /\ phq_eq (after_to_s q) q = false.
Proof. vm_compute. auto. Qed.
Example C106_gap_example : to_s None (Phrase (zs "f") [(0, [zs "b"]); (800000000, [zs "a"])] 0 None) = None.
Proof. apply C106_gap_refuted. vm_compute. discriminate. Qed.
Example C106_near_example : to_s None (SpanNear (repeat (SpanTerm (zs "f") (zs "a")) 40)) = None /\
  to_s None (SpanNear (repeat (SpanTerm (zs "f") (zs "a")) 39)) = Some (spell None (SpanNear (repeat (SpanTerm (zs "f") (zs "a")) 39))).
Proof. vm_compute. auto. Qed.

(* C107: the other strings *)
Theorem C107_sort : forall fs, Forall (fun x => clean (fst (fst x)) /\ (forall g, snd (fst x) = Some g -> clean g)) fs ->
  exists m, sort_to_s fs = Some m /\ cstr m = Some (sort_s fs).
Proof. exact sort_ok. Qed.
Print Assumptions C107_sort.
Theorem C107_document : forall fs, Forall (fun x => clean (fst x) /\ Forall clean (snd x)) fs ->
  exists m, doc_to_s fs = Some m /\ cstr m = Some (doc_s fs).
Proof. exact doc_ok. Qed.
Print Assumptions C107_document.
Theorem C107_explanation : forall e, fine_expl e -> exists m, expl_to_s 0 e = Some m /\ cstr m = Some (expl_s 0 e).
Proof. intros e H. exact (expl_ok e 0 H). Qed.
Print Assumptions C107_explanation.
(* the string of a BooleanClause has a 0 behind it *)
Theorem C107_clause_refuted : forall o q, fine q -> bc_to_s o q = Some (occur_name o ++ [58] ++ spell None q ++ [0]).
Proof. exact bc_ok. Qed.
Print Assumptions C107_clause_refuted.
(* the string of the FieldInfos: right for names of a usual length, written behind the block otherwise *)
Theorem C107_fields : forall hd fs, clean hd -> Forall fi_clean fs -> (List.length hd < 200)%nat ->
  Forall (fun x => List.length (fi_name x) + List.length (fi_boost x) + List.length (fi_store x) + List.length (fi_index x) + List.length (fi_tv x) <= 62)%nat fs ->
  exists m, fis_to_s hd fs = Some m /\ cstr m = Some (hd ++ concat (map fi_line fs)).
Proof. exact fis_short. Qed.
Print Assumptions C107_fields.
Theorem C107_fields_refuted : forall hd fs, clean hd -> Forall fi_clean fs ->
  (200 + List.length fs * 120 <= List.length hd + List.length (concat (map fi_line fs)))%nat -> fis_to_s hd fs = None.
Proof. intros hd fs Hh HF L. pose proof (fis_ok hd fs Hh HF) as F. apply Nat.ltb_ge in L. rewrite L in F. exact F. Qed.
Print Assumptions C107_fields_refuted.
(* expl_to_html: right when realloc never moves a block, a use of freed memory when it does *)
Theorem C107_html : forall moves e, (forall a b, moves a b = false) -> fine_expl e -> exists m, expl_to_html moves e = Some m /\ cstr m = Some (html_s e).
Proof. intros moves e HM H. exact (html_ok e moves HM H). Qed.
Print Assumptions C107_html.
Theorem C107_html_refuted : forall moves v d e ds, (forall a b, moves a b = true) -> expl_to_html moves (Expl v d (e :: ds)) = None.
Proof. exact html_unsafe. Qed.
Print Assumptions C107_html_refuted.

Definition nl : string := String (ascii_of_nat 10) EmptyString.
Example C107_sort_example : (do m <- sort_to_s [(zs "<SCORE>", None, false); (zs "<int>", Some (zs "size"), true)]; cstr m) = Some (zs "Sort[<SCORE>, size:<int>!]").
Proof. vm_compute. reflexivity. Qed.
Example C107_document_example : (do m <- doc_to_s [(zs "title", [zs "a"]); (zs "tag", [zs "b"; zs "c"])]; cstr m) =
  Some (zs ("Document [" ++ nl ++ "  =>title: ""a""" ++ nl ++ "  =>tag: [""b"", ""c""]" ++ nl)%string).
Proof. vm_compute. reflexivity. Qed.
Example C107_explanation_example : (do m <- expl_to_s 0 (Expl n25 (zs "sum of:") [Expl n25 (zs "weight") []; Expl n3m (zs "norm") []]); cstr m) =
  Some (zs ("2.5 = sum of:" ++ nl ++ "  2.5 = weight" ++ nl ++ "  3.0e+06 = norm" ++ nl)%string).
Proof. vm_compute. reflexivity. Qed.
Example C107_clause_example : bc_to_s Must (Term (zs "f") (zs "a") None) = Some (zs "Must:f:a" ++ [0]).
Proof. vm_compute. reflexivity. Qed.
Definition long_field (n : nat) : finfo := mkFinfo (repeat 97 n) (zs "1.000000") (zs ":yes") (zs ":yes") (zs ":with_positions_offsets").
Definition hd107 : str := zs ("default:" ++ nl ++ "  store: :yes" ++ nl ++ "  index: :yes" ++ nl ++ "  term_vector: :with_positions_offsets" ++ nl ++ "fields:" ++ nl)%string.
Example C107_fields_example : (exists m, fis_to_s hd107 [long_field 22; long_field 10] = Some m /\ cstr m = Some (hd107 ++ fi_line (long_field 22) ++ fi_line (long_field 10))) /\
  fis_to_s hd107 [long_field 140] = None /\ fis_to_s hd107 (repeat (long_field 40) 10) = None.
Proof. split; [eexists; split; vm_compute; reflexivity|]. split; vm_compute; reflexivity. Qed.
Example C107_html_example : expl_to_html (fun a b => (a <? b)%nat) (Expl n25 (zs "sum of:") [Expl n25 (zs "weight") []]) = None.
Proof. vm_compute. reflexivity. Qed.
