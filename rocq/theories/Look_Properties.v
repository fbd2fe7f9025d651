(* C88 C89: searches from the query to the documents, on an index after everything that was done to it. *)
From Verif Require Import Util Codec_Model Strcmp Codec_Spec Seg_Model Seg_Spec Dict_Model Dict_Spec Token_Model Post_Model Post_Spec Multi_Model Mte_Model Mtde_Model Mtde_Spec Expand_Model Expand_Spec Fuzzy_Model Fuzzy_Spec Range_Model Range_Spec Merge_Model Merge_Spec Fields_Model Fields_Spec Fields_Properties Invert_Model Invert_Spec Invert_Properties Iw_Model Iw_Spec IwRun_Proofs Iw_Properties Tsc_Model Tsc_Spec Tpe_Model Tpe_Spec Tpe_Properties Find_Model Find_Spec FindTop_Proofs Find_Properties Query_Model Leaf_Model Bool_Model Look_Model Look_Spec Look_Proofs LookKept_Proofs LookTop_Proofs.
Open Scope Z_scope.

(* Any documents, any history of adding, deleting, committing, optimizing, closing and opening: any searches, one after the other, with any
   queries built of terms, prefixes, patterns, fuzzy terms, ranges, phrases with any alternatives and any slop, "all documents" and boolean queries of
   such to any depth, each find exactly the documents of which the query is true, in the order of their numbers. [fine]: no prefix, pattern or
   fuzzy term matches more terms of its field than it may have; no query with two required clauses lies where it is asked to skip (refuted
   without: see below); no range with the last document of an index whose size is a multiple of 32 and at least 128 (refuted without: below);
   a phrase of one position has at most 256 alternatives (refuted without: below), a longer phrase is about a field whose analyzer does not go
   back in positions; the words of a phrase with a slop are all different (refuted without: below) and the first is not before the start of the field (C93). [srt]: any correct qsort. *)
Theorem C88_searched : forall ana norm zip unzip fuel cfg buf0 fis m os calc sim srt, let F := fis_of fis (added os) in let max := c_field_length cfg in
  qs_ok srt -> config_ok cfg buf0 (length (added os)) -> (3 <= c_skip cfg)%nat -> codec zip unzip -> log_fits ana max zip (c_interval cfg) F (added os) -> (1 <= m)%nat -> max_ok m None os ->
  exists s slots, iw_run ana norm zip (S fuel) cfg buf0 (iw_open fis [] m) os = Some s /\ somes slots = v_docs (view ana cfg fis m os) /\ answers ana unzip fuel max F (y_segs s) slots /\
    forall qs, Forall (fine ana max F calc sim os slots) qs -> exists n, forall fu, (n <= fu)%nat -> forall t, tir_used (reader_of (y_segs s)) t ->
      exists Ls, (exists n2, forall fv, (n2 <= fv)%nat -> looksw calc sim srt s fu fv qs t = Some Ls) /\ Forall2 (asked ana max F sim slots) qs Ls.
Proof. exact sessions_after. Qed.
Print Assumptions C88_searched.
(* After a commit the documents are those of the log. *)
Theorem C88_committed : forall ana norm zip unzip fuel cfg buf0 fis m os calc sim srt, let F := fis_of fis (added os) in let max := c_field_length cfg in
  qs_ok srt -> config_ok cfg buf0 (length (added os)) -> (3 <= c_skip cfg)%nat -> codec zip unzip -> log_fits ana max zip (c_interval cfg) F (added os) -> (1 <= m)%nat -> max_ok m None os ->
  exists s slots, iw_run ana norm zip (S fuel) cfg buf0 (iw_open fis [] m) (os ++ [WCommit]) = Some s /\ somes slots = log ana max F os /\ answers ana unzip fuel max F (y_segs s) slots /\
    forall qs, Forall (fine ana max F calc sim os slots) qs -> exists n, forall fu, (n <= fu)%nat -> forall t, tir_used (reader_of (y_segs s)) t ->
      exists Ls, (exists n2, forall fv, (n2 <= fv)%nat -> looksw calc sim srt s fu fv qs t = Some Ls) /\ Forall2 (asked ana max F sim slots) qs Ls.
Proof. exact sessions_committed. Qed.
Print Assumptions C88_committed.

(* What a phrase without slop says of a document: its words are at places as far from each other as in the phrase. *)
Theorem C88_exact : forall ana max F d f ps, doc_phrase ana max F d f 0 ps <-> doc_exact ana max F d f ps.
Proof. exact doc_phrase_exact. Qed.
Print Assumptions C88_exact.

(* examples: similarities in sixtieths *)
Definition calc2 (min l : Z) : Z := (60 - min) * l / 60.
Definition sim2 (s : fscore) : Z := match s with Zero => 0 | Sim d l => if l <=? 0 then 0 else 60 - 60 * d / l end.
Lemma sim2_ok min : 0 <= min -> sim_ok calc2 sim2 min.
Proof.
  intros H. split; [exact H|]. intros d l. unfold calc2, sim2. destruct (Z.leb_spec l 0) as [L|L]; [intros _; exact H|]. intros G.
  assert (60 - min <= 60 * d / l) by (apply Z.div_le_lower_bound; [lia|]; assert (G2 := Z.mul_succ_div_gt ((60 - min) * l) 60 ltac:(lia)); nia). lia.
Qed.
Definition wlook (m : nat) (os : list wop) (qs : list uq) : option (list (list Z)) := match wrun m os with Some s => looksw calc2 sim2 c90_qs s 40 200 qs tir_open | None => None end.
Notation fi := [105] (only parsing). Notation ft := [116] (only parsing).
Definition pre_k : uq := UPrefix fi [107] 8.
Definition q88 : list uq :=
  [ UBool [(Must, pre_k); (MustNot, UTerm ft [99])];                                 (* +i:k* -t:c *)
    UBool [(Should, UTerm ft [99]); (Should, UWild fi [42; 2; 63] 8); (MustNot, URange fi (mkRange (Some [107; 1; 1]) (Some [107; 1; 3]) true false))];
    UFuzzy fi [107; 1; 2] 0 30 8; UBool [(MustNot, pre_k)]; UAll; UTerm [120] [97]; UBool [(Must, UBool [(Should, UTerm ft [97]); (Should, UTerm ft [98])]); (Must, pre_k)] ].
Example C88_example : wlook 2 yops q88 = Some [[0; 2]; [2; 3]; [0; 2; 3]; [1]; [0; 1; 2; 3]; []; [0; 2]].
Proof. vm_compute. reflexivity. Qed.
(* what is asked of them can be met, whatever documents have which numbers *)
Example C88_fine : forall slots, (length slots < 128)%nat -> Forall (fine ana1 10 (fis_of wfis (added yops)) calc2 sim2 yops slots) [UBool [(Must, pre_k); (MustNot, UTerm ft [99])]; UBool [(MustNot, pre_k)];
  UBool [(Must, UBool [(Should, UTerm ft [97]); (Should, UTerm ft [98])]); (Must, pre_k); (MustNot, URange fi (mkRange (Some [107; 1; 1]) None true false)); (MustNot, UFuzzy fi [107; 1; 2] 3 30 8)]; UAll].
Proof.
  intros slots Hs. assert (K : limits calc2 sim2 (field_few ana1 10 (fis_of wfis (added yops)) (added yops)) (last_has ana1 10 (fis_of wfis (added yops)) slots) (field_ordered ana1 10 (fis_of wfis (added yops)) (added yops)) (field_starts ana1 10 (fis_of wfis (added yops)) (added yops)) (length slots) pre_k).
  { cbn [limits pre_k]. split; [lia|]. split; [left; discriminate|]. change (fis_of wfis (added yops)) with wfis. cbn. intros ts HN H. pose proof (C80_few ts HN H). lia. }
  repeat (apply Forall_cons; [split; [|reflexivity]|]); [| | | |apply Forall_nil]; cbn [limits snd fst]; try exact Logic.I.
  - split; [tauto|]. left. exists (Must, pre_k). split; [left; reflexivity|discriminate].
  - split; [tauto|]. right. cbn. unfold MAX_CLAUSES. lia.
  - split.
    + split; [split; [tauto|]|]. { left. eexists. split; [left; reflexivity|discriminate]. } split; [exact K|]. split; [left; left; exact Hs|]. split; [left; cbn; lia|exact Logic.I].
    + left. eexists. split; [left; reflexivity|discriminate].
Qed.

(* phrases, with a document that is deleted *)
Definition pops : list wop := [WAdd (wdoc [1] [97; 98; 99]) false; WAdd (wdoc [2] [98; 99; 97]) false; WAdd (wdoc [3] [97; 99; 98]) false; WAdd (wdoc [4] [97; 98; 97; 98]) false; WAdd (wdoc [5] [97; 98; 120]) false; WDelete ft [[120]];
  WAdd (wdoc [6] [99; 99; 97; 98]) false; WCommit].
Definition q88p : list uq :=
  [ UPhrase ft 0 [(0, [[97]]); (1, [[98]])];                                           (* t:"a b" *)
    UPhrase ft 0 [(0, [[97]]); (2, [[99]; [98]])];                                     (* t:"a <> b|c" *)
    UPhrase ft 0 [(4, [[99]; [100]])];                                                 (* t:"c|d" *)
    UBool [(Must, UPhrase ft 0 [(0, [[97]]); (1, [[98]])]); (MustNot, UTerm ft [99])]; (* +t:"a b" -t:c *)
    UBool [(Must, UPhrase ft 0 [(0, [[98]]); (-1, [[97]])]); (Must, UPhrase ft 0 [(0, [[98]]); (1, [[97]; [99]])])]; UPhrase ft 0 []; UPhrase [120] 3 [(0, [[97]]); (1, [[98]])];
    UPhrase ft 1 [(0, [[97]]); (1, [[99]])];                                           (* t:"a c"~1 *)
    UPhrase ft 2 [(0, [[99]]); (1, [[98]; [120]])];                                    (* t:"c b|x"~2 *)
    UPhrase ft 3 [(0, [[97]]); (1, [[98]]); (2, [[99]])] ].                            (* t:"a b c"~3 *)
Example C88_phrases : wlook 2 pops q88p = Some [[0; 3; 4]; [0; 2]; [0; 1; 2; 4]; [3]; [0; 3]; []; []; [0; 2]; [0; 1; 2; 4]; [0; 1; 2; 4]].
Proof. vm_compute. reflexivity. Qed.
Lemma pops_ordered : field_ordered ana1 10 wfis (added pops) ft.
Proof. unfold field_ordered. change (fis_get wfis ft) with (Some (1%nat, mkFi [116] 1065353216 (4 + 8))). cbv iota. intros d Hd. apply sortedb_ok. cbn [added pops flat_map app] in Hd. repeat (destruct Hd as [<-|Hd]; [reflexivity|]). destruct Hd. Qed.
Lemma pops_starts : field_starts ana1 10 wfis (added pops) 0 ft.
Proof. unfold field_starts. change (fis_get wfis ft) with (Some (1%nat, mkFi [116] 1065353216 (4 + 8))). cbv iota. intros d Hd. apply Forall_forall. intros a Ha. apply Z.leb_le. revert a Ha. apply forallb_forall. cbn [added pops flat_map app] in Hd. repeat (destruct Hd as [<-|Hd]; [reflexivity|]). destruct Hd. Qed.
Ltac differ := cbn [flat_map snd app]; repeat constructor; cbn [In]; intros H; repeat (destruct H as [H|H]; [discriminate H|]); exact H.
Example C88_phrases_fine : forall slots, Forall (fine ana1 10 (fis_of wfis (added pops)) calc2 sim2 pops slots) q88p.
Proof.
  intros slots. change (fis_of wfis (added pops)) with wfis. pose proof pops_ordered as K. pose proof pops_starts as K2.
  repeat (apply Forall_cons; [split; [|reflexivity]|]); [| | | | | | | | | |apply Forall_nil]; cbn [limits q88p snd fst]; auto.
  - right. unfold MULTI_MAX. split; [cbn; lia|]. cbn. intros [H|[H|[]]]; discriminate.
  - split; [auto|]. left. eexists. split; [left; reflexivity|discriminate].
  - split; [auto|]. left. eexists. split; [left; reflexivity|discriminate].
  - split; [exact Logic.I|]. right. split; [differ|]. eexists. split; [left; reflexivity|exact Logic.I].
  - split; [exact K|]. right. split; [differ|]. eexists. split; [left; reflexivity|exact K2].
  - split; [exact K|]. right. split; [differ|]. eexists. split; [left; reflexivity|exact K2].
  - split; [exact K|]. right. split; [differ|]. eexists. split; [left; reflexivity|exact K2].
Qed.

(* a MultiTermQuery and a ConstantScoreQuery on a range that were made by hand *)
Definition two : option uq := do m <- add_terms (mtq_new 4 0) [[120]; [99]]; Some (UMulti ft m).
Example C88_made : (do u <- two; wlook 2 pops [u; UBool [(Must, u); (MustNot, UBits fi (mkRange (Some [107; 1; 2]) None true false))]; UBits fi (mkRange None (Some [99]) false true)]) <> None /\ (do u <- two; wlook 2 pops [u]) = Some [[0; 1; 2; 4]] /\ (do u <- two; Some (words (match u with UMulti _ m => m | _ => mtq_new 0 0 end))) = Some [[120]; [99]].
Proof. split; [|split]; vm_compute; [discriminate|reflexivity|reflexivity]. Qed.

(* Without the condition on conjunctions: "+t:x +(+t:a +t:b)" brings document 10, which has no b. *)
Definition conj_docs : list wop := map (fun k => WAdd (wdoc [k] (if k =? 1 then [97; 98] else if k =? 5 then [98; 120] else if k =? 10 then [97; 120] else [122])) false) [0; 1; 2; 3; 4; 5; 6; 7; 8; 9; 10] ++ [WCommit].
Definition nested : uq := UBool [(Must, UTerm ft [120]); (Must, UBool [(Must, UTerm ft [97]); (Must, UTerm ft [98])])].
Theorem C88_nested_refuted : wlook 20 conj_docs [nested] = Some [[10]] /\ ~ sat sim2 (doc_has ana1 10 wfis (wdoc [10] [97; 120])) (doc_phrase ana1 10 wfis (wdoc [10] [97; 120])) nested.
Proof.
  split; [vm_compute; reflexivity|]. cbn [sat nested map fst snd]. intros (H & _). specialize (H _ (or_intror (or_introl eq_refl)) eq_refl). cbn [snd] in H. destruct H as (H & _). specialize (H _ (or_intror (or_introl eq_refl)) eq_refl). cbn [snd] in H.
  unfold doc_has in H. change (fis_get wfis ft) with (Some (1%nat, mkFi [116] 1065353216 (4 + 8))) in H. cbv iota in H. destruct H as (o & Ho & E). vm_compute in Ho. destruct Ho as [<-|[<-|[]]]; discriminate.
Qed.
Print Assumptions C88_nested_refuted.
(* Without the condition on ranges: over an index of 128 documents a range with the last document reads past its bits. Its scorer has that
   document first and is undefined for the second step (a bit vector needs no fuel); without the last document all is well. *)
Definition many_docs : list wop := map (fun k => WAdd (wdoc [Z.of_nat k] [97]) false) (seq 0 128) ++ [WCommit].
Definition range_steps (g : range) : option (Z * option (bool * Z)) :=
  match wrun 200 many_docs with
  | Some s => do x <- scorer c90_qs (reader_of (y_segs s)) (rd_is_deleted (y_segs s)) (rd_max_doc (y_segs s)) (field_num (y_fis s)) 200 (UBits fi g) tir_open;
              match fst x with Some (Leaf l) => do a <- leaf_run O None l; Some (leaf_doc (snd a), option_map (fun b : bool * leaf => (fst b, leaf_doc (snd b))) (leaf_run O None (snd a))) | _ => None end
  | None => None end.
Theorem C88_range_refuted : range_steps (mkRange (Some [127]) None true false) = Some (127, None) /\ wlook 200 many_docs [URange fi (mkRange (Some [100]) (Some [126]) true true)] = Some [map Z.of_nat (seq 100 27)].
Proof. split; vm_compute; reflexivity. Qed.
Print Assumptions C88_range_refuted.
(* Without the condition on alternatives: of a phrase of one position the alternatives behind the 256th are dropped. *)
Definition too_many : uq := UPhrase ft 0 [(0, map (fun k => [120; Z.of_nat k]) (seq 1 256) ++ [[97]])].
Theorem C88_alternatives_refuted : wlook 2 pops [too_many; UPhrase ft 0 [(0, [[97]])]] = Some [[]; [0; 1; 2; 3; 4]] /\ sat sim2 (doc_has ana1 10 wfis (wdoc [1] [97; 98; 99])) (doc_phrase ana1 10 wfis (wdoc [1] [97; 98; 99])) too_many.
Proof.
  split; [vm_compute; reflexivity|]. cbn [sat too_many]. unfold doc_phrase. change (fis_get wfis ft) with (Some (1%nat, mkFi [116] 1065353216 (4 + 8))). cbv iota. split; [discriminate|]. exists [0]. split; [|repeat constructor]. apply Forall2_cons; [|apply Forall2_nil]. cbn [fst snd].
  exists ([97], 0, (0, 1)). split; [left; reflexivity|]. split; [|reflexivity]. apply in_or_app. right. left. reflexivity.
Qed.
Print Assumptions C88_alternatives_refuted.

(* Without the condition on repeated words it is not told whether one word may stand for two positions: "a a"~1 finds documents with a single
   a, "a b a"~2 does not. *)
Definition aa : uq := UPhrase ft 1 [(0, [[97]]); (1, [[97]])].
Definition aba : uq := UPhrase ft 2 [(0, [[97]]); (1, [[98]]); (2, [[97]])].
Theorem C88_repeated_refuted : wlook 2 pops [aa; aba] = Some [[0; 1; 2; 3; 4]; [3]] /\ forall q, In q [aa; aba] -> sat sim2 (doc_has ana1 10 wfis (wdoc [1] [97; 98; 99])) (doc_phrase ana1 10 wfis (wdoc [1] [97; 98; 99])) q.
Proof.
  split; [vm_compute; reflexivity|]. intros q Hq. destruct Hq as [<-|[<-|[]]]; cbn [sat aa aba]; unfold doc_phrase; change (fis_get wfis ft) with (Some (1%nat, mkFi [116] 1065353216 (4 + 8))); cbv iota; (split; [discriminate|]).
  - exists [0; -1]. split; [|repeat (constructor; try (cbn; lia))]. repeat (apply Forall2_cons; [exists ([97], 0, (0, 1)); split; [left; reflexivity|split; [left; reflexivity|reflexivity]]|]). apply Forall2_nil.
  - exists [0; 0; -2]. split; [|repeat (constructor; try (cbn; lia))]. apply Forall2_cons; [exists ([97], 0, (0, 1)); split; [left; reflexivity|split; [left; reflexivity|reflexivity]]|]. apply Forall2_cons; [exists ([98], 1, (1, 2)); split; [right; left; reflexivity|split; [left; reflexivity|reflexivity]]|]. apply Forall2_cons; [exists ([97], 0, (0, 1)); split; [left; reflexivity|split; [left; reflexivity|reflexivity]]|]. apply Forall2_nil.
Qed.
Print Assumptions C88_repeated_refuted.

(* ---------- C89: the query that is searched for *)
(* Searching again with the same query object finds the same documents, though rewriting may have changed it. *)
Theorem C89_again : forall ana norm zip unzip fuel cfg buf0 fis m os calc sim srt, let F := fis_of fis (added os) in let max := c_field_length cfg in
  qs_ok srt -> config_ok cfg buf0 (length (added os)) -> (3 <= c_skip cfg)%nat -> codec zip unzip -> log_fits ana max zip (c_interval cfg) F (added os) -> (1 <= m)%nat -> max_ok m None os ->
  exists s slots, iw_run ana norm zip (S fuel) cfg buf0 (iw_open fis [] m) os = Some s /\ somes slots = v_docs (view ana cfg fis m os) /\ answers ana unzip fuel max F (y_segs s) slots /\
    forall q, fine ana max F calc sim os slots q -> exists n, forall fu, (n <= fu)%nat -> forall t, tir_used (reader_of (y_segs s)) t ->
      exists L, asked ana max F sim slots q L /\ exists n2, forall fv, (n2 <= fv)%nat -> looksw calc sim srt s fu fv [q; kept q; kept (kept q)] t = Some [L; L; L].
Proof. exact again_after. Qed.
Print Assumptions C89_again.
(* It is true of the same documents, and later searches change it no more. *)
Theorem C89_meaning : forall sim has hasp q, (sat sim has hasp (kept q) <-> sat sim has hasp q) /\ kept (kept q) = kept q.
Proof. intros. split; [apply kept_sat|apply kept_kept]. Qed.
Print Assumptions C89_meaning.
(* Queries that rewriting replaces are never changed; the rewritten query is another one exactly if [changes] says so. *)
Theorem C89_changes : forall calc sim r fld fu q q' b, rewrite1 calc sim r fld fu q = Some (q', b) -> b = changes q.
Proof. exact changes_ok. Qed.
Print Assumptions C89_changes.
Definition not_a : uq := UBool [(MustNot, UTerm ft [97])].
Example C89_example : wlook 2 yops [not_a; kept not_a; UBool [(Must, UTerm ft [98]); (MustNot, UBool [(MustNot, not_a)])]] = Some [[2; 3]; [2; 3]; [2]] /\
  kept not_a = UBool [(MustNot, UTerm ft [97]); (Must, UAll)] /\ kept (UBool [(MustNot, pre_k)]) = UBool [(MustNot, pre_k)].
Proof. split; [|split]; vm_compute; reflexivity. Qed.
(* But it is not the query it was: "-t:a", to which "t:c" is added as an optional clause, finds document 3; if it was searched for in between,
   documents 2 and 3. *)
Theorem C89_kept_refuted : exists q1 q2, bq_add not_a Should (UTerm ft [99]) = Some q1 /\ bq_add (kept not_a) Should (UTerm ft [99]) = Some q2 /\
  wlook 2 yops [q1] = Some [[3]] /\ wlook 2 yops [not_a; q2] = Some [[2; 3]; [2; 3]].
Proof. eexists. eexists. split; [reflexivity|]. split; [reflexivity|]. split; vm_compute; reflexivity. Qed.
Print Assumptions C89_kept_refuted.
