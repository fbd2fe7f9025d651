(* C94 C95: pages of hits, by score or sorted by fields, on an index after everything that was done to it. *)
From Coq Require Import String.
From Verif Require Import Util Codec_Model Strcmp Codec_Spec Seg_Model Seg_Spec Dict_Model Dict_Spec Token_Model Post_Model Post_Spec Multi_Model Mte_Model Mtde_Model Mtde_Spec Expand_Model Expand_Spec Fuzzy_Model Fuzzy_Spec Range_Model Range_Spec Merge_Model Merge_Spec Fields_Model Fields_Spec Invert_Model Invert_Spec Invert_Properties Iw_Model Iw_Spec IwRun_Proofs Iw_Properties Tsc_Model Tsc_Spec Tpe_Model Tpe_Spec Tpe_Properties Find_Model Find_Spec Find_Properties FindTop_Proofs Query_Model Leaf_Model Bool_Model Search_Model Search_Spec Sort_Model Sort_Spec Sort_Proofs Look_Model Look_Spec LookTop_Proofs Look_Properties Page_Model Page_Spec Page_Proofs.
From Verif Require Import QpLex_Model QpAct_Model Qp_Model Qp_Spec QpAst_Spec QpMean_Spec QpTop_Proofs Qp_Properties Ask_Model Ask_Spec AskFound_Proofs Ask_Properties PageAsk_Proofs.
Open Scope Z_scope.
Open Scope list_scope.

(* Any documents, any history of adding, deleting, committing, optimizing, closing and opening: any searches on a reader, one after the other,
   each with a query and perhaps a filter by a range, by score or sorted by any fields, bring the number of the documents that are wanted, those of the
   page that is asked for, in the only order there is, and the highest score. [fair]: the query is one of C88, the page is one that a search
   takes, the fields to sort by are known and have numbers where they are sorted by numbers; a type that is left to the index is that of
   all terms the field ever had (refuted without: C95). *)
Theorem C94_paged : forall ana norm zip unzip fuel cfg buf0 fis m os calc sim srt scan_ld scan_g len_d len_f coll, let F := fis_of fis (added os) in let max := c_field_length cfg in
  qs_ok srt -> coll_ok coll -> config_ok cfg buf0 (List.length (added os)) -> (3 <= c_skip cfg)%nat -> codec zip unzip -> log_fits ana max zip (c_interval cfg) F (added os) -> (1 <= m)%nat -> max_ok m None os ->
  exists s slots, iw_run ana norm zip (S fuel) cfg buf0 (iw_open fis [] m) os = Some s /\ somes slots = v_docs (view ana cfg fis m os) /\ Find_Spec.answers ana unzip fuel max F (y_segs s) slots /\
    forall ps, Forall (fair ana max F calc sim scan_ld scan_g len_d len_f os slots) ps -> exists n, forall fu, (n <= fu)%nat -> forall t, tir_used (reader_of (y_segs s)) t ->
      exists outs, (exists n2, forall fv, (n2 <= fv)%nat -> searchesw calc sim srt scan_ld scan_g len_d len_f coll s fu fv (map fst ps) t = Some outs) /\ Forall2 (answered ana max F scan_ld scan_g coll slots sim) ps outs.
Proof. exact paged_after. Qed.
Print Assumptions C94_paged.
(* After a commit the documents are those of the log. *)
Theorem C94_committed : forall ana norm zip unzip fuel cfg buf0 fis m os calc sim srt scan_ld scan_g len_d len_f coll, let F := fis_of fis (added os) in let max := c_field_length cfg in
  qs_ok srt -> coll_ok coll -> config_ok cfg buf0 (List.length (added os)) -> (3 <= c_skip cfg)%nat -> codec zip unzip -> log_fits ana max zip (c_interval cfg) F (added os) -> (1 <= m)%nat -> max_ok m None os ->
  exists s slots, iw_run ana norm zip (S fuel) cfg buf0 (iw_open fis [] m) (os ++ [WCommit]) = Some s /\ somes slots = log ana max F os /\ Find_Spec.answers ana unzip fuel max F (y_segs s) slots /\
    forall ps, Forall (fair ana max F calc sim scan_ld scan_g len_d len_f os slots) ps -> exists n, forall fu, (n <= fu)%nat -> forall t, tir_used (reader_of (y_segs s)) t ->
      exists outs, (exists n2, forall fv, (n2 <= fv)%nat -> searchesw calc sim srt scan_ld scan_g len_d len_f coll s fu fv (map fst ps) t = Some outs) /\ Forall2 (answered ana max F scan_ld scan_g coll slots sim) ps outs.
Proof. exact paged_committed. Qed.
Print Assumptions C94_committed.
(* The same for searches with query strings: the documents are those of which the string speaks. *)
Theorem C94_told : forall ana norm zip unzip fuel cfg buf0 fis m os calc sim srt scan_ld scan_g len_d len_f coll cf pl, let F := fis_of fis (added os) in let max := c_field_length cfg in settled cf ->
  qs_ok srt -> coll_ok coll -> config_ok cfg buf0 (List.length (added os)) -> (3 <= c_skip cfg)%nat -> codec zip unzip -> log_fits ana max zip (c_interval cfg) F (added os) -> (1 <= m)%nat -> max_ok m None os ->
  exists s slots, iw_run ana norm zip (S fuel) cfg buf0 (iw_open fis [] m) os = Some s /\ somes slots = v_docs (view ana cfg fis m os) /\
    forall xs, Forall (ready_page cf pl ana max F calc sim scan_ld scan_g len_d len_f os slots) xs -> exists n, forall fu, (n <= fu)%nat -> forall t, tir_used (reader_of (y_segs s)) t ->
      exists outs, (exists n2, forall fv, (n2 <= fv)%nat -> searchesw calc sim srt scan_ld scan_g len_d len_f coll s fu fv (map (fun x => fst (snd x)) xs) t = Some outs) /\ Forall2 (told cf pl ana max F sim scan_ld scan_g coll slots) xs outs.
Proof. exact told_after. Qed.
Print Assumptions C94_told.

(* ---------- examples: numbers of digits and one point; the C locale *)
Definition digit (c : Z) : bool := (48 <=? c) && (c <=? 57).
Fixpoint lead (t : list Z) : list Z := match t with c :: r => if digit c then c :: lead r else [] | [] => [] end.
Definition number (t : list Z) : Z := fold_left (fun n c => 10 * n + (c - 48)) t 0.
Definition ld1 (t : list Z) : option Z := match lead t with [] => None | l => Some (number l) end.
Definition len1 (t : list Z) : option Z := match lead t with [] => None | l => Some (Z.of_nat (List.length l)) end.
(* tenths *)
Definition frac (t : list Z) : Z * Z := match skipn (List.length (lead t)) t with 46 :: c :: _ => if digit c then (c - 48, 2) else (0, 1) | 46 :: _ => (0, 1) | _ => (0, 0) end.
Definition g1 (t : list Z) : option Z := match lead t with [] => None | l => Some (10 * number l + fst (frac t)) end.
Definition lenf1 (t : list Z) : option Z := match lead t with [] => None | l => Some (Z.of_nat (List.length l) + snd (frac t)) end.
Definition coll1 (a b : list Z) : Z := match scmp a b with Lt => -1 | Eq => 0 | Gt => 1 end.
Lemma coll1_ok : coll_ok coll1.
Proof.
  split; unfold coll1.
  - intros a b. rewrite (scmp_antisym a b). destruct (scmp a b); reflexivity.
  - intros a b c H1 H2. assert (A : sle a b) by (unfold sle; destruct (scmp a b); [discriminate|discriminate|lia]). assert (B : sle b c) by (unfold sle; destruct (scmp b c); [discriminate|discriminate|lia]). pose proof (sle_trans _ _ _ A B) as C. unfold sle in C. destruct (scmp a c); [lia|lia|destruct C; reflexivity].
Qed.
Definition wpages (m : nat) (os : list wop) (qs : list request) := match wrun m os with Some s => searchesw calc2 sim2 c90_qs ld1 g1 len1 lenf1 coll1 s 40 200 qs tir_open | None => None end.
Definition wd (k t : string) : document := wdoc (z k) (z t).
(* five documents, one of them deleted, in several segments *)
Definition nops : list wop := [WAdd (wd "10" "ab") false; WAdd (wd "9" "b") false; WAdd (wd "25" "x") false; WAdd (wd "30" "ac") false; WDelete [116] [z "x"]; WAdd (wd "9" "ac") false; WCommit].
Definition sc1 (d : Z) : Z := match d with 1 => 7 | 3 => 7 | _ => 5 end.
Definition asc (f : string) (t : sftype) : sfield := mkSf (z f) t false.
Definition desc (f : string) (t : sftype) : sfield := mkSf (z f) t true.
Definition n94 : list (request * list stype) :=
  [ (mkReq UAll sc1 None 0 3 None, []);
    (mkReq UAll sc1 None 2 10 (Some [asc "i" Auto]), [TInteger]);
    (mkReq UAll sc1 None 0 10 (Some [asc "i" (Is TByte); desc "" (Is TDoc)]), [TByte; TDoc]);
    (mkReq (UTerm ft (z "a")) sc1 None 0 10 (Some [desc "i" (Is TFloat)]), [TFloat]);
    (mkReq UAll sc1 (Some (fi, mkRange (Some (z "3")) None true false)) 0 10 (Some [desc "t" (Is TString); asc "" (Is TScore)]), [TString; TScore]) ].
Example C94_example : wpages 2 nops (map fst n94) = Some
  [ Ok (mkTd 4 [mkHit 1 7; mkHit 3 7; mkHit 0 5] 7); Ok (mkTd 4 [mkHit 0 5; mkHit 3 7] 7); Ok (mkTd 4 [mkHit 0 5; mkHit 3 7; mkHit 4 5; mkHit 1 7] 7);
    Ok (mkTd 3 [mkHit 3 7; mkHit 0 5; mkHit 4 5] 7); Ok (mkTd 3 [mkHit 3 7; mkHit 4 5; mkHit 1 7] 7) ].
Proof. vm_compute. reflexivity. Qed.
(* all that is asked of these searches *)
Definition slots94 : list (option document) := [Some (wd "10" "ab"); Some (wd "9" "b"); None; Some (wd "30" "ac"); Some (wd "9" "ac")].
Example C94_fair : Forall (fair ana1 10 (fis_of wfis (added nops)) calc2 sim2 ld1 g1 len1 lenf1 nops slots94) n94.
Proof.
  change (fis_of wfis (added nops)) with wfis.
  assert (KI : forall scan : list Z -> option Z, scan (z "10") <> None -> scan (z "9") <> None -> scan (z "30") <> None -> forall x t, In (Some x) slots94 -> field_of ana1 10 wfis fi x = Some t -> scan t <> None).
  { intros scan S1 S2 S3 x t Hx Ht. unfold slots94 in Hx. destruct Hx as [E|[E|[E|[E|[E|[]]]]]]; try discriminate E; injection E as <-; vm_compute in Ht; injection Ht as <-; assumption. }
  repeat (apply Forall_cons; [split; [split; [cbn; lia|]; split; [cbn; lia|]; split; [right; cbn; unfold Search_Model.INT_MAX; lia|]|split; [exact Logic.I|reflexivity]]|]); [| | | | |apply Forall_nil]; cbn [fst snd rq_sort]; try reflexivity; repeat (apply Forall2_cons; [|]); try apply Forall2_nil.
  - split; [cbn; discriminate|]. split; [apply KI; vm_compute; discriminate|]. right. split; [reflexivity|]. split; [cbn; discriminate|]. split; [exists (wd "9" "b"); split; [right; left; reflexivity|vm_compute; discriminate]|].
    intros n f d o En Hd Ho. vm_compute in En. injection En as <- <-. cbn [added nops flat_map app] in Hd. repeat (destruct Hd as [<-|Hd]; [vm_compute in Ho; destruct Ho as [<-|[]]; split; [discriminate|left; split; vm_compute; reflexivity]|]). destruct Hd.
  - split; [cbn; discriminate|]. split; [exact Logic.I|]. left. reflexivity.
  - split; [exact Logic.I|]. split; [exact Logic.I|]. left. reflexivity.
  - split; [cbn; discriminate|]. split; [apply KI; vm_compute; discriminate|]. left. reflexivity.
  - split; [cbn; discriminate|]. split; [exact Logic.I|]. left. reflexivity.
  - split; [exact Logic.I|]. split; [exact Logic.I|]. left. reflexivity.
Qed.

(* a search with a string: "+A -""b <> b|c""", the first two of the hits from the greatest key down *)
Definition x94 : request * list stype := (mkReq u91 sc1 None 0 2 (Some [desc "i" (Is TByte)]), [TByte]).
Example C94_string : run91 s91 = Some u91 /\ wpages 2 pops [fst x94] = Some [Ok (mkTd 4 [mkHit 4 5; mkHit 2 5] 7)] /\ forall slots, ready_page cf91 0 ana1 10 (fis_of wfis (added pops)) calc2 sim2 ld1 g1 len1 lenf1 pops slots (z s91, x94).
Proof.
  split; [vm_compute; reflexivity|]. split; [vm_compute; reflexivity|]. intros slots. split; [apply C92_ready|]. change (fis_of wfis (added pops)) with wfis. split; [cbn; lia|]. split; [cbn; lia|]. split; [right; cbn; unfold Search_Model.INT_MAX; lia|].
  cbn [fst snd x94 rq_sort]. apply Forall2_cons; [|apply Forall2_nil]. split; [cbn; discriminate|]. split; [exact Logic.I|]. left. reflexivity.
Qed.

(* ---------- C95: the values of the documents *)
(* A field index, on one segment or several, has for every document that is not deleted the number or the text of its greatest term, for
   one without any 0 or nothing; the numbers of a byte index are in the order of the terms. Documents that are deleted have none. *)
Theorem C95_index : forall i r f del scan_ld scan_g size, pidx_open i r -> pidx_field i f -> (forall t (p : post), In p (plook i f t) -> del (fst p) = false -> 0 <= fst p < Z.of_nat size) ->
  exists n, forall k fuel, (n <= fuel)%nat -> exists x, fi_build scan_ld scan_g r del k fuel size f = Some x /\
    (forall d o, 0 <= d < Z.of_nat size -> del d = false -> top_term i f d o -> said_of scan_ld scan_g k x d o) /\
    (k = KByte -> forall d e t u v w, 0 <= d < Z.of_nat size -> 0 <= e < Z.of_nat size -> del d = false -> del e = false -> top_term i f d (Some t) -> top_term i f e (Some u) -> cell x d = Some v -> cell x e = Some w -> (v < w <-> slt t u) /\ (v = w <-> t = u)) /\
    (forall d, 0 <= d < Z.of_nat size -> del d = true -> cell x d = Some 0 /\ text_in x d = None).
Proof. exact index_ok. Qed.
Print Assumptions C95_index.
(* the comparator of a field, which cells have a value, and the type the sort has afterwards *)
Definition wcomp (m : nat) (os : list wop) (s : sfield) : option (stype * list (option Z) * sftype) :=
  match wrun m os with
  | Some w => match get_comparator ld1 g1 len1 lenf1 (reader_of (y_segs w)) (rd_is_deleted (y_segs w)) (rd_max_doc (y_segs w)) (live (rd_is_deleted (y_segs w)) (rd_max_doc (y_segs w))) (field_num (y_fis w)) 200 [] s with
              | Ok (c, s', _) => Some (c_type (fst c), map (fun d => if snd c (Z.of_nat d) then Some (c_long (fst c) (Z.of_nat d)) else None) (seq 0 (Z.to_nat (rd_max_doc (y_segs w)))), sf_type s')
              | _ => None end
  | None => None end.
Example C95_example : wcomp 2 nops (asc "i" Auto) = Some (TInteger, [Some 10; Some 9; Some 0; Some 30; Some 9], Is TInteger) /\ wcomp 2 nops (desc "i" (Is TByte)) = Some (TByte, [Some 1; Some 4; Some 0; Some 3; Some 4], Is TByte).
Proof. split; vm_compute; reflexivity. Qed.
(* The first term is a number, another is not: the documents with that have no value, and comparing reads what was never written. Sorted as
   strings all is well. *)
Definition mixed : list wop := [WAdd (wd "x" "a") false; WAdd (wd "10" "a") false; WAdd (wd "y" "a") false; WCommit].
Theorem C95_auto_refuted : wcomp 2 mixed (asc "i" Auto) = Some (TInteger, [None; Some 10; None], Is TInteger) /\ wpages 2 mixed [mkReq UAll sc1 None 0 9 (Some [asc "i" Auto])] = None /\
  wpages 2 mixed [mkReq UAll sc1 None 0 9 (Some [asc "i" (Is TString)])] = Some [Ok (mkTd 3 [mkHit 1 7; mkHit 0 5; mkHit 2 5] 7)].
Proof. split; [|split]; vm_compute; reflexivity. Qed.
Print Assumptions C95_auto_refuted.
(* The term that decides may be one that only a deleted document has. *)
Theorem C95_deleted_refuted : wcomp 2 (removelast mixed ++ [WDelete [105] [z "10"]; WCommit]) (asc "i" Auto) = Some (TInteger, [None; Some 0; None], Is TInteger) /\
  wcomp 2 (removelast mixed ++ [WDelete [105] [z "10"]; WOptimize]) (asc "i" Auto) = Some (TString, [Some 1; Some 2], Is TString).
Proof. split; vm_compute; reflexivity. Qed.
Print Assumptions C95_deleted_refuted.
(* What was found for one index stays in the sort and is used for the next, whose terms are no numbers. *)
Theorem C95_kept_refuted : exists t, option_map snd (wcomp 2 nops (asc "i" Auto)) = Some t /\ wcomp 2 [WAdd (wd "x" "a") false; WAdd (wd "y" "a") false; WCommit] (asc "i" t) = Some (TInteger, [None; None], t) /\
  wcomp 2 [WAdd (wd "x" "a") false; WAdd (wd "y" "a") false; WCommit] (asc "i" Auto) = Some (TString, [Some 1; Some 2], Is TString).
Proof. exists (Is TInteger). split; [|split]; vm_compute; reflexivity. Qed.
Print Assumptions C95_kept_refuted.
(* A field that the index does not have: a type that is given raises an error, one that is left to the index reads from nothing. *)
Theorem C95_unknown_refuted : forall scan_ld scan_g len_d len_f r del mx live fld fuel c s, fld (sf_field s) = None ->
  (forall t k, sf_type s = Is t -> klass_of t = Some k -> get_comparator scan_ld scan_g len_d len_f r del mx live fld fuel c s = Raise) /\ (sf_type s = Auto -> get_comparator scan_ld scan_g len_d len_f r del mx live fld fuel c s = Undef).
Proof.
  intros scan_ld scan_g len_d len_f r del mx lv fld fuel c s H. unfold get_comparator, evaluate, field_index_get. split; [intros t k E K; rewrite E, E, K|intros E; rewrite E]; rewrite H; reflexivity.
Qed.
Print Assumptions C95_unknown_refuted.
(* Deleted documents that come back after a sorted search are sorted as if they had nothing: the index of the field is that of before. *)
Definition back (again : bool) : option (list topdocs) :=
  match wrun 2 nops with
  | Some w =>
      let q := mkReq UAll sc1 None 0 9 (Some [asc "i" (Is TInteger)]) in
      let go del c t := search calc2 sim2 c90_qs ld1 g1 len1 lenf1 coll1 (reader_of (y_segs w)) del (rd_max_doc (y_segs w)) (field_num (y_fis w)) 40 200 q c t in
      do a <- go (rd_is_deleted (y_segs w)) [] tir_open; do b <- go (fun _ => false) (if again then snd (fst a) else []) (snd a);
      match fst (fst a), fst (fst b) with Ok x, Ok y => Some [x; y] | _, _ => None end
  | None => None end.
Theorem C95_undeleted_refuted : option_map (map (fun td => map h_doc (td_hits td))) (back true) = Some [[1; 4; 0; 3]; [2; 1; 4; 0; 3]] /\ option_map (map (fun td => map h_doc (td_hits td))) (back false) = Some [[1; 4; 0; 3]; [1; 4; 0; 2; 3]].
Proof. split; vm_compute; reflexivity. Qed.
Print Assumptions C95_undeleted_refuted.
