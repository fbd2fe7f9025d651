(* C91 C92: what a query string says, and the documents it finds. *)
From Coq Require Import String.
From Verif Require Import Util Codec_Model Strcmp Codec_Spec Seg_Model Seg_Spec Dict_Model Dict_Spec Token_Model Post_Model Post_Spec Multi_Model Mte_Model Mtde_Model Mtde_Spec Expand_Model Expand_Spec Fuzzy_Model Fuzzy_Spec Range_Model Range_Spec Merge_Model Merge_Spec Fields_Model Fields_Spec Invert_Model Invert_Spec Invert_Properties Iw_Model Iw_Spec IwRun_Proofs Iw_Properties Tsc_Model Tsc_Spec Tpe_Model Tpe_Spec Tpe_Properties Find_Model Find_Spec Find_Properties FindTop_Proofs Query_Model Leaf_Model Bool_Model Look_Model Look_Spec LookTop_Proofs Look_Properties.
From Verif Require Import QpLex_Model QpAct_Model Qp_Model Qp_Spec QpAst_Spec QpMean_Spec QpTop_Proofs Qp_Properties Ask_Model Ask_Spec AskTop_Proofs AskFound_Proofs AskCalm_Proofs.
Open Scope Z_scope.
Open Scope list_scope.

(* The query that the parser builds asks for what the string says, however words, phrases, fields and similarity are understood. *)
Theorem C91_means : forall cf s q, settled cf -> moderate cf s -> parsed_to cf s q -> (exists t, writes cf s t) /\
  forall t, writes cf s t -> forall has hasp near, extensional has -> (qsat has hasp near q <-> top_says cf has hasp near t).
Proof. exact means. Qed.
Print Assumptions C91_means.
Theorem C92_found : forall ana norm zip unzip fuel cfg buf0 fis m os calc sim srt cf pl, let F := fis_of fis (added os) in let max := c_field_length cfg in settled cf ->
  qs_ok srt -> config_ok cfg buf0 (List.length (added os)) -> (3 <= c_skip cfg)%nat -> codec zip unzip -> log_fits ana max zip (c_interval cfg) F (added os) -> (1 <= m)%nat -> max_ok m None os ->
  exists s slots, iw_run ana norm zip (S fuel) cfg buf0 (iw_open fis [] m) os = Some s /\ somes slots = v_docs (view ana cfg fis m os) /\
    forall xs, Forall (ready_for cf pl ana max F calc sim os slots) xs -> exists n, forall fu, (n <= fu)%nat -> forall t, tir_used (reader_of (y_segs s)) t ->
      exists Ls, (exists n2, forall fv, (n2 <= fv)%nat -> looksw calc sim srt s fu fv (map snd xs) t = Some Ls) /\ Forall2 (found cf pl ana max F sim slots) (map fst xs) Ls.
Proof. exact found_after. Qed.
Print Assumptions C92_found.
(* After a commit the documents are those of the log. *)
Theorem C92_committed : forall ana norm zip unzip fuel cfg buf0 fis m os calc sim srt cf pl, let F := fis_of fis (added os) in let max := c_field_length cfg in settled cf ->
  qs_ok srt -> config_ok cfg buf0 (List.length (added os)) -> (3 <= c_skip cfg)%nat -> codec zip unzip -> log_fits ana max zip (c_interval cfg) F (added os) -> (1 <= m)%nat -> max_ok m None os ->
  exists s slots, iw_run ana norm zip (S fuel) cfg buf0 (iw_open fis [] m) (os ++ [WCommit]) = Some s /\ somes slots = log ana max F os /\
    forall xs, Forall (ready_for cf pl ana max F calc sim os slots) xs -> exists n, forall fu, (n <= fu)%nat -> forall t, tir_used (reader_of (y_segs s)) t ->
      exists Ls, (exists n2, forall fv, (n2 <= fv)%nat -> looksw calc sim srt s fu fv (map snd xs) t = Some Ls) /\ Forall2 (found cf pl ana max F sim slots) (map fst xs) Ls.
Proof. exact found_committed. Qed.
Print Assumptions C92_committed.
(* A string without parentheses never makes a query of the kind that C88 refutes (two required clauses below a required one). *)
Theorem C92_flat : forall cf pl s q t u, moderate cf s -> parsed_to cf s q -> writes cf s t -> flat_top t = true -> to_uq pl q = Some u -> calm false u = true.
Proof. exact flat_is_calm. Qed.
Print Assumptions C92_flat.

(* ---------- examples *)
Definition cf91 : qconf := cfg false false true 512 [z "t"] [z "i"; z "t"] [z "t"].
Definition run91 (s : string) : option uq := match qp_parse cf91 2000 (qp_new cf91) (z s) with Some (AnsQ q, _) => to_uq 0 q | _ => None end.
Definition ask91 (xs : list string) : option (list (list Z)) := do us <- oall (map run91 xs); wlook 2 pops us.
Definition x91 : list string := ["""a b"" -c"; "+A -""b <> b|c"""; "i|t:(c x) AND -""c|x a"""; """b|c"" AND [c x}"; "-<b i:k*"; "<c NOT ""c b"""; "()"; "-""a b"""; """a c""~1"; """b c|x""~2 AND -""a b c""~1"]%string.
Example C92_example : ask91 x91 = Some [[3]; [0; 1; 2; 4]; [0; 2]; [0; 1; 2; 4]; []; [0; 1; 3; 4]; []; [1; 2]; [0; 2]; [1; 2]].
Proof. vm_compute. reflexivity. Qed.
Lemma cf91_settled : settled cf91.
Proof.
  split; [discriminate| | |reflexivity].
  - intros f w t r. unfold tokens_in. cbn [cf91 cfg q_tok q_ana]. destruct (QpAct_Model.has _ f); unfold Qp_Properties.ana1, non_tokenize; cbn [map down]; intros E; injection E as <- _; discriminate.
  - intros w. cbn [cf91 cfg q_lower]. rewrite map_map. apply map_ext. exact lower1_idem.
Qed.
(* the second string: what it says, and all that C92_found asks of it *)
Definition s91 : string := "+A -""b <> b|c""".
Definition t91 : top := Some (Cls QpAct_Model.Must (ATerm (z "A")) None, MCons CNone (Cls QpAct_Model.MustNot (APhrase (Some (z "b")) [PGap; PWord (z "b"); PAlt (z "c")] None) None) MNil).
Definition u91 : uq := UBool [(Query_Model.Must, UTerm [116] [97]); (Query_Model.MustNot, UPhrase [116] 0 [(0, [[98]]); (2, [[98]; [99]])])].
Example C91_says : forall has hasp near, top_says cf91 has hasp near t91 <-> has (z "t") (eq (z "a")) /\ ~ hasp (z "t") 0 [(0, [z "b"]); (2, [z "b"; z "c"])].
Proof.
  intros has hasp near. change (comb [(Query_Model.Must, exists P, In P [has (z "t") (eq (z "a"))] /\ P); (Query_Model.MustNot, exists P, In P [hasp (z "t") 0 [(0, [z "b"]); (2, [z "b"; z "c"])]] /\ P)] <-> has (z "t") (eq (z "a")) /\ ~ hasp (z "t") 0 [(0, [z "b"]); (2, [z "b"; z "c"])]).
  set (P := has _ _). set (Q := hasp _ _ _). clearbody P Q. unfold comb. cbn [In]. split.
  - intros (H1 & H2 & _). destruct (H1 _ (or_introl eq_refl) eq_refl) as (x & [<-|[]] & HP). split; [exact HP|]. intros HQ. apply (H2 _ (or_intror (or_introl eq_refl)) eq_refl). exists Q. auto.
  - intros (HP & HQ). split; [intros m [<-|[<-|[]]] E; [exists P; auto|discriminate]|]. split; [intros m [<-|[<-|[]]] E; [discriminate|intros (x & [<-|[]] & G); exact (HQ G)]|]. left. eexists. split; [left; reflexivity|reflexivity].
Qed.
Example C92_ready : forall slots, ready_for cf91 0 ana1 10 (fis_of wfis (added pops)) calc2 sim2 pops slots (z s91, u91).
Proof.
  intros slots. assert (W : writes cf91 (z s91) t91) by (split; [cbn; repeat split; intros; discriminate|vm_compute; reflexivity]).
  assert (M : moderate cf91 (z s91)).
  { split; [|apply Nat.leb_le; vm_compute; reflexivity]. rewrite (proj2 W). repeat (constructor; [cbn; lia|]). constructor. }
  destruct (top_eval cf91 (List.length (parsed cf91 (z s91))) (q_def cf91) t91) as [o| |] eqn:V; [|vm_compute in V; discriminate|vm_compute in V; discriminate].
  exists (query_of o). split; [exact M|]. split.
  - destruct (proj2 (C81_strict cf91 (qp_new cf91) (z s91) eq_refl M eq_refl (query_of o)) (ex_intro _ t91 (ex_intro _ o (conj W (conj V eq_refl))))) as (p' & A). exists (qp_new cf91), p'. split; [reflexivity|]. split; [exact A|]. left. reflexivity.
  - assert (U : to_uq 0 (query_of o) = Some u91) by (vm_compute in V; injection V as <-; reflexivity). split; [exact U|]. cbn [snd].
    change (fis_of wfis (added pops)) with wfis. assert (K : field_ordered ana1 10 wfis (added pops) [116]).
    { unfold field_ordered. change (fis_get wfis [116]) with (Some (1%nat, mkFi [116] 1065353216 (4 + 8))). cbv iota. intros d Hd. apply sortedb_ok. cbn [added pops flat_map app] in Hd. repeat (destruct Hd as [<-|Hd]; [reflexivity|]). destruct Hd. }
    split; [|reflexivity]. cbn [limits u91 snd fst]. split; [split; [exact Logic.I|]|].
    + split; [split; [exact K|left; reflexivity]|exact Logic.I].
    + left. eexists. split; [left; reflexivity|discriminate].
Qed.
