(* C79 C80: what is found in an index after everything that was done to it. *)
From Verif Require Import Util Codec_Model Strcmp Codec_Spec Seg_Model Seg_Spec Dict_Model Dict_Spec Token_Model Post_Model Post_Spec Multi_Model Mte_Model Mtde_Model Mtde_Spec Expand_Model Expand_Spec Range_Model Range_Spec Merge_Model Merge_Spec Fields_Model Fields_Spec Fields_Properties Invert_Model Invert_Spec Invert_Properties Iw_Model Iw_Spec IwRun_Proofs Iw_Properties Tsc_Model Tsc_Spec Find_Model Find_Spec FindTop_Proofs.
Open Scope Z_scope.

(* Any documents, any history of adding, deleting, committing, optimizing, closing and opening, with whatever flushes and merges that
   brings: a reader on the result numbers the committed documents in the order of the log, with gaps for deleted ones; each number gives back
   what is stored of its document; and for every field and term the term query's scorer goes, under any nexts and skips, exactly through the
   documents whose text has the term in that field, with the number of its occurrences. *)
Theorem C79_found : forall ana norm zip unzip fuel cfg buf0 fis m os, let F := fis_of fis (added os) in
  config_ok cfg buf0 (length (added os)) -> (3 <= c_skip cfg)%nat -> codec zip unzip -> log_fits ana (c_field_length cfg) zip (c_interval cfg) F (added os) -> (1 <= m)%nat -> max_ok m None os ->
  exists s slots, iw_run ana norm zip (S fuel) cfg buf0 (iw_open fis [] m) os = Some s /\ somes slots = v_docs (view ana cfg fis m os) /\ answers ana unzip fuel (c_field_length cfg) F (y_segs s) slots.
Proof. exact found_after. Qed.
Print Assumptions C79_found.
(* After a commit these are all documents of the log. *)
Theorem C79_committed : forall ana norm zip unzip fuel cfg buf0 fis m os, let F := fis_of fis (added os) in
  config_ok cfg buf0 (length (added os)) -> (3 <= c_skip cfg)%nat -> codec zip unzip -> log_fits ana (c_field_length cfg) zip (c_interval cfg) F (added os) -> (1 <= m)%nat -> max_ok m None os ->
  exists s slots, iw_run ana norm zip (S fuel) cfg buf0 (iw_open fis [] m) (os ++ [WCommit]) = Some s /\ somes slots = log ana (c_field_length cfg) F os /\ answers ana unzip fuel (c_field_length cfg) F (y_segs s) slots.
Proof. exact found_committed. Qed.
Print Assumptions C79_committed.
(* a search for a term and what is stored of every document; the hypotheses are those of c31_ex4 *)
Definition wsearch (m : nat) (os : list wop) (n : Z) (t : list Z) (ops : list sop) :=
  match wrun m os with
  | Some s => match tw_scorer (reader_of (y_segs s)) tir_open (Some n) t with
              | Some b => Some (tsc_run (reader_of (y_segs s)) (rd_is_deleted (y_segs s)) b ops, map (fun k => rd_get_doc unzip1 1 (y_fis s) (y_segs s) (Z.of_nat k)) (seq 0 (Z.to_nat (rd_max_doc (y_segs s)))))
              | None => None end
  | None => None end.
Definition xops : list wop := [WAdd (wdoc [1] [97; 98]) false; WAdd (wdoc [2] [98; 97; 98]) false; WAdd (wdoc [3] [97; 99]) false; WAdd (wdoc [4] [98]) false; WAdd (wdoc [5] [98; 98]) false; WDelete [116] [[99]]; WAdd (wdoc [6] [98; 99]) false; WCommit].
Example C79_example : wsearch 2 xops 1 [98] [SNext; SNext; SSkip 3; SNext; SNext; SNext] =
  Some (Some [Some (0, 1); Some (1, 2); Some (3, 1); Some (4, 2); Some (5, 1); None], [Some (wk [1]); Some (wk [2]); Some None; Some (wk [4]); Some (wk [5]); Some (wk [6])]) /\
  wsearch 2 xops 1 [97] [SSkip 1; SNext] = Some (Some [Some (1, 1); None], [Some (wk [1]); Some (wk [2]); Some None; Some (wk [4]); Some (wk [5]); Some (wk [6])]) /\
  wsearch 2 (xops ++ [WOptimize]) 1 [99] [SNext; SNext] = Some (Some [Some (4, 1); None], [Some (wk [1]); Some (wk [2]); Some (wk [4]); Some (wk [5]); Some (wk [6])]).
Proof. split; [|split]; vm_compute; reflexivity. Qed.

(* The same for prefixes and patterns: if no more terms of the field match than the query may have, it finds exactly the documents with a
   matching term. *)
Theorem C80_matched : forall ana norm zip unzip fuel cfg buf0 fis m os, let F := fis_of fis (added os) in let max := c_field_length cfg in
  config_ok cfg buf0 (length (added os)) -> (3 <= c_skip cfg)%nat -> codec zip unzip -> log_fits ana max zip (c_interval cfg) F (added os) -> (1 <= m)%nat -> max_ok m None os ->
  exists s slots, iw_run ana norm zip (S fuel) cfg buf0 (iw_open fis [] m) os = Some s /\ somes slots = v_docs (view ana cfg fis m os) /\
    (forall n pre k bo, (1 <= k)%nat -> pre <> [] -> few ana max F k n (added os) (fun t => exists u, t = pre ++ u) ->
       exists f0, forall fu, (f0 < fu)%nat -> exists q, prq_rewrite fu (rdr_of (reader_of (y_segs s))) (Some (Z.of_nat n)) pre k bo = Some (QMultiQ q) /\
         visits ana max F (y_segs s) slots n q (fun t => exists u, t = pre ++ u)) /\
    (forall n pat k bo, (1 <= k)%nat -> fst (split_wild pat) <> [] -> (length (fst (split_wild pat)) < 255)%nat -> snd (split_wild pat) <> [] -> few ana max F k n (added os) (glob pat) ->
       exists f0, forall fu, (f0 < fu)%nat -> exists q, wcq_rewrite fu (rdr_of (reader_of (y_segs s))) (Some (Z.of_nat n)) pat k bo = Some (QMultiQ q) /\
         visits ana max F (y_segs s) slots n q (glob pat)).
Proof. exact matched_after. Qed.
Print Assumptions C80_matched.
(* the key field is indexed whole *)
Definition wmatch (m : nat) (os : list wop) (rw : rdr -> option rq) :=
  match wrun m os with
  | Some s => match rw (rdr_of (reader_of (y_segs s))) with
              | Some (QMultiQ q) => do l <- query_terms q; do sc <- multi_tw_scorer (reader_of (y_segs s)) (Some 0) (map fst l);
                                    match sc with Some (x, _) => do r <- multi_run (reader_of (y_segs s)) (rd_is_deleted (y_segs s)) x [SNext; SNext; SNext]; Some (map (option_map fst) r) | None => Some [] end
              | _ => None end
  | None => None end.
Definition yops : list wop := [WAdd (wdoc [107; 1; 2] [97]) false; WAdd (wdoc [107; 2] [98]) false; WAdd (wdoc [1; 2] [97]) false; WDelete [116] [[98]]; WAdd (wdoc [107; 2; 2] [98]) false; WAdd (wdoc [107; 1; 5] [99]) false; WCommit].
Example C80_example : wmatch 2 yops (fun r => prq_rewrite 9 r (Some 0) [107] 8 one) = Some [Some 0; Some 2; Some 3] /\
  wmatch 2 yops (fun r => wcq_rewrite 9 r (Some 0) [107; 42; 2] 8 one) = Some [Some 0; Some 2; None] /\ wmatch 2 yops (fun r => wcq_rewrite 9 r (Some 0) [107; 1; 63] 8 one) = Some [Some 0; Some 3; None].
Proof. split; [|split]; vm_compute; reflexivity. Qed.
Example C80_few : few ana1 10 (fis_of wfis (added yops)) 4 0 (added yops) (fun t => exists u, t = [107] ++ u).
Proof.
  intros ts HN H. assert (G : incl ts [[107; 1; 2]; [107; 2]; [107; 2; 2]; [107; 1; 5]]).
  { intros t Ht. destruct (H t Ht) as ((u & ->) & d & Hd & o & Ho & E). clear H Ht.
    cbn [added yops flat_map app] in Hd. change (fis_of _ _) with wfis in Ho. repeat (destruct Hd as [<-|Hd]; [vm_compute in Ho; destruct Ho as [<-|[]]; cbn [o_text app] in E |- *; (discriminate E || (rewrite E; cbn; tauto))|]); try destruct Hd. }
  pose proof (NoDup_incl_length HN G) as L. exact L.
Qed.
