(* C31 C32 C75: the index writer is a log of documents and deletions; unique keys; max_buffered_docs. *)
From Verif Require Import Util Codec_Model Strcmp Codec_Spec Seg_Model Seg_Spec Dict_Model Dict_Spec Token_Model Post_Model Post_Spec PostRun_Proofs Merge_Model Merge_Spec Mte_Spec Fields_Model Fields_Spec Fields_Properties Invert_Model Invert_Spec Invert_Properties InvertTop_Proofs Iw_Model Iw_Spec IwRun_Proofs.
Open Scope Z_scope.

(* examples: i: a key, stored, indexed whole; t: every byte is a token, with norms *)
Definition wfis : field_infos := mkFis 1 2 0 [mkFi [105] 1065353216 (1 + 4 + 16); mkFi [116] 1065353216 (4 + 8)].
Definition wdoc (k : list Z) (text : list Z) : document := mkDoc 1065353216 [mkDfd [105] 1065353216 [k]; mkDfd [116] 1065353216 [text]].
Definition wcfg : config := mkCfg 2 16 2 100 true 10.
Definition wbuf : list Z := repeat 0 (buf_alloc 2).
Definition wrun (m : nat) (os : list wop) : option iw := iw_run ana1 norm1 zip1 1 wcfg wbuf (iw_open wfis [] m) os.
(* the segments: how many documents, the stored keys of those that are not deleted, the norms of t *)
Definition wdump (s : iw) : list (nat * list (option (list (list Z * list (list Z)))) * option (list Z)) :=
  map (fun x => (i_max (w_in x), map (fr_get_doc unzip1 1 (y_fis s) (w_fdt x) (w_fdx x)) (filter (fun j => negb (dels (w_in x) (Z.of_nat j))) (seq 0 (i_max (w_in x)))), norm_file 1 x)) (y_segs s).
Definition wshow (m : nat) (os : list wop) := match wrun m os with Some s => Some (wdump s) | None => None end.
Definition wk (k : list Z) : option (list (list Z * list (list Z))) := Some [([105], [k])].
(* the postings of a term of field n in the jth segment *)
Definition wfind (m : nat) (os : list wop) (j : nat) (n : Z) (t : list Z) : option (list pres) :=
  match wrun m os with
  | Some s => match nth_error (y_segs s) j with
              | Some x => let g := i_seg (w_in x) in tde_run false g (i_sfi (w_in x)) (tir_open, tde_new (g_frq g) (g_prx g)) [PSeek n t; PNext (dels (w_in x)); PNext (dels (w_in x)); PNext (dels (w_in x))]
              | None => None end
  | None => None end.

(* Whatever is added, deleted, committed, optimized, closed and opened again, with whatever merges that brings: nothing fails, and what the
   segments hold are the committed documents of the log, in its order: every enumerator of terms, every stored document and term vector and
   all norms are theirs. *)
Theorem C31_log : forall ana norm zip unzip fuel cfg buf0 fis m os, let F := fis_of fis (added os) in
  config_ok cfg buf0 (length (added os)) -> codec zip unzip -> log_fits ana (c_field_length cfg) zip (c_interval cfg) F (added os) -> (1 <= m)%nat -> max_ok m None os ->
  exists s, iw_run ana norm zip (S fuel) cfg buf0 (iw_open fis [] m) os = Some s /\ y_fis s = F /\
    shows ana norm unzip fuel (c_field_length cfg) F (c_skip cfg) (y_segs s) (v_docs (view ana cfg fis m os)).
Proof. intros. apply run_shows; auto. Qed.
Print Assumptions C31_log.
(* The documents visible and those waiting in memory are the log, and after a commit none waits. *)
Theorem C31_committed : forall ana cfg fis m os, v_docs (view ana cfg fis m os) ++ v_wait (view ana cfg fis m os) = log ana (c_field_length cfg) (fis_of fis (added os)) os /\
  forall o, o = WCommit \/ o = WOptimize \/ (exists k, o = WReopen k) -> v_wait (view ana cfg fis m (os ++ [o])) = [].
Proof. intros. split; [apply view_is_log|apply view_commit]. Qed.
Print Assumptions C31_committed.
(* Optimizing leaves one segment, without deleted documents. *)
Theorem C31_optimize : forall ana norm zip fuel cfg buf0 fis m os, config_ok cfg buf0 (length (added os)) -> log_fits ana (c_field_length cfg) zip (c_interval cfg) (fis_of fis (added os)) (added os) ->
  (1 <= m)%nat -> max_ok m None os -> forall s, iw_run ana norm zip (S fuel) cfg buf0 (iw_open fis [] m) (os ++ [WOptimize]) = Some s ->
  (length (y_segs s) <= 1)%nat /\ Forall (fun x => i_del (w_in x) = None) (y_segs s).
Proof. intros. eapply optimize_one; eauto. Qed.
Print Assumptions C31_optimize.
(* three documents, two at most in memory; a and c are deleted by a term of their text, then one more is added *)
Definition wops : list wop := [WAdd (wdoc [1] [97; 98]) false; WAdd (wdoc [2] [98]) false; WAdd (wdoc [3] [97; 99]) false; WDelete [116] [[97]; [120]]; WAdd (wdoc [4] [99]) false].
Example c31_ex1 : wshow 2 wops = Some [(2%nat, [wk [2]], Some [2; 1]); (1%nat, [], Some [2])].
Proof. vm_compute. reflexivity. Qed.
Example c31_ex2 : wshow 2 (wops ++ [WCommit]) = Some [(2%nat, [wk [2]], Some [2; 1]); (1%nat, [wk [4]], Some [1])].
Proof. vm_compute. reflexivity. Qed.
Example c31_ex3 : wshow 2 (wops ++ [WOptimize]) = Some [(2%nat, [wk [2]; wk [4]], Some [1; 1])] /\ wfind 2 (wops ++ [WOptimize]) 0 1 [99] = Some [PUnit; PDoc (Some (1, 1)); PDoc None; PDoc None].
Proof. split; vm_compute; reflexivity. Qed.
(* the hypotheses can be met *)
Example c31_ex4 : config_ok wcfg wbuf (length (added wops)) /\ max_ok 2 None wops /\ log_fits ana1 10 zip1 2 (fis_of wfis (added wops)) (added wops).
Proof.
  split; [unfold config_ok; cbn [c_interval c_skip c_factor wcfg]; splits; try lia; [vm_compute; reflexivity|unfold wbuf; apply repeat_length]|]. split; [cbn; auto|].
  unfold log_fits. split; [|splits; vm_compute; reflexivity]. change (added wops) with [wdoc [1] [97; 98]; wdoc [2] [98]; wdoc [3] [97; 99]; wdoc [4] [99]].
  assert (H : forall k t, k = [1] \/ k = [2] \/ k = [3] \/ k = [4] -> t = [97; 98] \/ t = [98] \/ t = [97; 99] \/ t = [99] -> let F := fis_of wfis [wdoc [1] [97; 98]; wdoc [2] [98]; wdoc [3] [97; 99]; wdoc [4] [99]] in
     doc_good ana1 10 F (wdoc k t) /\ short_terms ana1 10 2 F (wdoc k t) /\ small_zip zip1 F (wdoc k t) /\ doc_fits (wdoc k t, vectors ana1 10 F (wdoc k t))).
  2:{ repeat (apply Forall_cons; [apply H; auto|]). apply Forall_nil. }
  intros k t Hk Ht. cbv zeta. change (fis_of wfis _) with wfis. splits.
  - unfold doc_good. split; [unfold names_differ; repeat constructor; cbn; intuition congruence|]. cbn [d_fields wdoc]. repeat (apply Forall_cons; [intros n f E Hi; vm_compute in E; apply some_inj in E; injection E as <- <-|]); try apply Forall_nil.
    all: destruct Hk as [->|[->|[->| ->]]]; destruct Ht as [->|[->|[->| ->]]]; unfold occs_ok; (split; [|discriminate]).
    all: match goal with |- Forall ?P ?l => let l' := eval vm_compute in l in change (Forall P l') end.
    all: repeat (apply Forall_cons; [split; [split; [vm_compute; repeat constructor; lia|vm_compute; repeat constructor; try congruence; lia]|vm_compute; split; congruence]|]); apply Forall_nil.
  - intros n. apply Forall_forall. intros o Ho. apply Nat.leb_le. revert o Ho. apply (proj1 (forallb_forall _ _)). destruct n as [|[|n]]; destruct Hk as [->|[->|[->| ->]]]; destruct Ht as [->|[->|[->| ->]]]; vm_compute; reflexivity.
  - unfold small_zip. cbn [d_fields wdoc]. repeat (apply Forall_cons; [intros _ E; vm_compute in E; discriminate|]). apply Forall_nil.
  - destruct Hk as [->|[->|[->| ->]]]; destruct Ht as [->|[->|[->| ->]]]; vm_compute; reflexivity.
Qed.

(* Adding with a key replaces the document that had it, if keys are indexed whole and have at most 255 bytes (log_fits: less): ... *)
Theorem C32_key_partial : forall ana norm zip unzip fuel cfg buf0 fis m key ds, let docs := map fst ds in let F := fis_of fis docs in
  config_ok cfg buf0 (length docs) -> codec zip unzip -> log_fits ana (c_field_length cfg) zip (c_interval cfg) F docs -> key_ok F key docs -> (1 <= m)%nat ->
  exists s, iw_run ana norm zip (S fuel) cfg buf0 (iw_open fis [] m) (flat_map (keyed_add key) ds ++ [WCommit]) = Some s /\
    shows ana norm unzip fuel (c_field_length cfg) F (c_skip cfg) (y_segs s) (latest key docs).
Proof. exact keyed_shows. Qed.
Print Assumptions C32_key_partial.
(* one document for a key, the one added last. *)
Theorem C32_unique_partial : forall key docs d, ForallOrdPairs (fun d e => same_key key d e = false) (latest key docs) /\ In d (latest key (docs ++ [d])) /\ forall e, In e (latest key docs) -> In e docs.
Proof. intros. split; [apply latest_unique|]. split; [apply latest_last|apply latest_in]. Qed.
Print Assumptions C32_unique_partial.
Definition wkeyed (l : list (document * bool)) : list wop := flat_map (keyed_add [105]) l ++ [WOptimize].
Example c32_ex : wshow 2 (wkeyed [(wdoc [1] [97], false); (wdoc [2] [98], false); (wdoc [1] [99], false)]) = Some [(2%nat, [wk [2]; wk [1]], Some [1; 1])] /\
  latest [105] [wdoc [1] [97]; wdoc [2] [98]; wdoc [1] [99]] = [wdoc [2] [98]; wdoc [1] [99]].
Proof. split; vm_compute; reflexivity. Qed.
(* A longer key is cut when it is indexed, but not when it is looked up: the document added before stays, there are two for the key. *)
Definition long_key : list Z := repeat 107 256.
Theorem C32_long_refuted : wshow 2 (wkeyed [(wdoc long_key [97], false); (wdoc long_key [98], false)]) = Some [(2%nat, [wk long_key; wk long_key], Some [1; 1])] /\
  latest [105] [wdoc long_key [97]; wdoc long_key [98]] = [wdoc long_key [98]].
Proof. split; vm_compute; reflexivity. Qed.
Print Assumptions C32_long_refuted.

(* max_buffered_docs of a writer that has taken a document cannot be raised: the norms are written behind their array.  Nor can it be 0. *)
Theorem C75_raised_refuted : let d := wdoc [1] [97] in
  (exists s, wrun 1 [WAdd d false; WSetMax 3; WAdd d false] = Some s) /\ wrun 1 [WAdd d false; WSetMax 3; WAdd d false; WAdd d false] = None /\ wrun 0 [WAdd d false] = None.
Proof.
  cbv zeta. split; [|split; vm_compute; reflexivity]. destruct (wrun 1 [WAdd (wdoc [1] [97]) false; WSetMax 3; WAdd (wdoc [1] [97]) false]) as [s|] eqn:E; [eauto|].
  exfalso. assert (H : match wrun 1 [WAdd (wdoc [1] [97]) false; WSetMax 3; WAdd (wdoc [1] [97]) false] with Some _ => true | None => false end = true) by (vm_compute; reflexivity). rewrite E in H. discriminate.
Qed.
Print Assumptions C75_raised_refuted.
(* Lowering it, and raising it again to no more than it was, keeps to the log; so does closing the writer before. *)
Theorem C75_lowered_partial : forall ana norm zip unzip fuel cfg buf0 fis m k docs1 docs2 docs3, let os := map (fun d => WAdd d false) docs1 ++ WSetMax k :: map (fun d => WAdd d false) docs2 ++ WReopen (S m + S m) :: map (fun d => WAdd d false) docs3 ++ [WCommit] in
  let docs := docs1 ++ docs2 ++ docs3 in let F := fis_of fis docs in
  config_ok cfg buf0 (length docs) -> codec zip unzip -> log_fits ana (c_field_length cfg) zip (c_interval cfg) F docs -> (1 <= k <= m)%nat ->
  exists s, iw_run ana norm zip (S fuel) cfg buf0 (iw_open fis [] m) os = Some s /\ shows ana norm unzip fuel (c_field_length cfg) F (c_skip cfg) (y_segs s) docs.
Proof. exact lowered_shows. Qed.
Print Assumptions C75_lowered_partial.
Example c75_ex : let d := wdoc [1] [97] in wshow 2 [WAdd d false; WAdd d false; WAdd d false; WSetMax 1; WAdd d false; WReopen 3; WAdd d false; WAdd d false; WCommit] =
  Some [(4%nat, repeat (wk [1]) 4, Some [1; 1; 1; 1]); (2%nat, repeat (wk [1]) 2, Some [1; 1])].
Proof. vm_compute. reflexivity. Qed.
