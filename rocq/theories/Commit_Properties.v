(* C27: crashes during a commit; C28: the deleter; C29: readers; C55: index_exists. *)
From Coq Require Import String.
From Verif Require Import Util Codec_Model Codec_Spec Seg_Model Seg_Spec Commit_Model Commit_Spec Commit_Proofs Deleter_Proofs History_Proofs.
Open Scope Z_scope.

(* From the second commit after index_create on, with no debris of an earlier crash: whatever the crash point, a later sis_read gives
   the old or the new commit with all its files unchanged, or dies because the new descriptor ends inside the leading numbers of its
   field definitions. *)
Theorem C27_crash_during_commit : forall d g old new pre w post del d',
  committed d g old -> 1 <= g -> g + 1 < 2 ^ 62 -> sis_ok new -> spares old pre -> spares new post ->
  sis_write (g + 1) new del = Some w -> crash d (pre ++ w ++ post) d' ->
  (sis_read d' = Found g old /\ forall fn, commit_file old fn -> lookup fn d' = lookup fn d) \/
  (sis_read d' = Found (g + 1) new /\ forall fn, commit_file new fn -> lookup fn d' = lookup fn (apply_ops d pre)) \/
  (sis_read d' = Crashed /\ exists fn bs lo hi k, segfn_for_generation (g + 1) = Some fn /\ enc_sis new = Some bs /\ fis_window new = Some (lo, hi) /\
     (lo <= k < hi)%nat /\ lookup fn d' = Some (firstn k bs)).
Proof. exact crash_during_commit. Qed.
Print Assumptions C27_crash_during_commit.
Definition ex_dir : dir := (str "_0.cfs", [1; 2; 3]) :: dir_of "segments_1" sis1.
Definition ex_pre : list fop := [Create (str "_1.cfs"); Write (str "_1.cfs") 0 [7; 8]].
Example C27_crash_during_commit_ex : match sis_write 2 sis2 true with
  | Some w => sis_read ex_dir = Found 1 sis1 /\ sis_read (apply_ops ex_dir ex_pre) = Found 1 sis1 /\
              sis_read (apply_ops ex_dir (ex_pre ++ firstn 1 w)) = Found 1 sis1 /\ sis_read (apply_ops ex_dir (ex_pre ++ firstn 2 w)) = Found 2 sis2 /\
              names (apply_ops ex_dir (ex_pre ++ w)) = map str ["_0.cfs"; "_1.cfs"; "segments_2"; "segments"]%string
  | None => False end.
Proof. vm_compute. auto. Qed.
(* A completed commit is what is read afterwards. *)
Theorem C27_completed_commit : forall d g old new del w, committed d g old -> g + 1 < 2 ^ 62 -> sis_ok new -> sis_write (g + 1) new del = Some w ->
  sis_read (apply_ops d w) = Found (g + 1) new.
Proof. intros. apply committed_read. eapply full_write; eauto. Qed.
Print Assumptions C27_completed_commit.
(* ... also when a reader commits its deletions. *)
Theorem C27_completed_reader_commit : forall d g old new ops, committed d g old -> g + 1 < 2 ^ 62 -> sis_ok new -> ir_commit d (g + 1) new = Some ops ->
  sis_read (apply_ops d ops) = Found (g + 1) new.
Proof. intros. apply committed_read. eapply reader_commit; eauto. Qed.
Print Assumptions C27_completed_reader_commit.
(* The files of a segment numbered from the counter on, of a segment that is not in the commit, or of another generation are not
   files of the commit: the library may write or remove them around a commit. *)
Theorem C27_unreferenced_files : forall s c k fn, 0 <= c < 2 ^ 64 -> kind_ok k -> file_name c k = Some fn ->
  (forall si, In si (sis_segs s) -> new_segment c = Some (si_name si) -> ~ has_file si k) -> data_file fn /\ ~ commit_file s fn.
Proof. exact unreferenced. Qed.
Print Assumptions C27_unreferenced_files.
Theorem C27_new_segment_files : forall s c k fn, counter_ok s -> sis_counter s <= c < 2 ^ 64 -> kind_ok k -> 0 <= sis_counter s ->
  file_name c k = Some fn -> data_file fn /\ ~ commit_file s fn.
Proof. exact fresh_unreferenced. Qed.
Print Assumptions C27_new_segment_files.
Example C27_new_segment_files_ex : file_name 1 (Plain (str "cfs")) = Some (str "_1.cfs") /\ new_segment 0 = Some (si_name seg0) /\ sis_counter sis1 = 1.
Proof. vm_compute. auto. Qed.
(* A crash while the descriptor segments_1 is written makes the index unreadable: sis_find_segments_file never tries segments_0. *)
Theorem C27_first_commit_refuted : exists d d' w, committed d 0 sis0 /\ sis_write 1 sis1 true = Some w /\ crash d w d' /\ sis_read d' = IoError.
Proof. exact first_commit_lost. Qed.
Print Assumptions C27_first_commit_refuted.
(* A crash with the descriptor cut in the leading numbers of the field definitions kills every later reader. *)
Theorem C27_cut_descriptor_refuted : exists d d' w, committed d 1 sis0 /\ sis_write 2 sis1 true = Some w /\ crash d w d' /\ sis_read d' = Crashed.
Proof. exact window_crash. Qed.
Print Assumptions C27_cut_descriptor_refuted.
(* Two crashes in a row can leave a commit which nobody wrote, because files are overwritten without being truncated. *)
Theorem C27_two_crashes_refuted : exists d d1 d2 w ops, committed d 1 sis1 /\ sis_write 2 sis2 true = Some w /\ crash d w d1 /\ sis_read d1 = Found 1 sis1 /\
  ir_commit d1 2 (mkSis 0 9 1 [seg0] fis0) = Some ops /\ crash d1 ops d2 /\ sis_read d2 = Found 2 third.
Proof. exact hybrid_commit. Qed.
Print Assumptions C27_two_crashes_refuted.
(* After a crash that left a partial descriptor, the next commit by a reader removes the descriptor it has just written. *)
Theorem C27_commit_after_crash_refuted : exists d d1 w ops, committed d 1 sis1 /\ sis_write 2 sis2 true = Some w /\ crash d w d1 /\ sis_read d1 = Found 1 sis1 /\
  ir_commit d1 2 sis3 = Some ops /\ sis_read (apply_ops d1 ops) = NotFound.
Proof. exact recovery_loses_index. Qed.
Print Assumptions C27_commit_after_crash_refuted.

(* A file of the commit is never marked for removal. *)
Theorem C28_commit_files_are_kept : forall curr s fn, segs_ok s -> sis_ok s -> commit_file s fn -> ~ data_file curr -> deletable curr (sis_segs s) fn = Some false.
Proof. exact kept_files. Qed.
Print Assumptions C28_commit_files_are_kept.
(* Every index file of a segment that is not in the commit is. *)
Theorem C28_dropped_segments_are_removed : forall curr s c k fn seg, 0 <= c < 2 ^ 64 -> kind_ok k -> index_kind k -> file_name c k = Some fn -> new_segment c = Some seg ->
  ~ In seg (map si_name (sis_segs s)) -> ~ data_file curr -> deletable curr (sis_segs s) fn = Some true.
Proof. exact dropped_files. Qed.
Print Assumptions C28_dropped_segments_are_removed.
(* So are outdated generations, the parts of a compound file and unfinished compound files of segments in the commit, *)
Theorem C28_outdated_files_are_removed : forall curr s c k fn si, 0 <= c < 2 ^ 64 -> kind_ok k -> file_name c k = Some fn -> new_segment c = Some (si_name si) ->
  segs_ok s -> sis_ok s -> -1 <= si_del_gen si -> In si (sis_segs s) -> stale_file si k -> ~ data_file curr -> deletable curr (sis_segs s) fn = Some true.
Proof. exact outdated_files. Qed.
Print Assumptions C28_outdated_files_are_removed.
(* and all other descriptors. *)
Theorem C28_old_descriptors_are_removed : forall curr s g fn, 0 <= g < 2 ^ 63 -> segs_ok s -> segfn_for_generation g = Some fn -> fn <> curr ->
  deletable curr (sis_segs s) fn = Some true.
Proof. exact old_descriptors. Qed.
Print Assumptions C28_old_descriptors_are_removed.
Definition ex_segs : list seg_info := [mkSi (str "_0") 9 2 [0; 3; -1] true; mkSi (str "_1") 9 (-1) [0; 0] false].
Example C28_deletable_ex : map (deletable (str "segments_5") ex_segs) (map str
    ["_0.cfs"; "_0_2.del"; "_0_3.s1"; "_1.frq"; "_1_0.f1"; "segments_5"; "segments"; "ferret-write.lck"; "notes.txt"]%string) = repeat (Some false) 9 /\
  map (deletable (str "segments_5") ex_segs) (map str
    ["_0.frq"; "_0_1.del"; "_0_2.s1"; "_0_0.f0"; "_1.cfs"; "_1_0.del"; "_2.cfs"; "_10_0.f1"; "segments_4"]%string) = repeat (Some true) 9 /\
  deletable (str "segments_5") ex_segs (str "_0_1.s2") = None.
Proof. vm_compute. auto. Qed.
(* Cleaning a directory whose newest descriptor is the commit keeps the commit and its files and removes everything marked. *)
Theorem C28_cleaning_keeps_the_commit : forall d g s d', committed d g s -> segs_ok s -> delete_deletable d s = Some d' ->
  committed d' g s /\ (forall fn, commit_file s fn -> lookup fn d' = lookup fn d) /\
  forall fn, lookup fn d' <> None -> deletable (match segfn_for_generation g with Some f => f | None => [] end) (sis_segs s) fn <> Some true.
Proof. exact clean_directory. Qed.
Print Assumptions C28_cleaning_keeps_the_commit.
Example C28_cleaning_ex : option_map names (delete_deletable (ex_dir ++ [(str "segments_0", []); (str "_1.fdx", [1])]) sis1) = Some (map str ["_0.cfs"; "segments_1"]%string).
Proof. vm_compute. auto. Qed.
(* When a crash left a partial newer descriptor, opening a writer removes the only intact one. *)
Theorem C28_after_crash_refuted : exists d d1 d2 w, committed d 1 sis1 /\ sis_write 2 sis2 true = Some w /\ crash d w d1 /\ sis_read d1 = Found 1 sis1 /\
  delete_deletable d1 sis1 = Some d2 /\ sis_read d2 = IoError.
Proof. exact writer_open_loses_index. Qed.
Print Assumptions C28_after_crash_refuted.

(* A reader of at least one segment says it is current exactly when no commit has followed. *)
Theorem C29_reader_knows : forall d g s n d' g' s', committed d g s -> commits d g s n d' g' s' -> sis_segs s <> [] ->
  ir_is_latest d' (sis_version s) (length (sis_segs s)) = Some (n =? 0)%nat.
Proof. exact latest_iff. Qed.
Print Assumptions C29_reader_knows.
Example C29_reader_knows_ex : match sis_write 2 sis2 true with
  | Some w => ir_is_latest ex_dir 8 1 = Some true /\ ir_is_latest (apply_ops ex_dir w) 8 1 = Some false /\ ir_is_latest (apply_ops ex_dir w) 9 2 = Some true | None => False end.
Proof. vm_compute. auto. Qed.
(* On its first attempt to modify the index, a reader succeeds only if the lock was free and no commit has followed; a reader
   found stale stays stale. *)
Theorem C29_first_attempt : forall d g s n d' g' s' lock, committed d g s -> commits d g s n d' g' s' ->
  acquire_write_lock d' lock (mkReader (sis_version s) false false) =
    if lock then (LockError, true, mkReader (sis_version s) false true)
    else if (n =? 0)%nat then (Acquired, true, mkReader (sis_version s) false true)
    else (StateError, false, mkReader (sis_version s) true false).
Proof. exact stale_cannot_modify. Qed.
Print Assumptions C29_first_attempt.
Theorem C29_stale_is_permanent : forall d lock v l, acquire_write_lock d lock (mkReader v true l) = (StateError, lock, mkReader v true l).
Proof. exact stays_stale. Qed.
Print Assumptions C29_stale_is_permanent.
(* A reader of an empty index never notices a commit. *)
Theorem C29_empty_index_refuted : exists d d' w, committed d 1 sis0 /\ sis_write 2 sis1 true = Some w /\ sis_ok sis1 /\ sis_version sis1 = sis_version sis0 + 1 /\ d' = apply_ops d w /\
  ir_is_latest d' (sis_version sis0) (length (sis_segs sis0)) = Some true.
Proof. exact empty_always_latest. Qed.
Print Assumptions C29_empty_index_refuted.
(* After one LOCK_ERROR the next attempt succeeds although somebody else has the lock, no matter how many commits have followed. *)
Theorem C29_second_attempt_refuted : forall d g s n d' g' s', committed d g s -> commits d g s n d' g' s' -> let r := mkReader (sis_version s) false false in
  exists r1, acquire_write_lock d' true r = (LockError, true, r1) /\ fst (fst (acquire_write_lock d' true r1)) = Acquired.
Proof. exact retry_modifies_stale. Qed.
Print Assumptions C29_second_attempt_refuted.

(* ir_index_exists compares with 1 instead of -1: an empty directory has an index, one in generation 1 has none. *)
Theorem C55_index_exists_refuted : ir_index_exists [] = true /\ forall d s, committed d 1 s -> ir_index_exists d = false.
Proof. exact exists_wrong. Qed.
Print Assumptions C55_index_exists_refuted.
Example C55_index_exists_ex : ir_index_exists ex_dir = false.
Proof. vm_compute. auto. Qed.
