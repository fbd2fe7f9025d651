(* C123: a RAM directory behaves like a directory.  C124: touch, delete and the copy of a directory. *)
From Coq Require Import String.
From Verif Require Import Util Codec_Model Seg_Model RamDir_Model RamDir_Spec RamDir_Proofs.
Open Scope Z_scope.

(* ---------- C123 *)
(* any sequence of calls on a new store, any hash function: the results are those of the directory, and nothing freed is used *)
Theorem C123_ops : forall H, behaves H new_ram empty_dir.
Proof. intros H. exact (inv_behaves H _ _ _ _ (new_inv H)). Qed.
Print Assumptions C123_ops.
(* the store is closed while streams are open: they still work, and when they are closed too nothing is left but the strings that callers passed to touch *)
Theorem C123_close : forall H os xs d os2 ys d2, does_all empty_dir os = Some (xs, d) -> Forall stream_op os2 -> does_all (named d []) os2 = Some (ys, d2) ->
  exists r r1 r2, run H new_ram os = Some (xs, r) /\ ram_close r = Some r1 /\ run H r1 os2 = Some (ys, r2) /\
  (Forall (fun o => o = None) (d_open d2) -> (forall f, cell (r_files r2) f = None) /\ (forall p n, cell (r_strs r2) p = Some n -> In (Touch n) os)).
Proof. exact close_all. Qed.
Print Assumptions C123_close.
(* a directory opened as a copy of another *)
Theorem C123_copy : forall H os xs d, does_all empty_dir os = Some (xs, d) ->
  exists r r1 r2 d2 k, run H new_ram os = Some (xs, r) /\ open_and_copy H r = Some (r1, r2) /\ behaves H r1 (mkDir (d_names d) (d_data d) (d_open d ++ repeat None k)) /\ behaves H r2 d2 /\
  map fst (d_names d2) = filter kept_by_copy (map fst (d_names d)) /\ (forall n, content n d2 = if kept_by_copy n then content n d else None).
Proof. exact copy_all. Qed.
Print Assumptions C123_copy.
(* what clear and clear_locks tell apart *)
Theorem C123_locks : forall n, file_is_lock n = true <-> lock_name n.
Proof. intros n. rewrite lock_ends. apply ends_lck_lock. Qed.
Print Assumptions C123_locks.

Definition sum_hash (n : list Z) : Z := fold_right Z.add 0 n.
Definition session : list op :=
  [Create (str "_0.frq"); Write 0 [1; 2; 3]; Open (str "_0.frq"); Touch (str "w.lck"); Rename (str "_0.frq") (str "_1.frq"); Create (str "_0.frq"); Write 2 [9]; Rename (str "_1.frq") (str "_0.frq"); Count;
   Exists (str "_1.frq"); Length (str "_0.frq"); Clear; Exists (str "w.lck"); Exists (str "_0.frq"); Read 1; Read 2; Write 0 [4]; Read 1; Close 1; Close 2; Remove (str "nothing"); Rename (str "no") (str "yes"); Open (str "no")].
Example C123_session : exists d,
  does_all empty_dir session = Some ([Stream 0; Done; Stream 1; Done; Done; Stream 2; Done; Done; Num 2; No; Num 3; Done; Yes; No; Data [1; 2; 3]; Data [9]; Done; Data [1; 2; 3; 4]; Done; Done; No; IoError; NotFound], d) /\
  d_open d = [Some (0%nat, 4%nat); None; None].
Proof. eexists. vm_compute. split; reflexivity. Qed.
(* all names in one slot, and apart: the same answers *)
Example C123_session_hash : option_map fst (run (fun _ => 0) new_ram session) = option_map fst (run sum_hash new_ram session) /\ option_map fst (run sum_hash new_ram session) = option_map fst (does_all empty_dir session).
Proof. vm_compute. split; reflexivity. Qed.
(* a file is freed with the last stream on it, after its name and the store *)
Example C123_session_close :
  (do x <- run sum_hash new_ram session; do r <- ram_close (snd x); Some (map (fun f => match f with Some y => rf_data y | None => [] end) (r_files r))) = Some [[1; 2; 3; 4]; []; []] /\
  (do x <- run sum_hash new_ram session; do r <- ram_close (snd x); do y <- run sum_hash r [Read 0; Close 0]; Some (fst y, r_files (snd y), filter (fun s => match s with Some _ => true | None => false end) (r_strs (snd y))))
    = Some ([Data [1; 2; 3; 4]; Done], [None; None; None], [Some (str "w.lck")]).
Proof. vm_compute. split; reflexivity. Qed.

(* ---------- C124 *)
(* the table keeps the string of the caller of touch, not a copy: when it is freed the next look at the name reads freed memory, when something else is written there the file has lost its name *)
Theorem C124_touch_refuted : forall H os xs d n, does_all empty_dir os = Some (xs, d) -> file_of n (d_names d) = None ->
  exists r r1, run H new_ram os = Some (xs, r) /\ ram_touch H r n = Some (Done, r1) /\ ram_exists H r1 n = Some (Yes, r1) /\
  ram_exists H (caller_frees r1 (length (r_strs r))) n = None /\
  (forall m, m <> n -> ram_exists H (caller_writes r1 (length (r_strs r)) m) n = Some (No, caller_writes r1 (length (r_strs r)) m) /\ ram_count (caller_writes r1 (length (r_strs r)) m) = Some (Num (S (length (d_names d))), caller_writes r1 (length (r_strs r)) m)).
Proof. exact dangling. Qed.
Print Assumptions C124_touch_refuted.
(* dir.delete(name) removes the file and returns the opposite of what happened *)
Theorem C124_delete_refuted : forall H os xs d n, does_all empty_dir os = Some (xs, d) ->
  exists r r1, run H new_ram os = Some (xs, r) /\ frb_dir_delete H r n = Some (match file_of n (d_names d) with Some _ => false | None => true end, r1) /\ behaves H r1 (named d (without n (d_names d))).
Proof. exact delete_all. Qed.
Print Assumptions C124_delete_refuted.
(* a file whose name starts with "ferret-" is not in the copy, whatever it is; a lock whose name does not is *)
Theorem C124_copy_refuted : forall H os xs d, does_all empty_dir os = Some (xs, d) ->
  exists r r1 r2 d2, run H new_ram os = Some (xs, r) /\ open_and_copy H r = Some (r1, r2) /\ behaves H r2 d2 /\ (forall t, content (str "ferret-" ++ t) d2 = None) /\ (forall t, firstn 7 t <> str "ferret-" -> content t d2 = content t d).
Proof.
  intros H os xs d E. destruct (copy_all H os xs d E) as (r & r1 & r2 & d2 & k & A1 & A2 & _ & A3 & _ & A4). exists r, r1, r2, d2. split; [exact A1|]. split; [exact A2|]. split; [exact A3|].
  split; intros t; rewrite A4; unfold kept_by_copy; [cbn [str app firstn]|intros Ht]; destruct (name_dec _ _) as [K|K]; congruence || (exfalso; apply K; reflexivity) || reflexivity.
Qed.
Print Assumptions C124_copy_refuted.
Example C124_session : exists r,
  run sum_hash new_ram [Create (str "ferret-notes"); Write 0 [7]; Close 0; Touch (str "a.lck"); Create (str "b"); Write 1 [5; 6]] = Some ([Stream 0; Done; Done; Done; Stream 1; Done], r) /\
  option_map fst (frb_dir_delete sum_hash r (str "b")) = Some false /\ option_map fst (frb_dir_delete sum_hash r (str "c")) = Some true /\
  (do x <- open_and_copy sum_hash r; option_map fst (run sum_hash (snd x) [Exists (str "ferret-notes"); Exists (str "a.lck"); Open (str "b"); Read 2; Count])) = Some [No; Yes; Stream 2; Data [5; 6]; Num 2] /\
  ram_exists sum_hash (caller_frees r 1) (str "a.lck") = None /\ option_map fst (ram_exists sum_hash (caller_writes r 1 (str "b.lck")) (str "a.lck")) = Some No.
Proof. eexists. vm_compute. repeat split; reflexivity. Qed.
