(* Proofs about histories of commits, and the counterexamples. *)
From Coq Require Import String.
From Verif Require Import Util Codec_Model Codec_Spec Codec_Proofs Seg_Model Seg_Spec Seg_Proofs SegCodec_Proofs Commit_Model Commit_Spec Commit_Proofs Deleter_Proofs.
Open Scope Z_scope.

Lemma commits_committed d g s n d' g' s' : commits d g s n d' g' s' -> committed d g s ->
  committed d' g' s' /\ g' = g + Z.of_nat n /\ sis_version s' = sis_version s + Z.of_nat n.
Proof.
  induction 1; intros HC.
  - repeat split; try lia; apply HC.
  - destruct (IHcommits HC) as (I1 & I2 & I3). split; auto. apply (committed_spared d' g' s' [o]); auto. apply (crash_all d' [o]).
  - destruct (IHcommits HC) as (I1 & I2 & I3). split; [eapply full_write; eauto|]. split; lia.
Qed.
Lemma latest_iff d g s n d' g' s' : committed d g s -> commits d g s n d' g' s' -> sis_segs s <> [] ->
  ir_is_latest d' (sis_version s) (length (sis_segs s)) = Some (n =? 0)%nat.
Proof.
  intros HC H Hne. destruct (commits_committed _ _ _ _ _ _ _ H HC) as (I1 & I2 & I3).
  assert (E : sr_is_latest d' (sis_version s) = Some (n =? 0)%nat).
  { unfold sr_is_latest. rewrite (committed_version d' g' s' I1), I3. f_equal. destruct n; [apply Z.eqb_eq; lia|]. apply Z.eqb_neq. lia. }
  unfold ir_is_latest. destruct (sis_segs s) as [|x l]; [congruence|]. destruct (_ =? 1)%nat; auto. cbn [length mr_is_latest]. rewrite E.
  destruct (n =? 0)%nat; auto. generalize (length l) as m. induction m; cbn [mr_is_latest]; auto. rewrite E. auto.
Qed.
Lemma stale_cannot_modify d g s n d' g' s' lock : committed d g s -> commits d g s n d' g' s' ->
  acquire_write_lock d' lock (mkReader (sis_version s) false false) =
    if lock then (LockError, true, mkReader (sis_version s) false true)
    else if (n =? 0)%nat then (Acquired, true, mkReader (sis_version s) false true)
    else (StateError, false, mkReader (sis_version s) true false).
Proof.
  intros HC H. destruct (commits_committed _ _ _ _ _ _ _ H HC) as (I1 & I2 & I3). unfold acquire_write_lock. cbn [r_stale r_lock r_version].
  destruct lock; auto. rewrite (committed_version d' g' s' I1), I3. destruct n; cbn [Nat.eqb].
  - replace (sis_version s + Z.of_nat 0 >? sis_version s) with false by lia. auto.
  - replace (sis_version s + Z.of_nat (S n) >? sis_version s) with true by lia. auto.
Qed.
Lemma stays_stale d lock v l : acquire_write_lock d lock (mkReader v true l) = (StateError, lock, mkReader v true l).
Proof. reflexivity. Qed.
Lemma reader_commit d g s s2 ops : committed d g s -> g + 1 < 2 ^ 62 -> sis_ok s2 -> ir_commit d (g + 1) s2 = Some ops -> committed (apply_ops d ops) (g + 1) s2.
Proof.
  intros HC Hg Hs2 E. unfold ir_commit in E. pose proof HC as (Hg0 & _ & Ec & fn & bs & rest & E1 & _). rewrite Ec, E1 in E. cbn [obind] in E.
  destruct (sis_write (g + 1) s2 true) as [w|] eqn:Ew; [|discriminate]. cbn [obind] in E. apply some_inj in E. subst ops. rewrite apply_ops_app.
  pose proof (full_write _ _ _ _ _ _ HC Hg Hs2 Ew) as (G1 & G2 & G3 & fn2 & bs2 & r2 & F1 & F2 & F3).
  assert (Hne : fn2 <> fn) by (intros ->; pose proof (segfn_inj g (g + 1) fn ltac:(lia) ltac:(lia) E1 F1); lia).
  set (d1 := apply_ops d w) in *. cbn [apply_ops fold_left apply_op].
  assert (L : lookup fn2 (remove fn d1) = Some (bs2 ++ r2)) by (rewrite lookup_remove, beqb_false by auto; auto).
  split; [auto|]. split; [auto|]. split; [|exists fn2, bs2, r2; auto]. apply cg_is; [lia| |].
  - intros n Hn. apply names_remove in Hn. rewrite <- G3. apply cg_ge. tauto.
  - exists fn2. split; [apply in_names; rewrite L; discriminate|apply gen_segfn; auto; lia].
Qed.

(* ---------- counterexamples *)
Definition fis0 : field_infos := mkFis 1 1 0 [mkFi (str "f") 0x3f800000 1].
Definition seg0 : seg_info := mkSi (str "_0") 3 (-1) [0] true.
Definition seg1 : seg_info := mkSi (str "_1") 0 (-1) [0] true.
Definition sis0 : seg_infos := mkSis 0 7 1 [] fis0.
Definition sis1 : seg_infos := mkSis 0 8 1 [seg0] fis0.
Definition sis2 : seg_infos := mkSis 0 9 2 [seg0; seg1] fis0.
Definition sis3 : seg_infos := mkSis 0 9 1 [mkSi (str "_0") 3 0 [0] true] fis0.
Definition file_of (s : seg_infos) : list Z := match enc_sis s with Some bs => bs | None => [] end.
Ltac solve_ok := unfold sis_ok, fis_ok, si_ok, fi_ok, byte_string, u32, u64, i32; cbn;
  repeat match goal with
         | |- _ /\ _ => split | |- Forall _ _ => constructor | |- NoDup _ => constructor
         | |- ~ _ => cbn; intros H; repeat (destruct H as [H|H]; [discriminate|]); contradiction
         | |- _ => progress unfold is_byte; cbn; lia | |- _ => cbn; lia
         end.
Lemma ok0 : sis_ok sis0. Proof. solve_ok. Qed.
Lemma ok1 : sis_ok sis1. Proof. solve_ok. Qed.
Lemma ok2 : sis_ok sis2. Proof. solve_ok. Qed.
Lemma ok3 : sis_ok sis3. Proof. solve_ok. Qed.
Definition dir_of (name : string) (s : seg_infos) : dir := [(str name, file_of s)].
Lemma committed_dir g name s : 0 <= g < 2 ^ 62 -> sis_ok s -> segfn_for_generation g = Some (str name) -> committed (dir_of name s) g s.
Proof.
  intros Hg Hs E. split; [auto|]. split; [auto|]. split.
  - unfold current_generation, dir_of. cbn [names map fst fold_left]. rewrite (which_gen_segfn g) by (auto; lia). lia.
  - unfold dir_of, file_of. destruct (enc_sis_some s Hs) as (bs & Eb). rewrite Eb. exists (str name), bs, []. repeat split; auto. cbn. rewrite beqb_refl, app_nil_r. auto.
Qed.
(* the ops of a commit, cut after k bytes of the descriptor *)
Lemma crash_at d fn bs k ops : (k <= length bs)%nat -> crash d (Create fn :: Write fn 0 bs :: ops) (apply_op (apply_op d (Create fn)) (Write fn 0 (firstn k bs))).
Proof. intros H. apply C_step. apply C_cut. auto. Qed.

Lemma first_commit_lost : exists d d' w, committed d 0 sis0 /\ sis_write 1 sis1 true = Some w /\ crash d w d' /\ sis_read d' = IoError.
Proof.
  exists (dir_of "segments_0" sis0). eexists _, _. split; [apply committed_dir; [lia|apply ok0|reflexivity]|].
  split; [vm_compute; reflexivity|]. split; [apply crash_at with (k := 30%nat); cbn; lia|]. vm_compute. reflexivity.
Qed.
Lemma window_crash : exists d d' w, committed d 1 sis0 /\ sis_write 2 sis1 true = Some w /\ crash d w d' /\ sis_read d' = Crashed.
Proof.
  exists (dir_of "segments_1" sis0). eexists _, _. split; [apply committed_dir; [lia|apply ok0|reflexivity]|].
  split; [vm_compute; reflexivity|]. split; [apply crash_at with (k := match fis_window sis1 with Some (lo, _) => lo | None => 0%nat end); vm_compute; lia|]. vm_compute. reflexivity.
Qed.
Definition third : seg_infos := mkSis 0 9 1 [seg0] (mkFis 2 95 49 []).
Lemma hybrid_commit : exists d d1 d2 w ops, committed d 1 sis1 /\ sis_write 2 sis2 true = Some w /\ crash d w d1 /\ sis_read d1 = Found 1 sis1 /\
  ir_commit d1 2 (mkSis 0 9 1 [seg0] fis0) = Some ops /\ crash d1 ops d2 /\ sis_read d2 = Found 2 third.
Proof.
  exists (dir_of "segments_1" sis1). eexists _, _, _, _. split; [apply committed_dir; [lia|apply ok1|reflexivity]|].
  split; [vm_compute; reflexivity|]. split; [apply crash_at with (k := 40%nat); vm_compute; lia|]. split; [vm_compute; reflexivity|].
  split; [vm_compute; reflexivity|]. split; [apply crash_at with (k := 33%nat); vm_compute; lia|]. vm_compute. reflexivity.
Qed.
Lemma recovery_loses_index : exists d d1 w ops, committed d 1 sis1 /\ sis_write 2 sis2 true = Some w /\ crash d w d1 /\ sis_read d1 = Found 1 sis1 /\
  ir_commit d1 2 sis3 = Some ops /\ sis_read (apply_ops d1 ops) = NotFound.
Proof.
  exists (dir_of "segments_1" sis1). eexists _, _, _. split; [apply committed_dir; [lia|apply ok1|reflexivity]|].
  split; [vm_compute; reflexivity|]. split; [apply crash_at with (k := 40%nat); vm_compute; lia|]. split; [vm_compute; reflexivity|].
  split; [vm_compute; reflexivity|]. vm_compute. reflexivity.
Qed.
Lemma writer_open_loses_index : exists d d1 d2 w, committed d 1 sis1 /\ sis_write 2 sis2 true = Some w /\ crash d w d1 /\ sis_read d1 = Found 1 sis1 /\
  delete_deletable d1 sis1 = Some d2 /\ sis_read d2 = IoError.
Proof.
  exists (dir_of "segments_1" sis1). eexists _, _, _. split; [apply committed_dir; [lia|apply ok1|reflexivity]|].
  split; [vm_compute; reflexivity|]. split; [apply crash_at with (k := 40%nat); vm_compute; lia|]. split; [vm_compute; reflexivity|].
  split; [vm_compute; reflexivity|]. vm_compute. reflexivity.
Qed.
Lemma empty_always_latest : exists d d' w, committed d 1 sis0 /\ sis_write 2 sis1 true = Some w /\ sis_ok sis1 /\ sis_version sis1 = sis_version sis0 + 1 /\ d' = apply_ops d w /\
  ir_is_latest d' (sis_version sis0) (length (sis_segs sis0)) = Some true.
Proof.
  exists (dir_of "segments_1" sis0). eexists _, _. split; [apply committed_dir; [lia|apply ok0|reflexivity]|].
  split; [vm_compute; reflexivity|]. split; [apply ok1|]. split; [reflexivity|]. split; reflexivity.
Qed.
Lemma retry_modifies_stale d g s n d' g' s' : committed d g s -> commits d g s n d' g' s' -> let r := mkReader (sis_version s) false false in
  exists r1, acquire_write_lock d' true r = (LockError, true, r1) /\ fst (fst (acquire_write_lock d' true r1)) = Acquired.
Proof. intros _ _ r. eexists. split; reflexivity. Qed.
Lemma exists_wrong : ir_index_exists [] = true /\ forall d s, committed d 1 s -> ir_index_exists d = false.
Proof. split; [reflexivity|]. intros d s (_ & _ & E & _). unfold ir_index_exists. rewrite E. reflexivity. Qed.
