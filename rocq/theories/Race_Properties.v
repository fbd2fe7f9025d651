(* C119: opening an index while another process commits.  C120: its limits. *)
From Coq Require Import String.
From Verif Require Import Util Codec_Model Codec_Spec Seg_Model Seg_Spec Commit_Model Commit_Spec Commit_Proofs Deleter_Proofs History_Proofs Race_Model Race_Spec RaceRead_Proofs.
Open Scope Z_scope.

(* ---------- C119 *)
(* Reading the descriptor: at most two rounds per commit of the other process and three more, and then the state of a commit that was
   current at some moment of the call. *)
Theorem C119_sis_read : forall d g s H xs fuel, starts d g s -> follows_rules g s H -> in_order xs (length H) -> (2 * length H + 2 < fuel)%nat ->
  let ds i := dir_at d g H (xs i) in
  match race_find (read_run dec_sis ds) (fun i => names (ds i)) ds fuel with
  | (Found gen v, e) => exists m, (m <= length H)%nat /\ gen = g + Z.of_nat m /\ v = state_of s H m /\ (0 < e)%nat /\ current_between H m (xs 0%nat) (xs (e - 1)%nat)
  | (Crashed, e) => exists m i n lo hi, (i < e)%nat /\ under_way H m n (xs i) /\ fis_window (state_of s H m) = Some (lo, hi) /\ (lo <= n < hi)%nat
  | _ => False
  end.
Proof. exact sis_read_race. Qed.
Print Assumptions C119_sis_read.
(* Opening a reader: moreover all its files are those of this one commit. *)
Theorem C119_ir_open : forall d g s H xs fuel needs, starts d g s -> follows_rules g s H -> in_order xs (length H) -> (2 * length H + 2 < fuel)%nat ->
  (forall m fn, (m <= length H)%nat -> In fn (needs (state_of s H m)) -> commit_file (state_of s H m) fn /\ lookup fn (world d g H m) <> None) ->
  let ds i := dir_at d g H (xs i) in
  match race_find (open_run needs ds) (fun i => names (ds i)) ds fuel with
  | (Found gen (v, cs), e) => exists m, (m <= length H)%nat /\ gen = g + Z.of_nat m /\ v = state_of s H m /\
      map Some cs = map (fun fn => lookup fn (world d g H m)) (needs v) /\ (0 < e)%nat /\ current_between H m (xs 0%nat) (xs (e - 1)%nat)
  | (Crashed, e) => exists m i n lo hi, (i < e)%nat /\ under_way H m n (xs i) /\ fis_window (state_of s H m) = Some (lo, hi) /\ (lo <= n < hi)%nat
  | _ => False
  end.
Proof. exact ir_open_race. Qed.
Print Assumptions C119_ir_open.
(* the segment _1 is added to an index of _0; the reader sees the descriptor half written, falls back to the previous one, finds it
   removed, and reads the new one *)
Definition rd : dir := (str "_0.cfs", [1; 2; 3]) :: dir_of "segments_1" sis1.
Definition rH : list commit := [mkCommit [Create (str "_1.cfs"); Write (str "_1.cfs") 0 [7; 8]] sis2 false []].
Definition rneeds (s : seg_infos) : list (list Z) := map (fun si => si_name si ++ str ".cfs") (sis_segs s).
Definition rx (i : nat) : moment := match i with 0 | 1 | 2 => (0, 3, 5) | _ => (1, 0, 0) end%nat.
Example C119_starts : starts rd 1 sis1.
Proof.
  split; [|split; [lia|]].
  - split; [lia|]. split; [apply ok1|]. split; [vm_compute; reflexivity|]. eexists _, _, []. split; [vm_compute; reflexivity|]. split; [vm_compute; reflexivity|]. vm_compute. reflexivity.
  - intros fn E. vm_compute in E. apply some_inj in E. subst fn. vm_compute. reflexivity.
Qed.
Lemma fresh1 : data_file (str "_1.cfs") /\ ~ commit_file sis1 (str "_1.cfs").
Proof.
  apply (fresh_unreferenced sis1 1 (Plain (str "cfs"))).
  - constructor; [|constructor]. exists 0. split; [cbn; lia|]. vm_compute. reflexivity.
  - cbn. lia.
  - cbn. repeat constructor; unfold lower; lia.
  - cbn. lia.
  - vm_compute. reflexivity.
Qed.
Example C119_rules : follows_rules 1 sis1 rH.
Proof.
  split; [cbn; lia|]. split.
  - intros [|c] h E; [|destruct c; discriminate]. cbn in E. apply some_inj in E. subst h. cbn [c_new c_pre c_post state_of]. split; [apply ok2|]. split; [|constructor].
    constructor; [exact fresh1|]. constructor; [exact fresh1|constructor].
  - intros m [|c] h o Hm E; [|destruct c; discriminate]. cbn in E. apply some_inj in E. subst h. assert (m = 0%nat) by lia. subst m. cbn [c_pre c_post app state_of].
    intros Hin Hf. exfalso. apply (proj2 fresh1). destruct Hin as [<-|[<-|[]]]; exact Hf.
Qed.
Lemma rx_order (f : nat -> moment) k y x : (forall i, f i = if (i <? k)%nat then (0%nat, y, x) else (1%nat, 0%nat, 0%nat)) -> in_order f 1.
Proof.
  intros E i. split; [rewrite E; destruct (_ <? _)%nat; cbn; lia|]. intros j L. rewrite !E. destruct (Nat.ltb_spec i k), (Nat.ltb_spec j k); cbn; lia.
Qed.
Example C119_order : in_order rx 1.
Proof. apply (rx_order _ 3 3 5). intros [|[|[|i]]]; reflexivity. Qed.
Example C119_example : let ds i := dir_at rd 1 rH (rx i) in
  race_find (open_run rneeds ds) (fun i => names (ds i)) ds 5 = (Found 2 (sis2, [[1; 2; 3]; [7; 8]]), 8%nat) /\
  let ds i := dir_at rd 1 rH (0, 3, 5)%nat in race_find (open_run rneeds ds) (fun i => names (ds i)) ds 5 = (Found 1 (sis1, [[1; 2; 3]]), 5%nat).
Proof. vm_compute. auto. Qed.
(* a merge replaces _0 and _1 by _2 and removes them after the reader has got the old descriptor *)
Definition rH2 : list commit := rH ++ [mkCommit [Create (str "_2.cfs"); Write (str "_2.cfs") 0 [9]] (mkSis 0 10 3 [mkSi (str "_2") 6 (-1) [0] true] fis0) false [Remove (str "_0.cfs"); Remove (str "_1.cfs")]].
Definition rx2 (i : nat) : moment := match i with 0 | 1 | 2 => (1, 0, 0) | 3 => (1, 3, 20) | 4 => (1, 8, 0) | _ => (2, 0, 0) end%nat.
Example C119_merge_example : let ds i := dir_at rd 1 rH2 (rx2 i) in
  race_find (open_run rneeds ds) (fun i => names (ds i)) ds 7 = (Found 2 (sis2, [[1; 2; 3]; [7; 8]]), 4%nat) /\
  let ds i := dir_at rd 1 rH2 (rx2 (i + 2)%nat) in
  race_find (open_run rneeds ds) (fun i => names (ds i)) ds 7 = (Found 3 (mkSis 0 10 3 [mkSi (str "_2") 6 (-1) [0] true] fis0, [[9]]), 7%nat).
Proof. vm_compute. auto. Qed.

(* ---------- C120 *)
(* The version alone: never an exception, but it may be that of a commit which is still being written. *)
Theorem C120_version_partial : forall d g s H xs fuel, starts d g s -> follows_rules g s H -> in_order xs (length H) -> (2 * length H + 2 < fuel)%nat ->
  let ds i := dir_at d g H (xs i) in
  exists m e, race_find (read_run dec_version ds) (fun i => names (ds i)) ds fuel = (Found (g + Z.of_nat m) (sis_version (state_of s H m)), e) /\
    (0 < e)%nat /\ (m <= length H)%nat /\ ~ complete H (S m) (xs 0%nat) /\ (complete H m (xs (e - 1)%nat) \/ exists n, under_way H m n (xs (e - 1)%nat)).
Proof. exact version_race. Qed.
Print Assumptions C120_version_partial.
Theorem C120_version_refuted : exists d g s H xs gen v e, starts d g s /\ follows_rules g s H /\ in_order xs (length H) /\
  (let ds i := dir_at d g H (xs i) in race_find (read_run dec_version ds) (fun i => names (ds i)) ds 5 = (Found gen v, e)) /\ v <> sis_version s /\ forall i, ~ complete H 1 (xs i).
Proof.
  exists rd, 1, sis1, rH, (fun _ => (0, 3, 12)%nat). eexists _, _, _. split; [exact C119_starts|]. split; [exact C119_rules|]. split.
  - intros i. split; [cbn; lia|]. intros j _. cbn. lia.
  - split; [vm_compute; reflexivity|]. split; [vm_compute; discriminate|]. intros _ [L|(_ & h & bs & E1 & E2 & E3)]; [lia|]. cbn in E1. apply some_inj in E1. subst h. vm_compute in E2. apply some_inj in E2. subst bs. cbn in E3. lia.
Qed.
Print Assumptions C120_version_refuted.
(* The first commit behind index_create: although the descriptor is complete before the call ends, the call raises. *)
Theorem C120_first_commit_refuted : exists d H xs e, committed d 0 sis0 /\ follows_rules 0 sis0 H /\ in_order xs (length H) /\
  (let ds i := dir_at d 0 H (xs i) in race_find (read_run dec_sis ds) (fun i => names (ds i)) ds 40 = (IoError, e)) /\ (30 < e)%nat /\ forall i, (17 < i)%nat -> complete H 1 (xs i).
Proof.
  exists (dir_of "segments_0" sis0), [mkCommit [] sis1 false []], (fun i => if (i <? 18)%nat then (0, 1, 20)%nat else (1, 0, 0)%nat). eexists. split; [apply committed_dir; [lia|apply ok0|reflexivity]|]. split.
  - split; [cbn; lia|]. split.
    + intros [|c] h E; [|destruct c; discriminate]. cbn in E. apply some_inj in E. subst h. split; [apply ok1|]. split; constructor.
    + intros m [|c] h o _ E; [|destruct c; discriminate]. cbn in E. apply some_inj in E. subst h. intros [].
  - split; [|split; [vm_compute; reflexivity|split; [vm_compute; lia|]]].
    + intros i. split; [destruct (_ <? _)%nat; cbn; lia|]. intros j L. destruct (Nat.ltb_spec i 18), (Nat.ltb_spec j 18); cbn; lia.
    + intros i L. replace (i <? 18)%nat with false by (symmetry; apply Nat.ltb_ge; lia). cbn. lia.
Qed.
Print Assumptions C120_first_commit_refuted.
(* readdir promises nothing about files made or removed during the scan: no descriptor may be listed at all. *)
Theorem C120_listing_refuted : exists d g s H xs ls, starts d g s /\ follows_rules g s H /\ in_order xs (length H) /\ (forall i, scan_between d g H (xs i) (xs (S i)) (ls i)) /\
  let ds i := dir_at d g H (xs i) in race_find (read_run dec_sis ds) ls ds 5 = (NotFound, 1%nat).
Proof.
  set (f := fun i => if (i <? 1)%nat then (0, 2, 0)%nat else (1, 0, 0)%nat).
  exists rd, 1, sis1, rH, f, (fun i => if (i <? 1)%nat then [str "_0.cfs"; str "_1.cfs"] else names (dir_at rd 1 rH (1, 0, 0)%nat)).
  split; [exact C119_starts|]. split; [exact C119_rules|]. split; [apply (rx_order _ 1 2 0); intros i; unfold f; destruct (i <? 1)%nat; reflexivity|]. split; [|vm_compute; reflexivity].
  intros i. unfold f. change (S i <? 1)%nat with false. destruct (i <? 1)%nat.
  - split.
    + intros fn Hp. pose proof (Hp (0, 2, 0)%nat ltac:(cbn; lia) ltac:(cbn; lia)) as H1. pose proof (Hp (1, 0, 0)%nat ltac:(cbn; lia) ltac:(cbn; lia)) as H2.
      apply in_names in H1. apply in_names in H2. vm_compute in H1. vm_compute in H2. cbn. destruct H2 as [<-|[<-|[<-|[<-|[]]]]]; auto; exfalso; repeat (destruct H1 as [H1|H1]; [discriminate|]); destruct H1.
    + intros fn Hi. exists (1, 0, 0)%nat. split; [cbn; lia|]. split; [cbn; lia|]. destruct Hi as [<-|[<-|[]]]; vm_compute; discriminate.
  - split.
    + intros fn Hp. apply in_names. apply Hp; cbn; lia.
    + intros fn Hi. exists (1, 0, 0)%nat. split; [cbn; lia|]. split; [cbn; lia|]. apply in_names. exact Hi.
Qed.
Print Assumptions C120_listing_refuted.
(* One look at the descriptor when only the leading numbers of its field definitions are missing kills the reader's process. *)
Theorem C120_killed_refuted : exists d g s H xs, starts d g s /\ follows_rules g s H /\ in_order xs (length H) /\ (forall i, (1 < i)%nat -> complete H 1 (xs i)) /\
  let ds i := dir_at d g H (xs i) in race_find (read_run dec_sis ds) (fun i => names (ds i)) ds 5 = (Crashed, 2%nat).
Proof.
  set (k := match fis_window sis2 with Some (lo, _) => lo | None => 0%nat end).
  exists rd, 1, sis1, rH, (fun i => if (i <? 2)%nat then (0, 3, k)%nat else (1, 0, 0)%nat). split; [exact C119_starts|]. split; [exact C119_rules|]. split; [apply (rx_order _ 2 3 k); auto|]. split.
  - intros i L. replace (i <? 2)%nat with false by (symmetry; apply Nat.ltb_ge; lia). cbn. lia.
  - vm_compute. reflexivity.
Qed.
Print Assumptions C120_killed_refuted.
