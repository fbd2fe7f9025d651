(* Proofs about commits, crashes and the deleter. *)
From Coq Require Import String.
From Verif Require Import Util Codec_Model Codec_Spec Codec_Proofs Seg_Model Seg_Spec Seg_Proofs SegCodec_Proofs Commit_Model Commit_Spec.
Open Scope Z_scope.

Lemma beqb_false a b : a <> b -> beqb a b = false.
Proof. intros H. destruct (beqb a b) eqn:E; auto. apply beqb_eq in E. contradiction. Qed.
Lemma beqb_dec a b : (beqb a b = true /\ a = b) \/ (beqb a b = false /\ a <> b).
Proof. destruct (beqb a b) eqn:E; [left|right]; split; auto. - apply beqb_eq; auto. - intros ->. rewrite beqb_refl in E. discriminate. Qed.

(* ---------- directories *)
Lemma lookup_set n c m d : lookup m (set n c d) = if beqb n m then Some c else lookup m d.
Proof.
  induction d as [|[k x] d IH]; cbn; auto.
  destruct (beqb_dec k n) as [[E1 ->]|[E1 H1]]; rewrite E1; cbn.
  - destruct (beqb n m); auto.
  - rewrite IH. destruct (beqb_dec k m) as [[E2 ->]|[E2 H2]]; rewrite E2; auto. rewrite beqb_false; auto.
Qed.
Lemma lookup_remove n m d : lookup m (remove n d) = if beqb n m then None else lookup m d.
Proof.
  induction d as [|[k x] d IH]; cbn; [destruct (beqb n m); auto|].
  destruct (beqb_dec k n) as [[E1 ->]|[E1 H1]]; rewrite E1; cbn; rewrite IH.
  - destruct (beqb n m); auto.
  - destruct (beqb_dec k m) as [[E2 ->]|[E2 H2]]; rewrite E2; auto. rewrite beqb_false; auto.
Qed.
Lemma in_names m d : In m (names d) <-> lookup m d <> None.
Proof.
  unfold names. induction d as [|[k x] d IH]; cbn; [tauto|].
  destruct (beqb_dec k m) as [[E ->]|[E H]]; rewrite E; [split; [discriminate|auto]|]. rewrite <- IH. intuition.
Qed.
Lemma names_set n c d m : In m (names (set n c d)) <-> m = n \/ In m (names d).
Proof.
  rewrite !in_names, lookup_set. destruct (beqb_dec n m) as [[E ->]|[E H]]; rewrite E; [intuition discriminate|]. intuition.
Qed.
Lemma names_remove n d m : In m (names (remove n d)) <-> m <> n /\ In m (names d).
Proof.
  rewrite !in_names, lookup_remove. destruct (beqb_dec n m) as [[E ->]|[E H]]; rewrite E; intuition.
Qed.
Lemma apply_other d o m : m <> op_target o -> lookup m (apply_op d o) = lookup m d.
Proof.
  intros H. assert (Hb : beqb (op_target o) m = false) by (apply beqb_false; auto). destruct o as [n|n off bs|n]; cbn in *.
  - destruct (lookup n d); auto. rewrite lookup_set, Hb. auto.
  - destruct (lookup n d); auto. rewrite lookup_set, Hb. auto.
  - rewrite lookup_remove, Hb. auto.
Qed.
Lemma names_other d o m : m <> op_target o -> (In m (names (apply_op d o)) <-> In m (names d)).
Proof. intros H. rewrite !in_names, apply_other; tauto. Qed.

(* ---------- the highest generation *)
Definition gen_of (fn : list Z) : Z := which_gen (-1) fn.
Lemma which_gen_max max fn : -1 <= max -> which_gen max fn = Z.max max (gen_of fn).
Proof.
  intros H. unfold gen_of, which_gen. destruct (prefixb _ fn); [|lia]. destruct (after_last US fn) as [p|]; [|lia].
  set (g := to_signed 64 _). destruct (Z.gtb_spec g max), (Z.gtb_spec g (-1)); lia.
Qed.
Lemma gen_of_ge fn : -1 <= gen_of fn.
Proof. unfold gen_of, which_gen. destruct (prefixb _ fn); [|lia]. destruct (after_last US fn); [|lia]. destruct (Z.gtb_spec (to_signed 64 (str36_to_u64 l)) (-1)); lia. Qed.
Lemma cg_fold l : forall m, -1 <= m -> m <= fold_left which_gen l m /\ (forall n, In n l -> gen_of n <= fold_left which_gen l m) /\
  (fold_left which_gen l m = m \/ exists n, In n l /\ gen_of n = fold_left which_gen l m).
Proof.
  induction l as [|a l IH]; intros m Hm; cbn; [repeat split; auto; lia|].
  rewrite which_gen_max by auto. destruct (IH (Z.max m (gen_of a)) ltac:(lia)) as (I1 & I2 & I3). repeat split; [lia| |].
  - intros n [->|Hn]; [lia|auto].
  - destruct I3 as [I3|(n & N1 & N2)]; [|right; exists n; auto].
    destruct (Z.max_spec m (gen_of a)) as [[G1 G2]|[G1 G2]]; [right; exists a; split; auto; lia|left; lia].
Qed.
Lemma cg_ge l n : In n l -> gen_of n <= current_generation l.
Proof. intros H. apply (cg_fold l (-1)); auto; lia. Qed.
Lemma cg_low l : -1 <= current_generation l.
Proof. apply (cg_fold l (-1)). lia. Qed.
Lemma cg_in l : 0 <= current_generation l -> exists n, In n l /\ gen_of n = current_generation l.
Proof. intros H. destruct (cg_fold l (-1)) as (_ & _ & [I|I]); [lia| |exact I]. unfold current_generation in *. lia. Qed.
Lemma cg_is l g : 0 <= g -> (forall n, In n l -> gen_of n <= g) -> (exists n, In n l /\ gen_of n = g) -> current_generation l = g.
Proof.
  intros Hg H1 (n & N1 & N2). pose proof (cg_ge l n N1).
  destruct (cg_in l ltac:(lia)) as (m & M1 & M2). specialize (H1 m M1). lia.
Qed.
Lemma cg_ext l l' : (forall n, 0 <= gen_of n -> (In n l <-> In n l')) -> current_generation l = current_generation l'.
Proof.
  intros H. pose proof (cg_low l). pose proof (cg_low l').
  assert (A : forall a b, (forall n, 0 <= gen_of n -> (In n a -> In n b)) -> -1 <= current_generation b -> current_generation a <= current_generation b).
  { intros a b Hab Hb. destruct (Z.ltb_spec (current_generation a) 0); [lia|]. destruct (cg_in a ltac:(lia)) as (n & N1 & N2). rewrite <- N2. apply cg_ge, Hab; auto. lia. }
  apply Z.le_antisymm; apply A; auto; intros n Hn Hi; apply H; auto.
Qed.
Lemma prefix_longer fn : prefixb (str "segments") fn = false -> prefixb (str "segments_") fn = false.
Proof.
  intros H. destruct (prefixb (str "segments_") fn) eqn:E; auto. unfold prefixb in *. apply beqb_eq in E.
  replace (firstn (length (str "segments")) fn) with (firstn 8 (firstn (length (str "segments_")) fn)) in H by (rewrite firstn_firstn; reflexivity).
  rewrite <- E in H. vm_compute in H. discriminate.
Qed.
Lemma gen_data fn : data_file fn -> gen_of fn = -1.
Proof. intros H. unfold gen_of, which_gen. rewrite prefix_longer; auto. Qed.
Lemma gen_genfile : gen_of GEN_FILE = -1. Proof. reflexivity. Qed.
Lemma gen_segfn g fn : 0 <= g < 2 ^ 63 -> segfn_for_generation g = Some fn -> gen_of fn = g.
Proof. intros Hg E. unfold gen_of. rewrite (which_gen_segfn g fn) by auto. lia. Qed.
Lemma cg_other d o : gen_of (op_target o) = -1 -> current_generation (names (apply_op d o)) = current_generation (names d).
Proof. intros H. apply cg_ext. intros n Hn. apply names_other. intros ->. lia. Qed.

(* ---------- crashes *)
Lemma crash_app d a b d' : crash d (a ++ b) d' -> crash d a d' \/ crash (apply_ops d a) b d'.
Proof.
  revert d. induction a as [|o a IH]; intros d H; cbn in *; [auto|]. inversion H; subst.
  - left. constructor.
  - left. apply C_cut; auto.
  - destruct (IH _ H4); [left; apply C_step; auto|right; auto].
Qed.
Lemma crash_create d n ops d' : crash d (Create n :: ops) d' -> d' = d \/ crash (apply_op d (Create n)) ops d'.
Proof. intros H. inversion H; subst; auto. Qed.
Lemma crash_writes d n off bs ops d' : crash d (Write n off bs :: ops) d' ->
  d' = d \/ (exists k, (k <= length bs)%nat /\ d' = apply_op d (Write n off (firstn k bs))) \/ crash (apply_op d (Write n off bs)) ops d'.
Proof. intros H. inversion H; subst; eauto 7. Qed.
Lemma crash_frame d ops d' m : crash d ops d' -> Forall (fun o => op_target o <> m) ops -> lookup m d' = lookup m d.
Proof.
  induction 1; intros HF; auto.
  - apply apply_other. inversion HF; subst. cbn in *. auto.
  - inversion HF; subst. rewrite IHcrash by auto. apply apply_other. auto.
Qed.
Lemma crash_cg d ops d' : crash d ops d' -> Forall (fun o => gen_of (op_target o) = -1) ops -> current_generation (names d') = current_generation (names d).
Proof.
  induction 1; intros HF; auto.
  - inversion HF; subst. apply cg_other. cbn in *. auto.
  - inversion HF; subst. rewrite IHcrash by auto. apply cg_other. auto.
Qed.
Lemma crash_all d ops : crash d ops (apply_ops d ops).
Proof. revert d. induction ops as [|o ops IH]; intros d; cbn; [constructor|]. apply C_step, IH. Qed.

(* ---------- reading *)
Lemma find_first {A} (p : parser A) d g v : current_generation (names d) = g -> 0 <= g -> run_file p d g = Ran v -> find_segments p d = Found g v.
Proof.
  intros E Hg R. unfold find_segments. change FIND_FUEL with (S 39). generalize 39%nat as f. intros f. cbn [find_loop Nat.eqb andb orb]. rewrite E.
  replace (g =? -1) with false by (symmetry; apply Z.eqb_neq; lia). rewrite !andb_false_r. cbn [andb orb Nat.eqb]. rewrite R. auto.
Qed.
Lemma find_dies {A} (p : parser A) d g : current_generation (names d) = g -> 0 <= g -> run_file p d g = Dies -> find_segments p d = Crashed.
Proof.
  intros E Hg R. unfold find_segments. change FIND_FUEL with (S 39). generalize 39%nat as f. intros f. cbn [find_loop Nat.eqb andb orb]. rewrite E.
  replace (g =? -1) with false by (symmetry; apply Z.eqb_neq; lia). rewrite !andb_false_r. cbn [andb orb Nat.eqb]. rewrite R. auto.
Qed.
Lemma find_previous {A} (p : parser A) d g v : current_generation (names d) = g + 1 -> 0 < g < 2 ^ 62 -> run_file p d (g + 1) = Failed ->
  run_file p d g = Ran v -> find_segments p d = Found g v.
Proof.
  intros E Hg R1 R2. unfold find_segments. change FIND_FUEL with (S 39). generalize 39%nat as f. intros f. cbn [find_loop Nat.eqb andb orb]. rewrite E.
  replace (g + 1 =? -1) with false by (symmetry; apply Z.eqb_neq; lia). rewrite !andb_false_r. cbn [andb orb Nat.eqb].
  replace (-1 =? g + 1) with false by (symmetry; apply Z.eqb_neq; lia). rewrite R1. cbn [negb andb].
  replace (g + 1 >? 1) with true by (symmetry; apply Z.gtb_lt; lia). replace (g + 1 - 1) with g by lia. rewrite R2.
  unfold run_file in R2. destruct (segfn_for_generation g) as [fn|]; [|discriminate]. destruct (lookup fn d); [|discriminate]. auto.
Qed.
Lemma run_sis d g fn bs rest s : segfn_for_generation g = Some fn -> sis_ok s -> enc_sis s = Some bs -> lookup fn d = Some (bs ++ rest) -> run_file dec_sis d g = Ran s.
Proof.
  intros E Hs Eb L. unfold run_file. rewrite E, L. destruct (descriptor_roundtrip s Hs) as (bs' & E1 & E2). rewrite Eb in E1. apply some_inj in E1. subst bs'.
  rewrite E2. auto.
Qed.
Lemma run_version d g fn bs rest s : segfn_for_generation g = Some fn -> sis_ok s -> enc_sis s = Some bs -> lookup fn d = Some (bs ++ rest) ->
  run_file dec_version d g = Ran (sis_version s).
Proof.
  intros E Hs Eb L. unfold run_file. rewrite E, L. destruct (version_read s Hs) as (bs' & E1 & E2 & _). rewrite Eb in E1. apply some_inj in E1. subst bs'.
  destruct (E2 rest) as (t & Et). rewrite Et. auto.
Qed.
Lemma committed_read d g s : committed d g s -> sis_read d = Found g s.
Proof.
  intros (Hg & Hs & Ec & fn & bs & rest & E1 & E2 & E3). unfold sis_read. apply find_first; auto; [lia|]. eapply run_sis; eauto.
Qed.
Lemma committed_version d g s : committed d g s -> read_current_version d = Found g (sis_version s).
Proof.
  intros (Hg & Hs & Ec & fn & bs & rest & E1 & E2 & E3). unfold read_current_version. apply find_first; auto; [lia|]. eapply run_version; eauto.
Qed.

(* ---------- writing a commit *)
Lemma segfn_total g : 0 <= g < 2 ^ 63 -> exists fn, segfn_for_generation g = Some fn.
Proof. intros H. destruct (segfn_some g H) as (u & E & _). eauto. Qed.
Lemma sis_write_shape g s del w : 0 < g < 2 ^ 63 -> sis_write g s del = Some w -> exists fn bs prev,
  segfn_for_generation g = Some fn /\ enc_sis s = Some bs /\ segfn_for_generation (g - 1) = Some prev /\
  w = [Create fn; Write fn 0 bs; Create GEN_FILE; Write GEN_FILE 0 (enc_64 g ++ enc_64 g)] ++ (if del then [Remove prev] else []).
Proof.
  intros Hg E. unfold sis_write in E. destruct (segfn_total g ltac:(lia)) as (fn & E1). destruct (segfn_total (g - 1) ltac:(lia)) as (prev & E2).
  rewrite E1, E2 in E. cbn [obind] in E. destruct (enc_sis s) as [bs|] eqn:E3; [|discriminate]. cbn [obind] in E. exists fn, bs, prev. repeat split; auto.
  replace (g >? 0) with true in E by (symmetry; apply Z.gtb_lt; lia). destruct del; cbn [andb obind] in E; apply some_inj in E; subst w; auto.
Qed.
Lemma segfn_not_genfile g fn : 0 <= g < 2 ^ 63 -> segfn_for_generation g = Some fn -> fn <> GEN_FILE.
Proof. intros Hg E ->. pose proof (gen_segfn g _ Hg E) as H. rewrite gen_genfile in H. lia. Qed.
Lemma fresh_segfn d g fn : current_generation (names d) = g -> 0 <= g < 2 ^ 62 -> segfn_for_generation (g + 1) = Some fn -> lookup fn d = None.
Proof.
  intros Ec Hg E. destruct (lookup fn d) eqn:L; auto. exfalso. assert (H : In fn (names d)) by (apply in_names; rewrite L; discriminate).
  apply cg_ge in H. rewrite (gen_segfn (g + 1) fn) in H by (auto; lia). lia.
Qed.
Lemma put_at_new bs : put_at [] 0 bs = bs.
Proof. unfold put_at. cbn. rewrite skipn_nil, app_nil_r. auto. Qed.
Lemma cg_new d g fn c : current_generation (names d) = g -> 0 <= g < 2 ^ 62 -> segfn_for_generation (g + 1) = Some fn ->
  current_generation (names (set fn c d)) = g + 1.
Proof.
  intros Ec Hg E. assert (HG : gen_of fn = g + 1) by (apply gen_segfn; auto; lia). apply cg_is; [lia| |].
  - intros n Hn. apply names_set in Hn. destruct Hn as [->|Hn]; [lia|]. apply cg_ge in Hn. lia.
  - exists fn. split; auto. apply names_set. auto.
Qed.
(* every state which a crash while writing the commit can leave *)
Lemma crash_write d g s s2 del w d' : committed d g s -> g + 1 < 2 ^ 62 -> sis_ok s2 -> sis_write (g + 1) s2 del = Some w -> crash d w d' ->
  committed d' g s \/
  (exists fn prev bs bs2 rest k, segfn_for_generation (g + 1) = Some fn /\ segfn_for_generation g = Some prev /\ enc_sis s = Some bs /\ enc_sis s2 = Some bs2 /\ (k < length bs2)%nat /\
     lookup fn d' = Some (firstn k bs2) /\ lookup prev d' = Some (bs ++ rest) /\ current_generation (names d') = g + 1) \/
  committed d' (g + 1) s2.
Proof.
  intros (Hg & Hs & Ec & prev & bs & rest & E1 & E2 & E3) Hg2 Hs2 Ew HC.
  destruct (sis_write_shape (g + 1) s2 del w ltac:(lia) Ew) as (fn & bs2 & prev' & F1 & F2 & F3 & ->).
  replace (g + 1 - 1) with g in F3 by lia. rewrite E1 in F3. apply some_inj in F3. subst prev'.
  assert (HL : lookup fn d = None) by (eapply fresh_segfn; eauto).
  assert (Hne : prev <> fn) by (intros ->; rewrite HL in E3; discriminate).
  assert (Hng : fn <> GEN_FILE) by (apply (segfn_not_genfile (g + 1)); auto; lia).
  assert (Hlast : forall dx c ops, lookup fn dx = Some (bs2 ++ c) -> current_generation (names dx) = g + 1 ->
             Forall (fun o => op_target o <> fn /\ gen_of (op_target o) <= g) ops -> forall dy, crash dx ops dy -> committed dy (g + 1) s2).
  { intros dx c ops L C F dy Hcr. split; [lia|]. split; [auto|]. split.
    - apply cg_is; [lia| |].
      + revert L C F. induction Hcr; intros L C F n0 Hn.
        * rewrite <- C. apply cg_ge. auto.
        * inversion F as [|? ? Fa Fb]; subst. cbn in Fa. destruct (list_eq_dec Z.eq_dec n0 n) as [->|Hd]; [lia|].
          rewrite <- C. apply cg_ge. rewrite names_other in Hn by (cbn; auto). exact Hn.
        * inversion F as [|? ? [Fa1 Fa] Fb]; subst. apply IHHcr; auto.
          -- rewrite apply_other by (intros He; apply Fa1; symmetry; exact He). auto.
          -- apply cg_is; [lia| |].
             ++ intros m Hm. destruct (list_eq_dec Z.eq_dec m (op_target o)) as [->|Hd]; [lia|]. rewrite <- C. apply cg_ge. rewrite names_other in Hm by auto. exact Hm.
             ++ exists fn. split; [|apply gen_segfn; auto; lia]. apply names_other; [intros He; apply Fa1; symmetry; exact He|]. apply in_names. rewrite L. discriminate.
      + exists fn. split; [|apply gen_segfn; auto; lia]. apply in_names. rewrite (crash_frame dx ops dy fn); auto; [rewrite L; discriminate|].
        eapply Forall_impl; [|exact F]. cbn. tauto.
    - exists fn, bs2, c. repeat split; auto. rewrite (crash_frame dx ops dy fn); auto. eapply Forall_impl; [|exact F]. cbn. tauto. }
  cbn [app] in HC. apply crash_create in HC. destruct HC as [->|HC1].
  - left. split; [auto|]. split; [auto|]. split; [auto|]. exists prev, bs, rest. auto.
  - cbn [apply_op] in HC1. rewrite HL in HC1.
    assert (Lf : lookup fn (set fn [] d) = Some []) by (rewrite lookup_set, beqb_refl; auto).
    assert (Hlen : (0 < length bs2)%nat) by (destruct (sis_window s2 Hs2) as (lo & hi & b & W & Eb & Wl); rewrite F2 in Eb; apply some_inj in Eb; subst b; lia).
    assert (Hpart : forall k, (k <= length bs2)%nat ->
      (exists fn0 prev0 bs0 bs3 rest0 k0, segfn_for_generation (g + 1) = Some fn0 /\ segfn_for_generation g = Some prev0 /\ enc_sis s = Some bs0 /\ enc_sis s2 = Some bs3 /\ (k0 < length bs3)%nat /\
        lookup fn0 (set fn (firstn k bs2) (set fn [] d)) = Some (firstn k0 bs3) /\ lookup prev0 (set fn (firstn k bs2) (set fn [] d)) = Some (bs0 ++ rest0) /\
        current_generation (names (set fn (firstn k bs2) (set fn [] d))) = g + 1) \/ committed (set fn (firstn k bs2) (set fn [] d)) (g + 1) s2).
    { intros k Hk. assert (Hcg : current_generation (names (set fn (firstn k bs2) (set fn [] d))) = g + 1).
      { rewrite <- (cg_new d g fn [] Ec Hg F1). apply cg_ext. intros n Hn. rewrite !names_set. tauto. }
      destruct (Nat.eq_dec k (length bs2)) as [->|Hk2].
      - right. refine (Hlast _ [] [] _ Hcg (Forall_nil _) _ (C_stop _ _)). rewrite lookup_set, beqb_refl, firstn_all, app_nil_r. auto.
      - left. exists fn, prev, bs, bs2, rest, k. repeat split; auto; [lia| |].
        + rewrite lookup_set, beqb_refl. auto.
        + rewrite !lookup_set, !beqb_false by auto. auto. }
    apply crash_writes in HC1. destruct HC1 as [->|[(k & Hk & ->)|HC2]].
    + right. left. exists fn, prev, bs, bs2, rest, 0%nat. repeat split; auto.
      * rewrite lookup_set, beqb_false by auto. auto.
      * apply cg_new; auto.
    + right. cbn [apply_op]. rewrite Lf, put_at_new. apply Hpart. auto.
    + right. right. cbn [apply_op] in HC2. rewrite Lf, put_at_new in HC2. destruct (Hpart (length bs2) ltac:(lia)) as [(? & ? & ? & b & ? & k & P1 & P2 & P3 & P4 & P5 & P6 & _)|P].
      { exfalso. rewrite F2 in P4. apply some_inj in P4. subst b. rewrite F1 in P1. apply some_inj in P1. subst x.
        rewrite lookup_set, beqb_refl in P6. apply some_inj in P6. apply (f_equal (@length Z)) in P6. rewrite !firstn_length in P6. lia. }
      rewrite firstn_all in P. destruct P as (_ & _ & Pc & _).
      refine (Hlast _ [] _ _ Pc _ _ HC2); [rewrite lookup_set, beqb_refl, app_nil_r; auto|].
      constructor; [cbn [op_target]; split; [auto|rewrite gen_genfile; lia]|]. constructor; [cbn [op_target]; split; [auto|rewrite gen_genfile; lia]|].
      destruct del; constructor; [|constructor]. cbn [op_target]. split; auto. rewrite (gen_segfn g prev) by (auto; lia). lia.
Qed.
Lemma apply_ops_app d a b : apply_ops d (a ++ b) = apply_ops (apply_ops d a) b.
Proof. apply fold_left_app. Qed.
Lemma full_write d g s s2 del w : committed d g s -> g + 1 < 2 ^ 62 -> sis_ok s2 -> sis_write (g + 1) s2 del = Some w -> committed (apply_ops d w) (g + 1) s2.
Proof.
  intros HC Hg2 Hs2 Ew.
  assert (HL : exists fn bs2, segfn_for_generation (g + 1) = Some fn /\ enc_sis s2 = Some bs2 /\ lookup fn (apply_ops d w) = Some bs2).
  { destruct HC as (Hg & Hs & Ec & p & bs & rest & E1 & E2 & E3).
    destruct (sis_write_shape (g + 1) s2 del w ltac:(lia) Ew) as (fn & bs2 & prev & F1 & F2 & F3 & ->). exists fn, bs2. repeat split; auto.
    change ([Create fn; Write fn 0 bs2; Create GEN_FILE; Write GEN_FILE 0 (enc_64 (g + 1) ++ enc_64 (g + 1))] ++ (if del then [Remove prev] else []))
      with ([Create fn; Write fn 0 bs2] ++ ([Create GEN_FILE; Write GEN_FILE 0 (enc_64 (g + 1) ++ enc_64 (g + 1))] ++ (if del then [Remove prev] else []))).
    rewrite apply_ops_app. assert (Hng : fn <> GEN_FILE) by (apply (segfn_not_genfile (g + 1)); auto; lia).
    rewrite (crash_frame _ _ _ fn (crash_all _ _)).
    - cbn [apply_ops fold_left apply_op]. rewrite (fresh_segfn d g fn) by auto. rewrite !lookup_set, !beqb_refl, put_at_new, lookup_set, beqb_refl. auto.
    - repeat (constructor; [cbn; auto|]). destruct del; constructor; [|constructor]. cbn. intros ->. pose proof (segfn_inj (g + 1 - 1) (g + 1) fn ltac:(lia) ltac:(lia) F3 F1). lia. }
  destruct HL as (fn & bs2 & F1 & F2 & L).
  destruct (crash_write _ _ _ _ _ _ _ HC Hg2 Hs2 Ew (crash_all _ _)) as [C|[(f & prev & bs & b & rest & k & E1 & E2 & E3 & E4 & Hk & L1 & _)|C]]; auto; exfalso.
  - destruct C as (Hg & _ & Ec & _). assert (Hi : In fn (names (apply_ops d w))) by (apply in_names; rewrite L; discriminate).
    apply cg_ge in Hi. rewrite (gen_segfn (g + 1) fn) in Hi by (auto; lia). lia.
  - rewrite F1 in E1. apply some_inj in E1. subst f. rewrite F2 in E4. apply some_inj in E4. subst b. rewrite L in L1. apply some_inj in L1.
    apply (f_equal (@length Z)) in L1. rewrite firstn_length in L1. lia.
Qed.
Lemma committed_spared d g s ops d' : committed d g s -> Forall (fun o => data_file (op_target o)) ops -> crash d ops d' -> committed d' g s.
Proof.
  intros (Hg & Hs & Ec & fn & bs & rest & E1 & E2 & E3) HF HC. split; [auto|]. split; [auto|]. split.
  - rewrite (crash_cg d ops); auto. eapply Forall_impl; [|exact HF]. intros o Ho. apply gen_data. auto.
  - exists fn, bs, rest. repeat split; auto. rewrite (crash_frame d ops); auto. eapply Forall_impl; [|exact HF]. intros o Ho He. cbn in Ho. rewrite He in Ho.
    apply gen_data in Ho. rewrite (gen_segfn g fn) in Ho by (auto; lia). lia.
Qed.
Lemma commit_file_data s fn : commit_file s fn -> data_file fn.
Proof.
  intros (c & k & si & Hc & Hk & E & _). destruct (file_name_shape c k Hc Hk) as (u & gp & _ & _ & _ & _ & E1). rewrite E in E1. apply some_inj in E1. subst fn.
  unfold data_file, prefixb. apply beqb_false. cbn. discriminate.
Qed.
Lemma write_targets g s del w : 0 < g < 2 ^ 63 -> sis_write g s del = Some w -> Forall (fun o => ~ data_file (op_target o)) w.
Proof.
  intros Hg E. destruct (sis_write_shape g s del w Hg E) as (fn & bs & prev & E1 & E2 & E3 & ->).
  assert (A : forall h f, 0 <= h < 2 ^ 63 -> segfn_for_generation h = Some f -> ~ data_file f).
  { intros h f Hh Ef Hd. apply gen_data in Hd. rewrite (gen_segfn h f) in Hd by auto. lia. }
  assert (B : ~ data_file GEN_FILE) by discriminate.
  apply Forall_app. split.
  - repeat constructor; cbn; auto; apply (A g); auto; lia.
  - destruct del; constructor; [|constructor]. cbn. apply (A (g - 1)); auto; lia.
Qed.
Lemma keeps_commit_files s ops d d' : crash d ops d' -> Forall (fun o => ~ data_file (op_target o) \/ ~ commit_file s (op_target o)) ops ->
  forall fn, commit_file s fn -> lookup fn d' = lookup fn d.
Proof.
  intros HC HF fn Hf. apply (crash_frame d ops); auto. eapply Forall_impl; [|exact HF]. cbn. intros o Ho He. rewrite He in Ho.
  destruct Ho as [Ho|Ho]; auto. apply Ho. eapply commit_file_data; eauto.
Qed.
Lemma crash_during_commit d g old new pre w post del d' : committed d g old -> 1 <= g -> g + 1 < 2 ^ 62 -> sis_ok new -> spares old pre -> spares new post ->
  sis_write (g + 1) new del = Some w -> crash d (pre ++ w ++ post) d' ->
  (sis_read d' = Found g old /\ forall fn, commit_file old fn -> lookup fn d' = lookup fn d) \/
  (sis_read d' = Found (g + 1) new /\ forall fn, commit_file new fn -> lookup fn d' = lookup fn (apply_ops d pre)) \/
  (sis_read d' = Crashed /\ exists fn bs lo hi k, segfn_for_generation (g + 1) = Some fn /\ enc_sis new = Some bs /\ fis_window new = Some (lo, hi) /\
     (lo <= k < hi)%nat /\ lookup fn d' = Some (firstn k bs)).
Proof.
  intros HC Hg Hg2 Hn Hpre Hpost Ew H.
  assert (Hd1 : committed (apply_ops d pre) g old).
  { eapply committed_spared; [exact HC| |apply crash_all]. eapply Forall_impl; [|exact Hpre]. cbn. tauto. }
  assert (Kpre : forall fn, commit_file old fn -> lookup fn (apply_ops d pre) = lookup fn d).
  { apply (keeps_commit_files old pre); [apply crash_all|]. eapply Forall_impl; [|exact Hpre]. cbn. tauto. }
  assert (Hw : forall s, Forall (fun o => ~ data_file (op_target o) \/ ~ commit_file s (op_target o)) w).
  { intros s. eapply Forall_impl; [|eapply write_targets with (g := g + 1); eauto; lia]. cbn. auto. }
  apply crash_app in H. destruct H as [H|H]; [|apply crash_app in H; destruct H as [H|H]].
  - left. split.
    + apply committed_read. eapply committed_spared; [exact HC| |exact H]. eapply Forall_impl; [|exact Hpre]. cbn. tauto.
    + apply (keeps_commit_files old pre); auto. eapply Forall_impl; [|exact Hpre]. cbn. tauto.
  - destruct (crash_write _ _ _ _ _ _ _ Hd1 Hg2 Hn Ew H) as [C|[(fn & prev & bs & bs2 & rest & k & E1 & E2 & E3 & E4 & Hk & L1 & L2 & Ecg)|C]].
    + left. split; [apply committed_read; auto|]. intros fn Hf. rewrite <- Kpre by auto. apply (keeps_commit_files old w); auto.
    + destruct (sis_window new Hn) as (lo & hi & b & W & Eb & Wl). rewrite E4 in Eb. apply some_inj in Eb. subst b.
      pose proof (descriptor_truncated new Hn bs2 lo hi k E4 W Hk) as T. destruct ((lo <=? k) && (k <? hi))%nat eqn:Ewin.
      * right. right. split; [|exists fn, bs2, lo, hi, k; repeat split; auto; lia].
        unfold sis_read. eapply find_dies; [exact Ecg|lia|]. unfold run_file. rewrite E1, L1, T. auto.
      * left. split.
        -- unfold sis_read. apply find_previous; [exact Ecg|lia| |].
           ++ unfold run_file. rewrite E1, L1, T. auto.
           ++ eapply run_sis; eauto. apply HC.
        -- intros f Hf. rewrite <- Kpre by auto. apply (keeps_commit_files old w); auto.
    + right. left. split; [apply committed_read; auto|]. apply (keeps_commit_files new w); auto.
  - assert (C2 : committed (apply_ops (apply_ops d pre) w) (g + 1) new) by (eapply full_write; eauto).
    right. left. split.
    + apply committed_read. eapply committed_spared; [exact C2| |exact H]. eapply Forall_impl; [|exact Hpost]. cbn. tauto.
    + intros fn Hf. transitivity (lookup fn (apply_ops (apply_ops d pre) w)).
      * apply (keeps_commit_files new post); auto. eapply Forall_impl; [|exact Hpost]. cbn. tauto.
      * apply (keeps_commit_files new w); auto. apply crash_all.
Qed.
