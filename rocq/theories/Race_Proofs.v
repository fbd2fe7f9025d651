(* What the directory looks like at each moment of a sequence of commits. *)
From Coq Require Import String.
From Verif Require Import Util Codec_Model Seg_Model Seg_Spec Seg_Proofs SegCodec_Proofs Commit_Model Commit_Spec Commit_Proofs Race_Model Race_Spec.
Open Scope Z_scope.

(* ---------- single operations *)
Lemma partway_crash ops : forall d j k, crash d ops (partway d ops j k).
Proof.
  induction ops as [|o ops IH]; intros d j k.
  - unfold partway. rewrite firstn_nil. replace (nth_error (@nil fop) j) with (@None fop) by (destruct j; auto). apply C_stop.
  - destruct j as [|j].
    + unfold partway. cbn [firstn nth_error apply_ops fold_left]. destruct o as [n|n off bs|n]; try (apply C_stop).
      replace (firstn k bs) with (firstn (Nat.min k (length bs)) bs).
      * apply C_cut. lia.
      * destruct (Nat.le_ge_cases k (length bs)); [rewrite Nat.min_l by auto; auto|]. rewrite Nat.min_r by auto. rewrite firstn_all, firstn_all2; auto.
    + apply C_step. exact (IH (apply_op d o) j k).
Qed.
Lemma partway_app d a b j k : partway d (a ++ b) j k = if (j <? length a)%nat then partway d a j k else partway (apply_ops d a) b (j - length a) k.
Proof.
  unfold partway. destruct (Nat.ltb_spec j (length a)) as [L|L].
  - rewrite nth_error_app1 by auto. rewrite firstn_app. replace (j - length a)%nat with 0%nat by lia. rewrite firstn_O, app_nil_r. auto.
  - rewrite nth_error_app2 by auto. rewrite firstn_app, firstn_all2 by auto. rewrite apply_ops_app. auto.
Qed.
Lemma remove_once d n m : lookup m (remove n d) = lookup m d \/ lookup m (remove n d) = None.
Proof. rewrite lookup_remove. destruct (beqb n m); auto. Qed.
Lemma only_removed d ops d' m : crash d ops d' -> Forall (fun o => op_target o = m -> o = Remove m) ops -> lookup m d' = lookup m d \/ lookup m d' = None.
Proof.
  induction 1 as [d ops|d n off bs k ops Hk|d o ops d' Hc IH]; intros HF; auto.
  - inversion HF as [|? ? F1 F2]; subst. cbn [op_target] in F1. destruct (list_eq_dec Z.eq_dec m n) as [->|Hd]; [specialize (F1 eq_refl); discriminate|].
    left. apply (apply_other d (Write n off (firstn k bs))). auto.
  - inversion HF as [|? ? F1 F2]; subst. destruct (IH F2) as [E|E]; auto. rewrite E.
    destruct (list_eq_dec Z.eq_dec (op_target o) m) as [Ht|Hd].
    + rewrite (F1 Ht). cbn [apply_op]. apply remove_once.
    + left. apply apply_other. auto.
Qed.
Lemma only_removed_all d ops m : Forall (fun o => op_target o = m -> o = Remove m) ops -> In (Remove m) ops -> lookup m (apply_ops d ops) = None.
Proof.
  revert d. induction ops as [|o ops IH]; intros d HF HI; [destruct HI|]. inversion HF as [|? ? F1 F2]; subst. cbn [apply_ops fold_left]. destruct HI as [->|HI]; [|apply IH; auto].
  destruct (only_removed (apply_op d (Remove m)) ops (apply_ops (apply_op d (Remove m)) ops) m (crash_all _ _) F2) as [E|E]; auto.
  unfold apply_ops in E. rewrite E. cbn [apply_op]. rewrite lookup_remove, beqb_refl. auto.
Qed.
Lemma later_ops g fn dx dy ops c : 0 <= g < 2 ^ 62 -> segfn_for_generation g = Some fn -> lookup fn dx = Some c -> current_generation (names dx) = g ->
  Forall (fun o => op_target o <> fn /\ gen_of (op_target o) < g) ops -> crash dx ops dy -> lookup fn dy = Some c /\ current_generation (names dy) = g.
Proof.
  intros Hg E L C F Hcr. assert (Ly : lookup fn dy = Some c).
  { rewrite (crash_frame dx ops dy fn); auto. eapply Forall_impl; [|exact F]. cbn. tauto. }
  split; auto. apply cg_is; [lia| |].
  - revert L C F Ly. induction Hcr; intros L C F Ly n0 Hn.
    + rewrite <- C. apply cg_ge. auto.
    + inversion F as [|? ? Fa Fb]; subst. cbn in Fa. destruct (list_eq_dec Z.eq_dec n0 n) as [->|Hd]; [lia|]. apply cg_ge. rewrite names_other in Hn by (cbn; auto). exact Hn.
    + inversion F as [|? ? [Fa1 Fa] Fb]; subst. apply IHHcr; auto.
      * rewrite apply_other by (intros He; apply Fa1; symmetry; exact He). auto.
      * apply cg_is; [lia| |].
        -- intros m Hm. destruct (list_eq_dec Z.eq_dec m (op_target o)) as [->|Hd]; [lia|]. apply cg_ge. rewrite names_other in Hm by auto. exact Hm.
        -- exists fn. split; [|apply gen_segfn; auto; lia]. apply names_other; [intros He; apply Fa1; symmetry; exact He|]. apply in_names. rewrite L. discriminate.
  - exists fn. split; [|apply gen_segfn; auto; lia]. apply in_names. rewrite Ly. discriminate.
Qed.
Lemma segfn_neq g h a b : 0 <= g < 2 ^ 63 -> 0 <= h < 2 ^ 63 -> g <> h -> segfn_for_generation g = Some a -> segfn_for_generation h = Some b -> a <> b.
Proof. intros Hg Hh Hne E1 E2 ->. apply Hne. eapply segfn_inj; eauto. Qed.
Lemma segfn_not_data g fn : 0 <= g < 2 ^ 63 -> segfn_for_generation g = Some fn -> ~ data_file fn.
Proof. intros Hg E Hd. apply gen_data in Hd. rewrite (gen_segfn g fn) in Hd by auto. lia. Qed.

(* ---------- the worlds between commits *)
Lemma world_next H : forall d g c h, nth_error H c = Some h -> world d g H (S c) = apply_ops (world d g H c) (commit_ops (g + Z.of_nat c) h).
Proof.
  induction H as [|h0 H IH]; intros d g c h E; [destruct c; discriminate|]. destruct c as [|c].
  - cbn in E. apply some_inj in E. subst h0. cbn. replace (g + 0) with g by lia. destruct H; auto.
  - change (world d g (h0 :: H) (S (S c))) with (world (apply_ops d (commit_ops g h0)) (g + 1) H (S c)). cbn [nth_error] in E. rewrite (IH _ _ c h E).
    change (world d g (h0 :: H) (S c)) with (world (apply_ops d (commit_ops g h0)) (g + 1) H c). do 2 f_equal. lia.
Qed.

Section History.
Variables (d0 : dir) (g0 : Z) (s0 : seg_infos) (H : list commit).
Hypothesis Hstart : starts d0 g0 s0.
Hypothesis Hrules : follows_rules g0 s0 H.
Definition W (c : nat) : dir := world d0 g0 H c.
Definition St (m : nat) : seg_infos := state_of s0 H m.
Definition described (m : nat) (d : dir) : Prop :=
  exists fn bs rest, segfn_for_generation (g0 + Z.of_nat m) = Some fn /\ enc_sis (St m) = Some bs /\ lookup fn d = Some (bs ++ rest).
Definition absent (h : Z) (d : dir) : Prop := forall fn, segfn_for_generation h = Some fn -> lookup fn d = None.
Definition stage (x : moment) : nat :=
  let '(c, j, k) := x in
  (3 * c + match nth_error H c with
           | None => 0
           | Some h => if (j <=? length (c_pre h))%nat then 0
                       else if (j =? S (length (c_pre h)))%nat && (k <? match enc_sis (c_new h) with Some b => length b | None => 0 end)%nat then 1 else 2
           end)%nat.

Lemma stage_between c j k : (3 * c <= stage (c, j, k) <= 3 * c + 2)%nat.
Proof. cbn [stage]. destruct (nth_error H c); [|lia]. destruct (_ <=? _)%nat; [lia|]. destruct (_ && _); lia. Qed.
Lemma stage_mono x y : not_after x y -> (stage x <= stage y)%nat.
Proof.
  destruct x as [[c j] k], y as [[c' j'] k']. intros Hn. cbn [not_after] in Hn. destruct Hn as [L|[-> Hn]].
  - pose proof (stage_between c j k). pose proof (stage_between c' j' k'). lia.
  - cbn [stage]. destruct (nth_error H c') as [h|]; [|lia]. destruct (enc_sis (c_new h)) as [b|].
    + destruct (Nat.leb_spec j (length (c_pre h))), (Nat.leb_spec j' (length (c_pre h))); try lia.
      destruct (Nat.eqb_spec j (S (length (c_pre h)))), (Nat.eqb_spec j' (S (length (c_pre h)))); cbn [andb]; try lia.
      all: destruct (Nat.ltb_spec k (length b)), (Nat.ltb_spec k' (length b)); lia.
    + destruct (Nat.leb_spec j (length (c_pre h))), (Nat.leb_spec j' (length (c_pre h))); try lia.
      all: rewrite ?Bool.andb_false_r; try lia. all: replace (k <? 0)%nat with false by (symmetry; apply Nat.ltb_ge; lia); replace (k' <? 0)%nat with false by (symmetry; apply Nat.ltb_ge; lia); rewrite ?Bool.andb_false_r; lia.
Qed.
Lemma stage_complete m x : (fst (fst x) <= length H)%nat -> complete H m x <-> (3 * m <= stage x + 1)%nat.
Proof.
  destruct x as [[c j] k]. intros Hc. destruct m as [|m]; [cbn [complete]; split; intros; auto; lia|].
  cbn [complete]. pose proof (stage_between c j k) as SB. split.
  - intros [L|(-> & h & bs & E1 & E2 & E3)]; [lia|]. cbn [stage]. rewrite E1, E2.
    destruct (Nat.leb_spec j (length (c_pre h))); [lia|]. destruct (Nat.eqb_spec j (S (length (c_pre h)))); cbn [andb]; [|lia]. destruct (Nat.ltb_spec k (length bs)); lia.
  - intros L. destruct (Nat.lt_ge_cases m c) as [|L1]; auto. right. assert (m = c) by lia. subst m. split; auto. cbn [stage] in L.
    destruct (nth_error H c) as [h|] eqn:En; [|lia]. destruct Hrules as (_ & R & _). destruct (R c h En) as (Ho & _ & _). destruct (enc_sis_some _ Ho) as (bs & Eb).
    rewrite Eb in L. exists h, bs. repeat split; auto. cbn. destruct (Nat.leb_spec j (length (c_pre h))); [lia|].
    destruct (Nat.eqb_spec j (S (length (c_pre h)))); cbn [andb] in L; [|lia]. destruct (Nat.ltb_spec k (length bs)); lia.
Qed.

(* ---------- one commit *)
Section Commit.
Variables (c : nat) (h : commit).
Hypothesis Hh : nth_error H c = Some h.
Definition d1 : dir := apply_ops (W c) (c_pre h).
Definition g1 : Z := g0 + Z.of_nat c.

Lemma c_bound : 1 <= g1 /\ g1 + 1 < 2 ^ 62.
Proof.
  destruct Hrules as (R & _ & _). destruct Hstart as (_ & S1 & _). unfold g1. assert (c < length H)%nat by (apply nth_error_Some; rewrite Hh; discriminate). lia.
Qed.
Lemma new_state : St (S c) = c_new h.
Proof. unfold St. cbn [state_of]. rewrite Hh. auto. Qed.
Lemma desc_shape : exists fn bs prev tl, segfn_for_generation (g1 + 1) = Some fn /\ enc_sis (c_new h) = Some bs /\ segfn_for_generation g1 = Some prev /\
  descriptor_ops g1 h = Create fn :: Write fn 0 bs :: tl /\ In (Remove prev) tl /\ Forall (fun o => op_target o = GEN_FILE \/ o = Remove prev) tl.
Proof.
  destruct c_bound as [B1 B2]. destruct Hrules as (_ & R & _). destruct (R c h Hh) as (Ho & _ & _). destruct (enc_sis_some _ Ho) as (bs & Eb).
  destruct (segfn_total (g1 + 1) ltac:(lia)) as (fn & E1). destruct (segfn_total g1 ltac:(lia)) as (prev & E2).
  assert (Ew : sis_write (g1 + 1) (c_new h) true = Some ([Create fn; Write fn 0 bs; Create GEN_FILE; Write GEN_FILE 0 (enc_64 (g1 + 1) ++ enc_64 (g1 + 1))] ++ [Remove prev])).
  { unfold sis_write. rewrite E1, Eb. cbn [obind andb]. replace (g1 + 1 >? 0) with true by (symmetry; apply Z.gtb_lt; lia). replace (g1 + 1 - 1) with g1 by lia. rewrite E2. auto. }
  eexists fn, bs, prev, _. split; [auto|]. split; [auto|]. split; [auto|]. split; [unfold descriptor_ops; rewrite Ew, E2; cbn [app]; reflexivity|]. split.
  - cbn [In app]. auto.
  - cbn [app]. repeat (constructor; [cbn; auto|]). destruct (c_reader h); repeat (constructor; auto).
Qed.
Lemma pre_spares : spares (St c) (c_pre h).
Proof. destruct Hrules as (_ & R & _). apply (R c h Hh). Qed.
Lemma post_spares : spares (St (S c)) (c_post h).
Proof. rewrite new_state. destruct Hrules as (_ & R & _). apply (R c h Hh). Qed.
Lemma pre_data : Forall (fun o => data_file (op_target o)) (c_pre h).
Proof. eapply Forall_impl; [|exact pre_spares]. cbn. tauto. Qed.
Lemma post_data : Forall (fun o => data_file (op_target o)) (c_post h).
Proof. eapply Forall_impl; [|exact post_spares]. cbn. tauto. Qed.
Lemma desc_not_data : Forall (fun o => ~ data_file (op_target o)) (descriptor_ops g1 h).
Proof.
  destruct c_bound as [B1 B2]. destruct desc_shape as (fn & bs & prev & tl & E1 & E2 & E3 & E4 & _ & F). rewrite E4.
  assert (A1 : ~ data_file fn) by (apply (segfn_not_data (g1 + 1)); auto; lia). assert (A2 : ~ data_file prev) by (apply (segfn_not_data g1); auto; lia).
  constructor; [exact A1|]. constructor; [exact A1|]. eapply Forall_impl; [|exact F]. intros o [-> | ->]; [discriminate|exact A2].
Qed.
(* ops of this commit on a file of an earlier commit only remove it *)
Lemma ops_remove m fn : (m <= c)%nat -> commit_file (St m) fn -> Forall (fun o => op_target o = fn -> o = Remove fn) (commit_ops g1 h).
Proof.
  intros Hm Hf. apply Forall_forall. intros o Ho Ht. subst fn. unfold commit_ops in Ho. rewrite !in_app_iff in Ho.
  destruct Ho as [Ho|[Ho|Ho]].
  - destruct Hrules as (_ & _ & R). apply (R m c h o Hm Hh); auto. apply in_or_app. auto.
  - exfalso. pose proof (proj1 (Forall_forall _ _) desc_not_data o Ho) as N. apply N. eapply commit_file_data. exact Hf.
  - destruct Hrules as (_ & _ & R). apply (R m c h o Hm Hh); auto. apply in_or_app. auto.
Qed.
Lemma ops_old f hh : 0 <= hh <= g1 -> segfn_for_generation hh = Some f -> Forall (fun o => op_target o = f -> o = Remove f) (commit_ops g1 h).
Proof.
  intros Hhh Ef. destruct c_bound as [B1 B2]. destruct desc_shape as (fn & bs & prev & tl & E1 & E2 & E3 & E4 & _ & F).
  assert (Nd : ~ data_file f) by (apply (segfn_not_data hh); auto; lia).
  unfold commit_ops. rewrite E4. apply Forall_app. split; [|apply Forall_app; split].
  - eapply Forall_impl; [|exact pre_data]. cbn. intros o Ho He. rewrite He in Ho. contradiction.
  - assert (Hne : fn <> f) by (apply (segfn_neq (g1 + 1) hh); auto; lia).
    constructor; [cbn; intros; contradiction|]. constructor; [cbn; intros; contradiction|].
    eapply Forall_impl; [|exact F]. intros o [Hg| ->] He; [|cbn in He; subst; auto]. exfalso. rewrite Hg in He. apply (segfn_not_genfile hh f); auto; lia.
  - eapply Forall_impl; [|exact post_data]. cbn. intros o Ho He. rewrite He in Ho. contradiction.
Qed.

Hypothesis Hcom : committed (W c) g1 (St c).
Lemma com1 : committed d1 g1 (St c).
Proof. eapply committed_spared; [exact Hcom|exact pre_data|apply crash_all]. Qed.
Lemma partway_early j k : (j <= length (c_pre h))%nat -> crash (W c) (c_pre h) (partway (W c) (commit_ops g1 h) j k).
Proof.
  intros L. unfold commit_ops. rewrite partway_app. destruct (Nat.ltb_spec j (length (c_pre h))); [apply partway_crash|].
  replace (j - length (c_pre h))%nat with 0%nat by lia. destruct desc_shape as (fn & bs & prev & tl & E1 & E2 & E3 & E4 & _). rewrite E4. unfold partway. cbn. apply crash_all.
Qed.
Lemma new_fresh fn : segfn_for_generation (g1 + 1) = Some fn -> lookup fn d1 = None.
Proof. intros E. destruct com1 as (B & _ & Ec & _). eapply fresh_segfn; eauto. Qed.
Lemma partway_mid fn bs k : segfn_for_generation (g1 + 1) = Some fn -> enc_sis (c_new h) = Some bs ->
  partway (W c) (commit_ops g1 h) (S (length (c_pre h))) k = set fn (firstn k bs) (set fn [] d1).
Proof.
  intros E1 E2. destruct desc_shape as (fn' & bs' & prev & tl & F1 & F2 & F3 & F4 & _). rewrite E1 in F1. apply some_inj in F1. subst fn'.
  rewrite E2 in F2. apply some_inj in F2. subst bs'. unfold commit_ops. rewrite partway_app. replace (S (length (c_pre h)) <? length (c_pre h))%nat with false by (symmetry; apply Nat.ltb_ge; lia).
  replace (S (length (c_pre h)) - length (c_pre h))%nat with 1%nat by lia. rewrite F4. fold d1. unfold partway. cbn [firstn app nth_error apply_ops fold_left apply_op].
  rewrite (new_fresh fn E1). rewrite lookup_set, beqb_refl, put_at_new. auto.
Qed.
Lemma partway_late fn bs tl j k : segfn_for_generation (g1 + 1) = Some fn -> enc_sis (c_new h) = Some bs -> descriptor_ops g1 h = Create fn :: Write fn 0 bs :: tl ->
  (S (length (c_pre h)) < j)%nat -> crash (set fn bs (set fn [] d1)) (tl ++ c_post h) (partway (W c) (commit_ops g1 h) j k).
Proof.
  intros E1 E2 E3 L. unfold commit_ops. rewrite partway_app. replace (j <? length (c_pre h))%nat with false by (symmetry; apply Nat.ltb_ge; lia).
  fold d1. rewrite E3. change ((Create fn :: Write fn 0 bs :: tl) ++ c_post h) with ([Create fn; Write fn 0 bs] ++ (tl ++ c_post h)). rewrite partway_app.
  replace (j - length (c_pre h) <? length [Create fn; Write fn 0 bs])%nat with false by (symmetry; apply Nat.ltb_ge; cbn; lia).
  cbn [apply_ops fold_left apply_op]. rewrite (new_fresh fn E1). rewrite lookup_set, beqb_refl, put_at_new. apply partway_crash.
Qed.
Lemma mid_cg fn x : segfn_for_generation (g1 + 1) = Some fn -> current_generation (names (set fn x (set fn [] d1))) = g1 + 1.
Proof.
  intros E. destruct com1 as (B & _ & Ec & _). rewrite <- (cg_new d1 g1 fn [] Ec ltac:(lia) E). apply cg_ext. intros n Hn. rewrite !names_set. tauto.
Qed.
Lemma tl_targets fn prev tl : segfn_for_generation (g1 + 1) = Some fn -> segfn_for_generation g1 = Some prev ->
  Forall (fun o => op_target o = GEN_FILE \/ o = Remove prev) tl -> Forall (fun o => op_target o <> fn /\ gen_of (op_target o) < g1 + 1) (tl ++ c_post h).
Proof.
  intros E1 E3 F. destruct c_bound as [B1 B2]. apply Forall_app. split.
  - eapply Forall_impl; [|exact F]. intros o [-> | ->].
    + split; [intros He; apply (segfn_not_genfile (g1 + 1) fn); auto; lia|]. rewrite gen_genfile. lia.
    + cbn [op_target]. split; [apply (segfn_neq g1 (g1 + 1)); auto; lia|]. rewrite (gen_segfn g1 prev) by (auto; lia). lia.
  - eapply Forall_impl; [|exact post_data]. cbn. intros o Ho. split; [intros He; rewrite He in Ho; apply (segfn_not_data (g1 + 1) fn); auto; lia|]. rewrite (gen_data _ Ho). lia.
Qed.
(* files of the new commit after the preparations *)
Lemma new_files ops x y : crash x ops y -> (forall o, In o ops -> In o (descriptor_ops g1 h) \/ In o (c_post h)) -> forall fn, commit_file (St (S c)) fn -> lookup fn y = lookup fn x.
Proof.
  intros Hc Hi. apply (keeps_commit_files (St (S c)) ops); auto. apply Forall_forall. intros o Ho. destruct (Hi o Ho) as [I1|I1].
  - left. exact (proj1 (Forall_forall _ _) desc_not_data o I1).
  - right. exact (proj2 (proj1 (Forall_forall _ _) post_spares o I1)).
Qed.
Lemma world_files fn : commit_file (St (S c)) fn -> lookup fn (W (S c)) = lookup fn d1.
Proof.
  intros Hf. unfold W. rewrite (world_next H d0 g0 c h Hh). fold (W c). fold g1. unfold commit_ops. rewrite apply_ops_app. fold d1.
  apply (new_files (descriptor_ops g1 h ++ c_post h)); auto; [apply crash_all|]. intros o Ho. apply in_app_or in Ho. auto.
Qed.
Lemma done_described j k bs : enc_sis (c_new h) = Some bs -> (S (length (c_pre h)) < j \/ j = S (length (c_pre h)) /\ length bs <= k)%nat ->
  let d := partway (W c) (commit_ops g1 h) j k in
  described (S c) d /\ current_generation (names d) = g1 + 1 /\ (forall fn, commit_file (St (S c)) fn -> lookup fn d = lookup fn (W (S c))).
Proof.
  intros E2 Hj d. destruct c_bound as [B1 B2]. destruct desc_shape as (fn & bs' & prev & tl & E1 & E2' & E3 & E4 & _ & F). rewrite E2 in E2'. apply some_inj in E2'. subst bs'.
  assert (Hc : crash (set fn bs (set fn [] d1)) (tl ++ c_post h) d).
  { destruct Hj as [L|[-> L]]; [apply (partway_late fn bs tl); auto|]. unfold d. rewrite (partway_mid fn bs); auto. rewrite firstn_all2 by auto. constructor. }
  destruct (later_ops (g1 + 1) fn _ d (tl ++ c_post h) bs ltac:(lia) E1 ltac:(rewrite lookup_set, beqb_refl; auto) (mid_cg fn bs E1) (tl_targets fn prev tl E1 E3 F) Hc) as [L1 L2].
  split; [|split; auto].
  - exists fn, bs, []. rewrite new_state. replace (g0 + Z.of_nat (S c)) with (g1 + 1) by (unfold g1; lia). rewrite app_nil_r. auto.
  - intros f Hf. rewrite world_files by auto. rewrite (new_files _ _ _ Hc) by (auto; intros o Ho; apply in_app_or in Ho; rewrite E4; cbn [In]; tauto).
    assert (fn <> f) by (intros ->; apply (segfn_not_data (g1 + 1) f); auto; [lia|eapply commit_file_data; eauto]). rewrite !lookup_set, !beqb_false by auto. auto.
Qed.
Lemma early_described j k : (j <= length (c_pre h))%nat ->
  let d := partway (W c) (commit_ops g1 h) j k in
  described c d /\ current_generation (names d) = g1 /\ (forall fn, commit_file (St c) fn -> lookup fn d = lookup fn (W c)).
Proof.
  intros L d. pose proof (partway_early j k L) as Hc. fold d in Hc. destruct (committed_spared _ _ _ _ _ Hcom pre_data Hc) as (_ & _ & Ec & fn & bs & rest & E1 & E2 & E3).
  split; [exists fn, bs, rest; auto|]. split; auto. apply (keeps_commit_files (St c) (c_pre h)); auto. eapply Forall_impl; [|exact pre_spares]. cbn. tauto.
Qed.
Lemma mid_described k bs : enc_sis (c_new h) = Some bs -> (k < length bs)%nat ->
  let d := partway (W c) (commit_ops g1 h) (S (length (c_pre h))) k in
  described c d /\ current_generation (names d) = g1 + 1 /\ (forall fn, commit_file (St c) fn -> lookup fn d = lookup fn (W c)) /\
  exists fn, segfn_for_generation (g1 + 1) = Some fn /\ lookup fn d = Some (firstn k bs).
Proof.
  intros E2 Hk d. destruct c_bound as [B1 B2]. destruct (segfn_total (g1 + 1) ltac:(lia)) as (fn & E1). unfold d. rewrite (partway_mid fn bs) by auto.
  destruct com1 as (_ & _ & Ec & prev & bs0 & rest & F1 & F2 & F3).
  assert (Hne : fn <> prev) by (apply (segfn_neq (g1 + 1) g1); auto; lia).
  split; [|split; [|split]].
  - exists prev, bs0, rest. repeat split; auto. rewrite !lookup_set, !beqb_false by auto. auto.
  - apply mid_cg. auto.
  - intros f Hf. assert (fn <> f) by (intros ->; apply (segfn_not_data (g1 + 1) f); auto; [lia|eapply commit_file_data; eauto]). rewrite !lookup_set, !beqb_false by auto.
    apply (keeps_commit_files (St c) (c_pre h)); [apply crash_all| |auto]. eapply Forall_impl; [|exact pre_spares]. cbn. tauto.
  - exists fn. split; auto. rewrite lookup_set, beqb_refl. auto.
Qed.
End Commit.

(* ---------- all commits *)
Definition gone_below (c : nat) (d : dir) : Prop := forall hh, g0 - 1 <= hh < g0 + Z.of_nat c -> absent hh d.
Lemma ops_all_crash c h j k : nth_error H c = Some h -> crash (W c) (commit_ops (g1 c) h) (partway (W c) (commit_ops (g1 c) h) j k).
Proof. intros _. apply partway_crash. Qed.
Lemma partway_full d ops : partway d ops (length ops) 0 = apply_ops d ops.
Proof. unfold partway. replace (nth_error ops (length ops)) with (@None fop) by (symmetry; apply nth_error_None; auto). rewrite firstn_all. auto. Qed.
Lemma world_inv c : (c <= length H)%nat -> committed (W c) (g1 c) (St c) /\ gone_below c (W c).
Proof.
  induction c as [|c IH]; intros Hc.
  - destruct Hstart as (S1 & S2 & S3). unfold W, g1, St. cbn [state_of]. replace (world d0 g0 H 0) with d0 by (destruct H; auto). replace (g0 + Z.of_nat 0) with g0 by lia.
    split; auto. intros hh Hhh. replace hh with (g0 - 1) by lia. exact S3.
  - destruct (nth_error H c) as [h|] eqn:En; [|apply nth_error_None in En; lia]. destruct (IH ltac:(lia)) as [I1 I2].
    destruct (c_bound c h En) as [B1 B2]. assert (Ew : W (S c) = partway (W c) (commit_ops (g1 c) h) (length (commit_ops (g1 c) h)) 0).
    { unfold W. rewrite (world_next H d0 g0 c h En). rewrite partway_full. auto. }
    destruct (desc_shape c h En) as (fn & bs & prev & tl & E1 & E2 & E3 & E4 & E5 & F).
    assert (L : (S (length (c_pre h)) < length (commit_ops (g1 c) h))%nat).
    { unfold commit_ops. rewrite !app_length, E4. cbn [length]. lia. }
    destruct (done_described c h En I1 (length (commit_ops (g1 c) h)) 0 bs E2 (or_introl L)) as (D1 & D2 & _). rewrite <- Ew in D1, D2.
    assert (Eg : g1 (S c) = g1 c + 1) by (unfold g1; lia). split.
    + split; [rewrite Eg; lia|]. split; [rewrite (new_state c h En); destruct Hrules as (_ & R & _); apply (R c h En)|]. split; [rewrite Eg; auto|]. exact D1.
    + intros hh Hhh f Ef. destruct (Z.eq_dec hh (g1 c)) as [->|Hne].
      * assert (f = prev) by (rewrite E3 in Ef; apply some_inj in Ef; auto). subst f. unfold W. rewrite (world_next H d0 g0 c h En). apply only_removed_all.
        -- apply (ops_old c h En prev (g1 c)); auto. lia.
        -- unfold commit_ops. fold (g1 c). rewrite E4. apply in_or_app. right. apply in_or_app. left. cbn [In]. auto.
      * destruct Hstart as (_ & S2 & _). unfold g1 in Hne. unfold W. rewrite (world_next H d0 g0 c h En).
        destruct (only_removed (W c) (commit_ops (g1 c) h) (apply_ops (W c) (commit_ops (g1 c) h)) f (crash_all _ _)) as [E|E]; auto.
        -- apply (ops_old c h En f hh); auto. unfold g1. lia.
        -- rewrite (I2 hh ltac:(lia) f Ef) in E. exact E.
Qed.
Lemma world_old_files m c fn : (m <= c <= length H)%nat -> commit_file (St m) fn -> lookup fn (W c) = lookup fn (W m) \/ lookup fn (W c) = None.
Proof.
  intros [L1 L2] Hf. induction L1 as [|c L1 IH]; auto. destruct (nth_error H c) as [h|] eqn:En; [|apply nth_error_None in En; lia].
  unfold W at 1 3. rewrite (world_next H d0 g0 c h En). fold (W c). fold (g1 c).
  destruct (only_removed (W c) (commit_ops (g1 c) h) (apply_ops (W c) (commit_ops (g1 c) h)) fn (crash_all _ _) (ops_remove c h En m fn L1 Hf)) as [E|E]; auto.
  rewrite E. apply IH. lia.
Qed.

(* ---------- what is seen at a stage *)
Record sees (d : dir) (t : nat) : Prop := {
  se_cg : current_generation (names d) = g0 + Z.of_nat ((t + 2) / 3);
  se_live : forall m, (3 * m <= t + 1)%nat -> (t <= 3 * m + 1)%nat -> described m d /\ forall fn, commit_file (St m) fn -> lookup fn d = lookup fn (W m);
  se_old : forall m, (3 * m + 2 <= t)%nat -> absent (g0 + Z.of_nat m) d \/ (t = 3 * m + 2)%nat /\ described m d;
  se_files : forall m fn, (3 * m <= t + 1)%nat -> commit_file (St m) fn -> lookup fn d = lookup fn (W m) \/ lookup fn d = None;
  se_below : absent (g0 - 1) d }.
Lemma div3 t c r : (t = 3 * c + r)%nat -> (r < 3)%nat -> ((t + 2) / 3)%nat = match r with O => c | _ => S c end.
Proof. intros -> Hr. destruct r as [|[|[|r]]]; [| | |lia]; symmetry; [apply Nat.div_unique with 2%nat|apply Nat.div_unique with 0%nat|apply Nat.div_unique with 1%nat]; lia. Qed.
Lemma dir_sees x : (fst (fst x) <= length H)%nat -> sees (dir_at d0 g0 H x) (stage x).
Proof.
  destruct x as [[c j] k]. cbn [fst]. intros Hc. destruct (world_inv c Hc) as [I1 I2]. pose proof (stage_between c j k) as SB. set (t := stage (c, j, k)) in *.
  assert (Hb1 : 1 <= g0) by apply Hstart.
  cbn [dir_at]. destruct (nth_error H c) as [h|] eqn:En.
  - fold (W c). fold (g1 c). set (d := partway (W c) (commit_ops (g1 c) h) j k). destruct (c_bound c h En) as [B1 B2].
    assert (Hcr : crash (W c) (commit_ops (g1 c) h) d) by apply partway_crash.
    assert (Gone : gone_below c d).
    { intros hh Hhh f Ef. destruct (only_removed _ _ _ f Hcr (ops_old c h En f hh ltac:(unfold g1; lia) Ef)) as [E|E]; auto. rewrite E. apply (I2 hh Hhh f Ef). }
    assert (Files : forall m fn, (m <= c)%nat -> commit_file (St m) fn -> lookup fn d = lookup fn (W m) \/ lookup fn d = None).
    { intros m fn Hm Hf. destruct (only_removed _ _ _ fn Hcr (ops_remove c h En m fn Hm Hf)) as [E|E]; auto. rewrite E. apply world_old_files; auto. }
    assert (Below : absent (g0 - 1) d) by (apply Gone; lia).
    destruct Hrules as (_ & R & _). destruct (enc_sis_some _ (proj1 (R c h En))) as (bs & Eb).
    assert (Et : t = (3 * c + (if (j <=? length (c_pre h))%nat then 0 else if (j =? S (length (c_pre h)))%nat && (k <? length bs)%nat then 1 else 2))%nat).
    { unfold t. cbn [stage]. rewrite En, Eb. auto. }
    destruct (Nat.leb_spec j (length (c_pre h))) as [L|L].
    + destruct (early_described c h En I1 j k L) as (D1 & D2 & D3). fold d in D1, D2, D3. split; [| | | |exact Below].
      * rewrite D2, (div3 t c 0) by (auto; lia). auto.
      * intros m M1 M2. assert (m = c) by lia. subst m. auto.
      * intros m M1. left. apply Gone. lia.
      * intros m fn M1. apply Files. lia.
    + destruct ((j =? S (length (c_pre h)))%nat && (k <? length bs)%nat) eqn:Eq.
      * apply andb_prop in Eq. destruct Eq as [Q1 Q2]. apply Nat.eqb_eq in Q1. apply Nat.ltb_lt in Q2.
        destruct (mid_described c h En I1 k bs Eb Q2) as (D1 & D2 & D3 & _). rewrite <- Q1 in D1, D2, D3. fold d in D1, D2, D3. split; [| | | |exact Below].
        -- rewrite D2, (div3 t c 1) by (auto; lia). unfold g1. lia.
        -- intros m M1 M2. assert (m = c) by lia. subst m. auto.
        -- intros m M1. left. apply Gone. lia.
        -- intros m fn M1. apply Files. lia.
      * assert (Hj : (S (length (c_pre h)) < j \/ j = S (length (c_pre h)) /\ length bs <= k)%nat).
        { destruct (Nat.eqb_spec j (S (length (c_pre h)))); [|left; lia]. right. split; auto. cbn [andb] in Eq. apply Nat.ltb_ge in Eq. auto. }
        destruct (done_described c h En I1 j k bs Eb Hj) as (D1 & D2 & D3). fold d in D1, D2, D3. split; [| | | |exact Below].
        -- rewrite D2, (div3 t c 2) by (auto; lia). unfold g1. lia.
        -- intros m M1 M2. assert (m = S c) by lia. subst m. auto.
        -- intros m M1. destruct (Nat.eq_dec m c) as [->|Hne]; [|left; apply Gone; lia].
           destruct I1 as (_ & _ & _ & fn & b & rest & F1 & F2 & F3).
           destruct (only_removed _ _ _ fn Hcr (ops_old c h En fn (g1 c) ltac:(lia) F1)) as [E|E].
           ++ right. split; [lia|]. exists fn, b, rest. rewrite E. auto.
           ++ left. intros f Ef. fold (g1 c) in Ef. rewrite F1 in Ef. apply some_inj in Ef. subst f. auto.
        -- intros m fn M1 Hf. destruct (Nat.eq_dec m (S c)) as [->|Hne]; [left; auto|]. apply Files; auto. lia.
  - fold (W c). assert (Et : t = (3 * c)%nat) by (unfold t; cbn [stage]; rewrite En; lia).
    destruct I1 as (_ & _ & Ec & Hd). split.
    + rewrite Ec, (div3 t c 0) by lia. auto.
    + intros m M1 M2. assert (m = c) by lia. subst m. split; auto.
    + intros m M1. left. apply I2. lia.
    + intros m fn M1 Hf. apply world_old_files; auto. lia.
    + apply I2. lia.
Qed.
(* the cut descriptor *)
Lemma dir_part m x : (fst (fst x) <= length H)%nat -> (stage x + 2 = 3 * m)%nat ->
  exists fn bs n, segfn_for_generation (g0 + Z.of_nat m) = Some fn /\ enc_sis (St m) = Some bs /\ (n < length bs)%nat /\ sis_ok (St m) /\
    lookup fn (dir_at d0 g0 H x) = Some (firstn n bs) /\ under_way H m n x.
Proof.
  destruct x as [[c j] k]. cbn [fst]. intros Hc Hm. destruct (world_inv c Hc) as [I1 I2]. pose proof (stage_between c j k). assert (m = S c) by lia. subst m.
  cbn [stage] in Hm. cbn [dir_at under_way]. destruct (nth_error H c) as [h|] eqn:En; [|lia]. fold (W c). fold (g1 c).
  pose proof Hrules as (_ & R & _). pose proof (proj1 (R c h En)) as Ho. destruct (enc_sis_some _ Ho) as (bs & Eb). rewrite Eb in Hm.
  destruct (Nat.leb_spec j (length (c_pre h))); [lia|]. destruct (Nat.eqb_spec j (S (length (c_pre h)))) as [->|]; cbn [andb] in Hm; [|lia].
  destruct (Nat.ltb_spec k (length bs)) as [Hk|]; [|lia].
  destruct (mid_described c h En I1 k bs Eb Hk) as (_ & _ & _ & fn & D1 & D2). exists fn, bs, k. rewrite (new_state c h En).
  replace (g0 + Z.of_nat (S c)) with (g1 c + 1) by (unfold g1; lia). refine (conj D1 (conj Eb (conj Hk (conj Ho (conj D2 (conj eq_refl _)))))). exists h, bs. repeat split; auto.
Qed.
End History.
