(* Everything that is found after a history of a writer. *)
From Verif Require Import Util Codec_Model Strcmp Seg_Model Dict_Model Dict_Spec Token_Model Post_Model Post_Spec PostRun_Proofs Multi_Model Multi_Proofs Mte_Model Mte_Spec Mtde_Model Mtde_Spec Expand_Model Expand_Spec Range_Model Range_Spec Merge_Model Merge_Spec Merge_Proofs MergeRun_Proofs MergeDocs_Proofs Fields_Model Fields_Spec Fields_Proofs FieldsRead_Proofs FieldsVec_Proofs FieldsTop_Proofs Invert_Model Invert_Spec Invert_Proofs InvertDoc_Proofs InvertIndex_Proofs InvertTop_Proofs Iw_Model Iw_Spec IwExt_Proofs IwSeg_Proofs IwMerge_Proofs IwRun_Proofs Tsc_Model Tsc_Spec TscOpen_Proofs TscQuery_Proofs Find_Model Find_Spec Find_Proofs.
Open Scope Z_scope.

Section TOP.
  Variable ana : list Z -> list Z -> list token.
  Variable norm : field_info -> Z -> dfield -> Z -> Z.
  Variable zip : list Z -> list Z.
  Variable unzip : list Z -> option (list Z).
  Variable fuel : nat.
  Variable cfg : config.
  Variable buf0 : list Z.
  Variable fis : field_infos.
  Variable m : nat.
  Variable os : list wop.
  Notation max := (c_field_length cfg).
  Notation F := (fis_of fis (added os)).
  Notation rseg := (list (Z * list (list Z * list post)) * (wseg * list document))%type.
  Hypothesis HCfg : config_ok cfg buf0 (length (added os)).
  Hypothesis Hskip : (3 <= c_skip cfg)%nat.
  Hypothesis HZ : codec zip unzip.
  Hypothesis HL : log_fits ana max zip (c_interval cfg) F (added os).
  Hypothesis Hm : (1 <= m)%nat.
  Hypothesis HM : max_ok m None os.

  Lemma after : exists s (ts : list rseg), iw_run ana norm zip (S fuel) cfg buf0 (iw_open fis [] m) os = Some s /\
    y_segs s = map (fun t => fst (snd t)) ts /\ Forall (rept ana norm zip max (c_interval cfg) (c_skip cfg) F) ts /\
    Forall (fun t : rseg => reads ana norm unzip fuel max F (c_skip cfg) (fst (snd t)) (snd (snd t))) ts /\
    v_docs (view ana cfg fis m os) = flat_map (fun t => live_in_seg (snd t)) ts /\ lesser (flat_map (fun t => snd (snd t)) ts) (added os) /\ y_fis s = F.
  Proof.
    pose proof HCfg as (C1 & C2 & C3 & C4 & C5 & C6 & C7). pose proof HL as (L1 & L2 & L3 & L4 & L5).
    destruct (run_ok ana norm zip fuel cfg buf0 F (added os) C1 C2 C3 C4 C7 L3 C5 C6 (fit_of ana zip cfg _ _ HL) os (iw_open fis [] m) (mkVis fis [] [] m) []) as (s & R1 & R2 & R3); auto.
    { apply J_init; auto. apply fis_ext. } { apply lesser_refl. }
    pose proof R2 as (_ & _ & _ & _ & _ & _ & _ & ps & (E1 & E2 & E3 & (E4 & E5 & E6)) & J9 & J10). cbn [app] in J10. unfold view.
    destruct (rep_all ana norm zip max (c_interval cfg) (c_skip cfg) F ps E3) as (ts & Ets & HT). exists s, ts.
    assert (EP : forall A (g : wseg * list document -> list A), flat_map g ps = flat_map (fun t => g (snd t)) ts) by (intros A g; rewrite <- Ets; clear; induction ts as [|t ts IH]; [reflexivity|]; cbn [map flat_map]; rewrite IH; reflexivity).
    splits; auto.
    - rewrite E2, <- Ets, map_map. reflexivity.
    - apply Forall_forall. intros t Ht. assert (Hp : In (snd t) ps) by (rewrite <- Ets; apply in_map; auto).
      assert (Hin : forall d, In d (snd (snd t)) -> In d (flat_map snd ps)) by (intros d Hd; apply in_flat_map; exists (snd t); auto). rewrite Forall_forall in E4, E5, E3.
      eapply rep_reads; eauto.
      + pose proof (E3 _ Hp) as G. rewrite <- surjective_pairing. exact G.
      + apply Forall_forall. auto.
      + apply Forall_forall. intros d Hd. rewrite <- R3. auto.
      + eapply (fit_less ana norm zip max (c_interval cfg) (c_skip cfg) F C1 C3); [|exact E6]. apply (lesser_part snd) in Hp. exact Hp.
    - rewrite J9. apply EP.
    - rewrite <- EP. intros w. specialize (J10 w). rewrite sum_app in J10. lia.
  Qed.

  Theorem finds_all : exists s slots, iw_run ana norm zip (S fuel) cfg buf0 (iw_open fis [] m) os = Some s /\
    somes slots = v_docs (view ana cfg fis m os) /\ answers ana unzip fuel max F (y_segs s) slots /\
    (forall n pre k bo, (1 <= k)%nat -> pre <> [] -> few ana max F k n (added os) (fun t => exists u, t = pre ++ u) ->
       exists f0, forall fu, (f0 < fu)%nat -> exists q, prq_rewrite fu (rdr_of (reader_of (y_segs s))) (Some (Z.of_nat n)) pre k bo = Some (QMultiQ q) /\
         visits ana max F (y_segs s) slots n q (fun t => exists u, t = pre ++ u)) /\
    (forall n pat k bo, (1 <= k)%nat -> fst (split_wild pat) <> [] -> (length (fst (split_wild pat)) < 255)%nat -> snd (split_wild pat) <> [] -> few ana max F k n (added os) (glob pat) ->
       exists f0, forall fu, (f0 < fu)%nat -> exists q, wcq_rewrite fu (rdr_of (reader_of (y_segs s))) (Some (Z.of_nat n)) pat k bo = Some (QMultiQ q) /\
         visits ana max F (y_segs s) slots n q (glob pat)).
  Proof.
    destruct after as (s & ts & R1 & R2 & R3 & R4 & R5 & R6 & _). pose proof HCfg as (C1 & C2 & C3 & C4 & C5 & C6 & C7). exists s, (slots_of ts). rewrite R2. splits; auto.
    - rewrite R5. eapply slots_live with (I := c_interval cfg) (kn := c_skip cfg); eauto.
    - eapply answers_ok with (I := c_interval cfg) (kn := c_skip cfg); eauto.
    - intros n pre k bo Hk Hp Hf. destruct (prefix_finds (pidx_of (c_interval cfg) (c_skip cfg) ts) (reader_of (map (fun t => fst (snd t)) ts)) (rd_is_deleted (map (fun t => fst (snd t)) ts)) (Z.of_nat n) pre k bo Hk) as (f0 & G); auto.
      + eapply open_ok with (I := c_interval cfg) (kn := c_skip cfg); eauto.
      + apply field_ok.
      + eapply few_at_most with (I := c_interval cfg) (kn := c_skip cfg); eauto.
      + exists f0. intros fu Hfu. destruct (G fu Hfu) as (q & Q1 & Q2). exists q. split; auto. eapply finds_visits with (I := c_interval cfg) (kn := c_skip cfg); eauto.
    - intros n pat k bo Hk Hp Hq Hr Hf. destruct (wildcard_finds (pidx_of (c_interval cfg) (c_skip cfg) ts) (reader_of (map (fun t => fst (snd t)) ts)) (rd_is_deleted (map (fun t => fst (snd t)) ts)) (Z.of_nat n) pat k bo Hk) as (f0 & G); auto.
      + eapply open_ok with (I := c_interval cfg) (kn := c_skip cfg); eauto.
      + apply field_ok.
      + eapply few_at_most with (I := c_interval cfg) (kn := c_skip cfg); eauto.
      + exists f0. intros fu Hfu. destruct (G fu Hfu) as (q & Q1 & Q2). exists q. split; auto. eapply finds_visits with (I := c_interval cfg) (kn := c_skip cfg); eauto.
  Qed.
End TOP.

Theorem found_after ana norm zip unzip fuel cfg buf0 fis m os : let F := fis_of fis (added os) in
  config_ok cfg buf0 (length (added os)) -> (3 <= c_skip cfg)%nat -> codec zip unzip -> log_fits ana (c_field_length cfg) zip (c_interval cfg) F (added os) -> (1 <= m)%nat -> max_ok m None os ->
  exists s slots, iw_run ana norm zip (S fuel) cfg buf0 (iw_open fis [] m) os = Some s /\ somes slots = v_docs (view ana cfg fis m os) /\ answers ana unzip fuel (c_field_length cfg) F (y_segs s) slots.
Proof. intros F H1 H2 H3 H4 H5 H6. destruct (finds_all ana norm zip unzip fuel cfg buf0 fis m os H1 H2 H3 H4 H5 H6) as (s & slots & R1 & R2 & R3 & _). exists s, slots. auto. Qed.
Lemma added_commit os : added (os ++ [WCommit]) = added os.
Proof. unfold added. rewrite flat_map_app. cbn [flat_map app]. apply app_nil_r. Qed.
Lemma log_commit ana max F os : log ana max F (os ++ [WCommit]) = log ana max F os.
Proof. unfold log. rewrite fold_left_app. reflexivity. Qed.
Theorem found_committed ana norm zip unzip fuel cfg buf0 fis m os : let F := fis_of fis (added os) in
  config_ok cfg buf0 (length (added os)) -> (3 <= c_skip cfg)%nat -> codec zip unzip -> log_fits ana (c_field_length cfg) zip (c_interval cfg) F (added os) -> (1 <= m)%nat -> max_ok m None os ->
  exists s slots, iw_run ana norm zip (S fuel) cfg buf0 (iw_open fis [] m) (os ++ [WCommit]) = Some s /\ somes slots = log ana (c_field_length cfg) F os /\ answers ana unzip fuel (c_field_length cfg) F (y_segs s) slots.
Proof.
  intros F H1 H2 H3 H4 H5 H6. destruct (found_after ana norm zip unzip fuel cfg buf0 fis m (os ++ [WCommit])) as (s & slots & R1 & R2 & R3); rewrite ?added_commit; auto using max_ok_commit.
  rewrite added_commit in R3. exists s, slots. split; auto. split; auto. rewrite R2. pose proof (view_is_log ana cfg fis m (os ++ [WCommit])) as G. rewrite (view_commit ana cfg fis m os WCommit), app_nil_r, log_commit, added_commit in G by auto. exact G.
Qed.
Theorem matched_after ana norm zip unzip fuel cfg buf0 fis m os : let F := fis_of fis (added os) in let max := c_field_length cfg in
  config_ok cfg buf0 (length (added os)) -> (3 <= c_skip cfg)%nat -> codec zip unzip -> log_fits ana max zip (c_interval cfg) F (added os) -> (1 <= m)%nat -> max_ok m None os ->
  exists s slots, iw_run ana norm zip (S fuel) cfg buf0 (iw_open fis [] m) os = Some s /\ somes slots = v_docs (view ana cfg fis m os) /\
    (forall n pre k bo, (1 <= k)%nat -> pre <> [] -> few ana max F k n (added os) (fun t => exists u, t = pre ++ u) ->
       exists f0, forall fu, (f0 < fu)%nat -> exists q, prq_rewrite fu (rdr_of (reader_of (y_segs s))) (Some (Z.of_nat n)) pre k bo = Some (QMultiQ q) /\
         visits ana max F (y_segs s) slots n q (fun t => exists u, t = pre ++ u)) /\
    (forall n pat k bo, (1 <= k)%nat -> fst (split_wild pat) <> [] -> (length (fst (split_wild pat)) < 255)%nat -> snd (split_wild pat) <> [] -> few ana max F k n (added os) (glob pat) ->
       exists f0, forall fu, (f0 < fu)%nat -> exists q, wcq_rewrite fu (rdr_of (reader_of (y_segs s))) (Some (Z.of_nat n)) pat k bo = Some (QMultiQ q) /\
         visits ana max F (y_segs s) slots n q (glob pat)).
Proof. intros F max H1 H2 H3 H4 H5 H6. destruct (finds_all ana norm zip unzip fuel cfg buf0 fis m os H1 H2 H3 H4 H5 H6) as (s & slots & R1 & R2 & R3 & R4 & R5). exists s, slots. auto. Qed.
