(* a writer's history in its pool *)
From Verif Require Import Util Pool_Model Pool_Spec Pool_Proofs PoolDw_Proofs.
Open Scope Z_scope.
Section IW.
  Variable has_norms : Z -> bool.
  Variable mem : Z -> Z -> Z.
  Variables (ch md mm most : Z).
  Hypotheses (H32 : 32 <= ch) (HMd : 1 <= md <= ch) (HMost : 0 <= most).
  Definition high : Z := INT_MAX / ch.
  Lemma high_le n : n * ch <= INT_MAX -> n <= high.
  Proof. intros G. unfold high. apply Z.div_le_lower_bound; lia. Qed.
  Lemma high_twice : 2 * high <= INT_MAX.
  Proof. unfold high. pose proof (Z.mul_div_le INT_MAX ch ltac:(lia)). assert (0 <= INT_MAX / ch) by (apply Z.div_pos; unfold INT_MAX; lia). nia. Qed.
  (* the documents given so far are those of the segments and those in memory *)
  Definition opened (s : iw) : bool := match i_dw s with Some _ => true | None => false end.
  Definition Good (s : iw) (docs : list (list fld)) : Prop := exists batches cur, docs = concat batches ++ cur /\ Forall2 (segment_of has_norms) batches (i_out s) /\
    match i_dw s with
    | None => cur = []
    | Some w => 2 * ch <= INT_MAX /\ exists seen bs obs, W has_norms high INT_MAX ch w cur [] seen bs obs /\ known cur [] seen /\ w_max w = md /\ Z.of_nat (length cur) < md /\ batch_blocks [] cur = Some obs /\ p_bp (fst (w_mem w)) * ch + p_ptr (fst (w_mem w)) <= mm
    end.
  Lemma batch_snoc b d : forall bs, batch_blocks bs (b ++ [d]) = do x <- batch_blocks bs b; fields_blocks x d.
  Proof. induction b as [|e b IH]; intros bs; cbn [app batch_blocks]; [cbn [obind]; destruct (fields_blocks bs d); reflexivity|]. destruct (fields_blocks bs e); [apply IH|reflexivity]. Qed.
  Lemma flushed c w out batches cur seen bs obs : 2 * ch <= INT_MAX -> 0 <= mm -> Forall2 (segment_of has_norms) batches out -> W has_norms high INT_MAX ch w cur [] seen bs obs -> known cur [] seen -> w_max w = md -> Z.of_nat (length cur) <= md -> batch_blocks [] cur = Some obs ->
    exists s, flush_iw c w out = Some s /\ i_conf s = c /\ opened s = true /\ Good s (concat batches ++ cur).
  Proof.
    intros H2 Hmm HF HW HK HX HL HB. destruct (flush_ok has_norms high INT_MAX ch w cur seen bs obs HW HK ltac:(lia) HB) as (o & w' & E & HS & HW' & EX & EB & EP). unfold flush_iw. rewrite E. cbn [obind fst snd]. eexists. split; [reflexivity|]. cbn [i_conf i_dw i_out opened]. split; [reflexivity|]. split; [reflexivity|].
    exists (batches ++ [cur]), []. cbn [i_dw i_out]. split; [rewrite concat_app; cbn [concat]; rewrite !app_nil_r; reflexivity|]. split; [apply Forall2_app; [exact HF|constructor; [exact HS|constructor]]|]. split; [exact H2|]. exists [], [], []. split; [exact HW'|]. split; [intros f; split; [intros []|intros (d & x & G1 & G2 & _); destruct G1 as [<-|[]]; destruct G2]|]. split; [congruence|]. split; [cbn; lia|]. split; [reflexivity|]. rewrite EB, EP. lia.
  Qed.
  Lemma step_good s docs o t : Good s docs -> steady ch md mm most (opened s) (i_conf s) (o :: t) -> exists s', iw_step has_norms mem s o = Some s' /\ Good s' (docs ++ docs_of [o]) /\ steady ch md mm most (opened s') (i_conf s') t.
  Proof.
    intros (batches & cur & ED & HF & HD) HS. destruct o as [d|n|n|n|]; cbn [steady docs_of flat_map app] in *.
    - destruct HS as (HO & HT & HI & HS). cbn [iw_step].
      set (A := Z.of_nat (length d) * (most + 2)) in *. assert (HA : 0 <= A) by (apply Z.mul_nonneg_nonneg; lia). assert (H2 : mm + A * ch + 3 * ch <= INT_MAX) by lia. assert (HAc : 0 <= A * ch) by (apply Z.mul_nonneg_nonneg; lia).
      assert (HW : 0 <= mm /\ 2 * ch <= INT_MAX /\ max_buffer_memory (i_conf s) <= mm /\ max_buffered_docs (i_conf s) <= md /\ exists w seen bs obs, (match i_dw s with Some w => Some w | None => dw_open (i_conf s) mem end) = Some w /\
        W has_norms high INT_MAX ch w cur [] seen bs obs /\ known cur [] seen /\ w_max w = md /\ Z.of_nat (length cur) < md /\ batch_blocks [] cur = Some obs /\ p_bp (fst (w_mem w)) * ch + p_ptr (fst (w_mem w)) <= mm).
      { unfold opened in HO. destruct (i_dw s) as [w|].
        - destruct HD as (G0 & seen & bs & obs & G1 & G2 & G3 & G4 & G5 & G6). assert (0 <= mm). { pose proof (i_bp _ _ _ _ _ (W_inv _ _ _ _ _ _ _ _ _ _ G1)). pose proof (i_ptr _ _ _ _ _ (W_inv _ _ _ _ _ _ _ _ _ _ G1)). nia. }
          split; [lia|]. split; [lia|]. split; [apply HO|]. split; [apply HO|]. exists w, seen, bs, obs. auto 10.
        - subst cur. destruct HO as (O1 & O2 & O3). assert (Hmm : 0 <= mm) by lia. split; [lia|]. split; [lia|]. split; [lia|]. split; [lia|]. unfold dw_open. rewrite O1. destruct (Z.eqb_spec ch 0); [lia|]. pose proof (Z.quot_div_nonneg (max_buffer_memory (i_conf s)) ch ltac:(lia) ltac:(lia)) as EQ. rewrite EQ.
          assert (Q1 : 1 <= max_buffer_memory (i_conf s) / ch) by (apply Z.div_le_lower_bound; lia). assert (Q2 : max_buffer_memory (i_conf s) / ch <= INT_MAX) by (apply Z.div_le_upper_bound; nia).
          assert (EP : mp_new_capa ch (max_buffer_memory (i_conf s) / ch) mem = Some (mkPool 1 (max_buffer_memory (i_conf s) / ch) 0 0 ch mem)) by (unfold mp_new_capa; destruct (Z.ltb_spec ch 0), (Z.ltb_spec (max_buffer_memory (i_conf s) / ch) 1); try lia; reflexivity).
          rewrite EP. cbn [obind]. eexists _, [], [], []. split; [reflexivity|]. cbn [w_max w_mem fst p_bp p_ptr].
          pose proof (new_ok ch _ mem _ high INT_MAX EP (high_le 1 ltac:(lia)) Q2) as HN. split; [|split; [intros f; split; [intros []|intros (e & x & G1 & G2 & _); destruct G1 as [<-|[]]; destruct G2]|]].
          + apply mkW; cbn [w_mem w_max w_doc w_flds w_own]; [exact HN|lia|reflexivity|constructor|constructor|intros f; reflexivity|intros f o []|constructor].
          + split; [exact O3|]. split; [cbn; lia|]. split; [reflexivity|lia]. }
      destruct HW as (Hmm & Hch & O4 & O5 & w & seen & bs & obs & -> & G1 & G2 & G3 & G4 & G5 & G6). cbn [obind].
      pose proof (i_ptr _ _ _ _ _ (W_inv _ _ _ _ _ _ _ _ _ _ G1)) as HP0. pose proof (i_bp _ _ _ _ _ (W_inv _ _ _ _ _ _ _ _ _ _ G1)) as HB0.
      assert (HHi : p_bp (fst (w_mem w)) + A + 2 <= high) by (apply high_le; nia).
      destruct (doc_ok has_norms high INT_MAX ch high_twice ltac:(lia) Hch H32 most HMost w cur seen bs obs d G1 G2 ltac:(lia) HT ltac:(fold A; lia)) as (w' & bs' & obs' & seen' & K1 & K2 & K3 & K4 & K5 & K6). fold A in K2. rewrite K1. cbn [obind].
      pose proof (i_ptr _ _ _ _ _ (W_inv _ _ _ _ _ _ _ _ _ _ K3)) as HP. pose proof (i_bp _ _ _ _ _ (W_inv _ _ _ _ _ _ _ _ _ _ K3)) as HB. pose proof (i_chunk _ _ _ _ _ (W_inv _ _ _ _ _ _ _ _ _ _ K3)) as HCk.
      assert (HBB : batch_blocks [] (cur ++ [d]) = Some obs') by (rewrite batch_snoc, G5; cbn [obind]; exact K6). pose proof (W_doc _ _ _ _ _ _ _ _ _ _ K3) as EDoc.
      unfold mp_used. rewrite HCk. destruct (Z.ltb_spec INT_MAX (p_bp (fst (w_mem w')) * ch + p_ptr (fst (w_mem w')))) as [G|G]; [nia|]. cbn [obind].
      assert (ELen : Z.of_nat (length (cur ++ [d])) = Z.of_nat (length cur) + 1) by (rewrite app_length; cbn [length]; lia).
      destruct (Z.ltb_spec (max_buffer_memory (i_conf s)) (p_bp (fst (w_mem w')) * ch + p_ptr (fst (w_mem w')))) as [T1|T1]; cbn [orb].
      + destruct (flushed (i_conf s) w' (i_out s) batches (cur ++ [d]) seen' bs' obs' Hch Hmm HF K3 K5 ltac:(congruence) ltac:(lia) HBB) as (s' & E & E1 & E2 & E3). exists s'. split; [exact E|]. rewrite ED, <- app_assoc. split; [exact E3|]. rewrite E1, E2. exact HS.
      + destruct (Z.leb_spec (max_buffered_docs (i_conf s)) (w_doc w')) as [T2|T2].
        * destruct (flushed (i_conf s) w' (i_out s) batches (cur ++ [d]) seen' bs' obs' Hch Hmm HF K3 K5 ltac:(congruence) ltac:(lia) HBB) as (s' & E & E1 & E2 & E3). exists s'. split; [exact E|]. rewrite ED, <- app_assoc. split; [exact E3|]. rewrite E1, E2. exact HS.
        * eexists. split; [reflexivity|]. cbn [i_conf i_dw i_out opened]. split; [|exact HS]. exists batches, (cur ++ [d]). cbn [i_dw i_out]. split; [rewrite ED, <- app_assoc; reflexivity|]. split; [exact HF|]. split; [exact Hch|]. exists seen', bs', obs'. split; [exact K3|]. split; [exact K5|]. split; [congruence|]. split; [lia|]. split; [exact HBB|lia].
    - rewrite app_nil_r. eexists. split; [reflexivity|]. split; [exists batches, cur; auto|exact HS].
    - rewrite app_nil_r. eexists. split; [reflexivity|]. split; [exists batches, cur; auto|exact HS].
    - rewrite app_nil_r. eexists. split; [reflexivity|]. split; [exists batches, cur; auto|exact HS].
    - rewrite app_nil_r. cbn [iw_step]. destruct (i_dw s) as [w|] eqn:EW; [|exists s; split; [reflexivity|]; split; [exists batches, cur; rewrite EW; auto|exact HS]].
      destruct (Z.ltb_spec 0 (w_doc w)); [|exists s; split; [reflexivity|]; split; [exists batches, cur; rewrite EW; auto|exact HS]].
      destruct HD as (G0 & seen & bs & obs & G1 & G2 & G3 & G4 & G5 & G6). assert (Hmm : 0 <= mm). { pose proof (i_bp _ _ _ _ _ (W_inv _ _ _ _ _ _ _ _ _ _ G1)). pose proof (i_ptr _ _ _ _ _ (W_inv _ _ _ _ _ _ _ _ _ _ G1)). nia. }
      destruct (flushed (i_conf s) w (i_out s) batches cur seen bs obs G0 Hmm HF G1 G2 G3 ltac:(lia) G5) as (s' & E & E1 & E2 & E3). exists s'. split; [exact E|]. rewrite ED. split; [exact E3|]. rewrite E1, E2. unfold opened in HS. rewrite EW in HS. exact HS.
  Qed.
  Lemma docs_app l m : docs_of (l ++ m) = docs_of l ++ docs_of m.
  Proof. apply flat_map_app. Qed.
  Lemma run_good : forall l s docs, Good s docs -> steady ch md mm most (opened s) (i_conf s) l -> exists s', iw_run has_norms mem s l = Some s' /\ Good s' (docs ++ docs_of l).
  Proof.
    induction l as [|o l IH]; intros s docs HG HS; [exists s; cbn; rewrite app_nil_r; auto|]. destruct (step_good s docs o l HG HS) as (s1 & E & G1 & G2). cbn [iw_run]. rewrite E. cbn [obind]. destruct (IH s1 _ G1 G2) as (s2 & E2 & G3). exists s2. split; [exact E2|]. rewrite <- app_assoc, <- docs_app in G3. exact G3.
  Qed.
  Lemma commit_empty s docs s' : Good s docs -> iw_step has_norms mem s WCommit = Some s' -> Good s' docs -> exists batches, docs = concat batches /\ Forall2 (segment_of has_norms) batches (i_out s').
  Proof.
    intros (batches & cur & ED & HF & HD) E (b2 & c2 & ED2 & HF2 & HD2). cbn [iw_step] in E. destruct (i_dw s) as [w|] eqn:EW.
    - destruct HD as (_ & seen & bs & obs & G1 & _). destruct (Z.ltb_spec 0 (w_doc w)) as [T|T].
      + unfold flush_iw in E. destruct (flush w) as [(o, w')|] eqn:EF; [|discriminate]. cbn [obind fst snd] in E. apply some_inj in E. subst s'. cbn [i_dw i_out] in *. destruct HD2 as (_ & seen2 & bs2 & obs2 & G2 & _). pose proof (W_doc _ _ _ _ _ _ _ _ _ _ G2) as EDoc.
        unfold flush in EF. destruct (all_some _ _); [|discriminate]. cbn [obind] in EF. destruct (own_blocks w); [|discriminate]. cbn [obind pstep] in EF. apply some_inj in EF. apply pair_equal_spec in EF. destruct EF as (_ & <-). cbn [w_doc] in EDoc. destruct c2; [|cbn in EDoc; lia]. rewrite app_nil_r in ED2. eauto.
      + apply some_inj in E. subst s'. pose proof (W_doc _ _ _ _ _ _ _ _ _ _ G1) as EDoc. destruct cur; [|cbn [length] in EDoc; lia]. rewrite app_nil_r in ED. eauto.
    - apply some_inj in E. subst s'. subst cur. rewrite app_nil_r in ED. eauto.
  Qed.
  Theorem writer_ok c l : steady ch md mm most false c l -> exists s s' batches, iw_run has_norms mem (mkIw c None []) l = Some s /\ iw_step has_norms mem s WCommit = Some s' /\ docs_of l = concat batches /\ Forall2 (segment_of has_norms) batches (i_out s').
  Proof.
    intros HS. assert (G0 : Good (mkIw c None []) []) by (exists [], []; split; [reflexivity|]; split; [constructor|reflexivity]). destruct (run_good l (mkIw c None []) [] G0 HS) as (s & E & G). cbn [app] in G.
    destruct (step_good s (docs_of l) WCommit [] G ltac:(exact Logic.I)) as (s' & E' & G' & _). cbn [docs_of flat_map] in G'. rewrite app_nil_r in G'. destruct (commit_empty s _ s' G E' G') as (batches & ED & HF). exists s, s', batches. auto.
  Qed.
End IW.
(* ---------- what goes wrong *)
Lemma norms_outside has_norms mem c x d l : 32 <= chunk_size c <= max_buffer_memory c -> chunk_size c < max_buffered_docs c -> has_norms (f_num x) = true -> iw_run has_norms mem (mkIw c None []) (WAdd (x :: d) :: l) = None.
Proof.
  intros [H1 H2] H3 H4. cbn [iw_run iw_step i_conf i_dw]. unfold dw_open. destruct (Z.eqb_spec (chunk_size c) 0); [lia|]. unfold mp_new_capa. rewrite Z.quot_div_nonneg by lia.
  assert (Q1 : 1 <= max_buffer_memory c / chunk_size c) by (apply Z.div_le_lower_bound; lia). destruct (Z.ltb_spec (chunk_size c) 0), (Z.ltb_spec (max_buffer_memory c / chunk_size c) 1); try lia. cbn [orb obind]. unfold dw_add_doc. cbn [add_fields]. unfold add_field, get_inv. cbn [w_flds inverter w_mem w_max].
  assert (E : exists p, pstep (mkPool 1 (max_buffer_memory c / chunk_size c) 0 0 (chunk_size c) mem, []) (Dup (repeat 0 sizeof_inverter)) = Some (p, [((0, 0), 32)]) /\ p_chunk p = chunk_size c /\ p_ptr p = 32 /\ p_bp p = 0 /\ p_alloc p = 1).
  { unfold pstep, take. rewrite repeat_length. change (Z.of_nat sizeof_inverter) with 32. cbn [fst snd]. unfold mp_alloc. cbn [p_ptr p_chunk p_bp p_alloc p_capa p_mem]. change (0 + 32) with 32. change (INT_MAX <? 32) with false. cbn [obind fst snd]. destruct (Z.ltb_spec (chunk_size c) 32); [lia|]. cbn [obind fst snd]. unfold blit, inside. cbn [p_ptr p_chunk p_bp p_alloc p_capa p_mem fst snd]. change (0 + 32) with 32. destruct (Z.leb_spec 32 (chunk_size c)); [|lia]. cbn. eexists. split; [reflexivity|]. cbn. auto. }
  destruct E as (p & -> & E1 & E2 & E3 & E4). cbn [obind]. rewrite H4.
  assert (E : pstep (p, [((0, 0), 32)]) (Zero (max_buffered_docs c)) = None).
  { unfold pstep, take. cbn [fst snd]. unfold mp_alloc. rewrite E1, E2, E3, E4. destruct (Z.ltb_spec INT_MAX (32 + max_buffered_docs c)); [reflexivity|]. destruct (Z.ltb_spec (chunk_size c) (32 + max_buffered_docs c)); [|lia]. change (1 <=? 0 + 1) with true. cbn match.
    set (cp := if p_capa p <=? 1 + 1 then p_capa p * 2 else p_capa p). destruct ((INT_MAX <? cp) || (cp <=? 0 + 1)); [reflexivity|]. cbn [obind fst snd]. unfold blit, inside. cbn [p_chunk fst snd]. destruct (Z.leb_spec (0 + max_buffered_docs c) (chunk_size c)); [lia|]. rewrite andb_false_r. reflexivity. }
  rewrite E. reflexivity.
Qed.
Lemma small_memory has_norms mem c d l : 0 <= max_buffer_memory c < chunk_size c -> iw_run has_norms mem (mkIw c None []) (WAdd d :: l) = None.
Proof. intros H. cbn [iw_run iw_step i_conf i_dw]. unfold dw_open. destruct (Z.eqb_spec (chunk_size c) 0); [reflexivity|]. rewrite Z.quot_small by lia. unfold mp_new_capa. change (0 <? 1) with true. rewrite orb_true_r. reflexivity. Qed.
Lemma zero_chunk has_norms mem c d l : chunk_size c = 0 -> iw_run has_norms mem (mkIw c None []) (WAdd d :: l) = None.
Proof. intros H. cbn [iw_run iw_step i_conf i_dw]. unfold dw_open. rewrite H. reflexivity. Qed.
Lemma raised mem : let one := mkFld 0 (fun _ => [ADup [97]]) 5 in exists s, iw_run (fun _ => true) mem (mkIw (mkConf 1048576 16777216 2) None []) [WAdd [one]; WDocs 10000; WAdd [one]; WAdd [one]; WCommit] = Some s /\
  i_out s = [([(0, [5; 5; 5])], [[5]; [97]; [97]])] /\ ~ exists batches, concat batches = [[one]; [one]; [one]] /\ Forall2 (segment_of (fun _ => true)) batches (i_out s).
Proof.
  intros one. assert (E : (do s <- iw_run (fun _ => true) mem (mkIw (mkConf 1048576 16777216 2) None []) [WAdd [one]; WDocs 10000; WAdd [one]; WAdd [one]; WCommit]; Some (i_out s)) = Some [([(0, [5; 5; 5])], [[5]; [97]; [97]])]) by (vm_compute; reflexivity).
  destruct (iw_run _ mem _ _) as [s|]; [|discriminate]. cbn [obind] in E. apply some_inj in E. exists s. split; [reflexivity|]. split; [exact E|]. rewrite E. intros (bt & HC & HF). inversion HF as [|b o t t' HS HF' E1 E2]; subst. inversion HF'; subst. cbn [concat] in HC. rewrite app_nil_r in HC. subst b. destruct HS as (_ & _ & _ & G). cbn in G. discriminate G.
Qed.
