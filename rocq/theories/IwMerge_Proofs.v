(* Merging and deleting in the index writer. *)
From Verif Require Import Util Codec_Model Strcmp Seg_Model Dict_Model Dict_Spec Token_Model Post_Model Post_Spec PostRun_Proofs Mte_Spec Mte_Proofs MergeTerms_Proofs Merge_Model Merge_Spec Merge_Proofs MergeRun_Proofs MergeDocs_Proofs Fields_Model Fields_Spec Fields_Proofs FieldsRead_Proofs FieldsVec_Proofs FieldsTop_Proofs Invert_Model Invert_Spec Invert_Proofs InvertDoc_Proofs InvertIndex_Proofs InvertTop_Proofs Iw_Model Iw_Spec IwExt_Proofs IwSeg_Proofs.
Open Scope Z_scope.

Lemma existsb_ext_ {A} (f g : A -> bool) l : (forall x, f x = g x) -> existsb f l = existsb g l.
Proof. intros H. induction l as [|x l IH]; [reflexivity|]. cbn [existsb]. rewrite H, IH. reflexivity. Qed.

Section MERGE.
  Variable ana : list Z -> list Z -> list token.
  Variable norm : field_info -> Z -> dfield -> Z -> Z.
  Variable zip : list Z -> list Z.
  Variable cfg : config.
  Variable buf0 : list Z.
  Variable F : field_infos.
  Notation max := (c_field_length cfg).
  Notation I := (c_interval cfg).
  Notation kn := (c_skip cfg).
  Hypothesis HI1 : (1 <= I)%nat. Hypothesis HI2 : Z.of_nat I < 2 ^ 31. Hypothesis Hk1 : (1 <= kn)%nat. Hypothesis Hk2 : Z.of_nat kn < 2 ^ 31.
  Hypothesis Hbuf : length buf0 = buf_alloc I.
  Hypothesis Hfis : Z.of_nat (length (fis_fields F)) < 2 ^ 31.
  Notation good := (good ana zip max I F).
  Notation fit_all := (fit_all ana zip max F).
  Notation rep := (rep ana norm zip max I kn F).
  Notation rept := (rept ana norm zip max I kn F).
  Notation posts := (posts ana max F).

  Definition docs_ok (G : field_infos) (ds : list document) : Prop := Forall good ds /\ Forall (known_doc G) ds /\ fit_all ds.
  Lemma docs_ok_less G a b : (forall d, In d a -> In d b) -> lesser a b -> docs_ok G b -> docs_ok G a.
  Proof.
    intros HS HL (H1 & H2 & H3). rewrite Forall_forall in *. unfold docs_ok. rewrite !Forall_forall. splits; auto. eapply fit_less; eauto.
  Qed.
  Lemma live_docs_ok G p : docs_ok G (snd p) -> docs_ok G (live_in_seg p).
  Proof. apply docs_ok_less; [intros d; apply live_in|apply lesser_live]. Qed.

  Lemma merge_from_ok G s a ps : ext G F -> y_fis s = G -> y_segs s = a ++ map fst ps -> Forall rep ps -> docs_ok G (flat_map snd ps) ->
    exists x, iw_merge_from cfg buf0 (length a) s = Some (mkIw G (a ++ [x]) (y_mbd s) (y_dw s)) /\ rep (x, flat_map live_in_seg ps) /\ i_del (w_in x) = None /\ w_cfs x = c_compound cfg /\ w_sep x = false.
  Proof.
    intros HE EG ES HR HD. destruct (rep_all ana norm zip max I kn F ps HR) as (ts & Ets & HRT). assert (EL : flat_map live_in_seg ps = lives ts). { unfold lives. rewrite <- Ets. apply flat_map_map. }
    assert (HDL : docs_ok G (lives ts)). { rewrite <- EL. eapply docs_ok_less; [| |exact HD]. - intros d Hd. apply in_flat_map in Hd. destruct Hd as (p & Hp & Hd). apply in_flat_map. exists p. split; auto. eapply live_in; eauto. - apply lesser_flat. intros p _. apply lesser_live. }
    assert (HDT : Forall (fun t => docs_ok G (snd (snd t))) ts).
    { apply Forall_forall. intros t Ht. eapply docs_ok_less; [| |exact HD]. - intros d Hd. apply in_flat_map. exists (snd t). split; auto. rewrite <- Ets. apply in_map. auto. - apply (lesser_part snd). rewrite <- Ets. apply in_map. auto. }
    rewrite EL. unfold iw_merge_from. rewrite ES, EG. rewrite firstn_app, firstn_all, Nat.sub_diag, firstn_O, app_nil_r. rewrite skipn_app, skipn_all, Nat.sub_diag, skipn_O. cbn [app]. rewrite <- Ets.
    rewrite (merge_fields_ok ana norm zip max I kn F ts HRT). 2:{ eapply Forall_impl; [|exact HDT]. cbv beta. intros t (H1 & H2 & H3). splits; auto. eapply Forall_impl; [|exact H2]. intros d. apply known_ext. auto. }
    cbn [obind fst snd].
    assert (Hm : Forall mseg_ok (map seg_of ts)). { apply Forall_map. eapply Forall_impl; [|exact HRT]. intros t (_ & H & _). exact H. }
    assert (Hl : Forall2 lays (map seg_of ts) (map w_in (map fst (map snd ts)))).
    { clear -HRT. induction HRT as [|t ts (H & _) H2 IH]; cbn [map]; constructor; auto. }
    assert (Hs : Forall (short I) (map seg_of ts)). { apply Forall_map. eapply Forall_impl; [|exact HRT]. intros t (_ & _ & H & _). exact H. }
    destruct HDL as (HD1 & HD2 & HD3).
    assert (Hf : fits (length (fis_fields G)) (map seg_of ts)) by (eapply merged_fits with (I := I) (kn := kn); eauto).
    destruct (merge_flush I kn buf0 (length (fis_fields G)) (map seg_of ts) _ HI1 HI2 Hk1 Hk2 Hm Hl Hs Hf Hbuf) as (x & X1 & X2 & X3 & X4 & X5 & _). rewrite X1. cbn [obind].
    destruct (norm_files_merge ana norm zip max I kn F HI1 Hk1 ts HRT (fis_fields G) O) as (ns & N1 & N2). { intros i f Ef. cbn [Nat.add]. eapply ext_nth; eauto. }
    rewrite N1. cbn [obind]. pose proof X3 as (Y1 & Y2 & Y3 & Y4). rewrite Y2. cbn [obind]. rewrite (cnt_lives ana norm zip max I kn F HI1 Hk1 ts HRT 0). eexists. split; [reflexivity|].
    splits; auto. exists (merged (length (fis_fields G)) (map seg_of ts)). rewrite total_len in *. unfold repf. cbn [fst snd w_in i_seg i_sfi i_max i_del w_fdt w_fdx]. splits; auto.
    - unfold lays in *. cbn [s_fs s_max s_del i_seg i_sfi i_max i_del] in *. splits; auto.
    - unfold short. cbn [s_fs]. unfold merged. apply Forall_map. apply Forall_forall. intros n _. cbn [snd]. rewrite (merged_field_posts ana norm zip max I kn F n ts HRT). apply Forall_map. apply Forall_forall. intros t Ht. cbn [fst]. eapply occ_short; eauto.
    - intros n t. destruct (Nat.ltb_spec n (length (fis_fields G))) as [Hn|Hn].
      + rewrite merged_postings by (auto; lia). apply (gather_posts ana norm zip max I kn F n t ts HRT O).
      + unfold postings, merged. rewrite find_filter_none. 2:{ intros y Hy. apply in_map_iff in Hy. destruct Hy as (m & <- & Hm'). apply in_seq in Hm'. cbn [fst]. apply Z.eqb_neq. lia. }
        symmetry. apply (posts_none ana max F). destruct (existsb (has_field F n) (lives ts)) eqn:E; auto. apply existsb_exists in E. destruct E as (d & Hd & E). rewrite Forall_forall in HD2. rewrite (has_field_out norm max I kn F HI1 Hk1 G n d HE (HD2 d Hd) Hn) in E. discriminate.
    - intros n f Ef Hf'. unfold norm_file. cbn [w_norms]. rewrite N2. cbn [Nat.leb]. rewrite Nat.sub_0_r. destruct (nth_error (fis_fields G) n) as [f'|] eqn:E.
      + pose proof (ext_nth _ _ _ _ HE E) as E'. rewrite Ef in E'. apply some_inj in E'. subst f'. rewrite Hf'. cbn [snd]. reflexivity.
      + apply nth_error_None in E. rewrite Forall_forall in *. intros d Hd. exact (has_field_out norm max I kn F HI1 Hk1 G n d HE (HD2 d Hd) E).
    - pose proof (ext_le _ _ HE). unfold merged. apply Forall_map. apply Forall_forall. intros n Hn. apply in_seq in Hn. cbn [fst]. lia.
    - intros n Hn. pose proof (ext_le _ _ HE). unfold norm_file. cbn [w_norms]. rewrite N2. cbn [Nat.leb]. rewrite Nat.sub_0_r, (proj2 (nth_error_None _ _)) by lia. reflexivity.
    - unfold merged. apply Forall_map. apply Forall_forall. intros n _. cbn [snd]. unfold merged_field. apply Forall_forall. intros y Hy. apply filter_In in Hy. destruct Hy as [_ Hy]. unfold keep in Hy. intros E. rewrite E in Hy. discriminate.
  Qed.

  (* ---------- the segments of a writer *)
  Notation pseg := (wseg * list document)%type.
  Definition holds (G : field_infos) (ps : list pseg) (s : iw) : Prop := y_fis s = G /\ y_segs s = map fst ps /\ Forall rep ps /\ docs_ok G (flat_map snd ps).
  Definition same (s s' : iw) : Prop := y_fis s' = y_fis s /\ y_mbd s' = y_mbd s /\ y_dw s' = y_dw s.
  (* ps' has the documents of ps that were not deleted *)
  Definition keeps (ps ps' : list pseg) : Prop := flat_map live_in_seg ps' = flat_map live_in_seg ps /\ lesser (flat_map snd ps') (flat_map snd ps).
  Lemma keeps_refl ps : keeps ps ps. Proof. split; [reflexivity|apply lesser_refl]. Qed.
  Lemma keeps_trans a b c : keeps a b -> keeps b c -> keeps a c.
  Proof. intros (E1 & L1) (E2 & L2). split; [congruence|eapply lesser_trans; eauto]. Qed.
  Lemma same_refl s : same s s. Proof. unfold same. auto. Qed.
  Lemma same_trans a b c : same a b -> same b c -> same a c. Proof. intros (A1 & A2 & A3) (B1 & B2 & B3). unfold same. splits; congruence. Qed.
  Lemma live_clean x ds : i_del (w_in x) = None -> live_in_seg (x, ds) = ds.
  Proof. intros E. unfold live_in_seg. cbn [fst snd]. rewrite live_whole. rewrite (live_ext_ _ (fun _ => false)); [apply live_none|]. intros i _. unfold dels. rewrite E. reflexivity. Qed.

  Lemma merge_step G s pa pb : ext G F -> holds G (pa ++ pb) s ->
    exists s' x, iw_merge_from cfg buf0 (length pa) s = Some s' /\ holds G (pa ++ [(x, flat_map live_in_seg pb)]) s' /\ same s s' /\ keeps (pa ++ pb) (pa ++ [(x, flat_map live_in_seg pb)]) /\ unclean cfg x = false.
  Proof.
    intros HE (E1 & E2 & HR & HD). apply Forall_app in HR. destruct HR as [HR1 HR2]. rewrite map_app in E2. rewrite flat_map_app in HD.
    destruct (merge_from_ok G s (map fst pa) pb HE E1 E2 HR2) as (x & X1 & X2 & X3 & X4 & X5). { eapply docs_ok_less; [| |exact HD]. - intros d Hd. apply in_or_app. auto. - intros w. rewrite sum_app. lia. }
    rewrite map_length in X1. assert (HK : keeps (pa ++ pb) (pa ++ [(x, flat_map live_in_seg pb)])).
    { split; rewrite !flat_map_app; cbn [flat_map]; rewrite app_nil_r; [rewrite live_clean by auto; reflexivity|]. cbn [snd]. apply lesser_app; [apply lesser_refl|]. apply lesser_flat. intros p _. apply lesser_live. }
    eexists. exists x. split; [exact X1|]. splits; auto.
    - unfold holds. cbn [y_fis y_segs]. rewrite map_app. cbn [map fst]. splits; auto; [apply Forall_app; split; auto|]. eapply docs_ok_less; [|apply HK|rewrite flat_map_app; exact HD].
      intros d. rewrite !flat_map_app. cbn [flat_map snd]. rewrite app_nil_r. intros Hd. apply in_app_or in Hd. apply in_or_app. destruct Hd as [Hd|Hd]; auto. right. apply in_flat_map in Hd. destruct Hd as (p & Hp & Hd). apply in_flat_map. exists p. split; auto. eapply live_in; eauto.
    - unfold same. cbn [y_fis y_mbd y_dw]. auto.
    - unfold unclean. rewrite X3, X4, X5. destruct (c_compound cfg); reflexivity.
  Qed.

  (* ---------- iw_maybe_merge_segments *)
  Definition docs_in (l : list wseg) : Z := fold_right (fun x z => doc_cnt x + z) 0 l.
  Lemma docs_in_app a b : docs_in (a ++ b) = docs_in a + docs_in b.
  Proof. induction a as [|x a IH]; cbn [app docs_in fold_right]; [reflexivity|]. fold (docs_in (a ++ b)). fold (docs_in a). lia. Qed.
  Lemma docs_in_rev l : docs_in (rev l) = docs_in l.
  Proof. induction l as [|x l IH]; [reflexivity|]. cbn [rev]. rewrite docs_in_app, IH. cbn [docs_in fold_right]. fold (docs_in l). lia. Qed.
  Lemma docs_in_ge l : 0 <= docs_in l. Proof. induction l as [|x l IH]; [cbn; lia|]. cbn [docs_in fold_right]. fold (docs_in l). unfold doc_cnt. lia. Qed.
  Lemma docs_in_len G ps s : holds G ps s -> docs_in (y_segs s) = Z.of_nat (length (flat_map snd ps)).
  Proof.
    intros (_ & -> & HR & _). induction HR as [|p ps (fs & H1) H2 IH]; [reflexivity|]. cbn [map docs_in fold_right flat_map]. fold (docs_in (map fst ps)). rewrite IH, app_length. unfold doc_cnt. rewrite (rep_max _ _ _ _ _ _ _ _ _ _ H1). lia.
  Qed.
  Lemma small_segs_ok target l : (fst (small_segs target l) <= length l)%nat /\ snd (small_segs target l) <= docs_in l /\ ((fst (small_segs target l) < length l)%nat -> target <= docs_in l).
  Proof.
    induction l as [|x l (H1 & H2 & H3)]; [cbn; splits; lia|]. cbn [small_segs]. cbn [docs_in fold_right]. fold (docs_in l). pose proof (docs_in_ge l) as HG. assert (0 <= doc_cnt x) by (unfold doc_cnt; lia). destruct (Z.leb_spec target (doc_cnt x)).
    - cbn [fst snd length]. splits; lia.
    - cbv zeta. cbn [fst snd length]. splits; lia.
  Qed.
  Hypothesis Hfac : 2 <= c_factor cfg.
  Lemma maybe_merge_ok G N : ext G F -> N * c_factor cfg < 2 ^ 31 -> forall n target s ps, (1 <= n)%nat -> (n <= 33)%nat -> 2 ^ (34 - Z.of_nat n) <= target -> holds G ps s -> docs_in (y_segs s) <= N ->
    exists s' ps', maybe_merge cfg buf0 n target s = Some s' /\ holds G ps' s' /\ same s s' /\ keeps ps ps'.
  Proof.
    intros HE HN. induction n as [|n IH]; intros target s ps Hn1 Hn2 Ht Hh Hd; [lia|]. cbn [maybe_merge]. destruct ((0 <? target) && (target <=? c_merge_docs cfg)); [|exists s, ps; splits; auto using same_refl, keeps_refl]. cbv zeta.
    pose proof (small_segs_ok target (rev (y_segs s))) as (S1 & S2 & S3). rewrite docs_in_rev in *. rewrite rev_length in *. set (r := small_segs target (rev (y_segs s))) in *.
    assert (HP : 0 < 2 ^ (34 - Z.of_nat (S n))) by (apply Z.pow_pos_nonneg; lia).
    assert (GO : target <= N -> forall s1 ps1, holds G ps1 s1 -> docs_in (y_segs s1) <= N ->
      exists s' ps', (if 2 ^ 31 <=? target * c_factor cfg then None else maybe_merge cfg buf0 n (target * c_factor cfg) s1) = Some s' /\ holds G ps' s' /\ same s1 s' /\ keeps ps1 ps').
    { intros HT s1 ps1 H1 H2. destruct (Z.leb_spec (2 ^ 31) (target * c_factor cfg)); [nia|].
      assert (Hn : (5 <= S n)%nat). { destruct (Nat.leb_spec 5 (S n)); auto. exfalso. assert (2 ^ 30 <= 2 ^ (34 - Z.of_nat (S n))) by (apply Z.pow_le_mono_r; lia). nia. }
      apply IH; auto; try lia. replace (34 - Z.of_nat n) with (Z.succ (34 - Z.of_nat (S n))) by lia. rewrite Z.pow_succ_r by lia. nia. }
    destruct (Z.leb_spec target (snd r)) as [HT|HT].
    - pose proof Hh as (E1 & E2 & HR & HD). assert (EL : length (y_segs s) = length ps) by (rewrite E2; apply map_length). set (m := (length (y_segs s) - fst r)%nat). rewrite <- (firstn_skipn m ps) in Hh.
      destruct (merge_step G s (firstn m ps) (skipn m ps) HE Hh) as (s1 & x & M1 & M2 & M3 & M4 & _). rewrite firstn_length_le in M1 by lia. rewrite M1. cbn [obind]. rewrite firstn_skipn in M4.
      destruct (GO ltac:(lia) s1 _ M2) as (s' & ps' & R1 & R2 & R3 & R4).
      { rewrite (docs_in_len _ _ _ M2). rewrite firstn_skipn in Hh. rewrite (docs_in_len _ _ _ Hh) in Hd. destruct M4 as (_ & L). specialize (L (fun _ => 1%nat)). rewrite !sum_one in L. lia. }
      exists s', ps'. splits; auto; [eapply same_trans; eauto|eapply keeps_trans; eauto].
    - destruct (Nat.leb_spec (length (y_segs s)) (S (fst r))) as [HS|HS]; [exists s, ps; splits; auto using same_refl, keeps_refl|]. apply GO; auto. specialize (S3 ltac:(lia)). lia.
  Qed.
  Lemma iw_maybe_merge_ok G N s ps : ext G F -> N * c_factor cfg < 2 ^ 31 -> holds G ps s -> docs_in (y_segs s) <= N ->
    exists s' ps', iw_maybe_merge cfg buf0 s = Some s' /\ holds G ps' s' /\ same s s' /\ keeps ps ps'.
  Proof. intros HE HN Hh Hd. unfold iw_maybe_merge. apply (maybe_merge_ok G N); auto; lia. Qed.

  (* ---------- iw_optimize *)
  Definition clean (l : list wseg) : Prop := (length l <= 1)%nat /\ Forall (fun x => unclean cfg x = false) l.
  Lemma optimize_clean n s : clean (y_segs s) -> optimize_loop cfg buf0 (S n) s = Some s.
  Proof.
    intros (H1 & H2). cbn [optimize_loop]. destruct (y_segs s) as [|x [|y l]]; cbn [length] in *; [reflexivity| |lia]. inversion H2 as [|? ? H3 _]; subst. rewrite H3. reflexivity.
  Qed.
  Lemma optimize_ok G : ext G F -> forall n s ps, (length (y_segs s) < n)%nat -> holds G ps s ->
    exists s' ps', optimize_loop cfg buf0 n s = Some s' /\ holds G ps' s' /\ same s s' /\ keeps ps ps' /\ clean (y_segs s').
  Proof.
    intros HE. induction n as [|n IH]; intros s ps Hn Hh; [lia|].
    destruct ((1 <? length (y_segs s))%nat || match y_segs s with [x] => unclean cfg x | _ => false end) eqn:EC.
    - cbn [optimize_loop]. cbv zeta. rewrite EC. pose proof Hh as (E1 & E2 & HR & HD). assert (EL : length (y_segs s) = length ps) by (rewrite E2; apply map_length).
      assert (H1 : (1 <= length (y_segs s))%nat) by (destruct (y_segs s); cbn in *; [discriminate|lia]).
      destruct (Z.ltb_spec (Z.of_nat (length (y_segs s))) (Z.of_nat (length (y_segs s)) - c_factor cfg)); [lia|]. set (m := Z.to_nat (Z.of_nat (length (y_segs s)) - c_factor cfg)).
      assert (Hm : (m <= length (y_segs s) - 2)%nat) by lia. rewrite <- (firstn_skipn m ps) in Hh. destruct (merge_step G s (firstn m ps) (skipn m ps) HE Hh) as (s1 & x & M1 & M2 & M3 & M4 & M5). rewrite firstn_length_le in M1 by lia. rewrite M1. cbn [obind]. rewrite firstn_skipn in M4.
      assert (EL1 : length (y_segs s1) = S m). { destruct M2 as (_ & -> & _). rewrite map_length, app_length, firstn_length_le by lia. cbn [length]. lia. }
      destruct (Nat.eq_dec m 0) as [Em|Em].
      + assert (CL : clean (y_segs s1)). { split; [lia|]. destruct M2 as (_ & -> & _). rewrite Em. cbn [firstn app map fst]. constructor; auto. }
        destruct n as [|n]; [lia|]. rewrite optimize_clean by auto. exists s1, (firstn m ps ++ [(x, flat_map live_in_seg (skipn m ps))]). splits; auto.
      + destruct (IH s1 _ ltac:(lia) M2) as (s' & ps' & R1 & R2 & R3 & R4 & R5). exists s', ps'. splits; auto; [eapply same_trans; eauto|eapply keeps_trans; eauto].
    - assert (CL : clean (y_segs s)). { apply Bool.orb_false_iff in EC. destruct EC as [EC1 EC2]. apply Nat.ltb_ge in EC1. split; auto. destruct (y_segs s) as [|x [|y l]]; cbn [length] in *; [constructor|constructor; auto|lia]. }
      rewrite optimize_clean by auto. exists s, ps. splits; auto using same_refl, keeps_refl.
  Qed.

  (* ---------- deleting *)
  Definition tracks (fs : list (Z * list (list Z * list post))) (x : min_) (st : tir * tde) (c : pcur) : Prop :=
    forall os, Forall (okop kn false) os -> tde_run false (i_seg x) (i_sfi x) st os = Some (pspec_run fs c os).
  Lemma tracks_step fs x st c o : tracks fs x st c -> okop kn false o -> exists st', tde_step false (i_seg x) (i_sfi x) st o = Some (fst (pspec_step fs c o), st') /\ tracks fs x st' (snd (pspec_step fs c o)).
  Proof.
    intros H Ho. pose proof (H [o] ltac:(constructor; auto)) as H1. cbn [tde_run pspec_run] in H1. destruct (pspec_step fs c o) as (r & c') eqn:EP. destruct (tde_step false (i_seg x) (i_sfi x) st o) as [(r1 & st')|] eqn:E; [|discriminate]. cbn [obind fst snd] in H1. apply some_inj in H1. injection H1 as H1. subst r1.
    exists st'. split; auto. cbn [snd]. intros os Hos. specialize (H (o :: os) ltac:(constructor; auto)). cbn [tde_run pspec_run] in H. rewrite E, EP in H. cbn [obind fst snd] in H. destruct (tde_run false (i_seg x) (i_sfi x) st' os) as [q|]; [|discriminate]. cbn [obind] in H. apply some_inj in H. injection H as H. congruence.
  Qed.
  Lemma first_ok_some ok l p t : first_ok ok l = Some (p, t) -> exists pre, l = pre ++ p :: t /\ Forall (fun x => ok (fst x) = false) pre /\ ok (fst p) = true.
  Proof.
    induction l as [|y l IH]; cbn [first_ok]; [discriminate|]. destruct (ok (fst y)) eqn:E; intros H.
    - apply some_inj in H. injection H as <- <-. exists []. splits; auto.
    - destruct (IH H) as (pre & -> & H1 & H2). exists (y :: pre). splits; auto.
  Qed.
  Lemma first_ok_none ok l : first_ok ok l = None -> Forall (fun x : post => ok (fst x) = false) l.
  Proof. induction l as [|y l IH]; cbn [first_ok]; [constructor|]. destruct (ok (fst y)) eqn:E; [discriminate|]. auto. Qed.
  Definition oldf (old : option (Z -> bool)) (d : Z) : bool := match old with Some f => f d | None => false end.
  Definition has_doc (d : Z) (l : list post) : bool := existsb (fun p : post => fst p =? d) l.
  Lemma has_doc_app d a b : has_doc d (a ++ b) = has_doc d a || has_doc d b. Proof. apply existsb_app. Qed.
  Lemma mem_app a b d : mem (a ++ b) d = mem a d || mem b d. Proof. apply existsb_app. Qed.
  Lemma skipped old new pre d : Forall (fun x : post => negb (seen old new (fst x)) = false) pre -> (mem new d || (has_doc d pre && negb (oldf old d))) = mem new d.
  Proof.
    induction 1 as [|p pre H1 H2 IH]; [cbn; apply Bool.orb_false_r|]. cbn [has_doc existsb]. fold (has_doc d pre). destruct (Z.eqb_spec (fst p) d) as [E|E]; [|exact IH]. subst d. cbn [orb]. apply negb_false_iff in H1. unfold seen in H1. destruct old as [f|]; [|discriminate]. cbn [oldf].
    destruct (f (fst p)); cbn [orb negb andb] in *; [apply Bool.orb_false_r|]. rewrite H1. reflexivity.
  Qed.
  Lemma delete_loop_ok fs x old t : forall n l q e new, (length l < n)%nat -> tracks fs x (t, e) (l, q) ->
    exists new' e' c', delete_loop n old new e = Some (new', e') /\ tracks fs x (t, e') c' /\ forall d, mem new' d = mem new d || (has_doc d l && negb (oldf old d)).
  Proof.
    induction n as [|n IH]; intros l q e new Hl HT; [lia|]. cbn [delete_loop]. destruct (tracks_step fs x (t, e) (l, q) (PNext (seen old new)) HT ltac:(split; exact Logic.I)) as (st' & E & HT'). cbn [tde_step pspec_step] in E, HT'. unfold spec_move in E, HT'. cbn [fst] in E, HT'.
    destruct (tde_next false (seen old new) e) as [(b & e1)|]; [|discriminate]. cbn [obind fst snd] in E |- *. apply some_inj in E. destruct (first_ok (fun d => negb (seen old new d)) l) as [(p & tl)|] eqn:EF; cbn [fst snd] in *; injection E as E E'; subst st'; unfold doc_of in E; cbn [fst snd] in E; destruct b; try discriminate.
    - injection E as E _. destruct (first_ok_some _ _ _ _ EF) as (pre & -> & P1 & P2). rewrite app_length in Hl. cbn [length] in Hl.
      destruct (IH tl (snd p) e1 (new ++ [p_doc e1]) ltac:(lia) HT') as (new' & e' & c' & R1 & R2 & R3). exists new', e', c'. splits; auto. intros d. rewrite R3, mem_app, has_doc_app. cbn [has_doc existsb mem]. fold (has_doc d tl). rewrite E, Bool.orb_false_r.
      pose proof (skipped old new pre d P1) as SK. rewrite (Z.eqb_sym d (fst p)). destruct (Z.eqb_spec (fst p) d) as [Ed|Ed].
      + subst d. apply negb_true_iff in P2. unfold seen, oldf in *. destruct old as [f|]; [apply Bool.orb_false_iff in P2; destruct P2 as [P2 P3]; rewrite P2|]; cbn [negb andb orb]; rewrite ?Bool.orb_true_r, ?Bool.andb_true_r, ?Bool.orb_true_r; reflexivity.
      + cbn [orb]. rewrite Bool.orb_false_r. destruct (mem new d); [reflexivity|]. cbn [orb] in *. destruct (negb (oldf old d)); [|rewrite !Bool.andb_false_r; reflexivity]. rewrite !Bool.andb_true_r in *. rewrite SK. reflexivity.
    - exists new, e1, ([], []). splits; auto. intros d. symmetry. apply skipped. exact (first_ok_none (fun d => negb (seen old new d)) l EF).
  Qed.
  Lemma posts_len n t ds : forall i, (length (posts n t i ds) <= length ds)%nat.
  Proof. induction ds as [|d ds IH]; intros i; [cbn; lia|]. cbn [Invert_Spec.posts length]. rewrite app_length. specialize (IH (S i)). destruct (at_ t (occs_in ana max F n d)); cbn [post_at length]; lia. Qed.
  Lemma delete_terms_ok fs x ds n : i_max x = length ds -> (forall t, postings fs (Z.of_nat n) t = posts n t O ds) -> forall ts new t e c, tracks fs x (t, e) c ->
    exists new', delete_terms x (Z.of_nat n) ts new t e = Some new' /\ forall d, mem new' d = mem new d || (existsb (fun u => has_doc d (posts n u O ds)) ts && negb (oldf (i_del x) d)).
  Proof.
    intros Em HP. induction ts as [|u ts IH]; intros new t e c HT.
    - exists new. split; [reflexivity|]. intros d. cbn [existsb andb]. symmetry. apply Bool.orb_false_r.
    - cbn [delete_terms]. destruct (tracks_step fs x (t, e) c (PSeek (Z.of_nat n) u) HT ltac:(split; exact Logic.I)) as (st' & E & HT'). cbn [tde_step pspec_step fst snd] in E, HT'. destruct (tir_get_ti_field (g_dict (i_seg x)) (i_sfi x) t 0 (Z.of_nat n) u) as [r|]; [|discriminate]. cbn [obind] in E |- *. apply some_inj in E. injection E as E. subst st'. rewrite HP in HT'.
      destruct (delete_loop_ok fs x (i_del x) (snd r) (S (i_max x)) (posts n u O ds) [] _ new ltac:(pose proof (posts_len n u ds O); lia) HT') as (new' & e' & c' & R1 & R2 & R3). cbv zeta. unfold tde_seek. rewrite R1. cbn [obind fst snd].
      destruct (IH new' (snd r) e' c' R2) as (new'' & Q1 & Q2). exists new''. split; auto. intros d. rewrite Q2, R3. cbn [existsb]. destruct (mem new d), (has_doc d (posts n u 0 ds)), (negb (oldf (i_del x) d)), (existsb (fun u0 => has_doc d (posts n u0 0 ds)) ts); reflexivity.
  Qed.
  Lemma has_doc_posts n t ds j d : nth_error ds j = Some d -> has_doc (Z.of_nat j) (posts n t O ds) = match at_ t (occs_in ana max F n d) with [] => false | _ => true end.
  Proof.
    intros E. destruct (at_ t (occs_in ana max F n d)) as [|a q] eqn:EA.
    - destruct (has_doc (Z.of_nat j) (posts n t 0 ds)) eqn:EH; auto. apply existsb_exists in EH. destruct EH as ((y & ps) & Hi & Ey). cbn [fst] in Ey. apply Z.eqb_eq in Ey. subst y. destruct (posts_nth_inv ana norm zip max F n t ds O _ _ Hi) as (k & d' & K1 & K2 & K3 & K4). assert (k = j) by lia. subst k. congruence.
    - apply existsb_exists. exists (Z.of_nat j, at_ t (occs_in ana max F n d)). cbn [fst]. split; [|apply Z.eqb_refl]. apply (posts_nth ana norm zip max F n t ds O j d E). congruence.
  Qed.
  Lemma delete_seg_ok field n f ts p : fis_get F field = Some (n, f) -> rep p -> exists x', delete_seg (Z.of_nat n) ts (fst p) = Some x' /\ rep (x', snd p) /\
    live_in_seg (x', snd p) = filter (fun d => negb (has_term ana max F field ts d)) (live_in_seg p).
  Proof.
    destruct p as (x & ds). cbn [fst snd]. intros Ef (fs & H). cbn [fst snd] in H. pose proof (rep_max _ _ _ _ _ _ _ _ _ _ H) as EM. destruct H as (H1 & H2 & H3 & H4 & H5 & H6 & H7 & H8 & H9 & H10 & H11 & H12).
    destruct (delete_terms_ok fs (w_in x) ds n EM (H4 n) ts [] tir_open (tde_new (g_frq (i_seg (w_in x))) (g_prx (i_seg (w_in x)))) ([], [])) as (new & D1 & D2). { intros os Hos. apply H5. auto. }
    unfold delete_seg. rewrite D1. cbn [obind]. eexists. split; [reflexivity|]. split.
    - exists fs. unfold repf. cbn [fst snd w_in i_seg i_sfi i_max i_del w_fdt w_fdx]. splits; auto.
      destruct H1 as (L1 & L2 & L3 & L4). unfold lays. cbn [s_fs s_max s_del i_seg i_sfi i_max i_del] in *. splits; auto.
    - unfold live_in_seg. cbn [fst snd w_in]. rewrite !live_whole. apply live_more. intros i d Ed. cbn [Nat.add].
      assert (EN : dels (mkMin (i_seg (w_in x)) (i_sfi (w_in x)) (i_max (w_in x)) (match new with [] => i_del (w_in x) | _ => Some (fun d => dels (w_in x) d || mem new d) end)) (Z.of_nat i) = dels (w_in x) (Z.of_nat i) || mem new (Z.of_nat i)).
      { unfold dels at 1. cbn [i_del]. destruct new as [|a new]; [|reflexivity]. cbn [mem existsb]. rewrite Bool.orb_false_r. reflexivity. }
      rewrite EN, D2. cbn [mem existsb orb]. unfold has_term. rewrite Ef. rewrite (existsb_ext_ _ (fun t => match at_ t (occs_in ana max F n d) with [] => false | _ => true end)) by (intros t; apply has_doc_posts; auto).
      change (oldf (i_del (w_in x)) (Z.of_nat i)) with (dels (w_in x) (Z.of_nat i)). destruct (dels (w_in x) (Z.of_nat i)); cbn [orb negb]; [reflexivity|]. rewrite Bool.andb_true_r. reflexivity.
  Qed.
  Lemma delete_segs_ok field n f ts ps : fis_get F field = Some (n, f) -> Forall rep ps -> exists ps', delete_segs (Z.of_nat n) ts (map fst ps) = Some (map fst ps') /\ Forall rep ps' /\ map snd ps' = map snd ps /\
    flat_map live_in_seg ps' = filter (fun d => negb (has_term ana max F field ts d)) (flat_map live_in_seg ps).
  Proof.
    intros Ef. induction 1 as [|p ps H1 H2 (ps' & I1 & I2 & I3 & I4)]; [exists []; splits; auto|]. destruct (delete_seg_ok field n f ts p Ef H1) as (x' & X1 & X2 & X3). exists ((x', snd p) :: ps'). cbn [map delete_segs fst snd flat_map]. rewrite X1. cbn [obind]. rewrite I1. cbn [obind]. splits; auto; [congruence|].
    rewrite X3, I4, filter_app. reflexivity.
  Qed.
End MERGE.
