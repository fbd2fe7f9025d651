(* Every history of an index writer. *)
From Verif Require Import Util Codec_Model Strcmp Seg_Model Dict_Model Dict_Spec Token_Model Post_Model Post_Spec PostRun_Proofs Merge_Model Merge_Spec MergeDocs_Proofs Fields_Model Fields_Spec Fields_Proofs FieldsRead_Proofs FieldsVec_Proofs FieldsTop_Proofs Invert_Model Invert_Spec Invert_Proofs InvertDoc_Proofs InvertIndex_Proofs InvertTop_Proofs Iw_Model Iw_Spec IwExt_Proofs IwSeg_Proofs IwMerge_Proofs.
Open Scope Z_scope.

Lemma fis_ext ds : forall G, ext G (fis_of G ds).
Proof. unfold fis_of. induction ds as [|d ds IH]; intros G; cbn [fold_left]; [apply ext_refl|]. eapply ext_trans; [apply add_fields_ext|apply IH]. Qed.
Lemma known_all G d ds : ext G (add_fields G d) /\ (Forall (known_doc G) ds -> Forall (known_doc (add_fields G d)) (ds ++ [d])).
Proof.
  split; [apply add_fields_ext|]. intros H. apply Forall_app. split; [|constructor; [apply known_add|constructor]]. eapply Forall_impl; [|exact H]. intros e. apply known_ext. apply add_fields_ext.
Qed.

(* ---------- the two views of the log *)
Section VIEW.
  Variable ana : list Z -> list Z -> list token.
  Variable max : Z.
  Lemma new_field_none G F field ts d : ext G F -> known_doc G d -> fis_get G field = None -> has_term ana max F field ts d = false.
  Proof.
    intros HE HK HN. unfold has_term. destruct (fis_get F field) as [(n & f)|] eqn:E; [|reflexivity].
    assert (Ho : occs_in ana max F n d = []).
    { rewrite (occs_same ana max G F HE d n HK). unfold occs_in. destruct (field_of G n d) as [df|] eqn:Ef; [|reflexivity]. exfalso. destruct (field_nth G F HE d n df Ef) as (g & E1 & E2). pose proof (fis_get_nth _ _ _ _ E) as [E3 E4]. rewrite E2 in E3. apply some_inj in E3. subst g.
      unfold fis_get in HN. apply field_at_none in HN. apply HN. rewrite <- E4. apply in_map. eapply nth_error_In; eauto. }
    rewrite Ho. induction ts as [|t ts IH]; [reflexivity|]. exact IH.
  Qed.
  Lemma filter_none {A} (p : A -> bool) l : (forall x, In x l -> p x = true) -> filter p l = l.
  Proof. induction l as [|x l IH]; intros H; [reflexivity|]. cbn [filter]. rewrite H by (left; auto). rewrite IH; auto. intros y Hy. apply H. right. auto. Qed.
  Lemma view_log os : forall F v l, F = fis_of (v_fis v) (added os) -> Forall (known_doc (v_fis v)) l -> v_docs v ++ v_wait v = l ->
    let v' := v_run ana max F v os in v_docs v' ++ v_wait v' = fold_left (log_step ana max F) os l.
  Proof.
    induction os as [|o os IH]; intros F v l HF HK HL; [exact HL|]. cbv zeta. unfold v_run in *. cbn [fold_left]. destruct o as [d full|f ts| | |m|m]; cbn [v_step log_step] in *; try (apply IH; auto; cbn [v_fis v_docs v_wait v_commit]; rewrite ?app_nil_r; auto; fail).
    - change (added (WAdd d full :: os)) with (d :: added os) in HF. assert (HK' := proj2 (known_all (v_fis v) d l) HK). cbv zeta. cbn [v_wait v_fis v_max]. destruct (full || (v_max v <=? length (v_wait v ++ [d]))%nat).
      + apply IH; [exact HF|exact HK'|]. cbn [v_docs v_wait v_commit]. rewrite app_nil_r, <- HL, <- app_assoc. reflexivity.
      + apply IH; [exact HF|exact HK'|]. cbn [v_docs v_wait]. rewrite <- HL, <- app_assoc. reflexivity.
    - change (added (WDelete f ts :: os)) with (added os) in HF. destruct (fis_get (v_fis v) f) as [p|] eqn:E.
      + apply IH; auto; cbn [v_fis v_docs v_wait v_commit].
        * rewrite Forall_forall in *. intros d Hd. apply filter_In in Hd. apply HK. tauto.
        * rewrite app_nil_r, HL. reflexivity.
      + rewrite filter_none. { apply IH; auto. } intros d Hd. rewrite Forall_forall in HK. rewrite (new_field_none (v_fis v) F f ts d); auto. rewrite HF. apply fis_ext.
  Qed.
End VIEW.

Section RUN.
  Variable ana : list Z -> list Z -> list token.
  Variable norm : field_info -> Z -> dfield -> Z -> Z.
  Variable zip : list Z -> list Z.
  Variable unzip : list Z -> option (list Z).
  Variable fuel : nat.
  Variable cfg : config.
  Variable buf0 : list Z.
  Variable F : field_infos.
  Variable All : list document.
  Notation max := (c_field_length cfg).
  Notation I := (c_interval cfg).
  Notation kn := (c_skip cfg).
  Hypothesis HC : codec zip unzip.
  Hypothesis HI1 : (1 <= I)%nat. Hypothesis HI2 : Z.of_nat I < 2 ^ 31. Hypothesis Hk1 : (1 <= kn)%nat. Hypothesis Hk2 : Z.of_nat kn < 2 ^ 31.
  Hypothesis Hbuf : length buf0 = buf_alloc I.
  Hypothesis Hfis : Z.of_nat (length (fis_fields F)) < 2 ^ 31.
  Hypothesis Hfac : 2 <= c_factor cfg.
  Hypothesis HN : Z.of_nat (length All) * c_factor cfg < 2 ^ 31.
  Hypothesis HfA : fit_all ana zip max F All.
  Notation good := (good ana zip max I F).
  Notation recs := (recs ana zip max F).
  Notation holds := (holds ana norm zip cfg F).
  Notation docs_ok := (docs_ok ana zip cfg F).
  Notation rep := (rep ana norm zip max I kn F).

  Definition pend_w (G : field_infos) (cap : nat) (w : dw) (p : list document) : Prop :=
    x_fis w = G /\ x_doc w = length p /\ zeros (x_offs w) /\ tab_ok ana norm max cap F p (x_tab w) /\ fw_fdt (x_fw w) = fdt_of (recs p) /\ fw_fdx (x_fw w) = fdx_of O (recs p).
  Definition pend (s : iw) (p : list document) : Prop :=
    match y_dw s with None => p = [] | Some (cap, w) => pend_w (y_fis s) cap w p /\ (length p < cap)%nat /\ (y_mbd s <= cap)%nat end.
  Definition capof (s : iw) : option nat := match y_dw s with Some (c, _) => Some c | None => None end.
  Definition J (s : iw) (v : vis) (done : list document) : Prop :=
    v_fis v = y_fis s /\ ext (y_fis s) F /\ v_max v = y_mbd s /\ (1 <= y_mbd s)%nat /\ pend s (v_wait v) /\
    Forall good (v_wait v) /\ Forall (known_doc (y_fis s)) (v_wait v) /\
    exists ps, holds (y_fis s) ps s /\ v_docs v = flat_map live_in_seg ps /\ lesser (flat_map snd ps ++ v_wait v) done.

  Lemma open_w G cap : pend_w G cap (dw_open G) [].
  Proof. unfold pend_w, dw_open. cbn [x_fis x_doc x_offs x_tab x_fw]. splits; auto. - intros q. destruct q; reflexivity. - apply tab_ok_nil. Qed.
  (* one document *)
  Lemma add_w G cap w p d : ext (add_fields G d) F -> pend_w G cap w p -> (length p < cap)%nat -> good d -> Forall (known_doc G) p ->
    exists w', dw_add_doc ana norm zip (S fuel) max cap w d = Some w' /\ pend_w (add_fields G d) cap w' (p ++ [d]).
  Proof.
    intros HE (E1 & E2 & E3 & E4 & E5 & E6) Hc Hg HK. pose proof Hg as (G1 & G2 & G3 & G4).
    assert (KF : known_doc F d) by (eapply known_ext; [exact HE|apply known_add]).
    assert (VS : vectors ana max F d = vectors ana max (add_fields G d) d) by (apply vectors_same; auto using known_add).
    assert (RS : rec_of zip (add_fields G d) (d, vectors ana max F d) = rec_of zip F (d, vectors ana max F d)).
    { pose proof (recs_same ana zip max (add_fields G d) F HE [d] ltac:(constructor; [apply known_add|constructor])) as R.
      change ([rec_of zip (add_fields G d) (d, vectors ana max (add_fields G d) d)] = [rec_of zip F (d, vectors ana max F d)]) in R. rewrite <- VS in R. apply (f_equal (hd (rec_of zip F (d, vectors ana max F d)))) in R. exact R. }
    assert (X : xok zip (add_fields G d) (d, vectors ana max F d)).
    { unfold xok. cbn [fst]. apply Forall_forall. intros df Hd. destruct (known_add G d df Hd) as ((n & f) & Ef). split; [eauto|].
      assert (Es : fis_get F (df_name df) = Some (n, f)) by (eapply fis_get_ext; eauto). unfold small_zip in G3. rewrite Forall_forall in G3. specialize (G3 df Hd). unfold is_stored, is_comp in *. rewrite Ef. rewrite Es in G3. intros Hs. apply Forall_forall. intros v Hv Hc'. specialize (G3 Hs Hc'). rewrite Forall_forall in G3. auto. }
    destruct (fw_put_ok zip fuel G (x_fw w) (d, vectors ana max F d)) as (w1 & P1 & P2 & P3). { exact X. } { cbn [fst snd]. apply (vectors_known ana max). exact HE. }
    cbn [fst] in *. rewrite RS in *.
    destruct (dw_add_doc_ok ana norm zip (S fuel) max cap F p w d w1 (add_fields G d)) as (w' & Q1 & Q2 & Q3 & _ & Q5 & Q6 & Q7); auto.
    { rewrite E1. exact HE. } { rewrite E1. exact P1. }
    exists w'. split; auto. unfold pend_w. rewrite Q2, Q3, Q5, P2, P3, E5, E6, app_length. cbn [length].
    assert (RA : recs (p ++ [d]) = recs p ++ [rec_of zip F (d, vectors ana max F d)]) by (unfold IwSeg_Proofs.recs, with_vectors; rewrite !map_app; reflexivity). rewrite RA, fdt_app, fdx_app. splits; auto.
    - lia.
    - f_equal. unfold fdt_of. cbn [map concat fst]. rewrite app_nil_r. reflexivity.
  Qed.

  Lemma known_less G ds : ext G F -> Forall (known_doc G) ds -> Forall (known_doc F) ds.
  Proof. intros HE H. eapply Forall_impl; [|exact H]. intros d. apply known_ext. auto. Qed.
  (* the buffered documents become a segment *)
  Lemma flush_step G cap w p done s ps : ext G F -> holds G ps s -> y_dw s = Some (cap, w) -> pend_w G cap w p -> Forall good p -> Forall (known_doc G) p ->
    lesser (flat_map snd ps ++ p) done -> lesser done All ->
    exists s' ps' w', iw_flush cfg buf0 s = Some s' /\ holds G ps' s' /\ flat_map live_in_seg ps' = flat_map live_in_seg ps ++ p /\ lesser (flat_map snd ps') done /\
      y_mbd s' = y_mbd s /\ y_dw s' = Some (cap, w') /\ pend_w G cap w' [].
  Proof.
    intros HE HH ED HP HG HK HL HA. pose proof HH as (E1 & E2 & E3 & E4). pose proof HP as (P1 & P2 & P3 & P4 & P5 & P6).
    assert (HF' : fit_all ana zip max F (flat_map snd ps ++ p)). { eapply (fit_less ana norm zip max I kn F HI1 Hk1); [|exact HfA]. eapply lesser_trans; eauto. }
    assert (HFp : fit_all ana zip max F p). { eapply (fit_less ana norm zip max I kn F HI1 Hk1); [|exact HF']. intros f. rewrite sum_app. lia. }
    destruct (flush_ok ana norm zip max I kn F HI1 HI2 Hk1 Hk2 Hfis G cap w p HE HK HG HFp P1 P2 P4 P5 P6) as (g & ns & sf & Q1 & Q2 & Q3).
    unfold iw_flush. rewrite ED, Q1. cbn [obind fst snd]. rewrite Q2. cbn [obind]. cbv zeta.
    set (x := mkWs _ _ _ _ _ _). set (s1 := mkIw _ _ _ _).
    assert (H1 : holds G (ps ++ [(x, p)]) s1).
    { unfold IwMerge_Proofs.holds, s1. cbn [y_fis y_segs]. rewrite map_app, E2. splits; auto.
      - apply Forall_app. split; auto. constructor; [|constructor]. apply Q3.
      - rewrite flat_map_app. cbn [flat_map snd]. rewrite app_nil_r. destruct E4 as (D1 & D2 & _). unfold IwMerge_Proofs.docs_ok. splits; auto; apply Forall_app; auto. }
    destruct (iw_maybe_merge_ok ana norm zip cfg buf0 F HI1 HI2 Hk1 Hk2 Hbuf Hfis Hfac G (Z.of_nat (length All)) s1 (ps ++ [(x, p)]) HE HN H1) as (s' & ps' & M1 & M2 & (M3 & M4 & M5) & M6 & M7).
    { rewrite (docs_in_len ana norm zip cfg buf0 F HI1 Hk1 Hbuf _ _ _ H1), flat_map_app. cbn [flat_map snd]. rewrite app_nil_r. pose proof (lesser_trans _ _ _ HL HA (fun _ => 1%nat)) as L. rewrite !sum_one in L. lia. }
    exists s', ps', (mkDw fw_open (y_fis s) [] O (x_offs w)). splits; auto.
    - rewrite M6, flat_map_app. cbn [flat_map]. rewrite app_nil_r. f_equal. apply live_clean. reflexivity.
    - eapply lesser_trans; [exact M7|]. rewrite flat_map_app. cbn [flat_map snd]. rewrite app_nil_r. exact HL.
    - unfold pend_w. cbn [x_fis x_doc x_offs x_tab x_fw]. splits; auto. apply tab_ok_nil.
  Qed.

  Lemma commit_step s v done : J s v done -> lesser done All ->
    exists s', iw_commit cfg buf0 s = Some s' /\ J s' (v_commit v) done /\ capof s' = capof s.
  Proof.
    intros (J1 & J2 & J3 & J4 & J5 & J6 & J7 & ps & J8 & J9 & J10) HA. unfold iw_commit, pend in *.
    assert (Hkeep : v_wait v = [] -> J s (v_commit v) done).
    { intros E. unfold J, v_commit, pend. cbn [v_fis v_docs v_wait v_max]. rewrite E in *. splits; auto. exists ps. rewrite app_nil_r. splits; auto. }
    destruct (y_dw s) as [(cap & w)|] eqn:ED; [|exists s; splits; auto].
    destruct J5 as (P & Pc & Pm). pose proof P as (P1 & P2 & _). rewrite P2. destruct (Nat.ltb_spec 0 (length (v_wait v))) as [Hl|Hl].
    - destruct (flush_step (y_fis s) cap w (v_wait v) done s ps) as (s' & ps' & w' & F1 & F2 & F3 & F4 & F5 & F6 & F7); auto.
      exists s'. pose proof F2 as (Q1 & _). splits; [exact F1| |unfold capof; rewrite F6, ED; reflexivity].
      unfold J, v_commit, pend. cbn [v_fis v_docs v_wait v_max]. rewrite F6, F5, Q1. cbn [length]. splits; auto; [lia|]. exists ps'. rewrite app_nil_r, J9. splits; auto.
    - exists s. splits; auto. apply Hkeep. destruct (v_wait v); [reflexivity|cbn [length] in Hl; lia].
  Qed.

  Lemma add_step s v done d full : J s v done -> ext (add_fields (y_fis s) d) F -> good d -> lesser (done ++ [d]) All ->
    exists s', iw_add_doc ana norm zip (S fuel) cfg buf0 d full s = Some s' /\ J s' (v_step ana max F v (WAdd d full)) (done ++ [d]) /\
      y_mbd s' = y_mbd s /\ capof s' = Some (match capof s with Some c => c | None => y_mbd s end).
  Proof.
    intros (J1 & J2 & J3 & J4 & J5 & J6 & J7 & ps & J8 & J9 & J10) HE Hd HA. unfold iw_add_doc.
    assert (Hcw : exists cap w, match y_dw s with Some x => x | None => (y_mbd s, dw_open (y_fis s)) end = (cap, w) /\ pend_w (y_fis s) cap w (v_wait v) /\ (length (v_wait v) < cap)%nat /\ (y_mbd s <= cap)%nat /\
             match capof s with Some c => c | None => y_mbd s end = cap).
    { unfold pend, capof in *. destruct (y_dw s) as [(cap & w)|]. - exists cap, w. destruct J5 as (? & ? & ?). splits; auto. - exists (y_mbd s), (dw_open (y_fis s)). rewrite J5. splits; auto; try (apply open_w); cbn [length]; lia. }
    destruct Hcw as (cap & w & -> & P & Pc & Pm & Ec). rewrite Ec.
    destruct (add_w (y_fis s) cap w (v_wait v) d HE P Pc Hd J7) as (w' & A1 & A2). rewrite A1. cbn [obind]. cbv zeta.
    pose proof A2 as (A3 & A4 & _). rewrite A3, A4.
    assert (K' : Forall (known_doc (add_fields (y_fis s) d)) (v_wait v ++ [d])) by (apply known_all; auto).
    assert (G' : Forall good (v_wait v ++ [d])) by (apply Forall_app; auto).
    assert (L' : lesser (flat_map snd ps ++ v_wait v ++ [d]) (done ++ [d])) by (rewrite app_assoc; apply lesser_app; [exact J10|apply lesser_refl]).
    set (s1 := mkIw (add_fields (y_fis s) d) (y_segs s) (y_mbd s) (Some (cap, w'))).
    assert (H1 : holds (add_fields (y_fis s) d) ps s1).
    { destruct J8 as (E1 & E2 & E3 & E4 & E5 & E6). unfold IwMerge_Proofs.holds, IwMerge_Proofs.docs_ok, s1. cbn [y_fis y_segs]. splits; auto. eapply Forall_impl; [|exact E5]. intros e. apply known_ext. apply add_fields_ext. }
    cbn [v_step]. cbv zeta. cbn [v_wait v_fis v_docs v_max]. rewrite J3. destruct (full || (y_mbd s <=? length (v_wait v ++ [d]))%nat) eqn:Ef.
    - destruct (flush_step (add_fields (y_fis s) d) cap w' (v_wait v ++ [d]) (done ++ [d]) s1 ps) as (s' & ps' & w2 & F1 & F2 & F3 & F4 & F5 & F6 & F7); auto.
      exists s'. pose proof F2 as (Q1 & _). splits; [exact F1| |rewrite F5; reflexivity|unfold capof; rewrite F6; reflexivity].
      unfold J, v_commit, pend. cbn [v_fis v_docs v_wait v_max]. rewrite F6, F5, Q1, J1. cbn [length y_mbd]. splits; auto; [lia|]. exists ps'. rewrite app_nil_r, J9. splits; auto.
    - exists s1. apply orb_false_elim in Ef. destruct Ef as [_ Ef]. apply Nat.leb_gt in Ef. splits; [reflexivity| |reflexivity|reflexivity].
      unfold J, pend, s1. cbn [v_fis v_docs v_wait v_max y_fis y_dw y_mbd y_segs]. rewrite J1. splits; auto; [lia|]. exists ps. splits; auto.
  Qed.

  Lemma delete_step s v done field ts : J s v done -> lesser done All ->
    exists s', iw_delete cfg buf0 field ts s = Some s' /\ J s' (v_step ana max F v (WDelete field ts)) done /\ y_mbd s' = y_mbd s /\ capof s' = capof s.
  Proof.
    intros HJ HA. pose proof HJ as (J1 & J2 & _). unfold iw_delete. cbn [v_step]. rewrite J1. destruct (fis_get (y_fis s) field) as [(n & f)|] eqn:E; [|exists s; splits; auto].
    destruct (commit_step s v done HJ HA) as (s1 & C1 & (K1 & K2 & K3 & K4 & K5 & K6 & K7 & ps & K8 & K9 & K10) & C3). rewrite C1. cbn [obind]. cbn [v_commit v_fis v_docs v_wait v_max] in *.
    pose proof K8 as (E1 & E2 & E3 & E4).
    assert (EF : fis_get F field = Some (n, f)) by exact (fis_get_ext _ _ _ _ _ J2 E).
    destruct (delete_segs_ok ana norm zip cfg buf0 F HI1 Hk1 Hbuf field n f ts ps EF E3) as (ps' & D1 & D2 & D3 & D4). rewrite E2, D1. cbn [obind].
    assert (ES : flat_map snd ps' = flat_map snd ps) by (rewrite !flat_map_concat_map, D3; reflexivity).
    eexists. splits; [reflexivity| |cbn [y_mbd]; destruct HJ as (_ & _ & J3 & _); congruence|exact C3].
    unfold J, pend in *. cbn [v_fis v_docs v_wait v_max y_fis y_dw y_mbd y_segs v_commit] in *. splits; auto.
    exists ps'. rewrite ES. splits; auto.
    - unfold IwMerge_Proofs.holds. cbn [y_fis y_segs]. rewrite ES. auto.
    - rewrite D4, K9. reflexivity.
  Qed.

  Lemma optimize_step s v done : J s v done -> lesser done All ->
    exists s', iw_optimize cfg buf0 s = Some s' /\ J s' (v_commit v) done /\ y_mbd s' = y_mbd s /\ capof s' = capof s /\ clean cfg (y_segs s').
  Proof.
    intros HJ HA. destruct (commit_step s v done HJ HA) as (s1 & C1 & (K1 & K2 & K3 & K4 & K5 & K6 & K7 & ps & K8 & K9 & K10) & C3). unfold iw_optimize. rewrite C1. cbn [obind].
    destruct (optimize_ok ana norm zip cfg buf0 F HI1 HI2 Hk1 Hk2 Hbuf Hfis Hfac (y_fis s1) K2 (S (length (y_segs s1))) s1 ps (Nat.lt_succ_diag_r _) K8) as (s' & ps' & O1 & O2 & (O3 & O4 & O5) & (O6 & O7) & O8).
    exists s'. splits; auto.
    - unfold J, pend. rewrite O3, O4, O5. splits; auto. exists ps'. splits; auto; [congruence|]. eapply lesser_trans; [|exact K10]. apply lesser_app; [exact O7|apply lesser_refl].
    - destruct HJ as (_ & _ & J3 & _). cbn [v_commit v_max] in K3. congruence.
    - unfold capof in *. rewrite O5. exact C3.
  Qed.

  Lemma J_max s v done m : (1 <= m)%nat -> match capof s with Some c => (m <= c)%nat | None => True end -> J s v done ->
    J (mkIw (y_fis s) (y_segs s) m (y_dw s)) (mkVis (v_fis v) (v_docs v) (v_wait v) m) done.
  Proof.
    intros Hm Hc (J1 & J2 & J3 & J4 & J5 & J6 & J7 & ps & J8 & J9 & J10). unfold J, pend, capof in *. cbn [v_fis v_docs v_wait v_max y_fis y_dw y_mbd y_segs]. splits; auto.
    - destruct (y_dw s) as [(cap & w)|]; auto. destruct J5 as (? & ? & ?). auto.
    - exists ps. splits; auto.
  Qed.
  Lemma J_close s v done m : (1 <= m)%nat -> J s v done -> v_wait v = [] -> J (iw_open (y_fis s) (y_segs s) m) (mkVis (v_fis v) (v_docs v) [] m) done.
  Proof.
    intros Hm (J1 & J2 & J3 & J4 & J5 & J6 & J7 & ps & J8 & J9 & J10) E. unfold J, pend, iw_open. cbn [v_fis v_docs v_wait v_max y_fis y_dw y_mbd y_segs]. rewrite E in *. splits; auto. exists ps. splits; auto.
  Qed.

  Lemma step_ok o os s v done : J s v done -> max_ok (y_mbd s) (capof s) (o :: os) -> F = fis_of (y_fis s) (added (o :: os)) -> Forall good (added [o]) -> lesser (done ++ added [o]) All ->
    exists s', iw_step ana norm zip (S fuel) cfg buf0 s o = Some s' /\ J s' (v_step ana max F v o) (done ++ added [o]) /\ max_ok (y_mbd s') (capof s') os /\ F = fis_of (y_fis s') (added os) /\
      (o = WOptimize -> clean cfg (y_segs s')).
  Proof.
    intros HJ HM HF HG HA. pose proof HJ as (J1 & J2 & J3 & _).
    assert (FK : forall s', J s' (v_step ana max F v o) (done ++ added [o]) -> F = fis_of (y_fis s') (added os)).
    { intros s' (K1 & _). rewrite <- K1. rewrite HF. destruct o as [d full|f ts| | |m|m]; cbn [v_step]; try (cbn [v_fis v_commit added flat_map app]; rewrite J1; reflexivity).
      - cbv zeta. destruct (_ || _); cbn [v_fis v_commit]; rewrite J1; reflexivity.
      - destruct (fis_get (v_fis v) f); cbn [v_fis v_commit]; rewrite J1; reflexivity. }
    assert (X : exists s', iw_step ana norm zip (S fuel) cfg buf0 s o = Some s' /\ J s' (v_step ana max F v o) (done ++ added [o]) /\ max_ok (y_mbd s') (capof s') os /\ (o = WOptimize -> clean cfg (y_segs s'))).
    { destruct o as [d full|f ts| | |m|m]; cbn [iw_step].
      - change (added [WAdd d full]) with [d] in *. inversion HG; subst. destruct (add_step s v done d full HJ) as (s' & A1 & A2 & A3 & A4); auto. { rewrite HF at 1. apply (fis_ext (added os)). }
        exists s'. splits; auto; [rewrite A3, A4; exact HM|discriminate].
      - change (added [WDelete f ts]) with (@nil document) in *. rewrite app_nil_r in *. destruct (delete_step s v done f ts HJ HA) as (s' & A1 & A2 & A3 & A4). exists s'. splits; auto; [rewrite A3, A4; exact HM|discriminate].
      - change (added [WCommit]) with (@nil document) in *. rewrite app_nil_r in *. destruct (commit_step s v done HJ HA) as (s' & A1 & A2 & A4). exists s'. splits; auto; [|discriminate]. pose proof A2 as (_ & _ & A3 & _). cbn [v_commit v_max] in A3. rewrite <- A3, J3, A4. exact HM.
      - change (added [WOptimize]) with (@nil document) in *. rewrite app_nil_r in *. destruct (optimize_step s v done HJ HA) as (s' & A1 & A2 & A3 & A4 & A5). exists s'. splits; auto. rewrite A3, A4. exact HM.
      - change (added [WSetMax m]) with (@nil document) in *. rewrite app_nil_r in *. destruct HM as (M1 & M2 & M3). eexists. splits; [reflexivity|apply J_max; auto|exact M3|discriminate].
      - change (added [WReopen m]) with (@nil document) in *. rewrite app_nil_r in *. destruct HM as (M1 & M2). destruct (commit_step s v done HJ HA) as (s1 & A1 & A2 & A4). rewrite A1. cbn [obind]. eexists. splits; [reflexivity|apply (J_close s1 (v_commit v)); auto|exact M2|discriminate]. }
    destruct X as (s' & X1 & X2 & X3 & X4). exists s'. splits; auto.
  Qed.
  Lemma added_cons o os : added (o :: os) = added [o] ++ added os.
  Proof. unfold added. cbn [flat_map]. rewrite app_nil_r. reflexivity. Qed.
  Lemma lesser_front {A} (a b : list A) : lesser a (a ++ b).
  Proof. intros w. rewrite sum_app. apply Nat.le_add_r. Qed.
  Lemma run_ok os : forall s v done, J s v done -> max_ok (y_mbd s) (capof s) os -> F = fis_of (y_fis s) (added os) -> Forall good (added os) -> lesser (done ++ added os) All ->
    exists s', iw_run ana norm zip (S fuel) cfg buf0 s os = Some s' /\ J s' (v_run ana max F v os) (done ++ added os) /\ y_fis s' = F.
  Proof.
    induction os as [|o os IH]; intros s v done HJ HM HF HG HA.
    - exists s. change (added []) with (@nil document) in *. rewrite app_nil_r. splits; auto.
    - rewrite added_cons in HG, HA. apply Forall_app in HG. destruct HG as [HG1 HG2]. rewrite app_assoc in HA.
      destruct (step_ok o os s v done HJ HM HF HG1) as (s1 & S1 & S2 & S3 & S4 & _). { eapply lesser_trans; [apply lesser_front|exact HA]. }
      cbn [iw_run]. rewrite S1. cbn [obind]. destruct (IH s1 _ _ S2 S3 S4 HG2 HA) as (s' & R1 & R2 & R3). exists s'. rewrite added_cons, app_assoc. splits; auto.
  Qed.
End RUN.

Section TOP.
  Variable ana : list Z -> list Z -> list token.
  Variable norm : field_info -> Z -> dfield -> Z -> Z.
  Variable zip : list Z -> list Z.
  Variable unzip : list Z -> option (list Z).
  Variable fuel : nat.
  Variable cfg : config.
  Variable buf0 : list Z.
  Notation max := (c_field_length cfg).
  Definition view (fis : field_infos) (m : nat) (os : list wop) : vis := v_run ana max (fis_of fis (added os)) (mkVis fis [] [] m) os.
  Lemma shows_ok F done s v : config_ok cfg buf0 (length done) -> log_fits ana max zip (c_interval cfg) F done -> codec zip unzip -> J ana norm zip cfg F s v done -> y_fis s = F ->
    shows ana norm unzip fuel max F (c_skip cfg) (y_segs s) (v_docs v).
  Proof.
    intros (C1 & C2 & C3 & C4 & C5 & C6 & C7) (L1 & L2 & L3 & L4 & L5) HC (_ & _ & _ & _ & _ & _ & _ & ps & (E1 & E2 & E3 & E4 & E5 & E6) & J9 & _) EF.
    exists ps. splits; auto. rewrite Forall_forall in *. intros (x & ds) Hp. cbn [fst snd].
    assert (Hin : forall d, In d ds -> In d (flat_map snd ps)) by (intros d Hd; apply in_flat_map; exists (x, ds); auto).
    eapply rep_reads; eauto; try (apply Forall_forall); eauto.
    - intros d Hd. rewrite <- EF. auto.
    - eapply (fit_less ana norm zip max (c_interval cfg) (c_skip cfg) F C1 C3); [|exact E6]. apply (lesser_part snd) in Hp. exact Hp.
  Qed.
  Lemma J_init F fis m : ext fis F -> (1 <= m)%nat -> J ana norm zip cfg F (iw_open fis [] m) (mkVis fis [] [] m) [].
  Proof.
    intros HE Hm. unfold J, pend, iw_open. cbn [v_fis v_docs v_wait v_max y_fis y_dw y_mbd y_segs]. splits; auto. exists []. splits; auto; [|apply lesser_refl].
    unfold holds, docs_ok, fit_all. cbn [map flat_map y_fis y_segs length]. splits; auto; try reflexivity.
  Qed.
  Lemma fit_of F docs : log_fits ana max zip (c_interval cfg) F docs -> fit_all ana zip max F docs.
  Proof. intros (L1 & L2 & L3 & L4 & L5). unfold fit_all. splits; auto. Qed.
  Theorem run_shows fis m os : config_ok cfg buf0 (length (added os)) -> codec zip unzip -> log_fits ana max zip (c_interval cfg) (fis_of fis (added os)) (added os) ->
    (1 <= m)%nat -> max_ok m None os ->
    exists s, iw_run ana norm zip (S fuel) cfg buf0 (iw_open fis [] m) os = Some s /\ y_fis s = fis_of fis (added os) /\
      shows ana norm unzip fuel max (fis_of fis (added os)) (c_skip cfg) (y_segs s) (v_docs (view fis m os)).
  Proof.
    intros HC HZ HL Hm HM. pose proof HC as (C1 & C2 & C3 & C4 & C5 & C6 & C7). pose proof HL as (L1 & L2 & L3 & L4 & L5). set (F := fis_of fis (added os)) in *.
    destruct (run_ok ana norm zip fuel cfg buf0 F (added os) C1 C2 C3 C4 C7 L3 C5 C6 (fit_of _ _ HL) os (iw_open fis [] m) (mkVis fis [] [] m) []) as (s & R1 & R2 & R3); auto.
    - apply J_init; auto. apply fis_ext.
    - apply lesser_refl.
    - exists s. splits; auto. cbn [app] in R2. eapply shows_ok; eauto.
  Qed.
  (* what waits and what is visible are the log *)
  Theorem view_is_log fis m os : v_docs (view fis m os) ++ v_wait (view fis m os) = log ana max (fis_of fis (added os)) os.
  Proof. unfold view, log. apply view_log; auto. Qed.
  Theorem view_commit fis m os o : o = WCommit \/ o = WOptimize \/ (exists k, o = WReopen k) -> v_wait (view fis m (os ++ [o])) = [].
  Proof. intros H. unfold view, v_run. rewrite fold_left_app. cbn [fold_left]. destruct H as [->|[->|(k & ->)]]; reflexivity. Qed.
  Lemma run_app fu s os1 os2 : iw_run ana norm zip fu cfg buf0 s (os1 ++ os2) = do s1 <- iw_run ana norm zip fu cfg buf0 s os1; iw_run ana norm zip fu cfg buf0 s1 os2.
  Proof. revert s. induction os1 as [|o os IH]; intros s; [reflexivity|]. cbn [app iw_run]. destruct (iw_step _ _ _ _ _ _ s o); cbn [obind]; auto. Qed.
  Lemma added_app a b : added (a ++ b) = added a ++ added b.
  Proof. unfold added. apply flat_map_app. Qed.
  Lemma max_ok_app a : forall b m cap, max_ok m cap (a ++ b) -> max_ok m cap a.
  Proof. induction a as [|o a IH]; intros b m cap H; [exact Logic.I|]. cbn [app] in H. destruct o; cbn [max_ok] in *; eauto; intuition eauto. Qed.
  (* optimizing leaves one segment without deleted documents *)
  Theorem optimize_one fis m os : config_ok cfg buf0 (length (added os)) -> log_fits ana max zip (c_interval cfg) (fis_of fis (added os)) (added os) ->
    (1 <= m)%nat -> max_ok m None os ->
    forall s, iw_run ana norm zip (S fuel) cfg buf0 (iw_open fis [] m) (os ++ [WOptimize]) = Some s ->
      (length (y_segs s) <= 1)%nat /\ Forall (fun x => i_del (w_in x) = None) (y_segs s).
  Proof.
    intros HC HL Hm HM s E. pose proof HC as (C1 & C2 & C3 & C4 & C5 & C6 & C7). pose proof HL as (L1 & L2 & L3 & L4 & L5). set (F := fis_of fis (added os)) in *.
    destruct (run_ok ana norm zip fuel cfg buf0 F (added os) C1 C2 C3 C4 C7 L3 C5 C6 (fit_of _ _ HL) os (iw_open fis [] m) (mkVis fis [] [] m) []) as (s1 & R1 & R2 & R3); auto.
    { apply J_init; auto. apply fis_ext. } { apply lesser_refl. }
    destruct (optimize_step ana norm zip cfg buf0 F (added os) C1 C2 C3 C4 C7 L3 C5 C6 (fit_of _ _ HL) s1 _ _ R2 (lesser_refl _)) as (s2 & O1 & _ & _ & _ & O2 & O3).
    rewrite run_app, R1 in E. cbn [obind iw_run iw_step] in E. rewrite O1 in E. cbn [obind] in E. apply some_inj in E. subst s2. split; auto.
    eapply Forall_impl; [|exact O3]. intros x Hx. unfold unclean in Hx. apply orb_false_elim in Hx. destruct Hx as [Hx _]. destruct (i_del (w_in x)); [discriminate|reflexivity].
  Qed.

  (* ---------- keys *)
  Variable F : field_infos.
  Variable key : list Z.
  Lemma key_field n f df : fis_get F key = Some (n, f) -> fi_is_indexed f = true -> is_field F n df = seqb (df_name df) key.
  Proof.
    intros E Hi. unfold is_field. destruct (seqb (df_name df) key) eqn:Es.
    - apply seqb_spec' in Es. rewrite Es, E, Nat.eqb_refl. exact Hi.
    - destruct (fis_get F (df_name df)) as [(m & g)|] eqn:Eg; [|reflexivity]. destruct (Nat.eqb_spec m n) as [->|]; [|reflexivity]. exfalso.
      apply fis_get_nth in E. apply fis_get_nth in Eg. destruct E as [E1 E2]. destruct Eg as [E3 E4]. rewrite E1 in E3. apply some_inj in E3. subst g.
      assert (seqb (df_name df) key = true) by (apply (proj2 (seqb_spec' _ _)); congruence). congruence.
  Qed.
  Lemma key_none d : fis_get F key = None -> known_doc F d -> key_of key d = None.
  Proof.
    intros E HK. unfold key_of. destruct (find _ (d_fields d)) as [df|] eqn:Ef; [|reflexivity]. apply find_some in Ef. destruct Ef as [Hi Hs]. apply seqb_spec' in Hs. destruct (HK df Hi) as (p & Ep). congruence.
  Qed.
  Lemma has_key d v : key_ok F key [d] -> known_doc F d -> has_term ana max F key [v] d = match key_of key d with Some u => seqb u v | None => false end.
  Proof.
    intros (H1 & H2) HK. unfold has_term. destruct (fis_get F key) as [(n & f)|] eqn:E; [|rewrite key_none; auto]. destruct (H1 n f eq_refl) as [Hi Ht].
    unfold occs_in, field_of, key_of. rewrite (proj1 (fis_get_nth _ _ _ _ E)). inversion H2 as [|? ? H3 _]; subst. clear H2. rewrite Forall_forall in H3.
    assert (EF : find (is_field F n) (d_fields d) = find (fun df => seqb (df_name df) key) (d_fields d)).
    { clear H3 HK. induction (d_fields d) as [|df l IH]; [reflexivity|]. cbn [find]. rewrite (key_field n f df E Hi). destruct (seqb (df_name df) key); auto. }
    rewrite EF. destruct (find (fun df => seqb (df_name df) key) (d_fields d)) as [df|] eqn:Ed; [|reflexivity].
    apply find_some in Ed. destruct Ed as [Hd Hs]. apply seqb_spec' in Hs. destruct (H3 df Hd Hs) as (u & Eu & Hu). rewrite Eu. unfold occs_of. rewrite Ht, Eu.
    cbn [raw_occs]. unfold cut_value. apply Nat.ltb_ge in Hu. unfold at_, o_text. rewrite Hu. cbn [existsb filter map fst snd]. destruct (seqb u v); reflexivity.
  Qed.
  Lemma latest_log_gen ds : forall l, Forall (known_doc F) (l ++ map fst ds) -> key_ok F key (l ++ map fst ds) ->
    fold_left (log_step ana max F) (flat_map (keyed_add key) ds) l = filter (fun e => negb (existsb (same_key key e) (map fst ds))) l ++ latest key (map fst ds).
  Proof.
    induction ds as [|(d & full) ds IH]; intros l HK HO.
    - cbn [flat_map fold_left map latest existsb]. rewrite filter_none; [rewrite app_nil_r; reflexivity|reflexivity].
    - cbn [flat_map map fst] in *. rewrite fold_left_app. destruct HO as (O1 & O2).
      assert (HK1 : forall e, In e l -> known_doc F e) by (intros e He; rewrite Forall_forall in HK; apply HK; apply in_or_app; auto).
      assert (HO1 : forall e, In e l -> key_ok F key [e]). { intros e He. split; auto. constructor; [|constructor]. rewrite Forall_forall in O2. apply O2. apply in_or_app. auto. }
      assert (E1 : fold_left (log_step ana max F) (keyed_add key (d, full)) l = filter (fun e => negb (same_key key e d)) l ++ [d]).
      { unfold keyed_add. cbn [fst snd]. unfold same_key. destruct (key_of key d) as [v|] eqn:Ev; cbn [fold_left log_step].
        - f_equal. apply filter_ext_in. intros e He. rewrite has_key by auto. destruct (key_of key e); reflexivity.
        - f_equal. rewrite filter_none; auto. intros e _. destruct (key_of key e); reflexivity. }
      rewrite E1, IH.
      + rewrite filter_app, <- app_assoc. cbn [filter latest]. assert (E2 : filter (fun e => negb (existsb (same_key key e) (map fst ds))) (filter (fun e => negb (same_key key e d)) l) = filter (fun e => negb (existsb (same_key key e) (d :: map fst ds))) l).
        { clear. induction l as [|e l IH]; [reflexivity|]. cbn [filter existsb]. rewrite negb_orb. destruct (negb (same_key key e d)); cbn [filter andb]; [destruct (negb (existsb (same_key key e) (map fst ds))); rewrite IH; reflexivity|exact IH]. }
        rewrite E2. f_equal. destruct (existsb (same_key key d) (map fst ds)); reflexivity.
      + rewrite <- app_assoc. cbn [app]. apply Forall_app in HK. destruct HK as [K1 K2]. apply Forall_app. split; auto. apply Forall_forall. intros e He. apply filter_In in He. apply HK1. tauto.
      + split; auto. rewrite <- app_assoc. cbn [app]. apply Forall_app in O2. destruct O2 as [K1 K2]. apply Forall_app. split; auto. rewrite Forall_forall in *. intros e He. apply filter_In in He. apply K1. tauto.
  Qed.
  Theorem latest_log ds : Forall (known_doc F) (map fst ds) -> key_ok F key (map fst ds) -> log ana max F (flat_map (keyed_add key) ds) = latest key (map fst ds).
  Proof. intros HK HO. unfold log. rewrite latest_log_gen; auto. Qed.
  Lemma keyed_added ds : added (flat_map (keyed_add key) ds) = map fst ds.
  Proof.
    induction ds as [|(d & full) ds IH]; [reflexivity|]. cbn [flat_map map fst]. rewrite added_app, IH. unfold keyed_add. cbn [fst snd]. destruct (key_of key d); reflexivity.
  Qed.
  Lemma keyed_max ds : forall m cap, max_ok m cap (flat_map (keyed_add key) ds).
  Proof.
    induction ds as [|(d & full) ds IH]; intros m cap; [exact Logic.I|]. cbn [flat_map]. unfold keyed_add at 1. cbn [fst snd]. destruct (key_of key d); cbn [app max_ok]; apply IH.
  Qed.
  Lemma known_fis ds : forall fis, Forall (known_doc (fis_of fis ds)) ds.
  Proof.
    induction ds as [|d ds IH]; intros fis; [constructor|]. unfold fis_of. cbn [fold_left]. constructor; [|apply (IH (add_fields fis d))]. eapply known_ext; [apply (fis_ext ds)|apply known_add].
  Qed.
  (* latest: one document for every key, the last *)
  Lemma latest_in ds : forall d, In d (latest key ds) -> In d ds.
  Proof. induction ds as [|e ds IH]; intros d H; [exact H|]. cbn [latest] in H. destruct (existsb _ ds); [right; auto|]. destruct H as [->|H]; [left; auto|right; auto]. Qed.
  Lemma latest_unique ds : ForallOrdPairs (fun d e => same_key key d e = false) (latest key ds).
  Proof.
    induction ds as [|d ds IH]; [constructor|]. cbn [latest]. destruct (existsb (same_key key d) ds) eqn:E; [exact IH|]. constructor; [|exact IH].
    apply Forall_forall. intros e He. apply latest_in in He. destruct (same_key key d e) eqn:Es; [|reflexivity]. exfalso. assert (existsb (same_key key d) ds = true) by (apply existsb_exists; eauto). congruence.
  Qed.
  Lemma latest_last ds d : In d (latest key (ds ++ [d])).
  Proof. induction ds as [|e ds IH]; [left; reflexivity|]. cbn [app latest]. destruct (existsb _ _); [exact IH|right; exact IH]. Qed.
End TOP.

Lemma max_ok_commit a : forall m cap, max_ok m cap a -> max_ok m cap (a ++ [WCommit]).
Proof. induction a as [|o a IH]; intros m cap H; [exact Logic.I|]. cbn [app]. destruct o; cbn [max_ok] in *; auto; intuition auto. Qed.

Theorem keyed_shows ana norm zip unzip fuel cfg buf0 fis m key ds :
  let docs := map fst ds in let F := fis_of fis docs in
  config_ok cfg buf0 (length docs) -> codec zip unzip -> log_fits ana (c_field_length cfg) zip (c_interval cfg) F docs -> key_ok F key docs -> (1 <= m)%nat ->
  exists s, iw_run ana norm zip (S fuel) cfg buf0 (iw_open fis [] m) (flat_map (keyed_add key) ds ++ [WCommit]) = Some s /\
    shows ana norm unzip fuel (c_field_length cfg) F (c_skip cfg) (y_segs s) (latest key docs).
Proof.
  cbv zeta. intros HC HZ HL HO Hm. set (os := flat_map (keyed_add key) ds ++ [WCommit]).
  assert (EA : added os = map fst ds) by (unfold os; rewrite added_app, keyed_added; apply app_nil_r).
  destruct (run_shows ana norm zip unzip fuel cfg buf0 fis m os) as (s & R1 & R2 & R3); rewrite ?EA; auto. { apply max_ok_commit. apply keyed_max. }
  exists s. split; [exact R1|]. rewrite EA in R3.
  assert (EV : v_docs (view ana cfg fis m os) = latest key (map fst ds)).
  { pose proof (view_is_log ana cfg fis m os) as V. unfold os in V at 2. rewrite view_commit, app_nil_r in V by auto. rewrite V, EA. unfold log, os. rewrite fold_left_app. cbn [fold_left log_step]. apply latest_log; auto. apply known_fis. }
  rewrite EV in R3. exact R3.
Qed.

Lemma added_adds ds : added (map (fun d => WAdd d false) ds) = ds.
Proof. induction ds as [|d ds IH]; [reflexivity|]. cbn [map]. change (added (WAdd d false :: map (fun d => WAdd d false) ds)) with (d :: added (map (fun d => WAdd d false) ds)). rewrite IH. reflexivity. Qed.
Lemma max_ok_adds ds : forall m c os, max_ok m (Some c) os -> max_ok m (Some c) (map (fun d => WAdd d false) ds ++ os).
Proof. induction ds as [|d ds IH]; intros m c os H; [exact H|]. cbn [map app max_ok]. auto. Qed.
Lemma max_ok_adds' ds m os : (forall c, (c = None \/ c = Some m) -> max_ok m c os) -> max_ok m None (map (fun d => WAdd d false) ds ++ os).
Proof. destruct ds as [|d ds]; intros H; cbn [map app max_ok]; [auto|]. apply max_ok_adds. auto. Qed.
Lemma log_adds ana max F ds : forall l, fold_left (log_step ana max F) (map (fun d => WAdd d false) ds) l = l ++ ds.
Proof. induction ds as [|d ds IH]; intros l; cbn [map fold_left log_step]; [rewrite app_nil_r; reflexivity|]. rewrite IH, <- app_assoc. reflexivity. Qed.
Theorem lowered_shows ana norm zip unzip fuel cfg buf0 fis m k docs1 docs2 docs3 : let os := map (fun d => WAdd d false) docs1 ++ WSetMax k :: map (fun d => WAdd d false) docs2 ++ WReopen (S m + S m) :: map (fun d => WAdd d false) docs3 ++ [WCommit] in
  let docs := docs1 ++ docs2 ++ docs3 in let F := fis_of fis docs in
  config_ok cfg buf0 (length docs) -> codec zip unzip -> log_fits ana (c_field_length cfg) zip (c_interval cfg) F docs -> (1 <= k <= m)%nat ->
  exists s, iw_run ana norm zip (S fuel) cfg buf0 (iw_open fis [] m) os = Some s /\ shows ana norm unzip fuel (c_field_length cfg) F (c_skip cfg) (y_segs s) docs.
Proof.
  cbv zeta. intros HC HZ HL Hk. set (os := map _ docs1 ++ _).
  assert (EA : added os = docs1 ++ docs2 ++ docs3).
  { unfold os. rewrite added_app, added_adds. f_equal. change (added (WSetMax k :: ?x)) with (added x). rewrite added_app, added_adds. f_equal.
    change (added (WReopen (S m + S m) :: ?x)) with (added x). rewrite added_app, added_adds. apply app_nil_r. }
  destruct (run_shows ana norm zip unzip fuel cfg buf0 fis m os) as (s & R1 & R2 & R3); rewrite ?EA; auto; [lia| |].
  { unfold os. apply max_ok_adds'. intros c Hc. cbn [max_ok]. split; [lia|]. split; [destruct Hc as [->| ->]; [exact Logic.I|lia]|].
    assert (HR : forall c, max_ok k c (WReopen (S m + S m) :: map (fun d => WAdd d false) docs3 ++ [WCommit])). { intros c'. cbn [max_ok]. split; [lia|]. apply max_ok_adds'. intros c2 _. exact Logic.I. }
    destruct Hc as [->| ->]; [apply max_ok_adds'; auto|apply max_ok_adds; auto]. }
  exists s. split; [exact R1|]. rewrite EA in R3.
  assert (EV : v_docs (view ana cfg fis m os) = docs1 ++ docs2 ++ docs3).
  { pose proof (view_is_log ana cfg fis m os) as V. assert (EO : exists o', os = o' ++ [WCommit]). { exists (map (fun d => WAdd d false) docs1 ++ WSetMax k :: map (fun d => WAdd d false) docs2 ++ WReopen (S m + S m) :: map (fun d => WAdd d false) docs3). unfold os. rewrite <- !app_assoc. cbn [app]. rewrite <- !app_assoc. reflexivity. }
    destruct EO as (o' & EO). assert (W : v_wait (view ana cfg fis m os) = []) by (rewrite EO; apply view_commit; auto). rewrite W, app_nil_r in V. rewrite V, EA. unfold log, os.
    rewrite fold_left_app, log_adds. cbn [fold_left log_step]. rewrite fold_left_app, log_adds. cbn [fold_left log_step]. rewrite fold_left_app, log_adds. cbn [fold_left log_step app]. rewrite <- app_assoc. reflexivity. }
  rewrite EV in R3. exact R3.
Qed.
