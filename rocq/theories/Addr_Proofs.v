(* Adding readers whose segments have no deletions: all their documents are added. *)
From Verif Require Import Util Codec_Model Codec_Spec Codec_Proofs Strcmp Seg_Model SegCodec_Proofs Dict_Model Dict_Spec DictCodec_Proofs Dict_Proofs Token_Model Post_Model Post_Spec PostRun_Proofs Mte_Spec MergeTerms_Proofs Merge_Model Merge_Spec Merge_Proofs MergeDocs_Proofs Fields_Model Fields_Spec Fields_Proofs FieldsRead_Proofs Invert_Model Invert_Spec Invert_Proofs InvertDoc_Proofs InvertIndex_Proofs InvertTop_Proofs Iw_Model Iw_Spec IwExt_Proofs IwSeg_Proofs IwMerge_Proofs IwRun_Proofs Addr_Model Addr_Spec AddrRen_Proofs AddrFile_Proofs AddrSeg_Proofs.
Open Scope Z_scope.

(* ---------- the fields *)
Definition fresh (G : field_infos) (f : field_info) : bool := match fis_get G (fi_name f) with Some _ => false | None => true end.
Definition join_list (G : field_infos) (fs : list field_info) : field_infos := mkFis (fis_store G) (fis_index G) (fis_tv G) (fis_fields G ++ filter (fresh G) fs).
Definition agrees_list (G : field_infos) (fs : list field_info) : Prop := Forall (fun f => match fis_get G (fi_name f) with Some (_, g) => g = f | None => fi_boost f = 1065353216 end) fs.
Lemma upd_same {A} (l : list A) n x : nth_error l n = Some x -> upd l n x = l.
Proof. intros E. rewrite <- (nth_error_nth l n x E). apply upd_nth_same. Qed.
Lemma fis_eta G : mkFis (fis_store G) (fis_index G) (fis_tv G) (fis_fields G) = G. Proof. destruct G; reflexivity. Qed.
Lemma merge_field_join G f : match fis_get G (fi_name f) with Some (_, g) => g = f | None => fi_boost f = 1065353216 end -> merge_field G f = join_list G [f].
Proof.
  intros H. unfold merge_field, join_list, fresh. cbn [filter]. destruct (fis_get G (fi_name f)) as [(n & g)|] eqn:E.
  - subst g. rewrite Z.lor_diag, app_nil_r. f_equal. apply upd_same. apply fis_get_nth in E. destruct E as [E _]. rewrite E. destruct f; reflexivity.
  - rewrite <- H. destruct f; reflexivity.
Qed.
Lemma join_ext G fs : ext G (join_list G fs). Proof. unfold join_list. eexists. reflexivity. Qed.
Lemma fresh_spec G f : fresh G f = true <-> ~ In (fi_name f) (map fi_name (fis_fields G)).
Proof. unfold fresh, fis_get. rewrite <- (field_at_none _ _ O). destruct (field_at _ _ _); split; congruence. Qed.
Lemma join_cons G f fs : NoDup (map fi_name (f :: fs)) -> join_list (join_list G [f]) fs = join_list G (f :: fs).
Proof.
  intros HN. inversion HN as [|? ? N1 N2]; subst. unfold join_list at 1 3. cbn [fis_store fis_index fis_tv]. f_equal. cbn [join_list fis_fields]. rewrite <- app_assoc. f_equal.
  assert (EF : filter (fresh (join_list G [f])) fs = filter (fresh G) fs).
  { apply filter_ext_in. intros g Hg. assert (Hne : fi_name g <> fi_name f) by (intros E; apply N1; rewrite <- E; apply in_map; auto).
    assert (X : fresh (join_list G [f]) g = true <-> fresh G g = true). { rewrite !fresh_spec. unfold join_list. cbn [fis_fields filter]. rewrite map_app. split; intros H Hi; apply H; [apply in_or_app; auto|]. apply in_app_or in Hi. destruct Hi as [Hi|Hi]; auto. destruct (fresh G f); [|destruct Hi]. cbn [map In] in Hi. destruct Hi as [E|[]]. congruence. }
    destruct (fresh (join_list G [f]) g), (fresh G g); intuition congruence. }
  rewrite EF. cbn [filter]. destruct (fresh G f); reflexivity.
Qed.
Lemma join_get G fs f : NoDup (map fi_name fs) -> agrees_list G fs -> In f fs -> exists n, fis_get (join_list G fs) (fi_name f) = Some (n, f).
Proof.
  intros HN HA Hf. pose proof HA as HA'. unfold agrees_list in HA'. rewrite Forall_forall in HA'. specialize (HA' f Hf). destruct (fis_get G (fi_name f)) as [(n & g)|] eqn:E.
  - subst g. exists n. eapply fis_get_ext; [apply join_ext|exact E].
  - assert (Hfr : fresh G f = true) by (unfold fresh; rewrite E; reflexivity).
    destruct (fis_get (join_list G fs) (fi_name f)) as [(n & g)|] eqn:E2.
    + exists n. do 2 f_equal. apply fis_get_nth in E2. destruct E2 as [E2 E3]. apply nth_error_In in E2. cbn [join_list fis_fields] in E2. apply in_app_or in E2. destruct E2 as [E2|E2].
      * exfalso. apply fresh_spec in Hfr. apply Hfr. rewrite <- E3. apply in_map. auto.
      * apply filter_In in E2. destruct E2 as [E2 _]. clear -HN Hf E2 E3. induction fs as [|h fs IH]; [destruct Hf|]. cbn [map] in HN. inversion HN as [|? ? N1 N2]; subst. destruct Hf as [->|Hf], E2 as [->|E2]; auto.
        -- exfalso. apply N1. rewrite <- E3. apply in_map. auto.
        -- exfalso. apply N1. rewrite E3. apply in_map. auto.
    + exfalso. unfold fis_get in E2. apply field_at_none in E2. apply E2. cbn [join_list fis_fields]. rewrite map_app. apply in_or_app. right. apply in_map. apply filter_In. auto.
Qed.
Lemma agrees_rest G f fs : NoDup (map fi_name (f :: fs)) -> agrees_list G (f :: fs) -> agrees_list (join_list G [f]) fs.
Proof.
  intros HN HA. inversion HN as [|? ? N1 N2]; subst. inversion HA as [|? ? A1 A2]; subst. unfold agrees_list in *. rewrite Forall_forall in *. intros g Hg. specialize (A2 g Hg).
  destruct (fis_get G (fi_name g)) as [(n & h)|] eqn:E. { rewrite (fis_get_ext _ _ _ _ _ (join_ext G [f]) E). exact A2. }
  destruct (fis_get (join_list G [f]) (fi_name g)) as [(n & h)|] eqn:E2; auto. exfalso. apply fis_get_nth in E2. destruct E2 as [E2 E3]. apply nth_error_In in E2. cbn [join_list fis_fields filter] in E2. apply in_app_or in E2. destruct E2 as [E2|E2].
  - unfold fis_get in E. apply field_at_none in E. apply E. rewrite <- E3. apply in_map. auto.
  - destruct (fresh G f); [|destruct E2]. destruct E2 as [->|[]]. apply N1. rewrite E3. apply in_map. auto.
Qed.
Lemma merge_fields_join fs : forall G j, NoDup (map fi_name fs) -> agrees_list G fs ->
  fst (merge_fields G fs j) = join_list G fs /\ (snd (merge_fields G fs j) = false -> forall i f, nth_error fs i = Some f -> exists g, fis_get (join_list G fs) (fi_name f) = Some ((j + i)%nat, g)).
Proof.
  induction fs as [|f fs IH]; intros G j HN HA.
  - cbn [merge_fields fst snd]. split. { unfold join_list. cbn [filter]. rewrite app_nil_r. symmetry. apply fis_eta. } intros _ i f E. destruct i; discriminate.
  - pose proof (agrees_rest G f fs HN HA) as HA'. inversion HN as [|? ? N1 N2]; subst. inversion HA as [|? ? A1 A2]; subst.
    cbn [merge_fields]. cbv zeta. cbn [fst snd]. rewrite (merge_field_join G f A1). destruct (IH (join_list G [f]) (S j) N2 HA') as [E1 E2]. rewrite E1, (join_cons G f fs HN) in *. split; [reflexivity|].
    intros HD. apply orb_false_iff in HD. destruct HD as [D1 D2]. specialize (E2 D2). intros i g Eg. destruct i as [|i].
    + cbn [nth_error] in Eg. apply some_inj in Eg. subst g. rewrite Nat.add_0_r. destruct (fis_get (join_list G [f]) (fi_name f)) as [(n & h)|] eqn:E; [|discriminate]. apply negb_false_iff in D1. apply Nat.eqb_eq in D1. subst n. exists h. rewrite <- (join_cons G f fs HN). eapply fis_get_ext; [apply join_ext|exact E].
    + cbn [nth_error] in Eg. destruct (E2 i g Eg) as (h & Eh). exists h. rewrite Eh. do 2 f_equal. lia.
Qed.
Lemma sub_join G other : fis_good other -> agrees G other -> sub other (join G other).
Proof.
  intros HG HA. split; auto. intros name m f E. apply fis_get_nth in E. destruct E as [E <-]. apply (join_get G (fis_fields other) f HG HA). eapply nth_error_In; eauto.
Qed.
Lemma sub_ext A B C : sub A B -> ext B C -> sub A C.
Proof. intros (H1 & H2) HE. split; auto. intros name m f E. destruct (H2 name m f E) as (n & En). exists n. eapply fis_get_ext; eauto. Qed.
Lemma ext_sub A B : fis_good A -> ext A B -> sub A B.
Proof. intros HG HE. split; auto. intros name m f E. exists m. eapply fis_get_ext; eauto. Qed.
Lemma ext_keep A B : fis_good A -> ext A B -> keep_nums A B.
Proof. intros HG HE m Hm. unfold ren. destruct (nth_error (fis_fields A) m) as [f|] eqn:E; [|apply nth_error_None in E; lia]. rewrite (fis_get_ext _ _ _ _ _ HE (good_get A m f HG E)). reflexivity. Qed.
Lemma map_ext_F G F other : sub other G -> ext G F -> field_map G (fis_fields other) = field_map F (fis_fields other).
Proof.
  intros HS HE. unfold field_map. apply map_ext_in. intros f Hf. apply In_nth_error in Hf. destruct Hf as (m & Em). pose proof (good_get other m f (proj1 HS) Em) as E. apply (ren_get other G HS) in E. rewrite E, (fis_get_ext _ _ _ _ _ HE E). reflexivity.
Qed.
Lemma joins_ext l : forall G, ext G (fold_left join l G).
Proof. induction l as [|o l IH]; intros G; [apply ext_refl|]. cbn [fold_left]. eapply ext_trans; [|apply IH]. apply (join_ext G (fis_fields o)). Qed.
Lemma fis_good_of ds : forall fis, fis_good fis -> fis_good (fis_of fis ds).
Proof.
  induction ds as [|d ds IH]; intros fis H; [exact H|]. unfold fis_of. cbn [fold_left]. apply IH. unfold add_fields. generalize dependent fis. induction (d_fields d) as [|df l IHl]; intros fis H; [exact H|]. cbn [fold_left]. apply IHl. apply get_or_add_good. exact H.
Qed.

Section ADD.
  Variable ana : list Z -> list Z -> list token.
  Variable norm : field_info -> Z -> dfield -> Z -> Z.
  Variable zip : list Z -> list Z.
  Variable unzip : list Z -> option (list Z).
  Variable fuel : nat.
  Variable cfg : config.
  Variable buf0 : list Z.
  Variable F : field_infos.
  Variable All : list document.
  Notation max := (c_field_length cfg).
  Notation I := (c_interval cfg).
  Notation kn := (c_skip cfg).
  Hypothesis HC : codec zip unzip.
  Hypothesis HI1 : (1 <= I)%nat. Hypothesis HI2 : Z.of_nat I < 2 ^ 31. Hypothesis Hk1 : (1 <= kn)%nat. Hypothesis Hk2 : Z.of_nat kn < 2 ^ 31.
  Hypothesis Hbuf : length buf0 = buf_alloc I.
  Hypothesis Hfis : Z.of_nat (length (fis_fields F)) < 2 ^ 31.
  Hypothesis Hfac : 2 <= c_factor cfg.
  Hypothesis HfA : fit_all ana zip max F All.
  Notation good X := (good ana zip max I X).
  Notation rep X := (rep ana norm zip max I kn X).
  Notation fit_all X := (fit_all ana zip max X).

  Lemma good_ren_back S d : sub S F -> known_doc S d -> good S d -> good F d.
  Proof.
    intros HS HK ((G1 & G2) & G3 & G4 & G5). assert (HG : forall df, In df (d_fields d) -> exists m f, fis_get S (df_name df) = Some (m, f) /\ fis_get F (df_name df) = Some (ren S F m, f)). { intros df Hd. destruct (HK df Hd) as ((m & f) & E). exists m, f. split; auto. apply (ren_get S F HS). auto. }
    unfold IwSeg_Proofs.good, doc_good. splits; auto.
    - rewrite Forall_forall in *. intros df Hd n f E Hi. destruct (HG df Hd) as (m & g & E1 & E2). rewrite E2 in E. apply some_inj in E. inversion E; subst. exact (G2 df Hd _ _ E1 Hi).
    - intros n. destruct (in_image norm max S F n) as [(m & Hm & <-)|Hn].
      + rewrite (occs_ren ana norm max S F HS d m HK Hm). apply G3.
      + rewrite (occs_out ana max S F HS d n HK Hn). constructor.
    - unfold small_zip in *. rewrite Forall_forall in *. intros df Hd. specialize (G4 df Hd). destruct (HG df Hd) as (m & g & E1 & E2). unfold is_stored, is_comp in *. rewrite E1 in G4. rewrite E2. exact G4.
    - unfold doc_fits in *. cbn [fst snd] in *. rewrite (sizes_ren ana max S F HS d HK). exact G5.
  Qed.

  (* a source: the fields, a segment, its documents *)
  Definition src_ok (t : field_infos * wseg * list document) : Prop :=
    let '(o, x, ds) := t in fis_good o /\ rep o (x, ds) /\ Forall (known_doc o) ds /\ Forall (good o) ds /\ i_del (w_in x) = None /\ small_files x.
  Notation pseg := (wseg * list document)%type.
  Definition idle (s : iw) : Prop := match y_dw s with Some (_, w) => x_doc w = O | None => True end.
  Lemma add_segments_ok ts : forall G ps s, Forall src_ok ts -> holds ana norm zip cfg F G ps s -> idle s -> F = fold_left join (map (fun t => fst (fst t)) ts) G -> agree_all G (map (fun t => fst (fst t)) ts) ->
    lesser (flat_map snd ps ++ flat_map snd ts) All ->
    exists s' ps', iw_add_segments true (map fst ts) s = Some s' /\ holds ana norm zip cfg F F (ps ++ ps') s' /\ idle s' /\ flat_map live_in_seg ps' = flat_map snd ts /\ lesser (flat_map snd (ps ++ ps')) All.
  Proof.
    induction ts as [|((S & x) & ds) ts IH]; intros G ps s HT HH HD EF HA HL.
    - cbn [map fold_left] in EF. subst G. exists s, []. cbn [map iw_add_segments flat_map]. rewrite !app_nil_r in *. splits; auto.
    - inversion HT as [|? ? T HT']; subst x0 l. unfold src_ok in T. destruct T as (T1 & T2 & T3 & T4 & T5 & T6). cbn [map fst fold_left agree_all] in EF, HA. destruct HA as [HA1 HA2].
      pose proof (sub_join G S T1 HA1) as HJ. assert (HE2 : ext (join G S) F) by (rewrite EF; apply joins_ext). pose proof (sub_ext _ _ _ HJ HE2) as HS. assert (HE1 : ext G (join G S)) by apply (join_ext G (fis_fields S)).
      pose proof HH as (E1 & E2 & E3 & (E4 & E5 & E6)).
      cbn [map fst iw_add_segments]. unfold iw_add_segment. rewrite E1. destruct (merge_fields_join (fis_fields S) G O T1 HA1) as [M1 M2]. destruct (merge_fields G (fis_fields S) O) as (fis' & differ) eqn:EM. cbn [fst snd] in M1, M2. change (join_list G (fis_fields S)) with (join G S) in *. subst fis'.
      assert (GF : Forall (good F) ds). { rewrite Forall_forall in *. intros d Hd. apply (good_ren_back S d HS); auto. }
      assert (LD : lesser ds All). { eapply lesser_trans; [|exact HL]. intros w. rewrite sum_app. cbn [flat_map snd]. rewrite sum_app. lia. }
      assert (FF : fit_all F ds) by (eapply (fit_less ana norm zip max I kn F HI1 Hk1); eauto).
      destruct (copy_ok ana norm zip unzip max I kn HC HI1 HI2 Hk1 Hk2 S F HS Hfis differ x ds T2 T3 GF FF T5 T6) as (x' & C1 & C2 & C3).
      { intros Ed m Hm. unfold ren. destruct (nth_error (fis_fields S) m) as [f|] eqn:Ef; [|apply nth_error_None in Ef; lia]. destruct (M2 Ed m f Ef) as (g & Eg). rewrite (fis_get_ext _ _ _ _ _ HE2 Eg). reflexivity. }
      rewrite (map_ext_F _ F S HJ HE2), C1. cbn [obind].
      destruct (IH (join G S) (ps ++ [(x', ds)]) (mkIw (join G S) (y_segs s ++ [x']) (y_mbd s) (match y_dw s with Some (cap, w) => Some (cap, mkDw (x_fw w) (join G S) (x_tab w) (x_doc w) (x_offs w)) | None => None end))) as (s' & ps' & I1 & I2 & I3 & I4 & I5); auto.
      + unfold holds. cbn [y_fis y_segs]. rewrite map_app, E2. cbn [map fst]. splits; auto.
        * apply Forall_app. split; auto.
        * unfold docs_ok. rewrite flat_map_app. cbn [flat_map snd]. rewrite app_nil_r. splits.
          -- apply Forall_app. split; auto.
          -- apply Forall_app. split. { eapply Forall_impl; [|exact E5]. intros d. apply known_ext. auto. } eapply Forall_impl; [|exact T3]. intros d. apply known_sub. auto.
          -- eapply (fit_less ana norm zip max I kn F HI1 Hk1); [|exact HfA]. eapply lesser_trans; [|exact HL]. intros w. rewrite !sum_app. cbn [flat_map snd]. rewrite sum_app. lia.
      + unfold idle in *. cbn [y_dw]. destruct (y_dw s) as [(cap & w)|]; auto.
      + rewrite flat_map_app. cbn [flat_map snd]. rewrite app_nil_r, <- app_assoc. exact HL.
      + exists s', ((x', ds) :: ps'). rewrite <- app_assoc in I2, I5. cbn [app] in I2, I5. splits; auto. cbn [flat_map snd]. rewrite I4, (live_clean x' ds C3). reflexivity.
  Qed.
  Lemma lift_holds F0 ps s : fis_good F0 -> ext F0 F -> holds ana norm zip cfg F0 F0 ps s -> lesser (flat_map snd ps) All -> holds ana norm zip cfg F F0 ps s.
  Proof.
    intros HG HE (E1 & E2 & E3 & (E4 & E5 & E6)) HL. pose proof (ext_sub _ _ HG HE) as HS. unfold holds, docs_ok. splits; auto.
    - rewrite Forall_forall in *. intros (x & ds) Hp. destruct (E3 _ Hp) as (fs & HR). cbn [fst snd] in HR. exists (map (refield F0 F) fs). cbn [fst snd]. pose proof HR as ((_ & HO & _) & _ & _ & _ & _ & _ & _ & _ & _ & _ & HN & _).
      eapply (rep_keep ana norm zip max I kn HI1 HI2 Hk1 Hk2 F0 F HS Hfis fs x x ds); eauto. { apply ext_keep; auto. } apply Forall_forall. intros d Hd. apply E5. apply in_flat_map. exists (x, ds). auto.
    - rewrite Forall_forall in *. intros d Hd. apply (good_ren_back F0 d HS); auto.
    - eapply (fit_less ana norm zip max I kn F HI1 Hk1); [|exact HfA]. exact HL.
  Qed.
End ADD.

Section TOP.
  Variable ana : list Z -> list Z -> list token.
  Variable norm : field_info -> Z -> dfield -> Z -> Z.
  Variable zip : list Z -> list Z.
  Variable unzip : list Z -> option (list Z).
  Variable fuel : nat.
  Variable cfg : config.
  Variable buf0 : list Z.
  Notation max := (c_field_length cfg).
  Notation run := (iw_run ana norm zip (S fuel) cfg buf0).
  (* the history of an index: the fields it starts with, max_buffered_docs, what is done *)
  Notation history := (field_infos * nat * list wop)%type.
  Definition h_run (h : history) : option iw := run (iw_open (fst (fst h)) [] (snd (fst h))) (snd h).
  Definition h_fis (h : history) : field_infos := fis_of (fst (fst h)) (added (snd h)).
  Definition h_docs (h : history) : list document := v_docs (view ana cfg (fst (fst h)) (snd (fst h)) (snd h)).
  Definition h_ok (h : history) : Prop :=
    fis_good (fst (fst h)) /\ (1 <= snd (fst h))%nat /\ max_ok (snd (fst h)) None (snd h) /\ log_fits ana max zip (c_interval cfg) (h_fis h) (added (snd h)).
  Definition rd (s : iw) : field_infos * list wseg := (y_fis s, y_segs s).

  Lemma cfg_less n m : (m <= n)%nat -> config_ok cfg buf0 n -> config_ok cfg buf0 m.
  Proof. intros H (C1 & C2 & C3 & C4 & C5 & C6 & C7). unfold config_ok. splits; auto. assert (Z.of_nat m * c_factor cfg <= Z.of_nat n * c_factor cfg) by (apply Z.mul_le_mono_nonneg_r; lia). lia. Qed.
  Lemma h_J h s : h_ok h -> config_ok cfg buf0 (length (added (snd h))) -> h_run h = Some s ->
    J ana norm zip cfg (h_fis h) s (view ana cfg (fst (fst h)) (snd (fst h)) (snd h)) (added (snd h)) /\ y_fis s = h_fis h.
  Proof.
    intros (H1 & H2 & H3 & HL) HC E. pose proof HC as (C1 & C2 & C3 & C4 & C5 & C6 & C7). pose proof HL as (L1 & L2 & L3 & L4 & L5). unfold h_fis in *. set (F := fis_of (fst (fst h)) (added (snd h))) in *.
    destruct (run_ok ana norm zip fuel cfg buf0 F (added (snd h)) C1 C2 C3 C4 C7 L3 C5 C6 (fit_of _ _ _ _ _ HL) (snd h) (iw_open (fst (fst h)) [] (snd (fst h))) (mkVis (fst (fst h)) [] [] (snd (fst h))) []) as (s' & R1 & R2 & R3); auto.
    - apply J_init; auto. apply fis_ext.
    - apply lesser_refl.
    - unfold h_run in E. rewrite R1 in E. apply some_inj in E. subst s'. cbn [app] in R2. auto.
  Qed.
  (* what a source gives *)
  Lemma source_ok h s : h_ok h -> config_ok cfg buf0 (length (added (snd h))) -> h_run h = Some s -> Forall (fun x => i_del (w_in x) = None /\ small_files x) (y_segs s) ->
    exists ts, map fst ts = map (fun x => (y_fis s, x)) (y_segs s) /\ Forall (src_ok ana norm zip cfg) ts /\ flat_map snd ts = h_docs h /\ lesser (flat_map snd ts) (added (snd h)).
  Proof.
    intros HO HC E HX. pose proof HO as (O1 & O2 & O3 & O4). destruct (h_J h s HO HC E) as [(_ & _ & _ & _ & _ & _ & _ & ps & (E1 & E2 & E3 & (E4 & E5 & E6)) & J9 & J10) EF].
    exists (map (fun p : wseg * list document => (y_fis s, fst p, snd p)) ps). rewrite E2, !map_map, flat_map_map. cbn [fst snd].
    assert (HG : fis_good (y_fis s)) by (rewrite EF; apply fis_good_of; auto).
    assert (HLv : flat_map live_in_seg ps = flat_map snd ps). { apply flat_map_ext'. intros (x & ds) Hp. rewrite live_clean; [reflexivity|]. rewrite Forall_forall in HX. apply HX. rewrite E2. apply (in_map fst) in Hp. exact Hp. }
    splits; auto.
    - apply Forall_map. rewrite Forall_forall in *. intros (x & ds) Hp. unfold src_ok. cbn [fst snd].
      assert (Hin : forall d, In d ds -> In d (flat_map snd ps)) by (intros d Hd; apply in_flat_map; exists (x, ds); auto).
      destruct (HX x) as [X1 X2]. { rewrite E2. apply (in_map fst) in Hp. exact Hp. } splits; auto.
      + rewrite EF. apply (E3 (x, ds) Hp).
      + apply Forall_forall. auto.
      + apply Forall_forall. rewrite EF. auto.
    - unfold h_docs. rewrite J9, HLv. reflexivity.
    - eapply lesser_trans; [|exact J10]. intros w. rewrite sum_app. apply Nat.le_add_r.
  Qed.
  Lemma sources_ok hs ss : Forall2 (fun h s => h_run h = Some s) hs ss -> Forall h_ok hs -> config_ok cfg buf0 (length (flat_map (fun h : history => added (snd h)) hs)) -> Forall (fun x => i_del (w_in (snd x)) = None /\ small_files (snd x)) (segments_of (map rd ss)) ->
    exists ts, map fst ts = segments_of (map rd ss) /\ Forall (src_ok ana norm zip cfg) ts /\ flat_map snd ts = flat_map h_docs hs /\ lesser (flat_map snd ts) (flat_map (fun h : history => added (snd h)) hs).
  Proof.
    induction 1 as [|h s hs ss H1 H2 IH]; intros HO HC HX; [exists []; splits; [reflexivity|constructor|reflexivity|apply lesser_refl]|].
    inversion HO as [|? ? O1 O2]; subst. cbn [map flat_map] in *. rewrite app_length in HC. unfold segments_of in *. cbn [flat_map rd fst snd] in *. apply Forall_app in HX. destruct HX as [X1 X2].
    destruct (source_ok h s O1 (cfg_less _ _ (Nat.le_add_r _ _) HC) H1) as (ta & A1 & A2 & A3 & A4). { apply Forall_map in X1. exact X1. }
    destruct (IH O2 (cfg_less _ _ (Nat.le_add_l _ _) HC) X2) as (tb & B1 & B2 & B3 & B4).
    exists (ta ++ tb). rewrite map_app, flat_map_app, A1, B1, A3, B3. splits; auto. - apply Forall_app. auto. - rewrite <- A3, <- B3. apply lesser_app; auto.
  Qed.

  Theorem add_readers_ok h s hs ss :
    let rs := map rd ss in
    let F := fold_left join (map fst (segments_of rs)) (h_fis h) in
    let docs := added (snd h) ++ flat_map (fun h : history => added (snd h)) hs in
    config_ok cfg buf0 (length docs) -> codec zip unzip -> h_ok h -> Forall h_ok hs -> log_fits ana max zip (c_interval cfg) F docs ->
    h_run h = Some s -> Forall2 (fun h s => h_run h = Some s) hs ss ->
    Forall (fun x => i_del (w_in (snd x)) = None /\ small_files (snd x)) (segments_of rs) -> agree_all (h_fis h) (map fst (segments_of rs)) ->
    exists s', iw_add_readers true cfg buf0 rs s = Some s' /\ y_fis s' = F /\ (length (y_segs s') <= 1)%nat /\ Forall (fun x => i_del (w_in x) = None) (y_segs s') /\
      shows ana norm unzip fuel max F (c_skip cfg) (y_segs s') (log ana max (h_fis h) (snd h) ++ flat_map h_docs hs).
  Proof.
    intros rs F docs HCfg HC HO HOs HL HR HRs HX HA. unfold docs in HCfg. rewrite app_length in HCfg. pose proof (cfg_less _ _ (Nat.le_add_r _ _) HCfg) as HCf1. pose proof (cfg_less _ _ (Nat.le_add_l _ _) HCfg) as HCf2.
    pose proof HCf1 as (C1 & C2 & C3 & C4 & C5 & C6 & C7). pose proof HO as (O1 & O2 & O3 & O4). pose proof O4 as (_ & _ & K3 & _). pose proof HL as (L1 & L2 & L3 & L4 & L5).
    destruct (h_J h s HO HCf1 HR) as [HJ EF]. set (F0 := h_fis h) in *.
    destruct (optimize_step ana norm zip cfg buf0 F0 (added (snd h)) C1 C2 C3 C4 C7 K3 C5 C6 (fit_of _ _ _ _ _ O4) s _ _ HJ (lesser_refl _)) as (s1 & P1 & (J1 & J2 & J3 & J4 & J5 & J6 & J7 & ps & J8 & J9 & J10) & P3 & P4 & P5).
    cbn [v_commit v_docs v_wait v_fis v_max] in *. rewrite app_nil_r in J10.
    destruct (sources_ok hs ss HRs HOs HCf2 HX) as (ts & T1 & T2 & T3 & T4).
    assert (ES : map (fun t : field_infos * wseg * list document => fst (fst t)) ts = map fst (segments_of rs)) by (unfold rs; rewrite <- T1, map_map; reflexivity).
    assert (HE0 : ext F0 F) by apply joins_ext. assert (HG0 : fis_good F0) by (apply fis_good_of; auto).
    assert (E1 : y_fis s1 = F0). { rewrite <- J1. destruct HJ as (W & _). rewrite W. exact EF. }
    assert (HD : lesser (flat_map snd ps ++ flat_map snd ts) docs) by (apply lesser_app; auto).
    assert (HH : holds ana norm zip cfg F F0 ps s1).
    { eapply lift_holds with (All := docs); eauto. - apply fit_of. exact HL. - rewrite E1 in J8. exact J8. - eapply lesser_trans; [|exact HD]. intros w. rewrite sum_app. lia. }
    assert (HI : idle s1). { unfold idle, pend in *. destruct (y_dw s1) as [(cap & w)|]; auto. destruct J5 as ((_ & Ew & _) & _). exact Ew. }
    destruct (add_segments_ok ana norm zip unzip fuel cfg buf0 F docs HC C1 C2 C3 C4 C7 L3 (fit_of _ _ _ _ _ HL) ts F0 ps s1 T2 HH HI) as (s2 & ps' & S1 & S2 & S3 & S4 & S5); auto; try (rewrite ES; auto; fail).
    rewrite T1 in S1. fold rs in S1.
    destruct (optimize_ok ana norm zip cfg buf0 F C1 C2 C3 C4 C7 L3 C5 F (ext_refl F) (S (length (y_segs s2))) s2 (ps ++ ps') (Nat.lt_succ_diag_r _) S2) as (s3 & ps3 & Q1 & Q2 & (Q3 & Q4 & Q5) & (Q6 & Q7) & (Q8 & Q9)).
    exists s3. unfold iw_add_readers. rewrite P1. cbn [obind]. rewrite S1. cbn [obind]. unfold iw_optimize at 1. assert (ECm : iw_commit cfg buf0 s2 = Some s2). { unfold iw_commit. unfold idle in S3. destruct (y_dw s2) as [(cap & w)|]; auto. rewrite S3. reflexivity. }
    rewrite ECm. cbn [obind]. rewrite Q1. pose proof Q2 as (R1 & R2 & R3 & (R4 & R5 & R6)). splits; auto.
    - eapply Forall_impl; [|exact Q9]. cbv beta. intros x Hx. unfold unclean in Hx. destruct (i_del (w_in x)); [discriminate|reflexivity].
    - exists ps3. splits; auto.
      + rewrite Forall_forall in *. intros (x & ds) Hp. cbn [fst snd]. assert (Hin : forall d, In d ds -> In d (flat_map snd ps3)) by (intros d Hd; apply in_flat_map; exists (x, ds); auto).
        eapply rep_reads; eauto; try (apply Forall_forall); auto. eapply (fit_less ana norm zip max (c_interval cfg) (c_skip cfg) F C1 C3); [|exact R6]. apply (lesser_part snd) in Hp. exact Hp.
      + change (log ana max F0 (snd h) ++ flat_map h_docs hs = flat_map live_in_seg ps3). rewrite Q6, flat_map_app, <- J9, S4, T3. f_equal. symmetry. apply view_is_log.
  Qed.
End TOP.
