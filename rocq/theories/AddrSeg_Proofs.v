(* A segment copied into an index with more fields holds the same documents. *)
From Verif Require Import Util Codec_Model Codec_Spec Codec_Proofs Strcmp Seg_Model SegCodec_Proofs Dict_Model Dict_Spec DictCodec_Proofs Dict_Proofs Token_Model Post_Model Post_Spec PostRun_Proofs Mte_Spec MergeTerms_Proofs Merge_Model Merge_Spec Merge_Proofs MergeDocs_Proofs Fields_Model Fields_Spec Fields_Proofs FieldsRead_Proofs Invert_Model Invert_Spec Invert_Proofs InvertDoc_Proofs InvertIndex_Proofs InvertTop_Proofs Iw_Model Iw_Spec IwExt_Proofs IwSeg_Proofs Addr_Model Addr_Spec AddrRen_Proofs AddrFile_Proofs.
Open Scope Z_scope.

Lemma find_app_ {A} (p : A -> bool) a b : find p (a ++ b) = match find p a with Some x => Some x | None => find p b end.
Proof. induction a as [|y a IH]; [reflexivity|]. cbn [app find]. destruct (p y); auto. Qed.
Lemma find_inj {A} (r : A -> nat) (h : A -> list (nat * list Z)) x l : (forall k p, In k l -> In p (h k) -> fst p = r k) -> (forall k, In k l -> r k = r x -> k = x) ->
  In x l -> find (fun p : nat * list Z => (fst p =? r x)%nat) (flat_map h l) = find (fun p : nat * list Z => (fst p =? r x)%nat) (h x).
Proof.
  induction l as [|k l IH]; intros H1 H2 Hx; [destruct Hx|]. cbn [flat_map]. rewrite find_app_.
  assert (H1' : forall k p, In k l -> In p (h k) -> fst p = r k) by (intros; apply H1; auto; right; auto).
  assert (H2' : forall k, In k l -> r k = r x -> k = x) by (intros; apply H2; auto; right; auto).
  destruct (Nat.eq_dec (r k) (r x)) as [E|E].
  - apply H2 in E; [|left; auto]. subst k. destruct (find _ (h x)) eqn:F; [reflexivity|].
    destruct (find (fun p : nat * list Z => (fst p =? r x)%nat) (flat_map h l)) as [p|] eqn:F2; [|reflexivity]. exfalso. apply find_some in F2. destruct F2 as [F2 F3]. apply in_flat_map in F2. destruct F2 as (y & Hy & Hp). pose proof (H1' y p Hy Hp) as E. apply Nat.eqb_eq in F3. rewrite E in F3. apply H2' in F3; auto. subst y.
    apply find_none with (x := p) in F; auto. apply Nat.eqb_neq in F. auto.
  - rewrite find_filter_none. { apply IH; auto. destruct Hx as [->|Hx]; [congruence|auto]. } intros p Hp. apply Nat.eqb_neq. rewrite (H1 k p (or_introl eq_refl) Hp). exact E.
Qed.
Lemma in_numbered {A} (l : list A) k x : forall j, In (k, x) (combine (seq j (length l)) l) <-> (j <= k)%nat /\ nth_error l (k - j) = Some x.
Proof.
  induction l as [|y l IH]; intros j. { cbn [length seq combine In]. split; [tauto|]. intros [_ H]. destruct (k - j)%nat; discriminate. }
  cbn [length seq combine In]. rewrite IH. split.
  - intros [E|[H1 H2]]. { inversion E; subst. split; auto. rewrite Nat.sub_diag. reflexivity. } split; [lia|]. replace (k - j)%nat with (S (k - S j)) by lia. exact H2.
  - intros [H1 H2]. destruct (Nat.eq_dec j k) as [->|Hne].
    + left. rewrite Nat.sub_diag in H2. cbn [nth_error] in H2. apply some_inj in H2. subst. reflexivity.
    + right. split; [lia|]. replace (k - j)%nat with (S (k - S j)) in H2 by lia. exact H2.
Qed.

Section COPY.
  Variable ana : list Z -> list Z -> list token.
  Variable norm : field_info -> Z -> dfield -> Z -> Z.
  Variable zip : list Z -> list Z.
  Variable unzip : list Z -> option (list Z).
  Variable max : Z.
  Variables I kn : nat.
  Hypothesis HC : codec zip unzip.
  Hypothesis HI1 : (1 <= I)%nat. Hypothesis HI2 : Z.of_nat I < 2 ^ 31. Hypothesis Hk1 : (1 <= kn)%nat. Hypothesis Hk2 : Z.of_nat kn < 2 ^ 31.
  Variables S F : field_infos.
  Hypothesis HS : sub S F.
  Hypothesis HNF : Z.of_nat (length (fis_fields F)) < 2 ^ 31.
  Notation ren := (ren S F).
  Notation len := (length (fis_fields S)).
  Notation rep X := (rep ana norm zip max I kn X).
  Notation good X := (good ana zip max I X).
  Notation fit_all X := (fit_all ana zip max X).

  Lemma len_le : (len <= length (fis_fields F))%nat.
  Proof.
    assert (NoDup (map ren (seq 0 len))). { assert (G : forall l, NoDup l -> (forall a, In a l -> (a < len)%nat) -> NoDup (map ren l)).
      { clear -HS norm max. induction 1 as [|a l N1 N2 IH]; intros Hl; [constructor|]. cbn [map]. constructor; [|apply IH; intros; apply Hl; right; auto]. intros Hi. apply in_map_iff in Hi. destruct Hi as (b & E & Hb). apply (ren_inj norm max S F HS) in E; [subst; auto|apply Hl; right; auto|apply Hl; left; auto]. }
      apply G; [apply seq_NoDup|]. intros a Ha. apply in_seq in Ha. lia. }
    assert (HI : incl (map ren (seq 0 len)) (seq 0 (length (fis_fields F)))). { intros y Hy. apply in_map_iff in Hy. destruct Hy as (m & <- & Hm). apply in_seq in Hm. apply in_seq. pose proof (ren_lt norm max S F HS m ltac:(lia)). lia. }
    pose proof (NoDup_incl_length H HI) as HL. rewrite map_length, !seq_length in HL. exact HL.
  Qed.
  Lemma HNS : Z.of_nat len < 2 ^ 31.
  Proof. pose proof len_le. lia. Qed.

  (* sizes *)
  Lemma sizes_ren d : known_doc S d -> tvs_size (vectors ana max F d) = tvs_size (vectors ana max S d).
  Proof. intros HK. rewrite (vectors_ren ana max S F HS d HK). generalize (vectors ana max S d) as l. induction l as [|t l IH]; [reflexivity|]. cbn [map tvs_size fold_right] in *. fold (tvs_size l) in *. fold (tvs_size (map (retv S F) l)) in *. rewrite IH. reflexivity. Qed.
  Lemma good_ren d : known_doc S d -> good F d -> good S d.
  Proof.
    intros HK ((G1 & G2) & G3 & G4 & G5). assert (HG : forall df, In df (d_fields d) -> exists m f, fis_get S (df_name df) = Some (m, f) /\ fis_get F (df_name df) = Some (ren m, f)). { intros df Hd. destruct (HK df Hd) as ((m & f) & E). exists m, f. split; auto. apply (ren_get S F HS). auto. }
    unfold IwSeg_Proofs.good, doc_good. splits; auto.
    - rewrite Forall_forall in *. intros df Hd n f E Hi. destruct (HG df Hd) as (m & g & E1 & E2). rewrite E1 in E. apply some_inj in E. inversion E; subst. exact (G2 df Hd _ _ E2 Hi).
    - intros n. destruct (Nat.ltb_spec n len) as [Hn|Hn].
      + specialize (G3 (ren n)). rewrite (occs_ren ana norm max S F HS d n HK Hn) in G3. exact G3.
      + unfold occs_in. rewrite (proj2 (nth_error_None _ _) Hn). destruct (field_of S n d); constructor.
    - unfold small_zip in *. rewrite Forall_forall in *. intros df Hd. specialize (G4 df Hd). destruct (HG df Hd) as (m & g & E1 & E2). unfold is_stored, is_comp in *. rewrite E2 in G4. rewrite E1. exact G4.
    - unfold doc_fits in *. cbn [fst snd] in *. rewrite <- (sizes_ren d HK). exact G5.
  Qed.
  Lemma occ_ren ds : Forall (known_doc S) ds -> occ_count ana max F ds = occ_count ana max S ds.
  Proof.
    intros HK. unfold occ_count. f_equal. apply flat_map_ext'. intros d Hd. apply flat_map_ext'. intros df Hf. rewrite Forall_forall in HK. destruct (HK d Hd df Hf) as ((m & f) & E). rewrite E, (ren_get S F HS _ _ _ E). reflexivity.
  Qed.
  Lemma fit_ren ds : Forall (known_doc S) ds -> Forall (good S) ds -> fit_all F ds -> fit_all S ds.
  Proof.
    intros HK HG (H1 & H2 & H3). unfold IwSeg_Proofs.fit_all. splits; auto. { rewrite <- occ_ren; auto. }
    rewrite (fdt_sum ana zip max S ds). assert (HL : Z.of_nat (sum (fun d => length (fst (rec_of zip S (d, vectors ana max S d)))) ds) <= 2 ^ 31 * Z.of_nat (length ds)).
    { clear H1 H2 H3. induction ds as [|d ds IH]; [cbn; lia|]. inversion HK as [|? ? K1 K2]; subst. inversion HG as [|? ? G1 G2]; subst. specialize (IH K2 G2). rewrite sum_cons.
      destruct (rec_size zip S (d, vectors ana max S d)) as [HR _]. - apply (good_xok ana zip max I S); auto. - destruct G1 as (_ & _ & _ & G). exact G. - cbn [length]. lia. }
    assert (2 ^ 31 * Z.of_nat (length ds) < 2 ^ 31 * 2 ^ 31) by (apply Z.mul_lt_mono_pos_l; lia). lia.
  Qed.
  Lemma doks ds : Forall (known_doc S) ds -> Forall (good S) ds -> Forall (dok ana zip max S) ds.
  Proof. intros HK HG. rewrite Forall_forall in *. intros d Hd. unfold dok. splits; auto. - apply (good_xok ana zip max I S); auto. - destruct (HG d Hd) as (_ & _ & _ & G). exact G. Qed.

  (* what the renumbered postings are *)
  Lemma repf_move fs x x' ds : repf ana norm zip max I kn S fs x ds -> Forall (known_doc S) ds -> i_del (w_in x') = i_del (w_in x) -> i_max (w_in x') = i_max (w_in x) ->
    dw_flush (Z.of_nat I) (Z.of_nat kn) (map (refield S F) fs) = Some (i_seg (w_in x')) -> sfi_open (g_dict (i_seg (w_in x'))) = Some (i_sfi (w_in x')) ->
    w_fdt x' = fdt_of (recs ana zip max F ds) -> w_fdx x' = fdx_of O (recs ana zip max F ds) ->
    (forall m f, nth_error (fis_fields S) m = Some f -> fi_has_norms f = true -> norm_file (ren m) x' = norm_file m x) ->
    (forall n, (forall m, (m < len)%nat -> ren m <> n) -> norm_file n x' = None) ->
    repf ana norm zip max I kn F (map (refield S F) fs) x' ds.
  Proof.
    intros (H1 & (H2 & H2') & H3 & H4 & H5 & H6 & H7 & H8 & H9 & H10 & H11 & H12) HK Ed Em EW ES E1 E2 EN1 EN2. cbv zeta in *. cbn [s_fs s_max s_del] in *.
    pose proof (inv_ok_ren ana norm zip max S F HS fs HNF H10 H2) as Hi.
    destruct (post_run I kn _ HI1 HI2 Hk1 Hk2 Hi) as (g & sf & P1 & P2 & P3). rewrite EW in P1. apply some_inj in P1. subst g. rewrite ES in P2. apply some_inj in P2. subst sf.
    destruct H1 as (_ & _ & HM & _). cbn [s_max] in HM.
    unfold repf. cbv zeta. splits; auto.
    - unfold lays. cbn [s_fs s_max s_del]. splits; auto; [|congruence]. exists I, kn. splits; auto.
    - unfold mseg_ok. cbn [s_fs s_max]. split; auto. apply Forall_map. exact H2'.
    - unfold short in *. cbn [s_fs] in *. apply Forall_map. exact H3.
    - intros n t. destruct (in_image norm max S F n) as [(m & Hm & <-)|Hn].
      + rewrite (postings_ren norm max S F HS fs m t H10 Hm), H4. symmetry. apply (posts_ren ana norm); auto.
      + rewrite (postings_out ana norm zip S F fs n t H10 Hn). symmetry. apply posts_out with S; auto.
    - intros n f Ef Hf. destruct (in_image norm max S F n) as [(m & Hm & <-)|Hn].
      + destruct (ren_nth norm max S F HS m Hm) as (f' & A1 & A2 & _). rewrite Ef in A2. apply some_inj in A2. subst f'. rewrite (EN1 m f A1 Hf). specialize (H8 m f A1 Hf). destruct (norm_file m x) as [l|].
        * rewrite H8. apply map_ext_in. intros d Hd. symmetry. apply (norm_ren ana norm max S F HS); auto. rewrite Forall_forall in HK. auto.
        * rewrite Forall_forall in *. intros d Hd. rewrite (has_field_ren norm max S F HS); auto.
      + rewrite (EN2 n Hn). rewrite Forall_forall in *. intros d Hd. apply has_field_none with S; auto.
    - apply Forall_map. eapply Forall_impl; [|exact H10]. cbv beta. intros f Hf. unfold refield. cbn [fst]. pose proof (ren_lt norm max S F HS (Z.to_nat (fst f)) ltac:(lia)). lia.
    - intros n Hn. apply EN2. intros m Hm E. pose proof (ren_lt norm max S F HS m Hm). lia.
    - apply Forall_map. exact H12.
  Qed.

  (* the numbers of the fields stay *)
  Definition keep_nums : Prop := forall m, (m < len)%nat -> ren m = m.
  Lemma refield_keep fs : keep_nums -> Forall (fun f => 0 <= fst f < Z.of_nat len) fs -> map (refield S F) fs = fs.
  Proof. intros HK. induction 1 as [|f fs H1 H2 IH]; [reflexivity|]. cbn [map]. rewrite IH. f_equal. unfold refield. rewrite HK by lia. rewrite Z2Nat.id by lia. destruct f; reflexivity. Qed.
  Lemma retv_keep d : keep_nums -> known_doc S d -> vectors ana max F d = vectors ana max S d.
  Proof.
    intros HK Hd. rewrite (vectors_ren ana max S F HS d Hd). rewrite <- (map_id (vectors ana max S d)) at 2. apply map_ext_in. intros t Ht. unfold retv. rewrite HK by (eapply vectors_in; eauto). destruct t as [[a b] c]. reflexivity.
  Qed.
  Lemma rec_keep d : keep_nums -> known_doc S d -> rec_of zip F (d, vectors ana max F d) = rec_of zip S (d, vectors ana max S d).
  Proof.
    intros HK Hd. pose proof (tvs_ren ana norm max S F HS d Hd) as ET. pose proof (stored_ren zip S F HS d Hd) as EF.
    assert (ES : sb zip F d = sb zip S d).
    { unfold sb. cbv zeta. rewrite EF. f_equal. f_equal; f_equal; apply map_ext_in; intros df Hf; apply filter_In in Hf; destruct Hf as [Hf _].
      - destruct (Hd df Hf) as ((m & f) & E). unfold hb. rewrite E, (ren_get S F HS _ _ _ E). apply fis_get_nth in E. destruct E as [E _]. rewrite HK; [reflexivity|apply nth_error_Some; congruence].
      - apply (hb_ren zip S F HS df). auto. }
    assert (EI : ib F (vectors ana max F d) = ib S (vectors ana max S d)).
    { rewrite (retv_keep d HK Hd). unfold ib. do 4 f_equal. apply map_ext_in. intros t Ht. unfold ixe. f_equal. f_equal. f_equal. pose proof (vectors_in ana max S d t Hd Ht) as Hl. rewrite <- (tvf_ren norm max S F HS t Hl). unfold retv. rewrite HK by auto. destruct t as [[a b] c]. reflexivity. }
    unfold rec_of. cbn [fst snd]. rewrite ES, EI, ET. reflexivity.
  Qed.
  Lemma recs_keep ds : keep_nums -> Forall (known_doc S) ds -> recs ana zip max F ds = recs ana zip max S ds.
  Proof. intros HK Hd. unfold recs, with_vectors. rewrite !map_map. apply map_ext_in. intros d Hi. rewrite Forall_forall in Hd. apply rec_keep; auto. Qed.
  Lemma rep_keep fs x x' ds : keep_nums -> repf ana norm zip max I kn S fs x ds -> Forall (known_doc S) ds -> i_del (w_in x') = i_del (w_in x) -> i_max (w_in x') = i_max (w_in x) ->
    i_seg (w_in x') = i_seg (w_in x) -> sfi_open (g_dict (i_seg (w_in x'))) = Some (i_sfi (w_in x')) -> w_fdt x' = w_fdt x -> w_fdx x' = w_fdx x ->
    (forall m f, nth_error (fis_fields S) m = Some f -> fi_has_norms f = true -> norm_file m x' = norm_file m x) -> (forall n, (len <= n)%nat -> norm_file n x' = None) ->
    repf ana norm zip max I kn F (map (refield S F) fs) x' ds.
  Proof.
    intros HK HR Hd D1 D2 D3 D4 D5 D6 D7 D8. pose proof HR as (_ & _ & _ & _ & _ & H6 & H7 & _ & H9 & H10 & _).
    eapply repf_move; eauto.
    - rewrite (refield_keep fs HK H10), D3. exact H9.
    - rewrite D5, (recs_keep ds HK Hd). exact H6.
    - rewrite D6, (recs_keep ds HK Hd). exact H7.
    - intros m f E Hf. rewrite HK; eauto. apply nth_error_Some. congruence.
    - intros n Hn. apply D8. destruct (Nat.leb_spec len n); auto. exfalso. apply (Hn n); auto.
  Qed.

  (* ---------- copying *)
  Lemma norms_small x n : small_files x -> match norm_file n x with Some b => cp_file b = b | None => True end.
  Proof.
    intros HF. unfold norm_file. destruct (find _ (w_norms x)) as [p|] eqn:E; [|exact Logic.I]. apply find_some in E. destruct E as [E _]. apply cp_file_small. unfold small_files in HF. cbv zeta in HF. apply Forall_app in HF. destruct HF as [_ HF]. rewrite Forall_forall in HF. apply HF. apply in_map. exact E.
  Qed.
  Lemma cp_norms_ok mp (r : nat -> nat) x : small_files x -> (forall m, (m < len)%nat -> match mp with Some l => nth_error l m = Some (Z.of_nat (r m)) | None => r m = m end) ->
    (forall a b, (a < len)%nat -> (b < len)%nat -> r a = r b -> a = b) ->
    (forall m f, nth_error (fis_fields S) m = Some f -> fi_has_norms f = true -> match find (fun p : nat * list Z => (fst p =? r m)%nat) (cp_norms mp (fis_fields S) x) with Some p => Some (snd p) | None => None end = norm_file m x) /\
    (forall n, (forall m, (m < len)%nat -> r m <> n) -> find (fun p : nat * list Z => (fst p =? n)%nat) (cp_norms mp (fis_fields S) x) = None).
  Proof.
    intros HF Hr Hinj. set (h := fun p : nat * field_info => if fi_has_norms (snd p) then match norm_file (fst p) x with Some b => [(match mp with Some m => match nth_error m (fst p) with Some k => Z.to_nat k | None => O end | None => fst p end, cp_file b)] | None => [] end else []).
    assert (EH : forall k f, (k < len)%nat -> h (k, f) = if fi_has_norms f then match norm_file k x with Some b => [(r k, b)] | None => [] end else []).
    { intros k f Hk. unfold h. cbn [fst snd]. destruct (fi_has_norms f); [|reflexivity]. pose proof (norms_small x k HF) as HN. destruct (norm_file k x) as [b|]; [|reflexivity]. rewrite HN. do 2 f_equal. specialize (Hr k Hk). destruct mp as [l|]; [rewrite Hr; apply Nat2Z.id|auto]. }
    assert (HIN : forall k f, In (k, f) (combine (seq 0 len) (fis_fields S)) -> (k < len)%nat /\ nth_error (fis_fields S) k = Some f).
    { intros k f Hi. apply in_numbered in Hi. destruct Hi as [_ Hi]. rewrite Nat.sub_0_r in Hi. split; auto. apply nth_error_Some. congruence. }
    split.
    - intros m f E Hf. change (cp_norms mp (fis_fields S) x) with (flat_map h (combine (seq 0 len) (fis_fields S))).
      assert (Hm : (m < len)%nat) by (apply nth_error_Some; congruence).
      rewrite (find_inj (fun q : nat * field_info => r (fst q)) h (m, f)).
      + rewrite EH by auto. rewrite Hf. cbn [fst]. destruct (norm_file m x); cbn [find fst snd]; rewrite ?Nat.eqb_refl; reflexivity.
      + intros (k & g) p Hk Hp. destruct (HIN k g Hk) as [Hk1' _]. rewrite EH in Hp by auto. cbn [fst]. destruct (fi_has_norms g); [|destruct Hp]. destruct (norm_file k x); [|destruct Hp]. destruct Hp as [<-|[]]. reflexivity.
      + intros (k & g) Hk Er. destruct (HIN k g Hk) as [Hk1' Hk2']. cbn [fst] in Er. apply Hinj in Er; auto. subst k. rewrite E in Hk2'. apply some_inj in Hk2'. congruence.
      + apply in_numbered. rewrite Nat.sub_0_r. split; auto. lia.
    - intros n Hn. change (cp_norms mp (fis_fields S) x) with (flat_map h (combine (seq 0 len) (fis_fields S))). apply find_filter_none. intros p Hp. apply in_flat_map in Hp. destruct Hp as ((k & g) & Hk & Hp). destruct (HIN k g Hk) as [Hk1' _]. rewrite EH in Hp by auto.
      destruct (fi_has_norms g); [|destruct Hp]. destruct (norm_file k x); [|destruct Hp]. destruct Hp as [<-|[]]. cbn [fst]. apply Nat.eqb_neq. apply Hn. auto.
  Qed.
  Lemma small_parts x : small_files x -> let g := i_seg (w_in x) in cp_file (g_frq g) = g_frq g /\ cp_file (g_prx g) = g_prx g /\ cp_file (f_tis (g_dict g)) = f_tis (g_dict g) /\ cp_file (f_tix (g_dict g)) = f_tix (g_dict g) /\
    cp_file (f_tfx (g_dict g)) = f_tfx (g_dict g) /\ cp_file (w_fdt x) = w_fdt x /\ cp_file (w_fdx x) = w_fdx x.
  Proof.
    unfold small_files. cbv zeta. intros H. apply Forall_app in H. destruct H as [H _]. rewrite Forall_forall in H. splits; apply cp_file_small; apply H; cbn [In]; tauto.
  Qed.
  Lemma copy_ok differ x ds : rep S (x, ds) -> Forall (known_doc S) ds -> Forall (good F) ds -> fit_all F ds -> i_del (w_in x) = None -> small_files x -> (differ = false -> keep_nums) ->
    exists x', cp_segment true (if differ then Some (field_map F (fis_fields S)) else None) (fis_fields S) x = Some x' /\ rep F (x', ds) /\ i_del (w_in x') = None.
  Proof.
    intros (fs & HR) HK HG HFit Hdel HSm Hdif. cbn [fst snd] in HR. pose proof HR as (H1 & (H2 & _) & _ & _ & _ & H6 & H7 & _ & H9 & H10 & _). cbn [s_fs] in H2.
    assert (HG' : Forall (good S) ds). { rewrite Forall_forall in *. intros d Hd. apply good_ren; auto. }
    pose proof (fit_ren ds HK HG' HFit) as (_ & _ & HL). pose proof (small_parts x HSm) as (C1 & C2 & C3 & C4 & C5 & C6 & C7). cbv zeta in *.
    pose proof (rep_max _ _ _ _ _ _ _ _ _ _ HR) as HM. unfold cp_segment, cp_fields, cp_terms. destruct differ.
    - rewrite HM, H6, H7. unfold recs, with_vectors in HL |- *. rewrite map_map in HL |- *.
      pose proof (cp_docs_ok ana zip unzip HC norm max S F HS HNS ds (doks ds HK HG') [] O [] [] eq_refl) as ED. cbn [length app Nat.add] in ED. rewrite ED by exact HL. clear ED. cbn [obind fst snd].
      destruct (flush_ren ana zip norm max S F HS HNF I kn HI1 HI2 Hk1 Hk2 fs _ H2 H10 H9) as (t & T1 & T2). rewrite T1. cbn [obind]. rewrite C1, C2, C3, C4. cbn [g_dict].
      pose proof (inv_ok_ren ana norm zip max S F HS fs HNF H10 H2) as Hi. destruct (post_run I kn _ HI1 HI2 Hk1 Hk2 Hi) as (g & sf & P1 & P2 & _). rewrite T2 in P1. apply some_inj in P1. subst g. cbn [g_dict] in P2. rewrite P2. cbn [obind].
      eexists. split; [reflexivity|]. split; [|reflexivity].
      destruct (cp_norms_ok (Some (field_map F (fis_fields S))) ren x HSm) as [N1 N2].
      { intros m Hm. destruct (ren_nth norm max S F HS m Hm) as (f & E1 & _ & _ & E4). rewrite (field_map_nth _ _ _ _ E1), E4. reflexivity. } { intros a b. apply (ren_inj norm max S F HS). }
      exists (map (refield S F) fs). cbn [fst snd]. eapply repf_move with (x := x); eauto; cbn [w_in i_seg i_sfi i_del i_max w_fdt w_fdx w_norms]; auto.
      + unfold recs, with_vectors. rewrite map_map. reflexivity.
      + unfold recs, with_vectors. rewrite map_map. reflexivity.
      + intros n Hn. unfold norm_file. cbn [w_norms]. rewrite (N2 n Hn). reflexivity.
    - specialize (Hdif eq_refl). cbn [obind fst snd]. rewrite C1, C2, C3, C4, C5, C6, C7. cbn [g_dict].
      destruct H1 as (_ & HO & _). assert (EG : mkDf (f_tis (g_dict (i_seg (w_in x)))) (f_tix (g_dict (i_seg (w_in x)))) (f_tfx (g_dict (i_seg (w_in x)))) = g_dict (i_seg (w_in x))) by (destruct (g_dict (i_seg (w_in x))); reflexivity).
      rewrite EG, HO. cbn [obind]. eexists. split; [reflexivity|]. split; [|reflexivity].
      destruct (cp_norms_ok None (fun m => m) x HSm) as [N1 N2]; auto.
      exists (map (refield S F) fs). cbn [fst snd]. eapply rep_keep with (x := x); eauto; cbn [w_in i_seg i_sfi i_del i_max w_fdt w_fdx w_norms]; auto.
      + destruct (i_seg (w_in x)); reflexivity.
      + intros n Hn. unfold norm_file. cbn [w_norms]. rewrite N2; [reflexivity|]. intros m Hm E. lia.
  Qed.
End COPY.
