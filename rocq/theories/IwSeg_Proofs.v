(* Segments that hold documents: what is flushed does, what is merged holds the documents that were not deleted. *)
From Verif Require Import Util Codec_Model Strcmp Seg_Model Dict_Model Dict_Spec Token_Model Post_Model Post_Spec PostRun_Proofs Mte_Spec Mte_Proofs MergeTerms_Proofs Merge_Model Merge_Spec Merge_Proofs MergeRun_Proofs MergeDocs_Proofs Fields_Model Fields_Spec Fields_Proofs FieldsRead_Proofs FieldsVec_Proofs FieldsTop_Proofs Invert_Model Invert_Spec Invert_Proofs InvertDoc_Proofs InvertIndex_Proofs InvertTop_Proofs Iw_Model Iw_Spec IwExt_Proofs.
Open Scope Z_scope.

Lemma sum_app {A} (f : A -> nat) a b : sum f (a ++ b) = (sum f a + sum f b)%nat.
Proof. induction a as [|x a IH]; [reflexivity|]. cbn [app]. rewrite !sum_cons, IH. lia. Qed.
Lemma sum_one {A} (l : list A) : sum (fun _ => 1%nat) l = length l.
Proof. induction l as [|x l IH]; [reflexivity|]. rewrite sum_cons, IH. reflexivity. Qed.
Definition lesser {A} (a b : list A) : Prop := forall w : A -> nat, (sum w a <= sum w b)%nat.
Lemma lesser_refl {A} (a : list A) : lesser a a. Proof. intros w. lia. Qed.
Lemma lesser_trans {A} (a b c : list A) : lesser a b -> lesser b c -> lesser a c. Proof. intros H1 H2 w. specialize (H1 w). specialize (H2 w). lia. Qed.
Lemma lesser_app {A} (a b c d : list A) : lesser a b -> lesser c d -> lesser (a ++ c) (b ++ d).
Proof. intros H1 H2 w. rewrite !sum_app. specialize (H1 w). specialize (H2 w). lia. Qed.
Lemma lesser_live {A} del (l : list A) : lesser (live_of del l) l. Proof. intros w. apply live_sum. Qed.
Lemma lesser_flat {A B} (f g : A -> list B) l : (forall x, In x l -> lesser (f x) (g x)) -> lesser (flat_map f l) (flat_map g l).
Proof. induction l as [|x l IH]; intros H; [apply lesser_refl|]. cbn [flat_map]. apply lesser_app; [apply H; left; auto|apply IH; intros y Hy; apply H; right; auto]. Qed.
Lemma lesser_part {A B} (f : A -> list B) x l : In x l -> lesser (f x) (flat_map f l).
Proof. intros H w. induction l as [|y l IH]; [destruct H|]. cbn [flat_map]. rewrite sum_app. destruct H as [->|H]; [lia|]. specialize (IH H). lia. Qed.

Section SEG.
  Variable ana : list Z -> list Z -> list token.
  Variable norm : field_info -> Z -> dfield -> Z -> Z.
  Variable zip : list Z -> list Z.
  Variable unzip : list Z -> option (list Z).
  Variable fuel : nat.
  Variable max : Z.
  Variables I kn : nat.
  Variable F : field_infos.
  Hypothesis HC : codec zip unzip.
  Hypothesis HI1 : (1 <= I)%nat. Hypothesis HI2 : Z.of_nat I < 2 ^ 31. Hypothesis Hk1 : (1 <= kn)%nat. Hypothesis Hk2 : Z.of_nat kn < 2 ^ 31.
  Hypothesis Hfis : Z.of_nat (length (fis_fields F)) < 2 ^ 31.
  Notation posts := (posts ana max F).
  Notation occs_in := (occs_in ana max F).
  Notation norm_of := (norm_of ana norm max F).
  Notation with_vectors := (with_vectors ana max F).
  Definition recs (ds : list document) : list (list Z * Z) := map (rec_of zip F) (with_vectors ds).
  Definition good (d : document) : Prop := doc_good ana max F d /\ short_terms ana max I F d /\ small_zip zip F d /\ doc_fits (d, vectors ana max F d).
  (* sizes *)
  Definition fit_all (ds : list document) : Prop := Z.of_nat (12 * length ds) < 2 ^ 31 /\ Z.of_nat (occ_count ana max F ds) < 2 ^ 26 /\ Z.of_nat (length (fdt_of (recs ds))) < 2 ^ 63.
  Lemma fdt_sum ds : length (fdt_of (recs ds)) = sum (fun d => length (fst (rec_of zip F (d, vectors ana max F d)))) ds.
  Proof. unfold fdt_of, recs, Invert_Spec.with_vectors. rewrite len_concat, !map_map, sum_map. reflexivity. Qed.
  Lemma fit_less a b : lesser a b -> fit_all b -> fit_all a.
  Proof.
    intros H (H1 & H2 & H3). unfold fit_all in *. rewrite fdt_sum in *. unfold occ_count in *. rewrite len_flat in *. pose proof (H (fun _ => 1%nat)) as L. rewrite !sum_one in L.
    split; [lia|]. split; [eapply Z.le_lt_trans; [|exact H2]|eapply Z.le_lt_trans; [|exact H3]]; apply inj_le, H.
  Qed.

  (* a segment with the documents ds *)
  Definition repf (fs : list (Z * list (list Z * list post))) (x : wseg) (ds : list document) : Prop :=
    let s := mkMseg fs (length ds) (i_del (w_in x)) in
    lays s (w_in x) /\ mseg_ok s /\ short I s /\ (forall n t, postings fs (Z.of_nat n) t = posts n t O ds) /\
    (forall pos os, Forall (okop kn pos) os ->
       tde_run pos (i_seg (w_in x)) (i_sfi (w_in x)) (tir_open, tde_new (g_frq (i_seg (w_in x))) (g_prx (i_seg (w_in x)))) os = Some (pspec_run fs ([], []) os)) /\
    w_fdt x = fdt_of (recs ds) /\ w_fdx x = fdx_of O (recs ds) /\
    (forall n f, nth_error (fis_fields F) n = Some f -> fi_has_norms f = true ->
       match norm_file n x with Some l => l = map (norm_of n) ds | None => Forall (fun d => has_field F n d = false) ds end) /\
    dw_flush (Z.of_nat I) (Z.of_nat kn) fs = Some (i_seg (w_in x)) /\ Forall (fun f => 0 <= fst f < Z.of_nat (length (fis_fields F))) fs /\
    (forall n, (length (fis_fields F) <= n)%nat -> norm_file n x = None) /\ Forall (fun f : Z * list (list Z * list post) => Forall (fun y => snd y <> []) (snd f)) fs.
  Definition rep (p : wseg * list document) : Prop := exists fs, repf fs (fst p) (snd p).
  Lemma rep_max fs x ds : repf fs x ds -> i_max (w_in x) = length ds.
  Proof. intros ((_ & _ & H & _) & _). exact H. Qed.

  Lemma good_xok d : good d -> known_doc F d -> xok zip F (d, vectors ana max F d).
  Proof.
    intros (_ & _ & H & _) K. unfold xok, small_zip in *. cbn [fst]. rewrite Forall_forall in *. intros df Hd. split; [exact (K df Hd)|]. intros Hs. specialize (H df Hd Hs). apply Forall_forall. intros v Hv Hc. specialize (H Hc). rewrite Forall_forall in H. auto.
  Qed.
  Lemma rep_reads x ds : rep (x, ds) -> Forall good ds -> Forall (known_doc F) ds -> fit_all ds -> reads ana norm unzip fuel max F kn x ds.
  Proof.
    intros (fs & H) HG HK (L1 & L2 & L3). cbn [fst snd] in H. pose proof (rep_max _ _ _ H) as HM. destruct H as (H1 & H2 & H3 & H4 & H5 & H6 & H7 & H8 & _).
    assert (X : Forall (xok zip F) (with_vectors ds)). { unfold Invert_Spec.with_vectors. apply Forall_map. rewrite Forall_forall in *. intros d Hd. apply good_xok; auto. }
    assert (FT : Forall doc_fits (with_vectors ds)). { unfold Invert_Spec.with_vectors. apply Forall_map. eapply Forall_impl; [|exact HG]. cbv beta. intros d (_ & _ & _ & Hd). exact Hd. }
    assert (ND : Forall names_differ ds). { eapply Forall_impl; [|exact HG]. cbv beta. intros d ((Hd & _) & _). exact Hd. }
    assert (L4 : Z.of_nat (12 * length (with_vectors ds)) < 2 ^ 31) by (unfold Invert_Spec.with_vectors; rewrite map_length; exact L1).
    assert (NV : forall j d, nth_error ds j = Some d -> nth_error (with_vectors ds) j = Some (d, vectors ana max F d)) by (intros j d E; unfold Invert_Spec.with_vectors; rewrite nth_error_map, E; reflexivity).
    unfold reads. splits; auto.
    - exists fs. split; auto.
    - intros j d E. rewrite H6, H7. apply (get_doc_ok zip unzip fuel HC F (with_vectors ds)) with (x := (d, vectors ana max F d)); auto. unfold Invert_Spec.with_vectors. apply Forall_map. exact ND.
    - intros j d num E HT. rewrite H6, H7. apply (field_tv_ok zip F (with_vectors ds) j (d, vectors ana max F d) num); auto.
      + unfold Invert_Spec.with_vectors, FieldsVec_Proofs.known. apply Forall_map. rewrite Forall_forall in *. intros e He. cbn [snd]. unfold vectors. apply Forall_flat_map. apply Forall_forall. intros df Hd. destruct (HK e He df Hd) as ((n & f) & Ef). rewrite Ef.
        destruct (fi_is_indexed f && fi_store_term_vector f); constructor; [|constructor]. cbn [fst]. apply fis_get_nth in Ef. apply nth_error_Some. destruct Ef. congruence.
      + cbn [snd]. apply (vectors_nums ana max). rewrite Forall_forall in ND. apply ND. eapply nth_error_In; eauto.
  Qed.

  Lemma at_not_nil t (os : list occ) o : In o os -> o_text o = t -> at_ t os <> [].
  Proof. intros Ho Et E. unfold at_ in E. apply map_eq_nil in E. assert (G : In o (filter (fun o => seqb (o_text o) t) os)) by (apply filter_In; split; [auto|subst; apply seqb_spec; reflexivity]). rewrite E in G. destruct G. Qed.
  Lemma terms_have n t ds i : In t (terms_in_field ana max F n ds) -> posts n t i ds <> [].
  Proof.
    intros H. apply (proj1 (distinct_in _ _)) in H. apply in_map_iff in H. destruct H as (o & Et & Ho). apply in_flat_map in Ho. destruct Ho as (d & Hd & Ho). apply In_nth_error in Hd. destruct Hd as (j & Hj).
    pose proof (posts_nth ana norm zip max F n t ds i j d Hj (at_not_nil t _ o Ho Et)) as G. intros E. rewrite E in G. destruct G.
  Qed.
  (* ---------- flushing *)
  Lemma find_norms (g : nat -> list (nat * list Z)) n : (forall k p, In p (g k) -> fst p = k) -> forall l, NoDup l -> find (fun p : nat * list Z => (fst p =? n)%nat) (flat_map g l) = if in_dec Nat.eq_dec n l then find (fun p : nat * list Z => (fst p =? n)%nat) (g n) else None.
  Proof.
    intros Hg. induction l as [|k l IH]; intros HN; [reflexivity|]. inversion HN as [|? ? N1 N2]; subst. cbn [flat_map].
    assert (FA : forall a b : list (nat * list Z), find (fun p : nat * list Z => (fst p =? n)%nat) (a ++ b) = match find (fun p : nat * list Z => (fst p =? n)%nat) a with Some x => Some x | None => find (fun p : nat * list Z => (fst p =? n)%nat) b end).
    { induction a as [|y a IHa]; intros b; [reflexivity|]. cbn [app find]. destruct (fst y =? n)%nat; auto. }
    rewrite FA, IH by auto. destruct (Nat.eq_dec k n) as [->|Hk].
    - destruct (in_dec Nat.eq_dec n l); [contradiction|]. destruct (in_dec Nat.eq_dec n (n :: l)) as [_|Hn]; [|exfalso; apply Hn; left; auto]. destruct (find _ (g n)); reflexivity.
    - rewrite find_filter_none; [|intros p Hp; apply Nat.eqb_neq; rewrite (Hg k p Hp); auto]. destruct (in_dec Nat.eq_dec n l), (in_dec Nat.eq_dec n (k :: l)) as [Hi|Hi]; auto; [exfalso; apply Hi; right; auto|destruct Hi; [congruence|contradiction]].
  Qed.
  Lemma has_field_out G n d : ext G F -> known_doc G d -> (length (fis_fields G) <= n)%nat -> has_field F n d = false.
  Proof.
    intros HE HK Hn. rewrite (has_field_same G F HE d n HK). unfold has_field. destruct (field_of G n d) as [df|] eqn:E; [|reflexivity]. destruct (field_nth G F HE d n df E) as (f & Ef & _). assert (n < length (fis_fields G))%nat by (apply nth_error_Some; congruence). lia.
  Qed.
  Lemma occ_short ds n t : Forall good ds -> In t (terms_in_field ana max F n ds) -> ((I + 2) * (length t + 1) <= (I + 1) * MAX_WORD_SIZE + 1)%nat.
  Proof.
    intros HG H. apply (proj1 (distinct_in _ _)) in H. apply in_map_iff in H. destruct H as (o & <- & Ho). apply in_flat_map in Ho. destruct Ho as (d & Hd & Ho). rewrite Forall_forall in HG. destruct (HG d Hd) as (_ & HS & _). specialize (HS n). rewrite Forall_forall in HS. exact (HS o Ho).
  Qed.
  Lemma flush_ok G mbd w ds : ext G F -> Forall (known_doc G) ds -> Forall good ds -> fit_all ds -> x_fis w = G -> x_doc w = length ds -> tab_ok ana norm max mbd F ds (x_tab w) ->
    fw_fdt (x_fw w) = fdt_of (recs ds) -> fw_fdx (x_fw w) = fdx_of O (recs ds) ->
    exists g ns sf, dw_write (Z.of_nat I) (Z.of_nat kn) w = Some (g, ns) /\ sfi_open (g_dict g) = Some sf /\
      forall c, rep (mkWs (mkMin g sf (x_doc w) None) (fw_fdt (x_fw w)) (fw_fdx (x_fw w)) ns c false, ds).
  Proof.
    intros HE HK HG (L1 & L2 & L3) EF Ed HT Efdt Efdx. pose proof (tab_same ana norm max G F HE mbd ds _ HK HT) as HTG.
    assert (HDG : Forall (doc_good ana max G) ds). { eapply Forall_impl; [|exact HG]. cbv beta. intros d (Hd & _). eapply doc_good_same; eauto. }
    pose proof (ext_le _ _ HE) as HL. pose proof (index_ok ana norm max G ds HDG ltac:(lia) ltac:(lia) ltac:(rewrite <- (occ_count_same ana max G F HE ds HK); lia)) as Hix.
    destruct (post_run I kn (index_of ana max G ds) HI1 HI2 Hk1 Hk2 Hix) as (g & sf & G1 & G2 & G3).
    exists g, (norm_table ana norm max G ds), sf. splits; auto.
    { unfold dw_write. rewrite (norm_files_ok ana norm max mbd G ds w EF Ed HTG). cbn [obind]. rewrite (inverted_ok ana norm max mbd G ds w EF HTG), G1. reflexivity. }
    intros c. exists (index_of ana max G ds). unfold repf. cbn [fst snd w_in i_seg i_sfi i_max i_del w_fdt w_fdx]. splits; auto.
    - unfold lays. cbn [s_fs s_max s_del i_seg i_sfi i_max i_del]. splits; auto. exists I, kn. splits; auto.
    - unfold mseg_ok. cbn [s_fs s_max]. split; auto. unfold index_of. apply Forall_map. apply Forall_forall. intros n _. cbn [snd]. apply Forall_map. apply Forall_forall. intros t _. cbn [snd]. destruct (posts_sorted ana norm max G n t ds O) as [_ HB]. eapply Forall_impl; [|exact HB]. cbv beta. intros; lia.
    - unfold short. cbn [s_fs]. unfold index_of. apply Forall_map. apply Forall_forall. intros n _. cbn [snd]. apply Forall_map. apply Forall_forall. intros t Ht. cbn [fst]. rewrite <- (terms_same ana max G F HE n ds HK) in Ht. eapply occ_short; eauto.
    - intros n t. rewrite (postings_index ana norm zip max). symmetry. apply posts_same; auto.
    - intros n f Ef Hf. unfold norm_file. cbn [w_norms]. unfold norm_table. rewrite find_norms; [|intros k p Hp; destruct (nth_error (fis_fields G) k) as [f'|]; [|destruct Hp]; destruct (fi_has_norms f' && _); [|destruct Hp]; destruct Hp as [<-|[]]; reflexivity|apply seq_NoDup].
      destruct (in_dec Nat.eq_dec n (seq 0 (length (fis_fields G)))) as [Hi|Hi].
      + apply in_seq in Hi. destruct (nth_error (fis_fields G) n) as [f'|] eqn:E; [|apply nth_error_None in E; lia]. pose proof (ext_nth _ _ _ _ HE E) as E'. rewrite Ef in E'. apply some_inj in E'. subst f'. rewrite Hf. cbn [andb]. destruct (existsb (has_field G n) ds) eqn:EX.
        * cbn [find fst snd]. rewrite Nat.eqb_refl. symmetry. apply map_norm_same; auto.
        * cbn [find]. rewrite <- (exists_same G F HE n ds HK) in EX. apply Forall_forall. intros d Hd. destruct (has_field F n d) eqn:E2; auto. assert (existsb (has_field F n) ds = true) by (apply existsb_exists; eauto). congruence.
      + rewrite Forall_forall in *. intros d Hd. apply has_field_out with G; auto. destruct (Nat.leb_spec (length (fis_fields G)) n); auto. exfalso. apply Hi. apply in_seq. lia.
    - unfold index_of. apply Forall_map. apply Forall_forall. intros n Hn. apply filter_In in Hn. destruct Hn as [Hn _]. apply in_seq in Hn. cbn [fst]. lia.
    - intros n Hn. unfold norm_file. cbn [w_norms]. rewrite find_filter_none; [reflexivity|]. intros p Hp. unfold norm_table in Hp. apply in_flat_map in Hp. destruct Hp as (k & Hk & Hp). apply in_seq in Hk. apply Nat.eqb_neq.
      destruct (nth_error (fis_fields G) k) as [f'|]; [|destruct Hp]. destruct (fi_has_norms f' && _); [|destruct Hp]. destruct Hp as [<-|[]]. cbn [fst]. lia.
    - unfold index_of. apply Forall_map. apply Forall_forall. intros n _. cbn [snd]. apply Forall_map. apply Forall_forall. intros t Ht. cbn [snd]. rewrite <- (posts_same ana max G F HE n t ds) by auto. apply terms_have. rewrite (terms_same ana max G F HE n ds HK). exact Ht.
  Qed.

  (* ---------- merging *)
  Notation rseg := (list (Z * list (list Z * list post)) * (wseg * list document))%type.
  Definition seg_of (t : rseg) : mseg := mkMseg (fst t) (length (snd (snd t))) (i_del (w_in (fst (snd t)))).
  Definition live_in_seg (p : wseg * list document) : list document := live_of (dels (w_in (fst p))) (snd p).
  Definition lives (ts : list rseg) : list document := flat_map (fun t => live_in_seg (snd t)) ts.
  Definition rept (t : rseg) : Prop := repf (fst t) (fst (snd t)) (snd (snd t)).
  Lemma rep_all ps : Forall rep ps -> exists ts, map snd ts = ps /\ Forall rept ts.
  Proof.
    induction 1 as [|p ps (fs & H1) H2 IH]; [exists []; split; [reflexivity|constructor]|]. destruct IH as (ts & E & HT). exists ((fs, p) :: ts). cbn [map snd]. split; [congruence|constructor; auto].
  Qed.
  Lemma gather_posts n t ts : Forall rept ts -> forall base, gather base (map seg_of ts) (Z.of_nat n) t = posts n t base (lives ts).
  Proof.
    induction 1 as [|x ts H1 H2 IH]; intros base; [reflexivity|]. unfold lives in *. cbn [map gather flat_map]. rewrite IH, (posts_app ana norm zip max F). destruct H1 as (_ & _ & _ & HP & _). f_equal.
    - unfold seg_of at 2. cbn [s_fs]. rewrite HP. apply renum_live0.
    - unfold live_in_seg at 2. rewrite live_len. reflexivity.
  Qed.
  Lemma total_len ts : total (map seg_of ts) = length (lives ts).
  Proof. induction ts as [|x ts IH]; [reflexivity|]. unfold lives in *. cbn [map total fold_right flat_map]. fold (total (map seg_of ts)). rewrite IH, app_length. unfold live_in_seg at 2. rewrite live_len. reflexivity. Qed.
  Lemma cnt_total xs : forall b, fold_right (fun m z => m_cnt m + z) 0 (sm_create b xs) = Z.of_nat (fold_right (fun x z => (rank (dels x) (i_max x) + z)%nat) O xs).
  Proof.
    induction xs as [|x xs IH]; intros b; [reflexivity|]. cbn [sm_create fold_right]. cbv zeta. cbn [fold_right]. rewrite IH. assert (E : m_cnt (smi_new b x) = Z.of_nat (rank (dels x) (i_max x))); [|lia].
    unfold smi_new, dels. destruct (i_del x) as [del|]; cbn [m_cnt].
    - pose proof (load_map_ok del (i_max x) O) as (H2 & _). cbn [Nat.add] in H2. change (rank del 0) with O in H2. change (Z.of_nat 0) with 0 in H2. exact H2.
    - rewrite rank_none. reflexivity.
  Qed.
  Lemma cnt_lives ts : Forall rept ts -> forall b, Z.to_nat (fold_right (fun m z => m_cnt m + z) 0 (sm_create b (map w_in (map fst (map snd ts))))) = length (lives ts).
  Proof.
    intros H b. rewrite cnt_total, Nat2Z.id. induction H as [|x ts H1 H2 IH]; [reflexivity|]. unfold lives in *. cbn [map fold_right flat_map]. rewrite IH, app_length. unfold live_in_seg at 2. rewrite live_len, (rep_max _ _ _ H1). reflexivity.
  Qed.
  Lemma filter_keep (g : list Z -> list post) L : filter keep (map (fun t => (t, g t)) L) = map (fun t => (t, g t)) (filter (fun t => match g t with [] => false | _ => true end) L).
  Proof. induction L as [|t L IH]; [reflexivity|]. cbn [map filter]. unfold keep at 1. cbn [snd]. destruct (g t) eqn:E; cbn [map]; rewrite IH; [reflexivity|]. rewrite E. reflexivity. Qed.
  Lemma merged_field_posts n ts : Forall rept ts -> merged_field (map seg_of ts) (Z.of_nat n) = map (fun t => (t, posts n t O (lives ts))) (terms_in_field ana max F n (lives ts)).
  Proof.
    intros HR. unfold merged_field. rewrite filter_keep.
    assert (E : filter (fun t => match gather 0 (map seg_of ts) (Z.of_nat n) t with [] => false | _ => true end) (all_terms (map seg_of ts) (Z.of_nat n)) = terms_in_field ana max F n (lives ts)).
    { apply (sorted_same slt slt_irr slt_trans).
      - apply sorted_filter. apply ins_sorted.
      - apply distinct_sorted.
      - intros t. rewrite filter_In. unfold terms_in_field. rewrite distinct_in. rewrite <- (posts_in ana max F n t (lives ts) O). rewrite <- (gather_posts n t ts HR O). split.
        + intros (_ & H) E. rewrite E in H. discriminate.
        + intros H. destruct (gather 0 (map seg_of ts) (Z.of_nat n) t) as [|p q] eqn:E; [congruence|]. split; auto. destruct (gather_in (Z.of_nat n) t p (map seg_of ts) O ltac:(rewrite E; left; auto)) as (s & q' & H1 & H2 & _). apply all_terms_in. exists s. split; auto. eapply postings_term; eauto. }
    rewrite E. apply map_ext. intros t. rewrite gather_posts by auto. reflexivity.
  Qed.
  Lemma merged_fits G ts : ext G F -> Forall rept ts -> fit_all (lives ts) -> fits (length (fis_fields G)) (map seg_of ts).
  Proof.
    intros HE HR (L1 & L2 & L3). pose proof (ext_le _ _ HE) as HL. set (nf := length (fis_fields G)) in *. set (D := lives ts) in *. set (N := occ_count ana max F D) in *.
    pose proof (all_total ana norm max F D) as HT. fold N in HT. assert (HT' : (sum (fun n => length (flat_map (occs_in n) D)) (seq 0 nf) <= N)%nat).
    { replace (length (fis_fields F)) with (nf + (length (fis_fields F) - nf))%nat in HT by lia. rewrite seq_app, sum_app in HT. lia. }
    assert (H1 : forall n, In n (seq 0 nf) -> (length (flat_map (occs_in n) D) <= N)%nat).
    { intros n Hn. etransitivity; [|exact HT']. clear -Hn. induction (seq 0 nf) as [|y l IH]; [destruct Hn|]. rewrite sum_cons. destruct Hn as [->|Hn]; [lia|]. specialize (IH Hn). lia. }
    assert (HM : merged nf (map seg_of ts) = map (fun n => (Z.of_nat n, map (fun t => (t, posts n t O D)) (terms_in_field ana max F n D))) (seq 0 nf)).
    { unfold merged. apply map_ext. intros n. rewrite merged_field_posts by auto. reflexivity. }
    assert (HW : forall n t, (weight (posts n t O D) <= 45 * length (at_ t (flat_map (occs_in n) D)))%nat).
    { intros n t. unfold weight. rewrite len_concat, sum_map. pose proof (posts_positions ana max F n t D O) as HP. pose proof (posts_nonempty ana norm max F n t D O) as HN. lia. }
    assert (Hat : forall n t, (length (at_ t (flat_map (occs_in n) D)) <= length (flat_map (occs_in n) D))%nat) by (intros; unfold at_; rewrite map_length; apply flen).
    assert (Hdl : forall n, (length (terms_in_field ana max F n D) <= length (flat_map (occs_in n) D))%nat).
    { intros n. unfold terms_in_field. pose proof (distinct_len (map o_text (flat_map (occs_in n) D))) as HD. rewrite map_length in HD. exact HD. }
    unfold fits. rewrite HM, total_len. fold D. splits.
    - lia.
    - lia.
    - apply Forall_map. apply Forall_forall. intros n Hn. cbn [snd]. specialize (H1 n Hn). rewrite map_length. specialize (Hdl n). split; [lia|]. apply Forall_map. apply Forall_forall. intros t _. cbn [snd]. specialize (HW n t). specialize (Hat n t). lia.
    - rewrite map_map. cbn [snd]. rewrite len_concat, sum_map.
      assert (sum (fun n => length (map (fun t => (t, posts n t 0 D)) (terms_in_field ana max F n D))) (seq 0 nf) <= N)%nat; [|lia]. etransitivity; [|exact HT']. apply sum_le. intros n _. rewrite map_length. apply Hdl.
    - match goal with |- context [weight (concat ?l)] => set (all := l) end.
      assert (WC : weight (concat all) = sum weight all).
      { clearbody all. induction all as [|x l IH]; [reflexivity|]. cbn [concat]. rewrite sum_cons, <- IH. unfold weight. rewrite map_app, concat_app, !app_length. lia. }
      assert (sum weight all <= 45 * N)%nat; [|lia]. unfold all. rewrite map_map. cbn [snd]. rewrite sum_map, sum_concat, sum_map.
      assert (sum (fun n => 45 * length (flat_map (occs_in n) D))%nat (seq 0 nf) <= 45 * N)%nat.
      { assert (E : forall l, sum (fun n => 45 * length (flat_map (occs_in n) D))%nat l = (45 * sum (fun n => length (flat_map (occs_in n) D)) l)%nat) by (induction l as [|y l IH]; [reflexivity|]; rewrite !sum_cons, IH; lia). rewrite E. lia. }
      etransitivity; [|exact H]. apply sum_le. intros n _. rewrite sum_map. cbn [snd]. pose proof (field_total ana norm max F n D) as HF.
      assert (E : forall l, (sum (fun t => weight (posts n t 0 D)) l <= 45 * sum (fun t => length (at_ t (flat_map (occs_in n) D))) l)%nat) by (induction l as [|y l IH]; [cbn; lia|]; rewrite !sum_cons; specialize (HW n y); lia).
      specialize (E (terms_in_field ana max F n D)). lia.
  Qed.
  Lemma flat_map_map {A B C} (f : A -> B) (g : B -> list C) l : flat_map g (map f l) = flat_map (fun x => g (f x)) l.
  Proof. induction l as [|x l IH]; [reflexivity|]. cbn [map flat_map]. rewrite IH. reflexivity. Qed.
  Lemma map_flat_map {A B C} (f : B -> C) (g : A -> list B) l : map f (flat_map g l) = flat_map (fun x => map f (g x)) l.
  Proof. induction l as [|x l IH]; [reflexivity|]. cbn [flat_map]. rewrite map_app, IH. reflexivity. Qed.
  Lemma recs_flat {A} (g : A -> list document) l : recs (flat_map g l) = flat_map (fun x => recs (g x)) l.
  Proof. unfold recs, Invert_Spec.with_vectors. rewrite map_map, map_flat_map. apply flat_map_ext'. intros x _. rewrite map_map. reflexivity. Qed.
  Lemma recs_live del ds : recs (live_of del ds) = live_of del (recs ds).
  Proof. unfold recs, Invert_Spec.with_vectors. rewrite !map_map. rewrite <- live_map. reflexivity. Qed.
  Lemma merge_fields_ok ts : Forall rept ts -> Forall (fun t => Forall good (snd (snd t)) /\ Forall (known_doc F) (snd (snd t)) /\ fit_all (snd (snd t))) ts ->
    sm_merge_fields (map (fun x => (w_fdt x, w_fdx x, i_del (w_in x))) (map fst (map snd ts))) [] [] = Some (fdt_of (recs (lives ts)), fdx_of O (recs (lives ts))).
  Proof.
    intros HR HG. rewrite !map_map.
    assert (E : map (fun x : rseg => (w_fdt (fst (snd x)), w_fdx (fst (snd x)), i_del (w_in (fst (snd x))))) ts = map dfiles_of (map (fun t : rseg => (recs (snd (snd t)), i_del (w_in (fst (snd t))))) ts)).
    { rewrite map_map. apply map_ext_in. intros t Ht. rewrite Forall_forall in HR. destruct (HR t Ht) as (_ & _ & _ & _ & _ & E1 & E2 & _). rewrite E1, E2. reflexivity. }
    rewrite E. pose proof (merge_docs_ok (map (fun t : rseg => (recs (snd (snd t)), i_del (w_in (fst (snd t))))) ts)) as M. lapply M; clear M.
    - intros M. specialize (M []). cbn [app] in M. change (fdt_of []) with (@nil Z) in M. change (fdx_of O []) with (@nil Z) in M. rewrite M.
      assert (EE : flat_map (fun x => live_of (ddel x) (fst x)) (map (fun t : rseg => (recs (snd (snd t)), i_del (w_in (fst (snd t))))) ts) = recs (lives ts)); [|rewrite EE; reflexivity].
      rewrite flat_map_map. unfold lives. rewrite recs_flat. apply flat_map_ext'. intros t _. cbn [fst]. unfold live_in_seg. rewrite recs_live. rewrite !live_whole. apply live_ext_. intros i _. unfold ddel, dels. cbn [snd]. destruct (i_del (w_in (fst (snd t)))); reflexivity.
    - apply Forall_map. eapply Forall_impl; [|exact HG]. cbv beta. intros t (H1 & H2 & (_ & _ & H3)). cbn [fst]. split; auto. unfold recs, Invert_Spec.with_vectors. rewrite map_map. apply Forall_map. rewrite Forall_forall in *. intros d Hd.
      apply (rec_size zip F (d, vectors ana max F d)); [apply good_xok; auto|]. destruct (H1 d Hd) as (_ & _ & _ & Hf). exact Hf.
  Qed.
  Lemma zero_norms n ds : Forall (fun d => has_field F n d = false) ds -> map (norm_of n) ds = repeat 0 (length ds).
  Proof. induction 1 as [|d ds H1 H2 IH]; [reflexivity|]. cbn [map length repeat]. rewrite IH. f_equal. apply norm_none. auto. Qed.
  Lemma norms_field n f ts : Forall rept ts -> nth_error (fis_fields F) n = Some f -> fi_has_norms f = true ->
    sm_merge_norms (map (fun x => (norm_file n x, i_max (w_in x), i_del (w_in x))) (map fst (map snd ts))) = Some (map (norm_of n) (lives ts)).
  Proof.
    intros HR Ef Hf. rewrite !map_map.
    assert (HN : forall t, In t ts -> norms_of (norm_file n (fst (snd t)), i_max (w_in (fst (snd t))), i_del (w_in (fst (snd t)))) = map (norm_of n) (snd (snd t))).
    { intros t Ht. rewrite Forall_forall in HR. pose proof (HR t Ht) as H. pose proof (rep_max _ _ _ H) as EM. destruct H as (_ & _ & _ & _ & _ & _ & _ & H & _). specialize (H n f Ef Hf). unfold norms_of. cbn [fst snd]. destruct (norm_file n (fst (snd t))) as [l|]; [exact H|]. rewrite zero_norms by auto. rewrite EM. reflexivity. }
    rewrite merge_norms_ok.
    - f_equal. rewrite flat_map_map. unfold lives. rewrite map_flat_map. apply flat_map_ext'. intros t Ht. rewrite HN by auto. unfold live_in_seg. rewrite <- live_map, !live_whole. apply live_ext_. intros i _. unfold ndel, dels. cbn [snd]. destruct (i_del (w_in (fst (snd t)))); reflexivity.
    - apply Forall_map. apply Forall_forall. intros t Ht. rewrite HN by auto. cbn [fst snd]. rewrite map_length. rewrite Forall_forall in HR. symmetry. exact (rep_max _ _ _ (HR t Ht)).
  Qed.
  Lemma norm_files_merge ts : Forall rept ts -> forall fs k, (forall i f, nth_error fs i = Some f -> nth_error (fis_fields F) (k + i) = Some f) ->
    exists ns, merge_norm_files k fs (map fst (map snd ts)) = Some ns /\ forall n, find (fun p : nat * list Z => (fst p =? n)%nat) ns =
      if (k <=? n)%nat then match nth_error fs (n - k) with Some f => if fi_has_norms f then Some (n, map (norm_of n) (lives ts)) else None | None => None end else None.
  Proof.
    intros HR. induction fs as [|f fs IH]; intros k H.
    - exists []. split; [reflexivity|]. intros n. cbn [find]. destruct (k <=? n)%nat; auto. destruct (n - k)%nat; reflexivity.
    - destruct (IH (S k)) as (ns & E & HF). { intros i g Eg. specialize (H (S i) g Eg). rewrite <- Nat.add_succ_comm in H. exact H. }
      cbn [merge_norm_files]. rewrite E. cbn [obind]. pose proof (H O f eq_refl) as Ef. rewrite Nat.add_0_r in Ef. destruct (fi_has_norms f) eqn:Hf.
      + rewrite (norms_field k f ts HR Ef Hf). cbn [obind]. eexists. split; [reflexivity|]. intros n. cbn [find fst]. rewrite HF. destruct (Nat.eqb_spec k n) as [<-|Hn].
        * rewrite Nat.leb_refl, Nat.sub_diag. cbn [nth_error]. rewrite Hf. reflexivity.
        * destruct (Nat.leb_spec k n), (Nat.leb_spec (S k) n); try lia; auto. replace (n - k)%nat with (S (n - S k)) by lia. reflexivity.
      + exists ns. split; [reflexivity|]. intros n. rewrite HF. destruct (Nat.leb_spec k n), (Nat.leb_spec (S k) n); try lia; auto.
        * replace (n - k)%nat with (S (n - S k)) by lia. reflexivity.
        * replace (n - k)%nat with O by lia. cbn [nth_error]. rewrite Hf. reflexivity.
  Qed.
End SEG.
