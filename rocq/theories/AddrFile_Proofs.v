(* Copying the files of a segment with other numbers for the fields gives the files that would have been written with them. *)
From Verif Require Import Util Codec_Model Codec_Spec Codec_Proofs Strcmp Seg_Model SegCodec_Proofs Dict_Model Dict_Spec DictCodec_Proofs Dict_Proofs Token_Model Post_Model Post_Spec PostRun_Proofs Mte_Spec MergeTerms_Proofs Merge_Model Merge_Spec Merge_Proofs MergeDocs_Proofs Fields_Model Fields_Spec Fields_Proofs FieldsRead_Proofs Invert_Model Invert_Spec Invert_Proofs InvertDoc_Proofs InvertIndex_Proofs InvertTop_Proofs Iw_Model Iw_Spec IwExt_Proofs Addr_Model AddrRen_Proofs.
Open Scope Z_scope.
Notation reads := Fields_Proofs.reads.

Lemma reads_wr x : reads [] (eint x) (wr x).
Proof. intros rest. unfold wr. cbn [app]. rewrite eint_some. reflexivity. Qed.
Lemma reads_bind0 {A B} b (v : A) (u : B) p k : reads [] v p -> reads b u (k v) -> reads b u (pbind p k).
Proof. intros H1 H2. exact (reads_bind [] b v u p k H1 H2). Qed.
Lemma reads_off x : off_nonneg x -> reads [] (venc x) (wr_off x).
Proof. intros H rest. unfold wr_off. cbn [app]. rewrite Z.mod_small by (unfold off_nonneg in H; lia). rewrite venc_some by auto. reflexivity. Qed.
Lemma cp_file_small f : Z.of_nat (length f) < 2 ^ 31 -> cp_file f = f.
Proof. intros H. unfold cp_file. rewrite to_signed_mod by lia. rewrite Nat2Z.id. apply firstn_all. Qed.
Lemma field_map_nth F fs m f : nth_error fs m = Some f -> nth_error (field_map F fs) m = Some (match fis_get F (fi_name f) with Some (n, _) => Z.of_nat n | None => -1 end).
Proof. intros E. unfold field_map. rewrite nth_error_map, E. reflexivity. Qed.

Lemma reads_voff z : off_nonneg z -> reads (venc z) z dec_voff.
Proof. intros H. apply (reads_good _ _ _ never). apply good_voff; [exact H|apply venc_some; exact H]. Qed.

(* the dictionary of a segment, byte for byte *)
Lemma write_layout I K fs : (1 <= I)%nat -> dict_ok fs ->
  write_dict (Z.of_nat I) K fs = Some (mkDf (tisb K fs) (tixb I K 0 fs) (enc_32 (Z.of_nat (length fs)) ++ eint (Z.of_nat I) ++ eint K ++ concat (map enc_sti (lay I K 0 0 fs)))).
Proof.
  intros HI (HF & HN & HL & HT). destruct (add_fields_inv I K HI fs (tiw_open (Z.of_nat I) K)) as (w & E & G1 & G2 & G3 & G4); auto; try (cbn [tiw_open w_tis w_tix tw_out length]; lia).
  cbn [tiw_open w_tis w_tix tw_out length w_tfx w_fields app] in G1, G2, G3, G4.
  unfold write_dict. rewrite E. cbn [obind]. unfold tiw_close. rewrite !eint_some. cbn [obind]. fold (cnts w). rewrite G3, G4, G1, G2. cbn [Z.add]. unfold cnts. cbn [tiw_open w_tix w_tis tw_cnt]. rewrite <- app_assoc. reflexivity.
Qed.

Section FILES.
  Variable ana : list Z -> list Z -> list token.
  Variable zip : list Z -> list Z.
  Variable unzip : list Z -> option (list Z).
  Hypothesis HC : codec zip unzip.
  Variable norm : field_info -> Z -> dfield -> Z -> Z.
  Variable max : Z.
  Variables S F : field_infos.
  Hypothesis HS : sub S F.
  Hypothesis HNS : Z.of_nat (length (fis_fields S)) < 2 ^ 31.
  Hypothesis HNF : Z.of_nat (length (fis_fields F)) < 2 ^ 31.
  Notation ren := (ren S F).
  Notation len := (length (fis_fields S)).
  Notation mp := (field_map F (fis_fields S)).
  Notation vb := (vb zip). Notation vlen := (vlen zip). Notation hb := (hb zip). Notation db := (db zip). Notation fok := (fok zip).

  Lemma map_num m : (m < len)%nat -> reads [] (Z.of_nat (ren m)) (mapped mp (Z.of_nat m)).
  Proof.
    intros Hm rest. unfold mapped. destruct (Z.ltb_spec (Z.of_nat m) 0); [lia|]. rewrite Nat2Z.id. destruct (ren_nth norm max S F HS m Hm) as (f & E1 & E2 & E3 & E4). rewrite (field_map_nth _ _ _ _ E1), E4. reflexivity.
  Qed.

  (* ---------- stored fields *)
  Lemma cp_lens_ok c l : forall acc, Forall (vok zip c) l -> 0 <= acc -> acc + Z.of_nat (length (concat (map (vb c) l))) < 2 ^ 31 ->
    reads (concat (map (fun d => eint (vlen c d)) l)) (concat (map (fun d => eint (vlen c d)) l), acc + Z.of_nat (length (concat (map (vb c) l)))) (cp_lens (length l) acc).
  Proof.
    induction l as [|d l IH]; intros acc HV Ha HB. { cbn [map concat length cp_lens]. rewrite Z.add_0_r. apply reads_ret. }
    inversion HV as [|? ? V1 V2]; subst. cbn [map concat length cp_lens] in *. rewrite app_length in *. pose proof (vb_pos zip unzip HC c d) as HP.
    apply reads_bind with (vlen c d). { apply reads_eint. unfold i32, Fields_Proofs.vlen. lia. }
    apply reads_bind0 with (eint (vlen c d)); [apply reads_wr|]. cbv zeta. replace (acc + vlen c d + 1) with (acc + Z.of_nat (length (vb c d))) by (unfold Fields_Proofs.vlen; lia).
    destruct (Z.leb_spec (2 ^ 31) (acc + Z.of_nat (length (vb c d)))); [lia|]. destruct (Z.ltb_spec (acc + Z.of_nat (length (vb c d))) (- 2 ^ 31)); [lia|]. cbn [orb].
    specialize (IH (acc + Z.of_nat (length (vb c d))) V2 ltac:(lia) ltac:(lia)). apply (reads_map _ _ (fun r : list Z * Z => (eint (vlen c d) ++ fst r, snd r))) in IH. cbn [fst snd] in IH.
    replace (acc + Z.of_nat (length (vb c d) + length (concat (map (vb c) l)))) with (acc + Z.of_nat (length (vb c d)) + Z.of_nat (length (concat (map (vb c) l)))) by lia. exact IH.
  Qed.
  Lemma hb_ren df : (exists p, fis_get S (df_name df) = Some p) -> db F df = db S df /\ is_stored F df = is_stored S df.
  Proof. intros ((m & f) & E). unfold Fields_Proofs.db, is_comp, is_stored. rewrite E, (ren_get S F HS _ _ _ E). auto. Qed.
  Lemma cp_heads_ok st : Forall (fun df => fok S df /\ is_stored S df = true) st -> forall acc, 0 <= acc -> acc + Z.of_nat (length (concat (map (hb S) st)) + length (concat (map (db S) st))) < 2 ^ 31 -> 
    Forall (fun df => Z.of_nat (field_size df) < 2 ^ 31) st ->
    reads (concat (map (hb S) st)) (concat (map (hb F) st), acc + Z.of_nat (length (concat (map (db S) st)))) (cp_heads mp (length st) acc).
  Proof.
    induction 1 as [|df st [[((m & f) & E) HV] Hs] Hl IH]; intros acc Ha HB HZ. { cbn [map concat length cp_heads]. rewrite Z.add_0_r. apply reads_ret. }
    inversion HZ as [|? ? Z1 Z2]; subst. cbn [map concat length cp_heads] in *. rewrite !app_length in *. unfold is_comp in HV. specialize (HV Hs). rewrite E in HV. cbn [snd] in HV.
    assert (Hm : (m < len)%nat). { pose proof E as E'. apply fis_get_nth in E'. destruct E' as [E' _]. apply nth_error_Some. congruence. }
    assert (ED : db S df = concat (map (vb (fi_is_compressed f)) (df_data df))) by (unfold Fields_Proofs.db, is_comp; rewrite E; reflexivity).
    assert (EH : forall X k, fis_get X (df_name df) = Some (k, f) -> hb X df = eint (Z.of_nat k) ++ eint (Z.of_nat (length (df_data df))) ++ concat (map (fun d => eint (vlen (fi_is_compressed f) d)) (df_data df))) by (intros X k EX; unfold Fields_Proofs.hb; rewrite EX; reflexivity).
    rewrite (EH S m E), (EH F (ren m) (ren_get S F HS _ _ _ E)). rewrite <- !app_assoc.
    apply reads_bind with (Z.of_nat m); [apply reads_nat; lia|]. apply reads_bind0 with (Z.of_nat (ren m)); [apply map_num; auto|].
    apply reads_bind with (Z.of_nat (length (df_data df))). { apply reads_nat. unfold field_size in Z1. rewrite (fold_plus value_size _ 15) in Z1. assert (length (df_data df) <= fold_right (fun v n => (value_size v + n)%nat) O (df_data df))%nat by (apply fold_len_le; apply Forall_forall; intros; unfold value_size; lia). lia. }
    apply reads_bind0 with (eint (Z.of_nat (ren m))); [apply reads_wr|]. apply reads_bind0 with (eint (Z.of_nat (length (df_data df)))); [apply reads_wr|]. rewrite Nat2Z.id.
    eapply reads_bind. { apply (cp_lens_ok (fi_is_compressed f) (df_data df) acc HV Ha). rewrite <- ED. lia. }
    cbn [fst snd]. rewrite <- ED. specialize (IH (acc + Z.of_nat (length (db S df))) ltac:(lia) ltac:(lia) Z2).
    apply (reads_map _ _ (fun r : list Z * Z => (eint (Z.of_nat (ren m)) ++ eint (Z.of_nat (length (df_data df))) ++ concat (map (fun d => eint (vlen (fi_is_compressed f) d)) (df_data df)) ++ fst r, snd r))) in IH. cbn [fst snd] in IH.
    replace (acc + Z.of_nat (length (db S df) + length (concat (map (db S) st)))) with (acc + Z.of_nat (length (db S df)) + Z.of_nat (length (concat (map (db S) st)))) by lia. exact IH.
  Qed.
  Lemma tvf_ren t : (fst (fst t) < len)%nat -> tvf F (retv S F t) = tvf S t.
  Proof. intros H. unfold tvf, retv. cbn [fst snd]. destruct (ren_nth norm max S F HS _ H) as (f & -> & -> & _). reflexivity. Qed.
  Lemma cp_index_ok l : Forall (fun t : tv_in => (fst (fst t) < len)%nat /\ Z.of_nat (length (tvf S t)) < 2 ^ 31) l ->
    reads (concat (map eb (map (ixe S) l))) (concat (map eb (map (ixe F) (map (retv S F) l)))) (cp_index mp (length l)).
  Proof.
    induction 1 as [|t l [H1 H2] Hl IH]; cbn [map concat length cp_index]; [apply reads_ret|]. unfold eb at 1 3. unfold ixe at 1 2 4 5. cbn [fst snd retv]. rewrite (tvf_ren t) by auto. rewrite <- !app_assoc.
    apply reads_bind with (Z.of_nat (fst (fst t))); [apply reads_nat; lia|]. apply reads_bind0 with (Z.of_nat (ren (fst (fst t)))); [apply map_num; auto|].
    apply reads_bind with (Z.of_nat (length (tvf S t))); [apply reads_nat; lia|]. apply reads_bind0 with (eint (Z.of_nat (ren (fst (fst t))))); [apply reads_wr|]. apply reads_bind0 with (eint (Z.of_nat (length (tvf S t)))); [apply reads_wr|].
    apply (reads_map _ _ (fun r => eint (Z.of_nat (ren (fst (fst t)))) ++ eint (Z.of_nat (length (tvf S t))) ++ r)) in IH. exact IH.
  Qed.

  Definition dok (d : document) : Prop := known_doc S d /\ xok zip S (d, vectors ana max S d) /\ doc_fits (d, vectors ana max S d).
  Notation recS := (fun d => rec_of zip S (d, vectors ana max S d)).
  Notation recF := (fun d => rec_of zip F (d, vectors ana max F d)).
  Lemma stored_ren d : known_doc S d -> filter (is_stored F) (d_fields d) = filter (is_stored S) (d_fields d).
  Proof. intros HK. apply filter_ext_in. intros df Hd. apply hb_ren. auto. Qed.
  Lemma cp_stored_ok d : dok d -> reads (sb zip S d) (sb zip F d) (get cnt <- dec_int; get c <- wr cnt; get h <- cp_heads mp (Z.to_nat cnt) 0; get b <- take (Z.to_nat (snd h)); pret (c ++ fst h ++ b)).
  Proof.
    intros (HK & HX & HF). unfold xok, doc_fits in *. cbn [fst snd] in *. unfold sb. cbv zeta. rewrite (stored_ren d HK). set (st := filter (is_stored S) (d_fields d)).
    pose proof (sb_size zip S d HX) as HZ. unfold sb in HZ. cbv zeta in HZ. fold st in HZ. rewrite !app_length in HZ.
    assert (HL : (length st <= stored_size d)%nat).
    { unfold st, stored_size. rewrite (fold_plus field_size _ 5). pose proof (fold_filter_le (fun _ : dfield => 1%nat) (is_stored S) (d_fields d)).
      assert (E : forall l : list dfield, fold_right (fun _ n => (1 + n)%nat) O l = length l) by (induction l as [|y l0 IH0]; cbn in *; lia). rewrite !E in H.
      assert (length (d_fields d) <= fold_right (fun v n => (field_size v + n)%nat) O (d_fields d))%nat by (apply fold_len_le; apply Forall_forall; intros; unfold field_size; rewrite (fold_plus value_size _ 15); lia). lia. }
    apply reads_bind with (Z.of_nat (length st)); [apply reads_nat; lia|]. apply reads_bind0 with (eint (Z.of_nat (length st))); [apply reads_wr|]. rewrite Nat2Z.id.
    eapply reads_bind.
    { apply (cp_heads_ok st).
      - apply Forall_forall. intros df Hd. apply filter_In in Hd. destruct Hd as [Hd Hs]. rewrite Forall_forall in HX. split; auto.
      - apply Z.le_refl.
      - lia.
      - apply Forall_forall. intros df Hd. eapply stored_small; eauto. lia. }
    cbn [fst snd]. rewrite Z.add_0_l, Nat2Z.id.
    assert (ED : concat (map (db F) st) = concat (map (db S) st)). { f_equal. apply map_ext_in. intros df Hd. apply hb_ren. apply HK. apply filter_In in Hd. tauto. }
    rewrite ED. exact (reads_map _ _ (fun b => eint (Z.of_nat (length st)) ++ concat (map (hb F) st) ++ b) _ (reads_take _)).
  Qed.
  Lemma tvs_ren d : known_doc S d -> tvs_b F (vectors ana max F d) = tvs_b S (vectors ana max S d).
  Proof.
    intros HK. rewrite (vectors_ren ana max S F HS d HK). unfold tvs_b. rewrite map_map. f_equal. apply map_ext_in. intros t Ht. apply tvf_ren. eapply vectors_in; eauto.
  Qed.
  Lemma cp_ix_ok d : dok d -> reads (ib S (vectors ana max S d)) (ib F (vectors ana max F d)) (get cnt <- dec_int; get c <- wr cnt; get r <- cp_index mp (Z.to_nat cnt); pret (c ++ r)).
  Proof.
    intros (HK & HX & HF). rewrite (vectors_ren ana max S F HS d HK). unfold doc_fits in HF. cbn [fst snd] in HF. set (vs := vectors ana max S d) in *. unfold ib. rewrite map_length.
    assert (HB : forall t, In t vs -> (tv_size t <= tvs_size vs)%nat). { intros t Ht. unfold tvs_size. rewrite (fold_plus tv_size _ 5). pose proof (fold_in_le tv_size _ _ Ht). lia. }
    assert (HL : (length vs <= tvs_size vs)%nat). { unfold tvs_size. rewrite (fold_plus tv_size _ 5). assert (length vs <= fold_right (fun x n => (tv_size x + n)%nat) O vs)%nat; [|lia]. apply fold_len_le. apply Forall_forall. intros t _. pose proof (tvf_size S t). lia. }
    apply reads_bind with (Z.of_nat (length vs)); [apply reads_nat; lia|]. apply reads_bind0 with (eint (Z.of_nat (length vs))); [apply reads_wr|]. rewrite Nat2Z.id.
    apply (reads_map _ _ (fun r => eint (Z.of_nat (length vs)) ++ r)). rewrite <- !map_rev. rewrite <- (rev_length vs). apply cp_index_ok. apply Forall_forall. intros t Ht. apply in_rev in Ht. split; [eapply vectors_in; eauto|]. pose proof (tvf_size S t). specialize (HB t Ht). lia.
  Qed.

  Lemma read_fdx_ok off tv xs : 0 <= off < 2 ^ 64 -> 0 <= tv < 2 ^ 32 -> read_fdx true (enc_64 off ++ enc_32 tv ++ xs) = POk (off + tv) xs.
  Proof. intros H1 H2. unfold read_fdx, pbind, lift. rewrite dec_enc_64, dec_enc_32. unfold pret. rewrite !Z.mod_small by lia. reflexivity. Qed.
  Lemma cp_docs_ok ds : Forall dok ds -> forall (pre : list Z) off out_t out_x, off = length pre ->
    Z.of_nat (length pre + length (fdt_of (map recS ds))) < 2 ^ 63 ->
    cp_docs true mp (length ds) (Z.of_nat (length pre + length (fdt_of (map recS ds)))) (fdt_of (map recS ds)) (fdx_of off (map recS ds)) out_t out_x
    = Some (out_t ++ fdt_of (map recF ds), out_x ++ fdx_of (length out_t) (map recF ds)).
  Proof.
    induction 1 as [|d ds Hd Hds IH]; intros pre off out_t out_x Eo HL. { cbn [length cp_docs map fdx_of]. unfold fdt_of. cbn [map concat]. rewrite !app_nil_r. reflexivity. }
    pose proof Hd as (HK & HX & HF). pose proof (rec_size zip S _ HX HF) as [HR HO]. unfold doc_ok in HO.
    cbn [map fdx_of length cp_docs] in *. unfold fdt_of in *. cbn [map concat] in *. fold (fdt_of (map recS ds)) in *. fold (fdt_of (map recF ds)). rewrite app_length in *.
    assert (ER : fst (rec_of zip S (d, vectors ana max S d)) = sb zip S d ++ tvs_b S (vectors ana max S d) ++ ib S (vectors ana max S d)) by reflexivity.
    assert (EO : snd (rec_of zip S (d, vectors ana max S d)) = Z.of_nat (length (sb zip S d ++ tvs_b S (vectors ana max S d)))) by reflexivity.
    rewrite EO in *. rewrite ER in *. clear ER EO. set (A := sb zip S d) in *. set (T := tvs_b S (vectors ana max S d)) in *. set (X := ib S (vectors ana max S d)) in *. set (R := fdt_of (map recS ds)) in *.
    rewrite <- !app_assoc. pose proof (cp_stored_ok d Hd (T ++ X ++ R)) as ES. fold A in ES. rewrite ES. clear ES. rewrite !app_length in *. subst off. rewrite read_fdx_ok by lia. cbv zeta.
    assert (EP : to_signed 32 ((Z.of_nat (length pre) + Z.of_nat (length A + length T) - (Z.of_nat (length pre + (length A + (length T + length X) + length R)) - Z.of_nat (length T + (length X + length R)))) mod 2 ^ 32) = Z.of_nat (length T)).
    { match goal with |- to_signed 32 (?z mod _) = _ => replace z with (Z.of_nat (length T)) by lia end. apply to_signed_mod; lia. }
    rewrite EP, Nat2Z.id. rewrite (reads_take T (X ++ R)). pose proof (cp_ix_ok d Hd R) as EI. fold X in EI. rewrite EI. clear EI.
    specialize (IH (pre ++ A ++ T ++ X) (length pre + (length A + (length T + length X)))%nat ((out_t ++ sb zip F d ++ T) ++ ib F (vectors ana max F d)) (out_x ++ enc_64 (Z.of_nat (length out_t)) ++ enc_32 (Z.of_nat (length (out_t ++ sb zip F d ++ T) - length out_t)))).
    rewrite !app_length in IH. specialize (IH ltac:(lia) ltac:(lia)).
    replace (Z.of_nat (length pre + (length A + (length T + length X)) + length R)) with (Z.of_nat (length pre + (length A + (length T + length X) + length R))) in IH by lia.
    rewrite !app_length. rewrite IH. unfold T. rewrite <- (tvs_ren d HK). unfold rec_of. cbn [fst snd]. f_equal. f_equal.
    - rewrite <- !app_assoc. reflexivity.
    - rewrite <- !app_assoc. do 2 f_equal. rewrite !app_length. f_equal; [f_equal; lia|]. f_equal. lia.
  Qed.

  (* ---------- the dictionary *)
  Definition renum {A} (f : Z * A) : Z * A := (Z.of_nat (ren (Z.to_nat (fst f))), snd f).
  Lemma write_fields_ren k fs : forall frq prx, write_fields k frq prx (map (refield S F) fs) = match write_fields k frq prx fs with Some (a, ds) => Some (a, map renum ds) | None => None end.
  Proof.
    induction fs as [|[n l] fs IH]; intros frq prx; [reflexivity|]. cbn [map]. unfold refield at 1. cbn [fst snd write_fields]. destruct (write_terms k frq prx l) as [x|]; [|reflexivity]. cbn [obind].
    rewrite IH. destruct (write_fields k (fst (fst x)) (snd (fst x)) fs) as [[a ds]|]; [|reflexivity]. cbn [obind fst snd map]. reflexivity.
  Qed.
  Lemma cp_dict_ok l : Forall (fun x => sti_ok x /\ 0 <= fst x < Z.of_nat len) l -> reads (concat (map enc_sti l)) (concat (map enc_sti (map renum l))) (cp_dict mp (length l)).
  Proof.
    induction 1 as [|x l [(H1 & H2 & H3 & H4 & H5) Hx] Hl IH]; cbn [map concat length cp_dict]; [apply reads_ret|]. unfold enc_sti at 1 3. unfold renum at 1. cbn [fst snd]. rewrite <- !app_assoc.
    set (m := Z.to_nat (fst x)). assert (Em : fst x = Z.of_nat m) by (unfold m; lia).
    apply reads_bind with (fst x); [apply reads_eint; auto|]. apply reads_bind0 with (Z.of_nat (ren m)); [rewrite Em; apply map_num; lia|]. apply reads_bind0 with (eint (Z.of_nat (ren m))); [apply reads_wr|].
    apply reads_bind with (s_iptr (snd x)); [apply reads_voff; auto|]. apply reads_bind0 with (venc (s_iptr (snd x))); [apply reads_off; auto|].
    apply reads_bind with (s_ptr (snd x)); [apply reads_voff; auto|]. apply reads_bind0 with (venc (s_ptr (snd x))); [apply reads_off; auto|].
    apply reads_bind with (s_icnt (snd x)); [apply reads_eint; auto|]. apply reads_bind0 with (eint (s_icnt (snd x))); [apply reads_wr|].
    apply reads_bind with (s_size (snd x)); [apply reads_eint; auto|]. apply reads_bind0 with (eint (s_size (snd x))); [apply reads_wr|].
    exact (reads_map _ _ (fun r => eint (Z.of_nat (ren m)) ++ venc (s_iptr (snd x)) ++ venc (s_ptr (snd x)) ++ eint (s_icnt (snd x)) ++ eint (s_size (snd x)) ++ r) _ IH).
  Qed.
  Lemma cp_tfx_ok i k l : i32 i -> i32 k -> Z.of_nat (length l) < 2 ^ 31 -> Forall (fun x => sti_ok x /\ 0 <= fst x < Z.of_nat len) l ->
    cp_tfx mp (enc_32 (Z.of_nat (length l)) ++ eint i ++ eint k ++ concat (map enc_sti l)) = Some (enc_32 (Z.of_nat (length l)) ++ eint i ++ eint k ++ concat (map enc_sti (map renum l))).
  Proof.
    intros Hi Hk HL Hl. unfold cp_tfx.
    assert (HR : reads (enc_32 (Z.of_nat (length l)) ++ eint i ++ eint k ++ concat (map enc_sti l)) (enc_32 (Z.of_nat (length l)) ++ eint i ++ eint k ++ concat (map enc_sti (map renum l)))
      (get n <- lift dec_u32; get i <- dec_int; get a <- wr i; get k <- dec_int; get b <- wr k; get r <- cp_dict mp (Z.to_nat (to_signed 32 n)); pret (enc_32 n ++ a ++ b ++ r))).
    { apply reads_bind with (Z.of_nat (length l)). { intros rest. unfold lift. rewrite dec_enc_32, Z.mod_small by lia. reflexivity. }
      apply reads_bind with i; [apply reads_eint; auto|]. apply reads_bind0 with (eint i); [apply reads_wr|]. apply reads_bind with k; [apply reads_eint; auto|]. apply reads_bind0 with (eint k); [apply reads_wr|].
      replace (Z.to_nat (to_signed 32 (Z.of_nat (length l)))) with (length l) by (unfold to_signed; change (32 - 1) with 31; destruct (Z.ltb_spec (Z.of_nat (length l)) (2 ^ 31)); lia).
      exact (reads_map _ _ (fun r => enc_32 (Z.of_nat (length l)) ++ eint i ++ eint k ++ r) _ (cp_dict_ok l Hl)). }
    specialize (HR []). rewrite app_nil_r in HR. rewrite HR. reflexivity.
  Qed.
  Variables I kn : nat.
  Hypothesis HI1 : (1 <= I)%nat. Hypothesis HI2 : Z.of_nat I < 2 ^ 31. Hypothesis Hk1 : (1 <= kn)%nat. Hypothesis Hk2 : Z.of_nat kn < 2 ^ 31.
  Lemma lay_ren K ds : forall a b, lay I K a b (map renum ds) = map renum (lay I K a b ds).
  Proof. induction ds as [|[n l] ds IH]; intros a b; [reflexivity|]. cbn [map]. unfold renum at 1. cbn [fst snd lay map]. rewrite IH. reflexivity. Qed.
  Lemma tisb_ren K ds : tisb K (map renum ds) = tisb K ds.
  Proof. induction ds as [|[n l] ds IH]; [reflexivity|]. cbn [map]. unfold renum at 1. cbn [fst snd tisb]. rewrite IH. reflexivity. Qed.
  Lemma tixb_ren K ds : forall a, tixb I K a (map renum ds) = tixb I K a ds.
  Proof. induction ds as [|[n l] ds IH]; intros a; [reflexivity|]. cbn [map]. unfold renum at 1. cbn [fst snd tixb]. rewrite IH. reflexivity. Qed.
  Lemma write_nums k fs : forall frq prx a ds, write_fields k frq prx fs = Some (a, ds) -> map fst ds = map fst fs.
  Proof.
    induction fs as [|[n l] fs IH]; intros frq prx a ds E; cbn [write_fields] in E. { apply some_inj in E. inversion E; subst. reflexivity. }
    destruct (write_terms k frq prx l) as [x|]; [|discriminate]. cbn [obind] in E. destruct (write_fields k (fst (fst x)) (snd (fst x)) fs) as [[a' ds']|] eqn:E2; [|discriminate]. cbn [obind] in E. apply some_inj in E. inversion E; subst. cbn [map fst snd]. f_equal. eapply IH; eauto.
  Qed.
  Lemma flush_ren fs g : inv_ok fs -> Forall (fun f => 0 <= fst f < Z.of_nat len) fs -> dw_flush (Z.of_nat I) (Z.of_nat kn) fs = Some g ->
    exists t, cp_tfx mp (f_tfx (g_dict g)) = Some t /\
      dw_flush (Z.of_nat I) (Z.of_nat kn) (map (refield S F) fs) = Some (mkSeg (g_frq g) (g_prx g) (mkDf (f_tis (g_dict g)) (f_tix (g_dict g)) t)).
  Proof.
    intros Hi HB E. unfold dw_flush in *. rewrite write_fields_ren. destruct (write_fields_ok kn Hk1 fs [] []) as (frq & prx & ds & EW & HL). rewrite EW in E |- *. cbn [obind fst snd] in E |- *.
    pose proof (dict_ok_of kn Hk1 fs frq prx ds Hi HL) as Hd. pose proof (inv_ok_ren ana norm zip max S F HS fs HNF HB Hi) as Hi'.
    destruct (write_fields_ok kn Hk1 (map (refield S F) fs) [] []) as (frq' & prx' & ds' & EW' & HL'). pose proof (dict_ok_of kn Hk1 _ frq' prx' ds' Hi' HL') as Hd'. rewrite write_fields_ren, EW in EW'. apply some_inj in EW'. inversion EW'; subst frq' prx' ds'. clear EW'.
    rewrite (write_layout I (Z.of_nat kn) ds HI1 Hd) in E. rewrite (write_layout I (Z.of_nat kn) _ HI1 Hd'). cbn [obind] in E |- *. apply some_inj in E. subst g. cbn [g_frq g_prx g_dict f_tis f_tix f_tfx].
    rewrite tisb_ren, tixb_ren, lay_ren, map_length. pose proof Hd as (D1 & D2 & D3 & D4). rewrite <- (lay_len I (Z.of_nat kn) ds 0 0).
    eexists. split; [|reflexivity]. apply cp_tfx_ok; [unfold i32; lia|unfold i32; lia|rewrite lay_len; exact D3|].
    apply Forall_forall. intros x Hx. split.
    - pose proof (lay_ok I (Z.of_nat kn) HI1 ds 0 0 D1 ltac:(lia) ltac:(lia)) as HO. rewrite Forall_forall in HO. auto.
    - apply (in_map fst) in Hx. rewrite lay_fst, (write_nums _ _ _ _ _ _ EW) in Hx. apply in_map_iff in Hx. destruct Hx as (f & <- & Hf). rewrite Forall_forall in HB. apply HB. auto.
  Qed.
End FILES.
