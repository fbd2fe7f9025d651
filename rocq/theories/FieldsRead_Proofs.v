From Verif Require Import Util Codec_Model Codec_Spec Codec_Proofs Seg_Model Seg_Spec SegCodec_Proofs Dict_Model Dict_Spec DictCodec_Proofs Dict_Proofs Post_Proofs Merge_Model Merge_Spec MergeDocs_Proofs Fields_Model Fields_Spec Fields_Proofs.
Open Scope Z_scope.

Lemma concat_len_le {A} (f : A -> list Z) (g : A -> nat) l : Forall (fun x => (length (f x) <= g x)%nat) l -> (length (concat (map f l)) <= fold_right (fun x n => (g x + n)%nat) O l)%nat.
Proof. induction 1; cbn [map concat fold_right length]; [lia|]. rewrite app_length. lia. Qed.
Lemma fold_plus {A} (g : A -> nat) l k : fold_right (fun x n => (g x + n)%nat) k l = (fold_right (fun x n => (g x + n)%nat) O l + k)%nat.
Proof. induction l as [|x l IH]; cbn [fold_right]; lia. Qed.
Lemma fold_filter_le {A} (g : A -> nat) p l : (fold_right (fun x n => (g x + n)%nat) O (filter p l) <= fold_right (fun x n => (g x + n)%nat) O l)%nat.
Proof. induction l as [|x l IH]; cbn [filter fold_right]; [lia|]. destruct (p x); cbn [fold_right]; lia. Qed.
Lemma fold_in_le {A} (g : A -> nat) l x : In x l -> (g x <= fold_right (fun x n => (g x + n)%nat) O l)%nat.
Proof. induction l as [|y l IH]; intros H; [destruct H|]. cbn [fold_right]. destruct H as [->|H]; [lia|]. apply IH in H. lia. Qed.
Lemma fold_len_le {A} (g : A -> nat) l : Forall (fun x => (1 <= g x)%nat) l -> (length l <= fold_right (fun x n => (g x + n)%nat) O l)%nat.
Proof. induction 1; cbn [length fold_right]; lia. Qed.

Section READ.
  Variable zip : list Z -> list Z.
  Variable unzip : list Z -> option (list Z).
  Variable fuel : nat.
  Notation fu := (S fuel).
  Notation vb := (vb zip). Notation vlen := (vlen zip). Notation vok := (vok zip). Notation hb := (hb zip). Notation db := (db zip). Notation sb := (sb zip). Notation rec_of := (rec_of zip).
  Hypothesis HC : codec zip unzip.

  Lemma vb_pos comp d : (1 <= length (vb comp d))%nat.
  Proof.
    unfold Fields_Proofs.vb. destruct comp; [|rewrite app_length; cbn; lia]. destruct (HC d) as [H _]. destruct (zip d); [congruence|cbn; lia].
  Qed.
  Lemma vb_size comp d : vok comp d -> (length (vb comp d) + 5 <= value_size d)%nat.
  Proof.
    unfold Fields_Proofs.vb, Fields_Proofs.vok, value_size. destruct comp; intros H; [destruct (H eq_refl); lia|]. rewrite app_length. cbn [length]. lia.
  Qed.
  Lemma field_bytes_size fis df : fok zip fis df -> is_stored fis df = true -> (length (hb fis df) + length (db fis df) <= field_size df)%nat.
  Proof.
    intros [((n & f) & E) Hv] Hs. unfold Fields_Proofs.hb, Fields_Proofs.db, field_size, is_comp in *. rewrite E in *. cbn [snd] in *. specialize (Hv Hs). rewrite !app_length.
    pose proof (eint_len (Z.of_nat n)). pose proof (eint_len (Z.of_nat (length (df_data df)))).
    assert (H1 : (length (concat (map (fun d => eint (vlen (fi_is_compressed f) d)) (df_data df))) + length (concat (map (vb (fi_is_compressed f)) (df_data df))) <= fold_right (fun v n => (value_size v + n)%nat) O (df_data df))%nat).
    { clear -Hv. induction Hv as [|d l Hd Hl IH]; [cbn; lia|]. cbn [map concat fold_right]. rewrite !app_length. pose proof (eint_len (vlen (fi_is_compressed f) d)). pose proof (vb_size _ _ Hd). lia. }
    rewrite (fold_plus value_size _ 15). lia.
  Qed.
  Lemma sb_size fis d : Forall (fok zip fis) (d_fields d) -> (length (sb fis d) <= stored_size d)%nat.
  Proof.
    intros HF. unfold Fields_Proofs.sb, stored_size. cbv zeta. rewrite !app_length. pose proof (eint_len (Z.of_nat (length (filter (is_stored fis) (d_fields d))))). rewrite (fold_plus field_size _ 5).
    assert (H1 : (length (concat (map (hb fis) (filter (is_stored fis) (d_fields d)))) + length (concat (map (db fis) (filter (is_stored fis) (d_fields d)))) <= fold_right (fun v n => (field_size v + n)%nat) O (d_fields d))%nat).
    { clear -HF HC. induction HF as [|df l Hd Hl IH]; [cbn; lia|]. cbn [filter fold_right]. destruct (is_stored fis df) eqn:E; [|lia]. cbn [map concat]. rewrite !app_length. pose proof (field_bytes_size _ _ Hd E). lia. }
    lia.
  Qed.
  Lemma pb_len ps : forall z, (length (pb z ps) <= 5 * length ps)%nat.
  Proof. induction ps as [|p t IH]; intros z; cbn [pb length]; [lia|]. rewrite app_length. pose proof (eint_len (p - z)). specialize (IH p). lia. Qed.
  Lemma tb_len pos l : forall last, (length (tb pos last l) <= fold_right (fun t n => (length (fst t) + 5 * length (snd t) + 15 + n)%nat) O l)%nat.
  Proof.
    induction l as [|(t & ps) r IH]; intros last; cbn [tb fold_right fst snd length]; [lia|]. cbv zeta. rewrite !app_length, skipn_length. specialize (IH t).
    pose proof (eint_len (Z.of_nat (string_diff last t))). pose proof (eint_len (Z.of_nat (length t - string_diff last t))). pose proof (eint_len (Z.of_nat (length ps))).
    assert (length (if pos then pb 0 ps else []) <= 5 * length ps)%nat by (destruct pos; [apply pb_len|cbn; lia]). lia.
  Qed.
  Lemma e64_len z : (length (e64 z) <= 10)%nat.
  Proof. pose proof (e64_some z) as E. unfold enc_vint in E. apply (enc_v_len 1) in E; [exact E|lia..]. Qed.
  Lemma ob_len l : forall z, (length (ob z l) <= 20 * length l)%nat.
  Proof. induction l as [|(s & e) t IH]; intros z; cbn [ob length]; [lia|]. rewrite !app_length. pose proof (e64_len (s - z)). pose proof (e64_len (e - s)). specialize (IH e). lia. Qed.
  Lemma tvf_size fis x : (length (tvf fis x) + 10 <= tv_size x)%nat.
  Proof.
    unfold tvf, tv_size. destruct (nth_error _ _) as [f|]; [|cbn [length]; rewrite (fold_plus (fun t => (length (fst t) + 5 * length (snd t) + 15)%nat) _ 30); lia].
    unfold tvb. rewrite !app_length. pose proof (eint_len (Z.of_nat (length (snd (fst x))))). pose proof (tb_len (fi_store_positions f) (snd (fst x)) []). rewrite (fold_plus (fun t => (length (fst t) + 5 * length (snd t) + 15)%nat) _ 30).
    assert (length (if fi_store_offsets f then eint (Z.of_nat (length (snd x))) ++ ob 0 (snd x) else []) <= 5 + 20 * length (snd x))%nat.
    { destruct (fi_store_offsets f); [|cbn; lia]. rewrite app_length. pose proof (eint_len (Z.of_nat (length (snd x)))). pose proof (ob_len (snd x) 0). lia. }
    lia.
  Qed.
  Lemma tvs_size_ok fis l : (length (tvs_b fis l) + length (ib fis l) <= tvs_size l)%nat.
  Proof.
    unfold tvs_b, ib, tvs_size. rewrite app_length, (fold_plus tv_size _ 5). pose proof (eint_len (Z.of_nat (length l))).
    assert (H1 : (length (concat (map (tvf fis) l)) + length (concat (map eb (rev (map (ixe fis) l)))) <= fold_right (fun v n => (tv_size v + n)%nat) O l)%nat).
    { clear. induction l as [|x l IH]; [cbn; lia|]. cbn [map concat rev fold_right]. rewrite map_app, concat_app, !app_length. cbn [map concat]. rewrite app_nil_r. pose proof (tvf_size fis x). unfold eb at 2. rewrite app_length.
      pose proof (eint_len (fst (ixe fis x))). pose proof (eint_len (snd (ixe fis x))). lia. }
    lia.
  Qed.
  Lemma rec_size fis x : xok zip fis x -> doc_fits x -> Z.of_nat (length (fst (rec_of fis x))) < 2 ^ 31 /\ doc_ok (rec_of fis x).
  Proof.
    intros Hx Hf. unfold Fields_Proofs.rec_of, doc_ok, doc_fits in *. cbn [fst snd]. pose proof (sb_size fis (fst x) Hx). pose proof (tvs_size_ok fis (snd x)). rewrite !app_length in *. lia.
  Qed.

  (* where the record of a document is *)
  Lemma doc_at recs n r : Forall doc_ok recs -> Z.of_nat (length (fdt_of recs)) < 2 ^ 63 -> Z.of_nat (12 * length recs) < 2 ^ 31 -> nth_error recs n = Some r ->
    exists pre post, recs = pre ++ r :: post /\ length pre = n /\ doc_start (fdx_of O recs) n = Some (Z.of_nat (length (fdt_of pre))) /\ seek (fdt_of recs) (Z.of_nat (length (fdt_of pre))) = fst r ++ fdt_of post /\
      tv_index (fdx_of O recs) n = Some (Z.of_nat (length (fdt_of pre)) + snd r).
  Proof.
    intros HF HL HN E. apply nth_error_split in E. destruct E as (pre & post & -> & Hj). exists pre, post. split; auto. split; auto. subst n.
    rewrite fdt_app, app_length in HL. rewrite app_length in HN. cbn [length] in HN.
    assert (Hd : doc_ok r) by (rewrite Forall_forall in HF; apply HF; apply in_or_app; right; left; auto). unfold doc_ok in Hd. assert (2 ^ 63 < 2 ^ 64) by reflexivity.
    assert (Es : seek (fdx_of O (pre ++ r :: post)) (Z.of_nat (length pre) * FIELDS_IDX_PTR_SIZE) = enc_64 (Z.of_nat (length (fdt_of pre))) ++ enc_32 (snd r) ++ fdx_of (length (fdt_of pre) + length (fst r)) post).
    { unfold FIELDS_IDX_PTR_SIZE. replace (Z.of_nat (length pre) * 12) with (Z.of_nat (length (fdx_of O pre))) by (rewrite fdx_len; lia). rewrite fdx_app, seek_app. cbn [Nat.add fdx_of]. reflexivity. }
    assert (Hb : (2 ^ 31 <=? Z.of_nat (length pre) * FIELDS_IDX_PTR_SIZE) = false) by (apply Z.leb_gt; unfold FIELDS_IDX_PTR_SIZE; lia).
    split; [|split].
    - unfold doc_start. cbv zeta. rewrite Hb, Es, dec_enc_64. rewrite Z.mod_small by lia. f_equal. unfold to_signed. change (64 - 1) with 63. destruct (Z.ltb_spec (Z.of_nat (length (fdt_of pre))) (2 ^ 63)); lia.
    - rewrite fdt_app, seek_app. unfold fdt_of. cbn [map concat]. reflexivity.
    - unfold tv_index. cbv zeta. rewrite Hb, Es. unfold pbind, lift. rewrite dec_enc_64, dec_enc_32. cbn [pret]. unfold pret. rewrite !Z.mod_small by lia. reflexivity.
  Qed.

  (* ---------- the stored fields *)
  Definition head_of (fis : field_infos) (df : dfield) : head :=
    match fis_get fis (df_name df) with Some (n, f) => (f, map (vlen (fi_is_compressed f)) (df_data df)) | None => (mkFi [] 0 0, []) end.
  Lemma reads_head fis df : Z.of_nat (length (fis_fields fis)) < 2 ^ 31 -> fok zip fis df -> is_stored fis df = true -> Z.of_nat (field_size df) < 2 ^ 31 -> reads (hb fis df) (head_of fis df) (dec_head fis).
  Proof.
    intros HN [((n & f) & E) Hv] Hs Hz. unfold Fields_Proofs.hb, head_of. unfold is_comp in Hv. rewrite E in *. cbn [snd] in Hv. specialize (Hv Hs). destruct (fis_get_nth _ _ _ _ E) as [En _].
    assert (Hn : (n < length (fis_fields fis))%nat) by (apply nth_error_Some; congruence). unfold dec_head. unfold field_size in Hz. rewrite (fold_plus value_size _ 15) in Hz.
    assert (HLEN : (length (df_data df) <= fold_right (fun v n => (value_size v + n)%nat) O (df_data df))%nat) by (apply fold_len_le; apply Forall_forall; intros; unfold value_size; lia).
    apply reads_bind with (Z.of_nat n); [apply reads_nat; lia|]. apply reads_bind with (Z.of_nat (length (df_data df))); [apply reads_nat; lia|].
    destruct (Z.ltb_spec (Z.of_nat n) 0); [lia|]. rewrite Nat2Z.id, En. rewrite Nat2Z.id.
    apply (reads_map _ _ (fun lens => (f, lens))). apply reads_list. apply Forall_forall. intros d Hd. apply reads_eint. unfold i32, Fields_Proofs.vlen. rewrite Forall_forall in Hv. pose proof (vb_size _ _ (Hv d Hd)). pose proof (fold_in_le value_size _ _ Hd). pose proof (vb_pos (fi_is_compressed f) d). lia.
  Qed.
  Lemma reads_value comp d : vok comp d -> reads (vb comp d) d (dec_value unzip fu comp (vlen comp d)).
  Proof.
    intros H rest. pose proof (vb_pos comp d) as HP. unfold dec_value. unfold Fields_Proofs.vlen. destruct (Z.ltb_spec (Z.of_nat (length (vb comp d)) - 1) 0); [lia|].
    replace (Z.to_nat (Z.of_nat (length (vb comp d)) - 1) + 1)%nat with (length (vb comp d)) by lia. destruct comp.
    - unfold is_read_zipped. unfold Fields_Proofs.vok in H. destruct (H eq_refl) as [H1 H2]. unfold Fields_Proofs.vb in *. destruct (Nat.ltb_spec ZIP_BUFFER_SIZE (length (zip d))); [lia|].
      rewrite (reads_take (zip d)). destruct (HC d) as [_ ->]. rewrite unzip_loop_small by auto. reflexivity.
    - unfold pbind. rewrite (reads_take (vb false d)). unfold pret, Fields_Proofs.vb. rewrite app_length. cbn [length]. replace (Z.to_nat (Z.of_nat (length d + 1) - 1)) with (length d) by lia. rewrite firstn_app_exact. reflexivity.
  Qed.
  Lemma reads_values comp l : Forall (vok comp) l -> reads (concat (map (vb comp) l)) l (dec_values unzip fu comp (map (vlen comp) l)).
  Proof.
    induction 1 as [|d l Hd Hl IH]; cbn [map concat dec_values]; [apply reads_ret|]. apply reads_bind with d; [apply reads_value; auto|]. exact (reads_map _ _ (fun r => d :: r) _ IH).
  Qed.
  Lemma reads_data fis l : Forall (fun df => fok zip fis df /\ is_stored fis df = true) l -> reads (concat (map (db fis) l)) (map (fun df => (df_name df, df_data df)) l) (dec_data unzip fu (map (head_of fis) l)).
  Proof.
    induction 1 as [|df l [[((n & f) & E) Hv] Hs] Hl IH]; cbn [map concat dec_data]; [apply reads_ret|]. unfold head_of at 1. rewrite E. unfold Fields_Proofs.db at 1. unfold is_comp in *. rewrite E in *. cbn [snd] in *.
    apply reads_bind with (df_data df); [apply reads_values; auto|]. destruct (fis_get_nth _ _ _ _ E) as [_ <-]. exact (reads_map _ _ (fun r => _ :: r) _ IH).
  Qed.
  Lemma dup_false l : NoDup l -> has_dup l = false.
  Proof.
    induction 1 as [|x l Hx Hl IH]; [reflexivity|]. cbn [has_dup]. rewrite IH. rewrite Bool.orb_false_r. destruct (existsb (same_name x) l) eqn:E; auto. exfalso. apply existsb_exists in E. destruct E as (y & Hy & He). apply same_name_eq in He. subst. auto.
  Qed.
  Lemma stored_small fis d df : In df (filter (is_stored fis) (d_fields d)) -> Z.of_nat (stored_size d) < 2 ^ 31 -> Z.of_nat (field_size df) < 2 ^ 31.
  Proof.
    intros H HZ. apply filter_In in H. destruct H as [H _]. unfold stored_size in HZ. rewrite (fold_plus field_size _ 5) in HZ. pose proof (fold_in_le field_size _ _ H). lia.
  Qed.
  Lemma reads_heads fis d : Z.of_nat (length (fis_fields fis)) < 2 ^ 31 -> Forall (fok zip fis) (d_fields d) -> Z.of_nat (stored_size d) < 2 ^ 31 ->
    let st := filter (is_stored fis) (d_fields d) in reads (eint (Z.of_nat (length st)) ++ concat (map (hb fis) st)) (map (head_of fis) st) (dec_heads fis).
  Proof.
    intros HN HF HZ st. unfold dec_heads. assert (HL : (length st <= stored_size d)%nat).
    { unfold st, stored_size. rewrite (fold_plus field_size _ 5). pose proof (fold_filter_le (fun _ : dfield => 1%nat) (is_stored fis) (d_fields d)).
      assert (E : forall l : list dfield, fold_right (fun _ n => (1 + n)%nat) O l = length l) by (induction l as [|y l0 IH0]; cbn in *; lia). rewrite !E in H.
      assert (length (d_fields d) <= fold_right (fun v n => (field_size v + n)%nat) O (d_fields d))%nat by (apply fold_len_le; apply Forall_forall; intros; unfold field_size; rewrite (fold_plus value_size _ 15); lia). lia. }
    apply reads_bind with (Z.of_nat (length st)); [apply reads_nat; lia|]. rewrite Nat2Z.id. apply reads_list. apply Forall_forall. intros df Hd. pose proof Hd as Hd'. apply filter_In in Hd'. destruct Hd' as [Hi Hs]. rewrite Forall_forall in HF.
    apply reads_head; auto. eapply stored_small; eauto.
  Qed.
  Lemma head_names fis l : Forall (fok zip fis) l -> map (fun h : head => fi_name (fst h)) (map (head_of fis) l) = map df_name l.
  Proof.
    induction 1 as [|df l [((n & f) & E) _] Hl IH]; [reflexivity|]. cbn [map]. rewrite IH. f_equal. unfold head_of. rewrite E. cbn [fst]. apply (fis_get_nth _ _ _ _ E).
  Qed.
  Lemma Forall_filter {A} (P : A -> Prop) p l : Forall P l -> Forall (fun x => P x /\ p x = true) (filter p l).
  Proof. intros H. apply Forall_forall. intros x Hx. apply filter_In in Hx. rewrite Forall_forall in H. destruct Hx; auto. Qed.
  Lemma NoDup_filter_map {A B} (f : A -> B) p l : NoDup (map f l) -> NoDup (map f (filter p l)).
  Proof.
    induction l as [|x l IH]; cbn [map filter]; auto. intros H. inversion H; subst. destruct (p x); auto. cbn [map]. constructor; auto. intros Hi. apply in_map_iff in Hi. destruct Hi as (y & Ey & Hy). apply filter_In in Hy. apply H2. rewrite <- Ey. apply in_map. tauto.
  Qed.
  Lemma get_doc_ok fis l : let recs := map (rec_of fis) l in
    Z.of_nat (length (fis_fields fis)) < 2 ^ 31 -> Forall (xok zip fis) l -> Forall doc_fits l -> Forall (fun x => names_differ (fst x)) l -> Z.of_nat (length (fdt_of recs)) < 2 ^ 63 -> Z.of_nat (12 * length l) < 2 ^ 31 ->
    forall n x, nth_error l n = Some x -> fr_get_doc unzip fu fis (fdt_of recs) (fdx_of O recs) n = Some (stored_view fis (fst x)).
  Proof.
    intros recs HN HX HF HD HL H12 n x En. assert (Er : nth_error recs n = Some (rec_of fis x)) by (unfold recs; apply map_nth_error; auto).
    assert (HO : Forall doc_ok recs). { unfold recs. apply Forall_map. apply Forall_forall. intros y Hy. rewrite Forall_forall in HX, HF. apply rec_size; auto. }
    assert (Hin : In x l) by (eapply nth_error_In; eauto). rewrite Forall_forall in HX, HF, HD. specialize (HX x Hin). specialize (HF x Hin). specialize (HD x Hin).
    destruct (doc_at recs n (rec_of fis x) HO HL) as (pre & post & _ & _ & E1 & E2 & _); auto. { unfold recs. rewrite map_length. lia. }
    unfold fr_get_doc. rewrite E1. cbn [obind]. rewrite E2. unfold Fields_Proofs.rec_of. cbn [fst]. unfold Fields_Proofs.sb. cbv zeta. set (st := filter (is_stored fis) (d_fields (fst x))).
    assert (HS : Z.of_nat (stored_size (fst x)) < 2 ^ 31) by (unfold doc_fits in HF; lia).
    pose proof (reads_heads fis (fst x) HN HX HS) as R1. cbv zeta in R1. fold st in R1. unfold pbind. rewrite app_assoc. rewrite <- !app_assoc. rewrite (app_assoc (eint _)). rewrite R1.
    unfold st at 1. rewrite head_names. 2:{ eapply Forall_impl; [|apply Forall_filter; exact HX]. cbv beta. tauto. }
    rewrite dup_false by (apply NoDup_filter_map; exact HD). rewrite (reads_data fis st); [reflexivity|]. apply Forall_filter. exact HX.
  Qed.

  (* ---------- lazily *)
  Lemma starts_len lens : forall s, length (starts_of s lens) = length lens.
  Proof. induction lens; intros s; cbn; auto. Qed.
  Lemma starts_nth lens : forall s i n, nth_error lens i = Some n -> nth_error (starts_of s lens) i = Some (s + fold_right (fun n z => 1 + n + z) 0 (firstn i lens), n).
  Proof.
    induction lens as [|m lens IH]; intros s i n H; [destruct i; discriminate|]. destruct i as [|i]; cbn [nth_error starts_of firstn fold_right] in *.
    - apply some_inj in H. subst. do 2 f_equal. lia.
    - rewrite (IH _ _ _ H). do 2 f_equal. lia.
  Qed.
  Lemma vb_sum comp l : fold_right (fun n z => 1 + n + z) 0 (map (vlen comp) l) = Z.of_nat (length (concat (map (vb comp) l))).
  Proof. induction l as [|d l IH]; [reflexivity|]. cbn [map fold_right concat]. rewrite app_length, IH. unfold Fields_Proofs.vlen. lia. Qed.
  Definition zshift (base : Z) (z : lazy) : lazy := mkLz (z_name z) (z_comp z) (map (fun d : Z * Z => (fst d + base, snd d)) (z_data z)) (z_len z).
  (* a lazy field over the file: base, start and the bytes there *)
  Lemma lazy_field comp l A B s base : Forall (vok comp) l -> base + s = Z.of_nat (length A) -> 0 <= base + s -> forall name len i d, nth_error l i = Some d ->
    lazy_get unzip fu (A ++ concat (map (vb comp) l) ++ B) (zshift base (mkLz name comp (starts_of s (map (vlen comp) l)) len)) i = Some d.
  Proof.
    intros HV Hb H0 name len i d Hd. unfold lazy_get, zshift. cbn [z_data z_comp]. assert (En : nth_error (map (vlen comp) l) i = Some (vlen comp d)) by (apply map_nth_error; auto).
    rewrite (map_nth_error _ _ _ (starts_nth _ s _ _ En)). cbn [obind fst snd]. rewrite firstn_map, vb_sum. apply nth_error_split in Hd. destruct Hd as (l1 & l2 & -> & <-).
    rewrite firstn_app_exact. rewrite map_app, concat_app. cbn [map concat].
    replace (s + Z.of_nat (length (concat (map (vb comp) l1))) + base) with (Z.of_nat (length (A ++ concat (map (vb comp) l1)))) by (rewrite app_length; lia).
    rewrite <- !app_assoc. rewrite (app_assoc A). rewrite seek_app. rewrite Forall_app in HV. destruct HV as [_ HV]. inversion HV; subst. rewrite reads_value by auto. reflexivity.
  Qed.
  Definition lazy_view (fdt : list Z) (z : lazy) : list Z * list (option (list Z)) := (z_name z, map (lazy_get unzip fu fdt z) (seq 0 (length (z_data z)))).
  Lemma lazy_fields fis l : Forall (fun df => fok zip fis df /\ is_stored fis df = true) l -> forall A B s base, base + s = Z.of_nat (length A) -> 
    map (fun z => lazy_view (A ++ concat (map (db fis) l) ++ B) (zshift base z)) (lazy_of s (map (head_of fis) l)) = map (fun df => (df_name df, map Some (df_data df))) l.
  Proof.
    induction 1 as [|df l [[((n & f) & E) Hv] Hs] Hl IH]; intros A B s base Hb; [reflexivity|]. cbn [map concat]. unfold head_of at 1. rewrite E. cbn [lazy_of map]. cbv zeta. unfold is_comp in Hv. rewrite E in Hv. cbn [snd] in Hv. specialize (Hv Hs).
    assert (Ed : db fis df = concat (map (vb (fi_is_compressed f)) (df_data df))) by (unfold Fields_Proofs.db, is_comp; rewrite E; reflexivity).
    f_equal.
    - unfold lazy_view. destruct (fis_get_nth _ _ _ _ E) as [_ En]. f_equal; [exact En|]. unfold zshift at 2. cbn [z_data]. rewrite map_length, starts_len, map_length.
      apply list_ext. intros i. rewrite (nth_error_map _ i (seq 0 _)). destruct (Nat.lt_ge_cases i (length (df_data df))) as [Hi|Hi].
      + destruct (nth_error (df_data df) i) as [d|] eqn:Ei; [|apply nth_error_None in Ei; lia]. rewrite (map_nth_error _ _ _ Ei). rewrite (nth_error_nth' _ O) by (rewrite seq_length; auto). rewrite seq_nth by auto. cbn [option_map Nat.add].
        f_equal. rewrite Ed, <- app_assoc. apply lazy_field; auto. lia.
      + rewrite (proj2 (nth_error_None (map Some (df_data df)) i)) by (rewrite map_length; lia). rewrite (proj2 (nth_error_None (seq 0 (length (df_data df))) i)) by (rewrite seq_length; lia). reflexivity.
    - rewrite vb_sum. rewrite <- Ed. rewrite <- app_assoc. rewrite (app_assoc A). apply IH. rewrite app_length. lia.
  Qed.
End READ.
