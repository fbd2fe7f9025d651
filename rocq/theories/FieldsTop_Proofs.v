From Verif Require Import Util Codec_Model Codec_Spec Codec_Proofs Seg_Model Seg_Spec SegCodec_Proofs Dict_Model Dict_Spec DictCodec_Proofs Dict_Proofs Post_Proofs Merge_Model Merge_Spec MergeDocs_Proofs Fields_Model Fields_Spec Fields_Proofs FieldsRead_Proofs FieldsTv_Proofs FieldsVec_Proofs.
Open Scope Z_scope.

Lemma Forall2_impl' {A B} (P Q : A -> B -> Prop) l m : (forall a b, P a b -> Q a b) -> Forall2 P l m -> Forall2 Q l m.
Proof. intros H. induction 1; constructor; auto. Qed.
Notation inputs := (list (document * list tv_in))%type.
Lemma after_has l : forall fis x df, In x l -> In df (d_fields (fst x)) -> exists p, fis_get (fis_after fis l) (df_name df) = Some p.
Proof.
  induction l as [|y l IH]; intros fis x df Hx Hd; [destruct Hx|]. change (fis_after fis (y :: l)) with (fis_after (add_fields fis (fst y)) l). destruct Hx as [->|Hx]; [|eauto].
  destruct (fold_add_has (d_fields (fst x)) fis df Hd) as ((n & f) & E). exists (n, f). eapply fis_get_ext; [apply fis_after_ext|exact E].
Qed.
Lemma zip_xok zip fis l : Forall (fun x => small_zip zip (fis_after fis l) (fst x)) l -> Forall (xok zip (fis_after fis l)) l.
Proof.
  intros H. rewrite Forall_forall in *. intros x Hx. specialize (H x Hx). unfold xok, small_zip in *. rewrite Forall_forall in *. intros df Hd. split; [eapply after_has; eauto|]. intros Hs.
  apply Forall_forall. intros v Hv Hc. specialize (H df Hd Hs Hc). rewrite Forall_forall in H. auto.
Qed.
Lemma plain_small zip fis d : plain fis d -> small_zip zip fis d.
Proof. unfold plain, small_zip. intros H. eapply Forall_impl; [|exact H]. cbv beta. intros df H1 H2 H3. rewrite H1 in H3 by auto. discriminate. Qed.
Lemma tvs_known_after l : forall fis, tvs_known fis l -> Forall (known (fis_after fis l)) l.
Proof.
  assert (L : forall a b, ext a b -> (length (fis_fields a) <= length (fis_fields b))%nat) by (intros a b (m & E); rewrite E, app_length; lia).
  induction l as [|x l IH]; intros fis H; [constructor|]. cbn [tvs_known] in H. destruct H as [H1 H2]. change (fis_after fis (x :: l)) with (fis_after (add_fields fis (fst x)) l). constructor; [|auto].
  unfold known. pose proof (L _ _ (fis_after_ext l (add_fields fis (fst x)))) as HL. eapply Forall_impl; [|exact H1]. cbv beta. intros; lia.
Qed.
(* the lazy fields against the document *)
Definition lazy_ok (unzip : list Z -> option (list Z)) (fu : nat) (fdt : list Z) (z : lazy) (v : list Z * list (list Z)) : Prop :=
  z_name z = fst v /\ length (z_data z) = length (snd v) /\ forall i d, nth_error (snd v) i = Some d -> lazy_get unzip fu fdt z i = Some d.
Definition sizes (fis : field_infos) (l : inputs) : Prop :=
  tvs_known fis l /\ Forall doc_fits l /\ Forall (fun x => names_differ (fst x)) l /\ Z.of_nat (length (fis_fields (fis_after fis l))) < 2 ^ 31 /\ Z.of_nat (12 * length l) < 2 ^ 31.
Lemma top_written zip fuel fis l : tvs_known fis l -> Forall (fun x => small_zip zip (fis_after fis l) (fst x)) l ->
  exists w, fw_puts zip (S fuel) fis fw_open l = Some (w, fis_after fis l) /\ fw_fdt w = fdt_of (map (rec_of zip (fis_after fis l)) l) /\ fw_fdx w = fdx_of O (map (rec_of zip (fis_after fis l)) l).
Proof.
  intros HK HZ. destruct (fw_puts_ok zip fuel l fis fw_open _ HK eq_refl (zip_xok _ _ _ HZ)) as (w & E1 & E2 & E3). exists w. auto.
Qed.
Lemma top_stored zip unzip fuel fis l : codec zip unzip -> sizes fis l -> Forall (fun x => small_zip zip (fis_after fis l) (fst x)) l ->
  exists w, fw_puts zip (S fuel) fis fw_open l = Some (w, fis_after fis l) /\
    (Z.of_nat (length (fw_fdt w)) < 2 ^ 63 -> forall n x, nth_error l n = Some x ->
       fr_get_doc unzip (S fuel) (fis_after fis l) (fw_fdt w) (fw_fdx w) n = Some (stored_view (fis_after fis l) (fst x)) /\
       exists zs, fr_get_lazy (fis_after fis l) (fw_fdt w) (fw_fdx w) n = Some zs /\ Forall2 (lazy_ok unzip (S fuel) (fw_fdt w)) zs (stored_view (fis_after fis l) (fst x))).
Proof.
  intros HC (HK & HF & HD & HN & H12) HZ. destruct (top_written zip fuel fis l HK HZ) as (w & E1 & E2 & E3). exists w. split; auto. intros HL n x En. rewrite E2, E3 in *. apply zip_xok in HZ. split.
  - apply get_doc_ok with (zip := zip); auto.
  - destruct (get_lazy_ok zip unzip fuel HC (fis_after fis l) l HN HZ HF HL H12 n x En) as (zs & Ez & HA). exists zs. split; auto. clear -HA. unfold stored_view. induction HA as [|z df zs dfs [Hz _] Hr IH]; cbn [map]; constructor; auto.
    destruct Hz as (A1 & A2 & A3 & _). split; [exact A1|]. split; [exact A2|exact A3].
Qed.
Lemma top_bytes zip unzip fuel fis l : codec zip unzip -> sizes fis l -> Forall (fun x => small_zip zip (fis_after fis l) (fst x)) l ->
  exists w, fw_puts zip (S fuel) fis fw_open l = Some (w, fis_after fis l) /\
    (Z.of_nat (length (fw_fdt w)) < 2 ^ 63 -> forall n x, nth_error l n = Some x -> exists zs, fr_get_lazy (fis_after fis l) (fw_fdt w) (fw_fdx w) n = Some zs /\
       Forall2 (fun z df => z_comp z = is_comp (fis_after fis l) df /\ forall start len, lazy_bytes unzip (S fuel) (fw_fdt w) z start len =
          if (1 <=? len)%nat && (start + len <=? length (joined (df_data df)))%nat
          then Some (if z_comp z && gap (df_data df) start then firstn len (skipn (S start) (joined (df_data df)) ++ [32]) else firstn len (skipn start (joined (df_data df)))) else None)
         zs (filter (is_stored (fis_after fis l)) (d_fields (fst x)))).
Proof.
  intros HC (HK & HF & HD & HN & H12) HZ. destruct (top_written zip fuel fis l HK HZ) as (w & E1 & E2 & E3). exists w. split; auto. intros HL n x En. rewrite E2, E3 in *. apply zip_xok in HZ.
  destruct (get_lazy_ok zip unzip fuel HC (fis_after fis l) l HN HZ HF HL H12 n x En) as (zs & Ez & HA). exists zs. split; auto. eapply Forall2_impl'; [|exact HA]. cbv beta. intros z df [Hz Hc]. split; auto. intros start len.
  destruct (z_comp z) eqn:Ec; cbn [andb]; [eapply lazy_bytes_comp; eauto|eapply lazy_bytes_plain; eauto].
Qed.
(* after merging: the segments written with the field numbers the merger has *)
Notation insrc := (inputs * option (Z -> bool))%type.
Definition idel (x : insrc) : Z -> bool := match snd x with Some f => f | None => fun _ => false end.
Lemma live_from_map {A B} (f : A -> B) del l : forall j, live_from del j (map f l) = map f (live_from del j l).
Proof. induction l as [|x l IH]; intros j; [reflexivity|]. cbn [map]. rewrite !live_from_cons, map_app, IH. destruct (del (Z.of_nat j)); reflexivity. Qed.
Lemma live_map {A B} (f : A -> B) del l : live_of del (map f l) = map f (live_of del l).
Proof. exact (live_from_map f del l O). Qed.
Lemma live_in {A} del (l : list A) x : In x (live_of del l) -> In x l.
Proof. unfold live_of. intros H. apply in_map_iff in H. destruct H as ((i & y) & E & H). cbn in E. subst. apply filter_In in H. destruct H as [H _]. apply in_combine_r in H. auto. Qed.
Lemma top_merged zip unzip fuel F segs : codec zip unzip -> Z.of_nat (length (fis_fields F)) < 2 ^ 31 ->
  let kept := flat_map (fun s : insrc => live_of (idel s) (fst s)) segs in
  Forall (fun s : insrc => Forall (xok zip F) (fst s) /\ Forall doc_fits (fst s) /\ Forall (fun x => names_differ (fst x)) (fst s) /\ Z.of_nat (length (fdt_of (map (rec_of zip F) (fst s)))) < 2 ^ 63) segs ->
  Z.of_nat (length (fdt_of (map (rec_of zip F) kept))) < 2 ^ 63 -> Z.of_nat (12 * length kept) < 2 ^ 31 ->
  exists fdt fdx, sm_merge_fields (map (fun s : insrc => dfiles_of (map (rec_of zip F) (fst s), snd s)) segs) [] [] = Some (fdt, fdx) /\
    forall n x, nth_error kept n = Some x -> fr_get_doc unzip (S fuel) F fdt fdx n = Some (stored_view F (fst x)).
Proof.
  intros HC HN kept HS HL H12. exists (fdt_of (map (rec_of zip F) kept)), (fdx_of O (map (rec_of zip F) kept)). split.
  - rewrite <- (map_map (fun s : insrc => (map (rec_of zip F) (fst s), snd s)) dfiles_of). pose proof (merge_docs_ok (map (fun s : insrc => (map (rec_of zip F) (fst s), snd s)) segs)) as M. lapply M.
    + intros M'. specialize (M' []). cbn [app] in M'. change (fdt_of []) with (@nil Z) in M'. change (fdx_of O []) with (@nil Z) in M'. rewrite M'. rewrite flat_map_concat_map, map_map. cbn [fst]. unfold kept. rewrite flat_map_concat_map. rewrite concat_map, map_map.
      rewrite (map_ext _ (fun s : insrc => map (rec_of zip F) (live_of (idel s) (fst s)))); [reflexivity|]. intros s. rewrite <- live_map. reflexivity.
    + apply Forall_map. eapply Forall_impl; [|exact HS]. cbv beta. intros s (H1 & H2 & H3 & H4). cbn [fst]. split; auto. apply Forall_map. apply Forall_forall. intros x Hx. rewrite Forall_forall in H1, H2. apply (rec_size zip F x); auto.
  - assert (HK : Forall (fun x => xok zip F x /\ doc_fits x /\ names_differ (fst x)) kept).
    { apply Forall_forall. intros x Hx. unfold kept in Hx. apply in_flat_map in Hx. destruct Hx as (s & Hs & Hx). apply live_in in Hx. rewrite Forall_forall in HS. destruct (HS s Hs) as (H1 & H2 & H3 & _). rewrite Forall_forall in H1, H2, H3. auto. }
    intros n x En. apply get_doc_ok with (zip := zip); auto; eapply Forall_impl; try exact HK; cbv beta; tauto.
Qed.
(* a value of a compressed field that does not fit the buffer *)
Definition czip_fis : field_infos := mkFis 0 0 0 [mkFi [99] 1065353216 3].
Definition czip_doc (v : list Z) : document := mkDoc 1065353216 [mkDfd [99] 1065353216 [v]].
Lemma top_big zip unzip fuel v : codec zip unzip -> (ZIP_BUFFER_SIZE <= length v)%nat ->
  match fw_puts zip fuel czip_fis fw_open [(czip_doc v, [])] with
  | None => True
  | Some (w, fis) => fr_get_doc unzip fuel fis (fw_fdt w) (fw_fdx w) 0 = None
  end.
Proof.
  intros HC HV. assert (EA : add_fields czip_fis (czip_doc v) = czip_fis) by reflexivity.
  destruct (fw_puts zip fuel czip_fis fw_open [(czip_doc v, [])]) as [(w & fis)|] eqn:E; [|exact I]. cbn [fw_puts] in E. unfold fw_put, fw_add_doc in E. cbn [fst snd] in E. rewrite EA in E. cbv zeta in E.
  unfold czip_doc at 1 2 in E. cbn [d_fields filter enc_stored df_name df_data] in E. change (fis_get czip_fis [99]) with (Some (O, mkFi [99] 1065353216 3)) in E. cbn [obind snd fst] in E.
  change (fi_is_stored (mkFi [99] 1065353216 3)) with true in E. change (fi_is_compressed (mkFi [99] 1065353216 3)) with true in E. cbn [enc_values] in E. unfold os_write_zipped in E.
  destruct (Nat.lt_ge_cases (length (zip v)) ZIP_BUFFER_SIZE) as [HS|HS]. 2:{ rewrite zip_loop_big in E by auto. rewrite !eint_some in E. cbn [obind] in E. discriminate. }
  destruct fuel as [|fuel]. { rewrite !eint_some in E. cbn [zip_loop obind] in E. discriminate. } rewrite zip_loop_small in E by auto. rewrite !eint_some in E. cbn [obind fst snd fw_tvs] in E. unfold fw_write_tv_index in E. rewrite eint_some in E. cbn [fw_tv rev enc_list obind fw_fdt fw_fdx fw_start fw_open app length] in E. apply some_inj in E.
  injection E as <- <-. cbn [fw_fdt fw_fdx]. unfold fr_get_doc. assert (HP : (1 <= length (zip v))%nat) by (destruct (HC v) as [H _]; destruct (zip v); [congruence|cbn; lia]).
  match goal with |- context [doc_start ?x 0] => assert (ED : doc_start x 0 = Some 0) by reflexivity; rewrite ED end. cbn [obind]. unfold seek. cbn [Z.to_nat skipn]. unfold pbind at 1, dec_heads.
  unfold pbind at 1. rewrite <- !app_assoc. cbn [app].
  match goal with |- context [dec_int (?a :: ?l)] => change (dec_int (a :: l)) with (POk 1 l) end. cbv iota. change (Z.to_nat 1) with 1%nat. cbn [dec_n]. unfold pbind at 1. unfold dec_head. unfold pbind at 1.
  match goal with |- context [dec_int (?a :: ?l)] => change (dec_int (a :: l)) with (POk 0 l) end. cbv iota. unfold pbind at 1.
  match goal with |- context [dec_int (?a :: ?l)] => change (dec_int (a :: l)) with (POk 1 l) end.
  cbv iota. change (0 <? 0) with false. cbv iota. cbn [Z.to_nat nth_error fis_fields czip_fis]. change (Z.to_nat 1) with 1%nat. cbn [Pos.to_nat dec_n]. unfold pbind at 1 2.
  destruct (Z.ltb_spec (Z.of_nat (length (zip v)) - 1) (2 ^ 31)) as [HB|HB].
  2:{ exfalso. pose proof zip_size_val. lia. }
  change (Pos.to_nat 1) with 1%nat. cbn [dec_n]. unfold pbind at 1.
  rewrite (reads_eint (Z.of_nat (length (zip v)) - 1)) by (unfold i32; lia). unfold pbind at 1, pret. cbn [map fst fi_name has_dup existsb orb dec_data dec_values]. change (fi_is_compressed (mkFi [99] 1065353216 3)) with true.
  cbn [dec_data dec_values]. unfold pbind at 1 2. unfold dec_value. rewrite (proj2 (Z.ltb_ge (Z.of_nat (length (zip v)) - 1) 0)) by lia. replace (Z.to_nat (Z.of_nat (length (zip v)) - 1) + 1)%nat with (length (zip v)) by lia.
  unfold is_read_zipped. rewrite (proj2 (Nat.ltb_ge ZIP_BUFFER_SIZE (length (zip v)))) by lia. rewrite <- ?app_assoc. rewrite reads_take. destruct (HC v) as [_ ->]. rewrite unzip_loop_big by auto. reflexivity.
Qed.
(* term vectors *)
Lemma top_tv zip fuel fis l : sizes fis l -> Forall (fun x => small_zip zip (fis_after fis l) (fst x)) l ->
  exists w, fw_puts zip (S fuel) fis fw_open l = Some (w, fis_after fis l) /\
    (Z.of_nat (length (fw_fdt w)) < 2 ^ 63 -> forall n x, nth_error l n = Some x -> Forall tv_ok (snd x) -> NoDup (map (fun t : tv_in => fst (fst t)) (snd x)) ->
       (forall t f, In t (snd x) -> nth_error (fis_fields (fis_after fis l)) (fst (fst t)) = Some f -> fr_get_field_tv (fis_after fis l) (fw_fdt w) (fw_fdx w) n (fst (fst t)) = Some (Some (tv_of f t))) /\
       (forall num, ~ In num (map (fun t : tv_in => fst (fst t)) (snd x)) -> fr_get_field_tv (fis_after fis l) (fw_fdt w) (fw_fdx w) n num = Some None) /\
       (Forall (no_tail (fis_after fis l)) (snd x) -> fr_get_tv (fis_after fis l) (fw_fdt w) (fw_fdx w) n = Some (map (tv_at_num (fis_after fis l)) (snd x)))).
Proof.
  intros (HK & HF & HD & HN & H12) HZ. destruct (top_written zip fuel fis l HK HZ) as (w & E1 & E2 & E3). exists w. split; auto. intros HL n x En HT HU. rewrite E2, E3 in *. apply zip_xok in HZ. apply tvs_known_after in HK.
  split; [|split].
  - intros t f Ht Ef. rewrite (field_tv_ok zip _ l n x (fst (fst t)) HN HZ HF HK HL H12 En HT HU). destruct (find (fun u : tv_in => (fst (fst u) =? fst (fst t))%nat) (snd x)) as [u|] eqn:EF.
    + apply find_some in EF. destruct EF as [Hu Eu]. apply Nat.eqb_eq in Eu. rewrite Ef. do 3 f_equal. clear -HU Ht Hu Eu. induction (snd x) as [|y r IH]; [destruct Ht|]. cbn [map] in HU. inversion HU; subst. destruct Ht as [->|Ht], Hu as [->|Hu]; auto.
      * exfalso. apply H1. rewrite <- Eu. apply (in_map (fun t : tv_in => fst (fst t))). auto.
      * exfalso. apply H1. rewrite Eu. apply (in_map (fun t : tv_in => fst (fst t))). auto.
    + exfalso. apply (find_none _ _ EF) in Ht. rewrite Nat.eqb_refl in Ht. discriminate.
  - intros num Hn. rewrite (field_tv_ok zip _ l n x num HN HZ HF HK HL H12 En HT HU). destruct (find (fun u : tv_in => (fst (fst u) =? num)%nat) (snd x)) as [u|] eqn:EF; [|reflexivity]. exfalso. apply find_some in EF. destruct EF as [Hu Eu]. apply Nat.eqb_eq in Eu. apply Hn. rewrite <- Eu. apply (in_map (fun t : tv_in => fst (fst t))). auto.
  - intros HE. apply get_tv_ok with (zip := zip); auto.
Qed.
