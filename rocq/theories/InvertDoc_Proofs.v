(* The DocumentWriter after any documents: its tables hold what the documents mean, its stored fields and term vectors are those of the documents. *)
From Verif Require Import Util Strcmp Seg_Model Dict_Model Dict_Spec Token_Model Post_Model Post_Spec Mte_Spec Mte_Proofs MergeTerms_Proofs Fields_Model Fields_Spec Fields_Proofs Invert_Model Invert_Spec Invert_Proofs.
Open Scope Z_scope.

Lemma tab_get_set n v l m : tab_get m (tab_set n v l) = if (m =? n)%nat then Some v else tab_get m l.
Proof.
  induction l as [|(k & w) l IH]; cbn [tab_set tab_get].
  - rewrite (Nat.eqb_sym n m). reflexivity.
  - destruct (Nat.eqb_spec k n) as [->|Hk]; cbn [tab_get].
    + rewrite (Nat.eqb_sym n m). destruct (m =? n)%nat; reflexivity.
    + rewrite IH. destruct (Nat.eqb_spec k m) as [->|]; auto. destruct (Nat.eqb_spec m n); congruence.
Qed.

Lemma lists_ext P Q pls : (forall t, P t = Q t) -> lists_ok P pls -> lists_ok Q pls.
Proof. intros E (A & B & C). split; auto. split; [eapply Forall_impl; [|exact B]; cbv beta; intros p; rewrite E; auto|]. intros t. rewrite <- E. auto. Qed.

Section DOC.
  Variable ana : list Z -> list Z -> list token.
  Variable norm : field_info -> Z -> dfield -> Z -> Z.
  Variable zip : list Z -> list Z.
  Variable fuel : nat.
  Variable max : Z.
  Variable mbd : nat.
  Variable F : field_infos.
  Notation occs_of := (occs_of ana max).
  Notation occs_in := (occs_in ana max).
  Notation posts := (posts ana max).
  Notation norm_of := (norm_of ana norm max).

  Lemma posts_app n t a : forall i b, posts F n t i (a ++ b) = posts F n t i a ++ posts F n t (i + length a) b.
  Proof. induction a as [|d a IH]; intros i b; cbn [app Invert_Spec.posts length]; [rewrite Nat.add_0_r; reflexivity|]. rewrite IH, app_assoc. do 2 f_equal. lia. Qed.
  Lemma posts_none n t : forall l i, existsb (has_field F n) l = false -> posts F n t i l = [].
  Proof.
    induction l as [|d l IH]; intros i H; cbn [Invert_Spec.posts existsb] in *; [reflexivity|]. apply Bool.orb_false_iff in H. destruct H as [H1 H2]. rewrite IH by auto. unfold Invert_Spec.occs_in. unfold has_field in H1. destruct (field_of F n d); [discriminate|]. reflexivity.
  Qed.
  Lemma norm_none n d : has_field F n d = false -> norm_of F n d = 0.
  Proof. unfold has_field, Invert_Spec.norm_of. destruct (field_of F n d); [discriminate|reflexivity]. Qed.

  (* the tables after the documents ds *)
  Definition finv_ok (n : nat) (f : field_info) (ds : list document) (v : finv) : Prop :=
    f_tok v = fi_is_tokenized f /\ f_tv v = fi_store_term_vector f /\ f_so v = fi_store_offsets f /\
    f_norms v = (if fi_has_norms f then Some (map (norm_of F n) ds ++ repeat 0 (mbd - length ds)) else None) /\
    lists_ok (fun t => posts F n t O ds) (f_pls v).
  Definition tab_ok (ds : list document) (tab : list (nat * finv)) : Prop := forall n,
    match tab_get n tab with
    | Some v => existsb (has_field F n) ds = true /\ exists f, nth_error (fis_fields F) n = Some f /\ finv_ok n f ds v
    | None => existsb (has_field F n) ds = false
    end.
  Definition sub (d : document) (l : list dfield) : document := mkDoc (d_boost d) l.
  Lemma field_of_app n d a df : field_of F n (sub d (a ++ [df])) = match field_of F n (sub d a) with Some x => Some x | None => if is_field F n df then Some df else None end.
  Proof. unfold field_of, sub. cbn [d_fields]. induction a as [|x a IH]; cbn [app find]; [reflexivity|]. destruct (is_field F n x); auto. Qed.
  Lemma field_of_none n d a : Forall (fun x => is_field F n x = false) a -> field_of F n (sub d a) = None.
  Proof. unfold field_of, sub. cbn [d_fields]. induction 1 as [|x a H1 H2 IH]; cbn [find]; [reflexivity|]. rewrite H1. exact IH. Qed.
  Lemma upd_mid {A} (a b : list A) x y k : k = length a -> upd (a ++ x :: b) k y = a ++ y :: b.
  Proof. intros ->. induction a as [|z a IH]; cbn [app upd length]; [reflexivity|]. rewrite IH. reflexivity. Qed.

  (* getting the field inverter *)
  Lemma get_finv ds tab n f : (length ds <= mbd)%nat -> tab_ok ds tab -> nth_error (fis_fields F) n = Some f ->
    finv_ok n f ds (match tab_get n tab with Some v => v | None => fld_inv_new mbd f end).
  Proof.
    intros Hl H Ef. specialize (H n). destruct (tab_get n tab) as [v|].
    - destruct H as (_ & f' & E & H). congruence.
    - unfold finv_ok, fld_inv_new. cbn [f_tok f_tv f_so f_norms f_pls]. do 3 (split; [reflexivity|]). split.
      + destruct (fi_has_norms f); auto. f_equal. replace mbd with (length ds + (mbd - length ds))%nat at 1 by lia. rewrite repeat_app. f_equal. clear Hl. induction ds as [|d ds IH]; [reflexivity|]. cbn [existsb] in H. apply Bool.orb_false_iff in H. destruct H as [H1 H2]. cbn [length repeat map]. rewrite norm_none by auto. f_equal. auto.
      + split; [constructor|]. split; [constructor|]. intros t Ht. rewrite posts_none in Ht by auto. congruence.
  Qed.
  Lemma invert_ok n f ds v doc df s : finv_ok n f ds v -> Forall (fun o => 0 <= o_pos o < 2 ^ 31) (occs_of f df) ->
    dw_invert_field ana max v doc df s = (do s' <- puts (fi_store_offsets f) doc s (occs_of f df); Some (Z.of_nat (length (occs_of f df)), s')).
  Proof.
    intros (E1 & _ & E3 & _) Hp. rewrite <- (invert_field_ok ana max mbd f doc df s Hp). unfold dw_invert_field, fld_inv_new. cbn [f_tok f_so]. rewrite E1, E3. reflexivity.
  Qed.
  Definition tvec_of (df : dfield) : list tv_in := vectors ana max F (mkDoc 0 [df]).
  Lemma vectors_cons d df l : vectors ana max F (sub d (df :: l)) = tvec_of df ++ vectors ana max F (sub d l).
  Proof. unfold tvec_of, vectors, sub. cbn [d_fields flat_map]. rewrite app_nil_r. reflexivity. Qed.

  Lemma dw_field_ok d ds done df s n f : (length ds < mbd)%nat -> x_doc s = length ds -> ext (x_fis s) F -> fis_get (x_fis s) (df_name df) = Some (n, f) ->
    Forall (fun x => df_name x <> df_name df) done -> zeros (x_offs s) ->
    (fi_is_indexed f = true -> occs_ok (fi_store_offsets f) (occs_of f df)) ->
    tab_ok (ds ++ [sub d done]) (x_tab s) ->
    exists s', dw_field ana norm max mbd d s df = Some s' /\ x_fis s' = x_fis s /\ x_doc s' = x_doc s /\ zeros (x_offs s') /\ tab_ok (ds ++ [sub d (done ++ [df])]) (x_tab s') /\
      fw_tvs (x_fis s) (x_fw s) (tvec_of df) = Some (x_fw s').
  Proof.
    intros Hlen Hdoc Hext Hget Hnm Hz Hok Ht. pose proof (fis_get_ext _ _ _ _ _ Hext Hget) as HgF. pose proof (fis_get_nth _ _ _ _ HgF) as [HnF Hname].
    unfold dw_field. rewrite Hget. cbn [obind fst snd]. unfold tvec_of, vectors. cbn [d_fields flat_map]. rewrite HgF, app_nil_r.
    destruct (fi_is_indexed f) eqn:Ei.
    2:{ exists s. cbn [andb fw_tvs]. split; [reflexivity|]. do 3 (split; [auto|]). split; [|reflexivity]. intros m. specialize (Ht m).
        assert (Ef : field_of F m (sub d (done ++ [df])) = field_of F m (sub d done)).
        { rewrite field_of_app. replace (is_field F m df) with false by (unfold is_field; rewrite HgF, Ei; rewrite Bool.andb_false_r; reflexivity). destruct (field_of F m (sub d done)); reflexivity. }
        assert (Eh : existsb (has_field F m) (ds ++ [sub d (done ++ [df])]) = existsb (has_field F m) (ds ++ [sub d done])).
        { rewrite !existsb_app. cbn [existsb]. unfold has_field at 2 4. rewrite Ef. reflexivity. }
        rewrite Eh. destruct (tab_get m (x_tab s)) as [v|]; auto. destruct Ht as (A & f' & B & C1 & C2 & C3 & C4 & C5). split; auto. exists f'. split; auto. split; auto. split; auto. split; auto. split.
        - rewrite C4. destruct (fi_has_norms f'); auto. rewrite !map_app, !app_length. cbn [map length]. unfold Invert_Spec.norm_of at 2 4. rewrite Ef. reflexivity.
        - destruct C5 as (D1 & D2 & D3). assert (EP : forall t, posts F m t 0 (ds ++ [sub d (done ++ [df])]) = posts F m t 0 (ds ++ [sub d done])).
          { intros t. rewrite !posts_app. cbn [Invert_Spec.posts]. unfold Invert_Spec.occs_in. rewrite Ef. reflexivity. }
          split; auto. split; [eapply Forall_impl; [|exact D2]; cbv beta; intros p; rewrite EP; auto|]. intros t. rewrite EP. auto. }
    specialize (Hok eq_refl). set (os := occs_of f df) in *.
    assert (Hnone : Forall (fun x => is_field F n x = false) done).
    { eapply Forall_impl; [|exact Hnm]. cbv beta. intros x Hx. unfold is_field. destruct (fis_get F (df_name x)) as [(m & g)|] eqn:E; auto. destruct (Nat.eqb_spec m n) as [->|]; auto. exfalso. apply fis_get_nth in E. destruct E as [E1 E2]. apply Hx. congruence. }
    pose proof (get_finv (ds ++ [sub d done]) (x_tab s) n f ltac:(rewrite app_length; cbn [length]; lia) Ht HnF) as Hv.
    set (v := match tab_get n (x_tab s) with Some v => v | None => fld_inv_new mbd f end) in *. cbv zeta.
    rewrite (invert_ok _ _ _ _ _ _ _ Hv) by (destruct Hok as [Hok _]; eapply Forall_impl; [|exact Hok]; cbv beta; intros o [_ Ho]; destruct (fi_store_offsets f); lia).
    fold os. destruct Hv as (V1 & V2 & V3 & V4 & V5).
    assert (Ed : forall t, posts F n t 0 (ds ++ [sub d done]) = posts F n t 0 ds).
    { intros t. rewrite posts_app. cbn [Invert_Spec.posts]. unfold Invert_Spec.occs_in. rewrite field_of_none by auto. cbn [at_ filter map post_at app]. unfold at_. cbn [filter map post_at app]. apply app_nil_r. }
    destruct (puts_start (fi_store_offsets f) (length ds) (fun t => posts F n t 0 ds) os (f_pls v) (x_offs s) Hok) as (i & Ep & Hi); [|exact Hz|].
    { destruct V5 as (D1 & D2 & D3). split; auto. split; [eapply Forall_impl; [|exact D2]; cbv beta; intros p; rewrite Ed; auto|]. intros t. rewrite <- Ed. auto. }
    rewrite Hdoc. rewrite Ep. cbn [obind].
    destruct (offs_final _ _ _ _ _ Hok Hi) as [Eo Hz']. rewrite (tv_terms_ok _ _ _ _ _ Hi), Eo.
    assert (Ew : exists w', (if f_tv v then fw_add_postings (x_fw s) n f (map (fun t => (t, at_ t os)) (distinct (map o_text os))) (if fi_store_offsets f then offs_of os else []) else Some (x_fw s)) = Some w' /\
      fw_tvs (x_fis s) (x_fw s) (if true && fi_store_term_vector f then [(n, map (fun t => (t, at_ t os)) (distinct (map o_text os)), if fi_store_offsets f then offs_of os else [])] else []) = Some w').
    { rewrite V2. cbn [andb]. destruct (fi_store_term_vector f); [|eauto]. cbn [fw_tvs]. rewrite (proj1 (fis_get_nth _ _ _ _ Hget)). cbn [obind]. unfold fw_add_postings. rewrite enc_tv_ok. cbn [obind]. eauto. }
    destruct Ew as (w' & -> & Ew2). cbn [obind]. rewrite V4.
    assert (En0 : norm_of F n (sub d done) = 0) by (apply norm_none; unfold has_field; rewrite field_of_none by auto; reflexivity).
    assert (Efd : field_of F n (sub d (done ++ [df])) = Some df).
    { rewrite field_of_app, field_of_none by auto. unfold is_field. rewrite HgF, Nat.eqb_refl, Ei. reflexivity. }
    assert (En1 : norm_of F n (sub d (done ++ [df])) = norm f (d_boost d) df (Z.of_nat (length os))).
    { unfold Invert_Spec.norm_of. rewrite Efd, HnF. reflexivity. }
    set (ns := if fi_has_norms f then Some (map (norm_of F n) (ds ++ [sub d (done ++ [df])]) ++ repeat 0 (mbd - S (length ds))) else None).
    assert (Ens : (match (if fi_has_norms f then Some (map (norm_of F n) (ds ++ [sub d done]) ++ repeat 0 (mbd - length (ds ++ [sub d done]))) else None) with
      | None => Some None
      | Some l => if (length ds <? length l)%nat then Some (Some (upd l (length ds) (norm f (d_boost d) df (Z.of_nat (length os))))) else None end) = Some ns).
    { unfold ns. destruct (fi_has_norms f); [|reflexivity]. rewrite !map_app. cbn [map]. rewrite <- !app_assoc. cbn [app]. rewrite app_length, map_length. cbn [length]. replace (length ds <? _)%nat with true by (symmetry; apply Nat.ltb_lt; lia).
      rewrite upd_mid by (symmetry; apply map_length). rewrite En1. rewrite app_length. cbn [length]. do 5 f_equal. lia. }
    rewrite Ens. cbn [obind]. eexists. split; [reflexivity|]. cbn [x_fis x_doc x_offs x_tab x_fw]. do 2 (split; [auto|]). split; [exact Hz'|]. split; [|exact Ew2].
    intros m. rewrite tab_get_set. destruct (Nat.eqb_spec m n) as [->|Hmn].
    - split; [rewrite existsb_app; cbn [existsb]; unfold has_field at 2; rewrite Efd; rewrite Bool.orb_true_r; reflexivity|]. exists f. split; [exact HnF|]. split; [exact V1|]. split; [exact V2|]. split; [exact V3|]. cbn [f_norms f_pls]. split.
      + unfold ns. rewrite app_length. cbn [length]. rewrite Nat.add_1_r. reflexivity.
      + destruct Hi as (Hi & _ & _). revert Hi. apply lists_ext. intros t. unfold adds. rewrite posts_app. cbn [Invert_Spec.posts]. unfold Invert_Spec.occs_in. rewrite Efd, HnF. cbn [Nat.add]. rewrite app_nil_r. reflexivity.
    - specialize (Ht m).
      assert (Ef : field_of F m (sub d (done ++ [df])) = field_of F m (sub d done)).
      { rewrite field_of_app. replace (is_field F m df) with false by (unfold is_field; rewrite HgF; destruct (Nat.eqb_spec n m); [congruence|reflexivity]). destruct (field_of F m (sub d done)); reflexivity. }
      assert (Eh : existsb (has_field F m) (ds ++ [sub d (done ++ [df])]) = existsb (has_field F m) (ds ++ [sub d done])).
      { rewrite !existsb_app. cbn [existsb]. unfold has_field at 2 4. rewrite Ef. reflexivity. }
      rewrite Eh. destruct (tab_get m (x_tab s)) as [u|]; auto. destruct Ht as (A & f' & B & C1 & C2 & C3 & C4 & C5). split; auto. exists f'. split; auto. split; auto. split; auto. split; auto. split.
      + rewrite C4. destruct (fi_has_norms f'); auto. rewrite !map_app, !app_length. cbn [map length]. unfold Invert_Spec.norm_of at 2 4. rewrite Ef. reflexivity.
      + destruct C5 as (D1 & D2 & D3). assert (EP : forall t, posts F m t 0 (ds ++ [sub d (done ++ [df])]) = posts F m t 0 (ds ++ [sub d done])).
        { intros t. rewrite !posts_app. cbn [Invert_Spec.posts]. unfold Invert_Spec.occs_in. rewrite Ef. reflexivity. }
        split; auto. split; [eapply Forall_impl; [|exact D2]; cbv beta; intros p; rewrite EP; auto|]. intros t. rewrite EP. auto.
  Qed.

  Lemma fw_tvs_app fis a : forall w b, fw_tvs fis w (a ++ b) = (do w' <- fw_tvs fis w a; fw_tvs fis w' b).
  Proof. induction a as [|((num & ts) & os) a IH]; intros w b; [reflexivity|]. cbn [app fw_tvs]. destruct (nth_error (fis_fields fis) num); [|reflexivity]. cbn [obind]. destruct (fw_add_postings w num f ts os); [|reflexivity]. cbn [obind]. apply IH. Qed.
  Lemma dw_fields_ok d ds : (length ds < mbd)%nat -> forall l done s, x_doc s = length ds -> ext (x_fis s) F -> NoDup (map df_name (done ++ l)) -> zeros (x_offs s) ->
    Forall (fun df => exists n f, fis_get (x_fis s) (df_name df) = Some (n, f) /\ (fi_is_indexed f = true -> occs_ok (fi_store_offsets f) (occs_of f df))) l ->
    tab_ok (ds ++ [sub d done]) (x_tab s) ->
    exists s', dw_fields ana norm max mbd d s l = Some s' /\ x_fis s' = x_fis s /\ x_doc s' = x_doc s /\ zeros (x_offs s') /\ tab_ok (ds ++ [sub d (done ++ l)]) (x_tab s') /\
      fw_tvs (x_fis s) (x_fw s) (vectors ana max F (sub d l)) = Some (x_fw s').
  Proof.
    intros Hlen. induction l as [|df l IH]; intros done s Hdoc Hext HN Hz HF Ht.
    - exists s. rewrite app_nil_r. cbn [dw_fields]. do 4 (split; [auto|]). split; [exact Ht|reflexivity].
    - inversion HF as [|? ? (n & f & Hg & Hok) HF']; subst.
      assert (Hnm : Forall (fun x => df_name x <> df_name df) done).
      { apply Forall_forall. intros x Hx E. rewrite map_app in HN. cbn [map] in HN. apply NoDup_remove_2 in HN. apply HN. apply in_app_iff. left. rewrite <- E. apply in_map. exact Hx. }
      destruct (dw_field_ok d ds done df s n f Hlen Hdoc Hext Hg Hnm Hz Hok Ht) as (s1 & E1 & A1 & A2 & A3 & A4 & A5). cbn [dw_fields]. rewrite E1. cbn [obind].
      destruct (IH (done ++ [df]) s1) as (s2 & E2 & B1 & B2 & B3 & B4 & B5); auto.
      + congruence.
      + rewrite A1. exact Hext.
      + rewrite <- app_assoc. exact HN.
      + rewrite A1. exact HF'.
      + exists s2. split; [exact E2|]. split; [congruence|]. split; [congruence|]. split; [exact B3|]. split; [rewrite <- app_assoc in B4; exact B4|].
        rewrite vectors_cons, fw_tvs_app, A5. cbn [obind]. rewrite <- A1. exact B5.
  Qed.
  Lemma tab_ok_empty ds d tab : (length ds < mbd)%nat -> tab_ok ds tab -> tab_ok (ds ++ [sub d []]) tab.
  Proof.
    intros Hl H n. specialize (H n). assert (Eh : existsb (has_field F n) (ds ++ [sub d []]) = existsb (has_field F n) ds) by (rewrite existsb_app; cbn; apply Bool.orb_false_r). rewrite Eh.
    destruct (tab_get n tab) as [v|]; auto. destruct H as (A & f & B & C1 & C2 & C3 & C4 & C5). split; auto. exists f. split; auto. do 3 (split; auto). split.
    - rewrite C4. destruct (fi_has_norms f); auto. f_equal. rewrite map_app, app_length. cbn [map length]. rewrite <- app_assoc. f_equal. cbn [app]. replace (mbd - length ds)%nat with (S (mbd - (length ds + 1))) by lia. reflexivity.
    - revert C5. apply lists_ext. intros t. rewrite posts_app. cbn [Invert_Spec.posts]. unfold Invert_Spec.occs_in, field_of. cbn [sub d_fields find]. unfold at_. cbn [filter map post_at app]. rewrite app_nil_r. reflexivity.
  Qed.
  Lemma sub_all d : sub d (d_fields d) = d. Proof. destruct d; reflexivity. Qed.
  Lemma dw_add_doc_ok ds s d w fis' : (length ds < mbd)%nat -> x_doc s = length ds -> zeros (x_offs s) -> tab_ok ds (x_tab s) ->
    ext (add_fields (x_fis s) d) F -> doc_good ana max F d -> fw_put zip fuel (x_fis s) (x_fw s) (d, vectors ana max F d) = Some (w, fis') ->
    exists s', dw_add_doc ana norm zip fuel max mbd s d = Some s' /\ x_fw s' = w /\ x_fis s' = fis' /\ fis' = add_fields (x_fis s) d /\ x_doc s' = S (length ds) /\ zeros (x_offs s') /\ tab_ok (ds ++ [d]) (x_tab s').
  Proof.
    intros Hlen Hdoc Hz Ht Hext (HN & HD) Hw. unfold fw_put in Hw. cbn [fst snd] in Hw. unfold dw_add_doc.
    destruct (fw_add_doc zip fuel (x_fis s) (x_fw s) d) as [(w1 & fis1)|] eqn:E1; [|discriminate]. cbn [obind fst snd] in Hw |- *.
    assert (Ef : fis1 = add_fields (x_fis s) d).
    { unfold fw_add_doc in E1. cbv zeta in E1. destruct (enc_int _); [|discriminate]. cbn [obind] in E1. destruct (enc_stored _ _ _ _); [|discriminate]. cbn [obind] in E1. apply some_inj in E1. injection E1 as _ <-. reflexivity. }
    subst fis1. destruct (dw_fields_ok d ds Hlen (d_fields d) [] (mkDw w1 (add_fields (x_fis s) d) (x_tab s) (x_doc s) (x_offs s))) as (s1 & E2 & A1 & A2 & A3 & A4 & A5); auto.
    - cbn [x_fis]. rewrite Forall_forall in *. intros df Hdf. destruct (fold_add_has (d_fields d) (x_fis s) df Hdf) as ((n & f) & E). exists n, f. split; [exact E|]. intros Hi. apply (HD df Hdf n f); auto. eapply fis_get_ext; eauto.
    - cbn [x_tab app]. apply tab_ok_empty; auto.
    - cbn [app x_fis x_fw x_doc] in *. rewrite sub_all in *. rewrite E2. rewrite A5 in Hw. cbn [obind] in Hw |- *. destruct (fw_write_tv_index (x_fw s1)) as [w2|]; [|discriminate]. cbn [obind] in Hw |- *. apply some_inj in Hw. injection Hw as <- <-.
      eexists. split; [reflexivity|]. cbn [x_fw x_fis x_doc x_offs x_tab]. split; [reflexivity|]. split; [exact A1|]. split; [reflexivity|]. split; [congruence|]. split; auto.
  Qed.
  Lemma dw_add_docs_ok l : forall ds s w fis', (length ds + length l <= mbd)%nat -> x_doc s = length ds -> zeros (x_offs s) -> tab_ok ds (x_tab s) ->
    ext (fis_of (x_fis s) l) F -> Forall (doc_good ana max F) l -> fw_puts zip fuel (x_fis s) (x_fw s) (with_vectors ana max F l) = Some (w, fis') ->
    exists s', dw_add_docs ana norm zip fuel max mbd s l = Some s' /\ x_fw s' = w /\ x_fis s' = fis' /\ fis' = fis_of (x_fis s) l /\ x_doc s' = (length ds + length l)%nat /\ zeros (x_offs s') /\ tab_ok (ds ++ l) (x_tab s').
  Proof.
    induction l as [|d l IH]; intros ds s w fis' Hlen Hdoc Hz Ht Hext HF Hw; cbn [dw_add_docs with_vectors map fw_puts length fis_of fold_left] in *.
    - apply some_inj in Hw. injection Hw as <- <-. exists s. rewrite app_nil_r, Nat.add_0_r. do 3 (split; [auto|]). split; [reflexivity|]. auto.
    - inversion HF as [|? ? Hd HF']; subst. destruct (fw_put zip fuel (x_fis s) (x_fw s) (d, vectors ana max F d)) as [(w1 & f1)|] eqn:E1; [|discriminate]. cbn [obind fst snd] in Hw.
      assert (Hext1 : ext (add_fields (x_fis s) d) F).
      { eapply ext_trans; [|exact Hext]. fold (fis_of (add_fields (x_fis s) d) l). clear. generalize (add_fields (x_fis s) d). induction l as [|x l IH]; intros a; cbn; [apply ext_refl|]. eapply ext_trans; [apply add_fields_ext|apply IH]. }
      destruct (dw_add_doc_ok ds s d w1 f1) as (s1 & E2 & A1 & A2 & A3 & A4 & A5 & A6); auto; [lia|]. rewrite E2. cbn [obind].
      destruct (IH (ds ++ [d]) s1 w fis') as (s2 & E3 & B1 & B2 & B3 & B4 & B5 & B6); auto.
      + rewrite app_length. cbn [length]. lia.
      + rewrite app_length. cbn [length]. lia.
      + rewrite A2, A3. exact Hext.
      + rewrite A1, A2. exact Hw.
      + exists s2. split; [exact E3|]. split; [exact B1|]. split; [exact B2|]. split; [rewrite B3, A2, A3; reflexivity|]. split; [rewrite B4, app_length; cbn [length]; lia|]. split; [exact B5|]. rewrite <- app_assoc in B6. exact B6.
  Qed.
  Lemma tab_ok_nil : tab_ok [] []. Proof. intros n. reflexivity. Qed.
End DOC.
