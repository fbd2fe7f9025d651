From Verif Require Import Util Strcmp Codec_Spec Seg_Model Seg_Spec Dict_Model Dict_Spec Token_Model Post_Model Post_Spec PostRun_Proofs Mte_Spec Merge_Spec Fields_Model Fields_Spec Fields_Proofs FieldsRead_Proofs FieldsTv_Proofs FieldsVec_Proofs FieldsTop_Proofs Invert_Model Invert_Spec Invert_Proofs InvertDoc_Proofs InvertIndex_Proofs.
Open Scope Z_scope.

Ltac splits := repeat match goal with |- _ /\ _ => split end.
Section TOP.
  Variable ana : list Z -> list Z -> list token.
  Variable norm : field_info -> Z -> dfield -> Z -> Z.
  Variable zip : list Z -> list Z.
  Variable fuel : nat.
  Variable max : Z.
  Variable mbd : nat.
  Notation occs_in := (occs_in ana max).
  Notation posts := (posts ana max).
  Notation index_of := (index_of ana max).
  Notation vectors := (vectors ana max).
  Notation with_vectors := (with_vectors ana max).

  Lemma after_of docs G : forall fis, fis_after fis (with_vectors G docs) = fis_of fis docs.
  Proof. unfold Invert_Spec.with_vectors, fis_after, fis_of. induction docs as [|d docs IH]; intros fis; cbn [map fold_left fst]; auto. Qed.
  Lemma ext_len a b : ext a b -> (length (fis_fields a) <= length (fis_fields b))%nat.
  Proof. intros (m & E). rewrite E, app_length. lia. Qed.
  Lemma fis_of_ext docs : forall fis, ext fis (fis_of fis docs).
  Proof. intros fis. rewrite <- (after_of docs fis fis). apply fis_after_ext. Qed.
  Lemma ext_refl' a : ext a a. Proof. exists []. rewrite app_nil_r. reflexivity. Qed.
  Lemma ext_nth a b n f : ext a b -> nth_error (fis_fields a) n = Some f -> nth_error (fis_fields b) n = Some f.
  Proof. intros (m & E) H. rewrite E, nth_error_app1; auto. apply nth_error_Some. congruence. Qed.
  Lemma vectors_known F d fis : ext (add_fields fis d) F -> Forall (fun t : tv_in => (fst (fst t) < length (fis_fields (add_fields fis d)))%nat) (vectors F d).
  Proof.
    intros HE. unfold Invert_Spec.vectors. apply Forall_flat_map. apply Forall_forall. intros df Hd.
    destruct (fold_add_has (d_fields d) fis df Hd) as ((n & f) & E). change (fold_left _ (d_fields d) fis) with (add_fields fis d) in E.
    rewrite (fis_get_ext _ _ _ _ _ HE E). destruct (fi_is_indexed f && fi_store_term_vector f); [|constructor]. constructor; [|constructor]. cbn [fst].
    apply fis_get_nth in E. apply nth_error_Some. destruct E. congruence.
  Qed.
  Lemma vectors_tvs F docs : forall fis, ext (fis_of fis docs) F -> tvs_known fis (with_vectors F docs).
  Proof.
    induction docs as [|d docs IH]; intros fis HE; [exact I|]. cbn [Invert_Spec.with_vectors map tvs_known fst snd]. change (fis_of fis (d :: docs)) with (fis_of (add_fields fis d) docs) in HE. split.
    - apply vectors_known. destruct HE as (m & E). destruct (fis_of_ext docs (add_fields fis d)) as (m' & E'). exists (m' ++ m). rewrite E, E', app_assoc. reflexivity.
    - apply IH. exact HE.
  Qed.
  (* the numbers of the vectors of a document differ *)
  Lemma vectors_nums F d : names_differ d -> NoDup (map (fun t : tv_in => fst (fst t)) (vectors F d)).
  Proof.
    unfold names_differ, Invert_Spec.vectors. induction (d_fields d) as [|df l IH]; intros H; cbn [flat_map map]; [constructor|]. cbn [map] in H. inversion H as [|? ? H1 H2]; subst. specialize (IH H2).
    destruct (fis_get F (df_name df)) as [(n & f)|] eqn:E; [|exact IH]. destruct (fi_is_indexed f && fi_store_term_vector f); [|exact IH]. cbn [app map fst]. constructor; [|exact IH].
    intros Hin. apply in_map_iff in Hin. destruct Hin as (x & Ex & Hx). apply in_flat_map in Hx. destruct Hx as (df' & Hd & Hx). destruct (fis_get F (df_name df')) as [(n' & f')|] eqn:E'; [|destruct Hx].
    destruct (fi_is_indexed f' && fi_store_term_vector f'); [|destruct Hx]. destruct Hx as [<-|[]]. cbn [fst] in Ex. subst n'. apply fis_get_nth in E, E'. destruct E as [E1 E2], E' as [E3 E4]. rewrite E1 in E3. apply some_inj in E3. subst f'.
    apply H1. rewrite <- E2, E4. apply in_map. exact Hd.
  Qed.
  Lemma find_key_map {A} (g : list Z -> A) t l : find (fun x : list Z * A => seqb (fst x) t) (map (fun u => (u, g u)) l) = if existsb (fun u => seqb u t) l then Some (t, g t) else None.
  Proof. induction l as [|u l IH]; [reflexivity|]. cbn [map find existsb fst]. destruct (seqb u t) eqn:E; cbn [orb]; [apply seqb_spec' in E; subst; reflexivity|exact IH]. Qed.
  (* reading a term of the index *)
  Lemma postings_index F docs n t : postings (index_of F docs) (Z.of_nat n) t = posts F n t O docs.
  Proof.
    unfold postings, Invert_Spec.index_of.
    assert (HF : forall l, find (fun x : Z * list (list Z * list post) => fst x =? Z.of_nat n) (map (fun n => (Z.of_nat n, map (fun t => (t, posts F n t O docs)) (terms_in_field ana max F n docs))) l)
      = if existsb (Nat.eqb n) l then Some (Z.of_nat n, map (fun t => (t, posts F n t O docs)) (terms_in_field ana max F n docs)) else None).
    { induction l as [|m l IH]; [reflexivity|]. cbn [map find existsb fst]. destruct (Z.eqb_spec (Z.of_nat m) (Z.of_nat n)) as [E|E].
      - apply Nat2Z.inj in E. subst m. rewrite Nat.eqb_refl. reflexivity.
      - destruct (Nat.eqb_spec n m) as [->|_]; [congruence|]. exact IH. }
    rewrite HF. clear HF. destruct (existsb (Nat.eqb n) _) eqn:E.
    - rewrite find_key_map. destruct (existsb (fun u => seqb u t) (terms_in_field ana max F n docs)) eqn:E2; [reflexivity|]. destruct (posts F n t O docs) as [|p q] eqn:Ep; [reflexivity|]. exfalso.
      assert (Hp : posts F n t O docs <> []) by (rewrite Ep; discriminate). apply (proj1 (posts_in ana max F n t docs O)) in Hp.
      assert (Hi : In t (terms_in_field ana max F n docs)) by (unfold terms_in_field; apply (proj2 (distinct_in _ _)); exact Hp).
      assert (existsb (fun u => seqb u t) (terms_in_field ana max F n docs) = true) by (apply existsb_exists; exists t; split; [exact Hi|apply (proj2 (seqb_spec' _ _)); reflexivity]). congruence.
    - destruct (posts F n t O docs) as [|p q] eqn:Ep; [reflexivity|]. exfalso.
      assert (Hp : posts F n t O docs <> []) by (rewrite Ep; discriminate).
      assert (Hh : existsb (has_field F n) docs = true). { destruct (existsb (has_field F n) docs) eqn:Eh; auto. exfalso. apply Hp. apply posts_none. exact Eh. }
      assert (Hn : (n < length (fis_fields F))%nat).
      { apply existsb_exists in Hh. destruct Hh as (d & _ & Hh). unfold has_field, field_of in Hh. destruct (find (is_field F n) (d_fields d)) as [df|] eqn:Ef; [|discriminate]. apply find_some in Ef. destruct Ef as [_ Ef]. unfold is_field in Ef.
        destruct (fis_get F (df_name df)) as [(m & g)|] eqn:Eg; [|discriminate]. apply andb_prop in Ef. destruct Ef as [Ef _]. apply Nat.eqb_eq in Ef. subst m. apply fis_get_nth in Eg. destruct Eg as [Eg _]. apply nth_error_Some. congruence. }
      assert (existsb (Nat.eqb n) (filter (fun n => existsb (has_field F n) docs) (seq 0 (length (fis_fields F)))) = true); [|congruence].
      apply existsb_exists. exists n. split; [|apply Nat.eqb_refl]. apply filter_In. split; auto. apply in_seq. lia.
  Qed.
  Lemma postings_other F docs f t : f < 0 \/ Z.of_nat (length (fis_fields F)) <= f -> postings (index_of F docs) f t = [].
  Proof.
    intros H. unfold postings, Invert_Spec.index_of. match goal with |- match ?x with _ => _ end = _ => destruct x as [(g & l)|] eqn:E end; [|reflexivity]. exfalso. apply find_some in E. destruct E as [Hi E]. cbn [fst] in E. apply Z.eqb_eq in E. subst g.
    apply in_map_iff in Hi. destruct Hi as (n & En & Hn). injection En as En _. apply filter_In in Hn. destruct Hn as [Hn _]. apply in_seq in Hn. lia.
  Qed.

  Lemma top_index fis docs I kn : (1 <= I)%nat -> Z.of_nat I < 2 ^ 31 -> (1 <= kn)%nat -> Z.of_nat kn < 2 ^ 31 -> let F := fis_of fis docs in
    fit ana max F docs -> (length docs <= mbd)%nat -> Forall (small_zip zip F) docs ->
    exists s g sf, dw_add_docs ana norm zip (S fuel) max mbd (dw_open fis) docs = Some s /\ x_fis s = F /\
      fw_puts zip (S fuel) fis fw_open (with_vectors F docs) = Some (x_fw s, F) /\
      dw_write (Z.of_nat I) (Z.of_nat kn) s = Some (g, norm_table ana norm max F docs) /\ dw_flush (Z.of_nat I) (Z.of_nat kn) (index_of F docs) = Some g /\ sfi_open (g_dict g) = Some sf /\
      forall pos os, Forall (okop kn pos) os -> tde_run pos g sf (tir_open, tde_new (g_frq g) (g_prx g)) os = Some (pspec_run (index_of F docs) ([], []) os).
  Proof.
    intros HI HI2 Hk Hk2 F (HD & Hd & Hf & Hc) Hm HZ.
    assert (HK : tvs_known fis (with_vectors F docs)) by (apply vectors_tvs, ext_refl').
    assert (HZ' : Forall (fun x => small_zip zip (fis_after fis (with_vectors F docs)) (fst x)) (with_vectors F docs)). { rewrite after_of. unfold Invert_Spec.with_vectors. apply Forall_map. exact HZ. }
    destruct (top_written zip fuel fis (with_vectors F docs) HK HZ') as (w & E1 & _ & _). rewrite after_of in E1. fold F in E1.
    destruct (dw_add_docs_ok ana norm zip (S fuel) max mbd F docs [] (dw_open fis) w F) as (s & E2 & E3 & E4 & _ & E5 & E6 & E7); auto.
    { intros p. destruct p; reflexivity. } { apply tab_ok_nil. } { cbn [dw_open x_fis]. apply ext_refl'. }
    cbn [app length] in *. pose proof (index_ok ana norm max F docs HD Hd Hf Hc) as Hix. destruct (post_run I kn (index_of F docs) HI HI2 Hk Hk2 Hix) as (g & sf & G1 & G2 & G3).
    exists s, g, sf. subst w. repeat (apply conj; [solve [auto]|]). apply conj; [|auto]. unfold dw_write. rewrite (norm_files_ok ana norm max mbd F docs s E4 E5 E7). cbn [obind]. rewrite (inverted_ok ana norm max mbd F docs s E4 E7), G1. reflexivity.
  Qed.
  (* the term vectors *)
  Lemma top_vectors fis docs : let F := fis_of fis docs in
    Forall names_differ docs -> Forall doc_fits (with_vectors F docs) -> Z.of_nat (length (fis_fields F)) < 2 ^ 31 -> Z.of_nat (12 * length docs) < 2 ^ 31 -> Forall (small_zip zip F) docs ->
    forall w, fw_puts zip (S fuel) fis fw_open (with_vectors F docs) = Some (w, F) -> Z.of_nat (length (fw_fdt w)) < 2 ^ 63 ->
    forall i d, nth_error docs i = Some d -> Forall tv_ok (vectors F d) ->
      (forall t f, In t (vectors F d) -> nth_error (fis_fields F) (fst (fst t)) = Some f -> fr_get_field_tv F (fw_fdt w) (fw_fdx w) i (fst (fst t)) = Some (Some (tv_of f t))) /\
      (forall num, ~ In num (map (fun t : tv_in => fst (fst t)) (vectors F d)) -> fr_get_field_tv F (fw_fdt w) (fw_fdx w) i num = Some None).
  Proof.
    intros F HN HF Hf H12 HZ w Ew Hl i d Ed HT.
    assert (HK : tvs_known fis (with_vectors F docs)) by (apply vectors_tvs, ext_refl').
    assert (HZ' : Forall (fun x => small_zip zip (fis_after fis (with_vectors F docs)) (fst x)) (with_vectors F docs)). { rewrite after_of. unfold Invert_Spec.with_vectors. apply Forall_map. exact HZ. }
    destruct (top_tv zip fuel fis (with_vectors F docs)) as (w' & E1 & H); auto.
    { unfold sizes. rewrite after_of. unfold Invert_Spec.with_vectors at 3 4. rewrite map_length. repeat (apply conj; [solve [auto | apply Forall_map; exact HN]|]). exact H12. }
    rewrite after_of in *. fold F in E1, H. rewrite Ew in E1. apply some_inj in E1. injection E1 as E1. subst w'.
    destruct (H Hl i (d, vectors F d)) as (H1 & H2 & _); cbn [snd]; auto.
    - unfold Invert_Spec.with_vectors. rewrite nth_error_map, Ed. reflexivity.
    - apply vectors_nums. rewrite Forall_forall in HN. apply HN. eapply nth_error_In; eauto.
  Qed.

  (* max_field_length *)
  Lemma kept_bound l : forall n, n + Z.of_nat (length (concat (kept max n l))) <= Z.max n max + Z.of_nat (length l).
  Proof.
    induction l as [|ts r IH]; intros n; cbn [kept concat length]; [lia|]. cbv zeta. cbn [concat]. set (k := firstn (Z.to_nat (Z.max 1 (max + 1 - n))) ts). rewrite app_length. specialize (IH (n + Z.of_nat (length k))).
    assert (length k <= Z.to_nat (Z.max 1 (max + 1 - n)))%nat by (unfold k; rewrite firstn_length; lia). lia.
  Qed.
  Lemma kept_all l : forall n, n + Z.of_nat (length (concat l)) <= max + 1 -> kept max n l = l.
  Proof.
    induction l as [|ts r IH]; intros n H; cbn [kept]; [reflexivity|]. cbv zeta. cbn [concat] in H. rewrite app_length in H.
    assert (E : firstn (Z.to_nat (Z.max 1 (max + 1 - n))) ts = ts) by (apply firstn_all2; lia). rewrite E. f_equal. apply IH. lia.
  Qed.
  Lemma kept_prefix l : forall n, Forall2 (fun a b => exists k, a = firstn k b) (kept max n l) l.
  Proof. induction l as [|ts r IH]; intros n; cbn [kept]; constructor; eauto. Qed.
  Lemma kept_more l : forall n, max + 1 <= n -> Forall (fun ts : list token => ts <> []) l -> length (concat (kept max n l)) = length l.
  Proof.
    induction l as [|ts r IH]; intros n Hn H; cbn [kept concat length]; [reflexivity|]. cbv zeta. inversion H as [|? ? H1 H2]; subst. replace (Z.max 1 (max + 1 - n)) with 1 by lia. change (Z.to_nat 1) with 1%nat.
    destruct ts as [|t ts]; [congruence|]. cbn [firstn concat app length]. rewrite IH; auto. cbn [length]. lia.
  Qed.
  Lemma kept_exact ts r : 0 <= max -> max + 1 <= Z.of_nat (length ts) -> Forall (fun ts : list token => ts <> []) r -> length (concat (kept max 0 (ts :: r))) = (Z.to_nat (max + 1) + length r)%nat.
  Proof.
    intros Hm Ht Hr. cbn [kept concat]. cbv zeta. cbn [concat]. replace (Z.max 1 (max + 1 - 0)) with (max + 1) by lia. rewrite app_length. assert (E : length (firstn (Z.to_nat (max + 1)) ts) = Z.to_nat (max + 1)) by (apply firstn_length_le; lia).
    rewrite E. f_equal. apply kept_more; auto. lia.
  Qed.
  Lemma kept_len l : forall n, length (kept max n l) = length l.
  Proof. induction l as [|ts r IH]; intros n; cbn [kept length]; auto. Qed.
  Lemma place_len l : forall pos, length (place pos l) = length l.
  Proof. induction l as [|(t & s) l IH]; intros pos; cbn [place length]; auto. Qed.
  Lemma with_start_len : forall tss vs start, length vs = length tss -> length (with_start start (combine vs tss)) = length (concat tss).
  Proof. induction tss as [|ts tss IH]; intros [|v vs] start H; cbn [combine with_start concat length] in *; auto; try discriminate. rewrite !app_length, map_length, IH; auto. Qed.
  Lemma occs_len f df : fi_is_tokenized f = true -> length (occs_of ana max f df) = length (concat (kept max 0 (map (fun v => ana (df_name df) (ctext v)) (df_data df)))).
  Proof. intros E. unfold occs_of. rewrite E, place_len. apply with_start_len. rewrite kept_len, map_length. reflexivity. Qed.
  Definition toks (df : dfield) : list (list token) := map (fun v => ana (df_name df) (ctext v)) (df_data df).
  Lemma field_length f df : 0 <= max -> fi_is_tokenized f = true ->
    Z.of_nat (length (occs_of ana max f df)) <= max + Z.of_nat (length (df_data df)) /\ (Z.of_nat (length (concat (toks df))) <= max + 1 -> occs_of ana max f df = place (-1) (with_start 0 (combine (df_data df) (toks df)))).
  Proof.
    intros Hm E. split.
    - rewrite occs_len by auto. pose proof (kept_bound (map (fun v => ana (df_name df) (ctext v)) (df_data df)) 0) as H. rewrite map_length in H. lia.
    - intros H. unfold occs_of. rewrite E. rewrite kept_all; [reflexivity|]. unfold toks in H. lia.
  Qed.
  Lemma field_length_exceeded f df ts r : 0 <= max -> fi_is_tokenized f = true -> toks df = ts :: r -> max + 1 <= Z.of_nat (length ts) -> Forall (fun ts => ts <> []) r ->
    Z.of_nat (length (occs_of ana max f df)) = max + Z.of_nat (length (df_data df)).
  Proof.
    intros Hm E Et H1 H2. rewrite occs_len by auto. fold (toks df). rewrite Et. pose proof (kept_exact ts r Hm H1 H2) as K. rewrite K. assert (L : length (df_data df) = length (toks df)) by (unfold toks; rewrite map_length; reflexivity). rewrite L, Et. cbn [length]. lia.
  Qed.

  (* values that are terms *)
  Lemma raw_at v : (length v <= MAX_WORD_SIZE)%nat -> forall vs i start, Forall (fun u => (length u <= MAX_WORD_SIZE)%nat) vs ->
    at_ v (raw_occs i start vs) = map (fun j => Z.of_nat j) (filter (fun j => match nth_error vs (j - i) with Some u => seqb u v | None => false end) (seq i (length vs))).
  Proof.
    intros Hv. induction vs as [|u vs IH]; intros i start H; [reflexivity|]. inversion H as [|? ? H1 H2]; subst. cbn [raw_occs length seq filter]. rewrite Nat.sub_diag. cbn [nth_error]. unfold at_ in *. cbn [filter map]. unfold o_text at 1. cbn [fst].
    assert (Ec : cut_value u = u) by (unfold cut_value; destruct (Nat.ltb_spec MAX_WORD_SIZE (length u)); auto; lia). rewrite Ec.
    assert (G : map o_pos (filter (fun o => seqb (o_text o) v) (raw_occs (S i) (start + Z.of_nat (length u) + 1) vs)) =
       map (fun j => Z.of_nat j) (filter (fun j => match nth_error (u :: vs) (j - i) with Some u0 => seqb u0 v | None => false end) (seq (S i) (length vs)))).
    { rewrite IH by auto. f_equal. apply filter_ext_in. intros j Hj. apply in_seq in Hj. replace (j - i)%nat with (S (j - S i)) by lia. reflexivity. }
    destruct (seqb u v); cbn [map]; [f_equal|]; exact G.
  Qed.
  Lemma posts_nth F n t docs : forall i k d, nth_error docs k = Some d -> at_ t (occs_in F n d) <> [] -> In (Z.of_nat (i + k), at_ t (occs_in F n d)) (posts F n t i docs).
  Proof.
    induction docs as [|e docs IH]; intros i [|k] d H Hn; cbn [nth_error Invert_Spec.posts] in *; try discriminate.
    - apply some_inj in H. subst e. apply in_or_app. left. destruct (at_ t (occs_in F n d)); [congruence|]. rewrite Nat.add_0_r. left. reflexivity.
    - apply in_or_app. right. replace (i + S k)%nat with (S i + k)%nat by lia. auto.
  Qed.
  Lemma posts_nth_inv F n t docs : forall i x ps, In (x, ps) (posts F n t i docs) -> exists k d, x = Z.of_nat (i + k) /\ nth_error docs k = Some d /\ ps = at_ t (occs_in F n d) /\ ps <> [].
  Proof.
    induction docs as [|e docs IH]; intros i x ps H; cbn [Invert_Spec.posts] in H; [destruct H|]. apply in_app_or in H. destruct H as [H|H].
    - destruct (at_ t (occs_in F n e)) as [|a q] eqn:E; [destruct H|]. destruct H as [H|[]]. injection H as <- <-. exists O, e. rewrite Nat.add_0_r. splits; auto. discriminate.
    - destruct (IH _ _ _ H) as (k & d & E1 & E2 & E3 & E4). exists (S k), d. splits; auto. rewrite E1. f_equal. lia.
  Qed.
  (* a document is found by a value exactly if it has that value *)
  Lemma raw_found F n f docs v : nth_error (fis_fields F) n = Some f -> fi_is_tokenized f = false -> (length v <= MAX_WORD_SIZE)%nat ->
    Forall (fun d => Forall (fun u => (length u <= MAX_WORD_SIZE)%nat) (match field_of F n d with Some df => df_data df | None => [] end)) docs ->
    forall k, (exists ps, In (Z.of_nat k, ps) (posts F n v O docs)) <-> (exists d df, nth_error docs k = Some d /\ field_of F n d = Some df /\ In v (df_data df)).
  Proof.
    intros Ef Et Hv HS k.
    assert (A : forall d df, In d docs -> field_of F n d = Some df -> at_ v (occs_in F n d) <> [] <-> In v (df_data df)).
    { intros d df Hd E. unfold Invert_Spec.occs_in. rewrite E, Ef. unfold occs_of. rewrite Et. rewrite Forall_forall in HS. specialize (HS d Hd). rewrite E in HS. rewrite raw_at by auto. split.
      - intros H. destruct (filter _ _) as [|j q] eqn:Eq; [exfalso; apply H; reflexivity|]. assert (Hj : In j (filter (fun j => match nth_error (df_data df) (j - 0) with Some u => seqb u v | None => false end) (seq 0 (length (df_data df))))) by (rewrite Eq; left; auto).
        apply filter_In in Hj. destruct Hj as [_ Hj]. destruct (nth_error (df_data df) (j - 0)) as [u|] eqn:Eu; [|discriminate]. apply seqb_spec' in Hj. subst u. eapply nth_error_In; eauto.
      - intros H. apply In_nth_error in H. destruct H as (j & Ej). intros C. apply map_eq_nil in C. assert (Hj : In j (filter (fun j => match nth_error (df_data df) (j - 0) with Some u => seqb u v | None => false end) (seq 0 (length (df_data df))))); [|rewrite C in Hj; destruct Hj].
        apply filter_In. rewrite Nat.sub_0_r, Ej. split; [|apply (proj2 (seqb_spec' _ _)); reflexivity]. apply in_seq. assert (j < length (df_data df))%nat by (apply nth_error_Some; congruence). lia. }
    split.
    - intros (ps & H). apply posts_nth_inv in H. destruct H as (k' & d & E1 & E2 & E3 & E4). cbn [Nat.add] in E1. apply Nat2Z.inj in E1. subst k'. destruct (field_of F n d) as [df|] eqn:E.
      + exists d, df. splits; auto. apply (A d df); auto; [eapply nth_error_In; eauto|congruence].
      + exfalso. apply E4. rewrite E3. unfold Invert_Spec.occs_in. rewrite E. reflexivity.
    - intros (d & df & E1 & E2 & E3). exists (at_ v (occs_in F n d)). change k with (0 + k)%nat. apply posts_nth; auto. apply (A d df); auto. eapply nth_error_In; eauto.
  Qed.
End TOP.
