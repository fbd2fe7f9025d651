(* New fields do not change what the documents mean that are in the index already. *)
From Verif Require Import Util Strcmp Seg_Model Dict_Model Dict_Spec Token_Model Post_Model Post_Spec Mte_Spec MergeTerms_Proofs Merge_Spec Merge_Proofs MergeDocs_Proofs Fields_Model Fields_Spec Fields_Proofs Invert_Model Invert_Spec Invert_Proofs InvertDoc_Proofs InvertIndex_Proofs InvertTop_Proofs.
Open Scope Z_scope.

Definition known_doc (G : field_infos) (d : document) : Prop := forall df, In df (d_fields d) -> exists p, fis_get G (df_name df) = Some p.
Lemma known_ext G F d : ext G F -> known_doc G d -> known_doc F d.
Proof. intros HE H df Hd. destruct (H df Hd) as ((n & f) & E). exists (n, f). eapply fis_get_ext; eauto. Qed.
Lemma known_add G d : known_doc (add_fields G d) d.
Proof. intros df Hd. apply fold_add_has. exact Hd. Qed.
Lemma find_ext {A} (p q : A -> bool) l : (forall x, In x l -> p x = q x) -> find p l = find q l.
Proof. induction l as [|x l IH]; intros H; [reflexivity|]. cbn [find]. rewrite (H x) by (left; auto). rewrite IH; auto. intros y Hy. apply H. right. auto. Qed.
Lemma flat_map_ext' {A B} (f g : A -> list B) l : (forall x, In x l -> f x = g x) -> flat_map f l = flat_map g l.
Proof. induction l as [|x l IH]; intros H; [reflexivity|]. cbn [flat_map]. rewrite (H x) by (left; auto). rewrite IH; auto. intros y Hy. apply H. right. auto. Qed.
Lemma find_filter_none {A} (p : A -> bool) l : (forall x, In x l -> p x = false) -> find p l = None.
Proof. induction l as [|x l IH]; intros H; [reflexivity|]. cbn [find]. rewrite (H x) by (left; auto). apply IH. intros y Hy. apply H. right. auto. Qed.

Lemma ext_le a b : ext a b -> (length (fis_fields a) <= length (fis_fields b))%nat.
Proof. intros (m & E). rewrite E, app_length. lia. Qed.

Section EXT.
  Variable ana : list Z -> list Z -> list token.
  Variable norm : field_info -> Z -> dfield -> Z -> Z.
  Variable zip : list Z -> list Z.
  Variable max : Z.
  Variables G F : field_infos.
  Hypothesis HE : ext G F.
  Notation occs_in := (occs_in ana max).
  Notation posts := (posts ana max).

  Lemma get_same d df : known_doc G d -> In df (d_fields d) -> fis_get F (df_name df) = fis_get G (df_name df).
  Proof. intros H Hd. destruct (H df Hd) as ((n & f) & E). rewrite E. eapply fis_get_ext; eauto. Qed.
  Lemma is_field_same d df n : known_doc G d -> In df (d_fields d) -> is_field F n df = is_field G n df.
  Proof. intros H Hd. unfold is_field. rewrite (get_same d df H Hd). reflexivity. Qed.
  Lemma field_of_same d n : known_doc G d -> field_of F n d = field_of G n d.
  Proof. intros H. unfold field_of. apply find_ext. intros df Hd. apply (is_field_same d); auto. Qed.
  Lemma has_field_same d n : known_doc G d -> has_field F n d = has_field G n d.
  Proof. intros H. unfold has_field. rewrite field_of_same by auto. reflexivity. Qed.
  Lemma field_nth d n df : field_of G n d = Some df -> exists f, nth_error (fis_fields G) n = Some f /\ nth_error (fis_fields F) n = Some f.
  Proof.
    intros H. unfold field_of in H. apply find_some in H. destruct H as [_ H]. unfold is_field in H. destruct (fis_get G (df_name df)) as [(m & f)|] eqn:E; [|discriminate]. apply andb_prop in H. destruct H as [H _]. apply Nat.eqb_eq in H. subst m.
    apply fis_get_nth in E. destruct E as [E _]. exists f. split; auto. eapply ext_nth; eauto.
  Qed.
  Lemma occs_same d n : known_doc G d -> occs_in F n d = occs_in G n d.
  Proof.
    intros H. unfold Invert_Spec.occs_in. rewrite field_of_same by auto. destruct (field_of G n d) as [df|] eqn:E; [|reflexivity]. destruct (field_nth d n df E) as (f & -> & ->). reflexivity.
  Qed.
  Lemma norm_same d n : known_doc G d -> norm_of ana norm max F n d = norm_of ana norm max G n d.
  Proof.
    intros H. unfold norm_of. rewrite field_of_same by auto. destruct (field_of G n d) as [df|] eqn:E; [|reflexivity]. destruct (field_nth d n df E) as (f & -> & ->). reflexivity.
  Qed.
  Lemma posts_same n t ds : Forall (known_doc G) ds -> forall i, posts F n t i ds = posts G n t i ds.
  Proof. induction 1 as [|d ds H1 H2 IH]; intros i; [reflexivity|]. cbn [Invert_Spec.posts]. rewrite occs_same, IH by auto. reflexivity. Qed.
  Lemma vectors_same d : known_doc G d -> vectors ana max F d = vectors ana max G d.
  Proof. intros H. unfold vectors. apply flat_map_ext'. intros df Hd. rewrite (get_same d df H Hd). reflexivity. Qed.
  Lemma has_some_field n ds : existsb (has_field G n) ds = true -> exists f, nth_error (fis_fields G) n = Some f /\ nth_error (fis_fields F) n = Some f.
  Proof. intros H. apply existsb_exists in H. destruct H as (d & _ & H). unfold has_field in H. destruct (field_of G n d) as [df|] eqn:E; [|discriminate]. exact (field_nth d n df E). Qed.
  Lemma exists_same n ds : Forall (known_doc G) ds -> existsb (has_field F n) ds = existsb (has_field G n) ds.
  Proof. induction 1 as [|d ds H1 H2 IH]; [reflexivity|]. cbn [existsb]. rewrite has_field_same, IH by auto. reflexivity. Qed.
  Lemma map_norm_same n ds : Forall (known_doc G) ds -> map (norm_of ana norm max F n) ds = map (norm_of ana norm max G n) ds.
  Proof. induction 1 as [|d ds H1 H2 IH]; [reflexivity|]. cbn [map]. rewrite norm_same, IH by auto. reflexivity. Qed.
  Lemma doc_good_same d : doc_good ana max F d -> doc_good ana max G d.
  Proof. intros (H1 & H2). split; auto. eapply Forall_impl; [|exact H2]. cbv beta. intros df H n f E. apply (H n f). eapply fis_get_ext; eauto. Qed.
  Lemma occ_count_same ds : Forall (known_doc G) ds -> occ_count ana max F ds = occ_count ana max G ds.
  Proof.
    intros H. unfold occ_count. f_equal. apply flat_map_ext'. intros d Hd. apply flat_map_ext'. intros df Hf. rewrite Forall_forall in H. rewrite (get_same d df (H d Hd) Hf). reflexivity.
  Qed.
  Lemma tab_same mbd ds tab : Forall (known_doc G) ds -> tab_ok ana norm max mbd F ds tab -> tab_ok ana norm max mbd G ds tab.
  Proof.
    intros HK H n. specialize (H n). rewrite (exists_same n ds HK) in H. destruct (tab_get n tab) as [v|]; [|exact H]. destruct H as (H1 & f & Ef & H). split; auto. destruct (has_some_field n ds H1) as (f' & E1 & E2). rewrite Ef in E2. apply some_inj in E2. subst f'. exists f. split; auto.
    destruct H as (A1 & A2 & A3 & A4 & A5). rewrite map_norm_same in A4 by auto. unfold finv_ok. splits; auto. eapply lists_ext; [|exact A5]. cbv beta. intros t. apply posts_same. auto.
  Qed.
  Lemma tab_same' mbd ds tab : Forall (known_doc G) ds -> tab_ok ana norm max mbd G ds tab -> tab_ok ana norm max mbd F ds tab.
  Proof.
    intros HK H n. specialize (H n). rewrite (exists_same n ds HK). destruct (tab_get n tab) as [v|]; [|exact H]. destruct H as (H1 & f & Ef & H). split; auto. exists f. split; [eapply ext_nth; eauto|].
    destruct H as (A1 & A2 & A3 & A4 & A5). rewrite <- map_norm_same in A4 by auto. unfold finv_ok. splits; auto. eapply lists_ext; [|exact A5]. cbv beta. intros t. symmetry. apply posts_same. auto.
  Qed.
  Lemma recs_same ds : Forall (known_doc G) ds -> map (rec_of zip G) (with_vectors ana max G ds) = map (rec_of zip F) (with_vectors ana max F ds).
  Proof.
    induction 1 as [|d ds H1 H2 IH]; [reflexivity|]. cbn [with_vectors map]. unfold with_vectors in IH. rewrite IH. f_equal. rewrite vectors_same by auto. apply rec_ext; auto. cbn [snd]. unfold vectors. apply Forall_flat_map. apply Forall_forall. intros df Hd.
    destruct (H1 df Hd) as ((n & f) & E). rewrite E. destruct (fi_is_indexed f && fi_store_term_vector f); constructor; [|constructor]. cbn [fst]. apply fis_get_nth in E. apply nth_error_Some. destruct E. congruence.
  Qed.
  Lemma terms_same n ds : Forall (known_doc G) ds -> terms_in_field ana max F n ds = terms_in_field ana max G n ds.
  Proof. intros H. unfold terms_in_field. do 2 f_equal. apply flat_map_ext'. intros d Hd. apply occs_same. rewrite Forall_forall in H. auto. Qed.
End EXT.

(* ---------- documents that are not deleted *)
Section LIVE.
  Variable ana : list Z -> list Z -> list token.
  Variable max : Z.
  Variable F : field_infos.
  Notation posts := (posts ana max).
  Lemma rank_step del j : rank del (S j) = (rank del j + if del (Z.of_nat j) then 0 else 1)%nat.
  Proof. rewrite rank_S. destruct (del (Z.of_nat j)); reflexivity. Qed.
  Lemma renum_app base del a b : renum base del (a ++ b) = renum base del a ++ renum base del b.
  Proof. unfold renum. rewrite filter_app, map_app. reflexivity. Qed.
  Lemma renum_live n t del base ds : forall j, renum base del (posts F n t j ds) = posts F n t (base + rank del j) (live_from del j ds).
  Proof.
    induction ds as [|d ds IH]; intros j; [reflexivity|]. cbn [Invert_Spec.posts]. rewrite renum_app, IH, live_from_cons, rank_step. destruct (at_ t (occs_in ana max F n d)) as [|a q] eqn:E.
    - cbn [post_at renum filter map app]. unfold renum. cbn [filter map app]. destruct (del (Z.of_nat j)); cbn [app]; [rewrite Nat.add_0_r; reflexivity|]. cbn [Invert_Spec.posts]. rewrite E. cbn [post_at app]. f_equal. lia.
    - cbn [post_at]. unfold renum at 1. cbn [filter fst]. destruct (del (Z.of_nat j)); cbn [negb map app fst snd]; [rewrite Nat.add_0_r; reflexivity|]. cbn [Invert_Spec.posts]. rewrite E. cbn [post_at app]. rewrite Nat2Z.id. f_equal. f_equal. lia.
  Qed.
  Lemma live_whole {A} del (l : list A) : live_of del l = live_from del O l. Proof. reflexivity. Qed.
  Lemma renum_live0 n t del base ds : renum base del (posts F n t O ds) = posts F n t base (live_of del ds).
  Proof. rewrite renum_live. change (rank del 0) with O. rewrite Nat.add_0_r. reflexivity. Qed.
End LIVE.
Lemma live_sub {A} del (l : list A) : forall j x, In x (live_from del j l) -> In x l.
Proof. induction l as [|y l IH]; intros j x H; [exact H|]. rewrite live_from_cons in H. apply in_app_or in H. destruct H as [H|H]; [|right; eapply IH; eauto]. destruct (del (Z.of_nat j)); [destruct H|]. destruct H as [->|[]]. left. auto. Qed.
Lemma live_sum {A} (w : A -> nat) del l : forall j, (sum w (live_from del j l) <= sum w l)%nat.
Proof. induction l as [|y l IH]; intros j; [cbn; lia|]. rewrite live_from_cons. specialize (IH (S j)). rewrite sum_cons. destruct (del (Z.of_nat j)); cbn [app]; rewrite ?sum_cons; lia. Qed.
Lemma live_map_ {A B} (f : A -> B) del l : forall j, live_from del j (map f l) = map f (live_from del j l).
Proof. induction l as [|y l IH]; intros j; [reflexivity|]. cbn [map]. rewrite !live_from_cons, IH, map_app. destruct (del (Z.of_nat j)); reflexivity. Qed.
Lemma live_ext_ {A} (p q : Z -> bool) (l : list A) : forall j, (forall i, (j <= i < j + length l)%nat -> p (Z.of_nat i) = q (Z.of_nat i)) -> live_from p j l = live_from q j l.
Proof. induction l as [|y l IH]; intros j H; [reflexivity|]. cbn [length] in H. rewrite !live_from_cons, (H j) by lia. rewrite IH; auto. intros i Hi. apply H. lia. Qed.
(* deleting more *)
Lemma live_more {A} (p q : Z -> bool) (h : A -> bool) l : forall j, (forall i d, nth_error l i = Some d -> q (Z.of_nat (j + i)) = p (Z.of_nat (j + i)) || h d) -> live_from q j l = filter (fun d => negb (h d)) (live_from p j l).
Proof.
  induction l as [|y l IH]; intros j H; [reflexivity|]. rewrite !live_from_cons, filter_app. rewrite (IH (S j)).
  - f_equal. specialize (H O y eq_refl). rewrite Nat.add_0_r in H. rewrite H. destruct (p (Z.of_nat j)); cbn [orb filter]; [reflexivity|]. destruct (h y); reflexivity.
  - intros i d E. specialize (H (S i) d E). rewrite <- Nat.add_succ_comm in H. exact H.
Qed.
