(* A FieldInfos whose fields are fields of another one, under other numbers: what the documents mean. *)
From Verif Require Import Util Strcmp Seg_Model Dict_Model Dict_Spec Token_Model Post_Model Post_Spec PostRun_Proofs Mte_Spec MergeTerms_Proofs Merge_Model Merge_Spec Merge_Proofs MergeDocs_Proofs Fields_Model Fields_Spec Fields_Proofs Invert_Model Invert_Spec Invert_Proofs InvertDoc_Proofs InvertIndex_Proofs InvertTop_Proofs Iw_Model Iw_Spec IwExt_Proofs.
Open Scope Z_scope.

Definition sub (S F : field_infos) : Prop := fis_good S /\ forall name m f, fis_get S name = Some (m, f) -> exists n, fis_get F name = Some (n, f).
Definition ren (S F : field_infos) (m : nat) : nat :=
  match nth_error (fis_fields S) m with Some f => match fis_get F (fi_name f) with Some (n, _) => n | None => O end | None => O end.
Definition refield (S F : field_infos) (f : Z * list (list Z * list post)) : Z * list (list Z * list post) := (Z.of_nat (ren S F (Z.to_nat (fst f))), snd f).
Definition retv (S F : field_infos) (t : tv_in) : tv_in := (ren S F (fst (fst t)), snd (fst t), snd t).

Lemma field_at_nodup l name f : forall n m, NoDup (map fi_name l) -> nth_error l m = Some f -> fi_name f = name -> field_at l name n = Some ((n + m)%nat, f).
Proof.
  induction l as [|g l IH]; intros n m HN E En; [destruct m; discriminate|]. cbn [map] in HN. inversion HN as [|? ? N1 N2]; subst. cbn [field_at]. destruct m as [|m]; cbn [nth_error] in E.
  - apply some_inj in E. subst g. assert (X : same_name (fi_name f) (fi_name f) = true) by (apply same_name_eq; reflexivity). rewrite X, Nat.add_0_r. reflexivity.
  - destruct (same_name (fi_name g) (fi_name f)) eqn:X.
    + apply same_name_eq in X. exfalso. apply N1. rewrite X. apply in_map. eapply nth_error_In; eauto.
    + rewrite (IH (S n) m N2 E eq_refl). f_equal. f_equal. lia.
Qed.
Lemma good_get fis m f : fis_good fis -> nth_error (fis_fields fis) m = Some f -> fis_get fis (fi_name f) = Some (m, f).
Proof. intros HG E. unfold fis_get. rewrite (field_at_nodup _ _ f O m HG E eq_refl). reflexivity. Qed.

Section REN.
  Variable ana : list Z -> list Z -> list token.
  Variable norm : field_info -> Z -> dfield -> Z -> Z.
  Variable zip : list Z -> list Z.
  Variable max : Z.
  Variables S F : field_infos.
  Hypothesis HS : sub S F.
  Notation occs_in := (occs_in ana max).
  Notation posts := (posts ana max).
  Notation ren := (ren S F).
  Notation len := (length (fis_fields S)).

  Lemma ren_get name m f : fis_get S name = Some (m, f) -> fis_get F name = Some (ren m, f).
  Proof. intros E. destruct HS as [_ H]. destruct (H name m f E) as (n & En). pose proof (fis_get_nth _ _ _ _ E) as [E1 E2]. unfold AddrRen_Proofs.ren. rewrite E1, E2, En. reflexivity. Qed.
  Lemma ren_nth m : (m < len)%nat -> exists f, nth_error (fis_fields S) m = Some f /\ nth_error (fis_fields F) (ren m) = Some f /\ fis_get S (fi_name f) = Some (m, f) /\ fis_get F (fi_name f) = Some (ren m, f).
  Proof.
    intros Hm. destruct (nth_error (fis_fields S) m) as [f|] eqn:E; [|apply nth_error_None in E; lia]. exists f. pose proof (good_get S m f (proj1 HS) E) as G. pose proof (ren_get _ _ _ G) as G'. pose proof (fis_get_nth _ _ _ _ G') as [G1 _]. auto.
  Qed.
  Lemma ren_lt m : (m < len)%nat -> (ren m < length (fis_fields F))%nat.
  Proof. intros H. destruct (ren_nth m H) as (f & _ & E & _). apply nth_error_Some. congruence. Qed.
  Lemma ren_inj a b : (a < len)%nat -> (b < len)%nat -> ren a = ren b -> a = b.
  Proof.
    intros Ha Hb E. destruct (ren_nth a Ha) as (f & A1 & A2 & A3 & A4). destruct (ren_nth b Hb) as (g & B1 & B2 & B3 & B4). rewrite E in A2. rewrite A2 in B2. apply some_inj in B2. subst g. congruence.
  Qed.
  Lemma known_sub d : known_doc S d -> known_doc F d.
  Proof. intros H df Hd. destruct (H df Hd) as ((m & f) & E). exists (ren m, f). apply ren_get. auto. Qed.

  Lemma is_field_ren d df m : known_doc S d -> In df (d_fields d) -> (m < len)%nat -> is_field F (ren m) df = is_field S m df.
  Proof.
    intros HK Hd Hm. destruct (HK df Hd) as ((k & f) & E). unfold is_field. rewrite E, (ren_get _ _ _ E). assert (Hk : (k < len)%nat). { apply fis_get_nth in E. destruct E as [E _]. apply nth_error_Some. congruence. }
    f_equal. destruct (Nat.eqb_spec k m) as [->|Hne]; [apply Nat.eqb_refl|]. apply Nat.eqb_neq. intros X. apply Hne. apply ren_inj; auto.
  Qed.
  Lemma field_of_ren d m : known_doc S d -> (m < len)%nat -> field_of F (ren m) d = field_of S m d.
  Proof. intros H Hm. unfold field_of. apply find_ext. intros df Hd. apply (is_field_ren d); auto. Qed.
  Lemma field_of_out d n : known_doc S d -> (forall m, (m < len)%nat -> ren m <> n) -> field_of F n d = None.
  Proof.
    intros HK Hn. unfold field_of. apply find_filter_none. intros df Hd. destruct (HK df Hd) as ((k & f) & E). unfold is_field. rewrite (ren_get _ _ _ E). assert (Hk : (k < len)%nat). { apply fis_get_nth in E. destruct E as [E _]. apply nth_error_Some. congruence. }
    specialize (Hn k Hk). apply Nat.eqb_neq in Hn. rewrite Hn. reflexivity.
  Qed.
  Lemma in_image n : (exists m, (m < len)%nat /\ ren m = n) \/ (forall m, (m < len)%nat -> ren m <> n).
  Proof.
    destruct (in_dec Nat.eq_dec n (map ren (seq 0 len))) as [H|H].
    - left. apply in_map_iff in H. destruct H as (m & E & Hm). apply in_seq in Hm. exists m. split; auto. lia.
    - right. intros m Hm E. apply H. apply in_map_iff. exists m. split; auto. apply in_seq. lia.
  Qed.
  Lemma occs_ren d m : known_doc S d -> (m < len)%nat -> occs_in F (ren m) d = occs_in S m d.
  Proof. intros H Hm. unfold Invert_Spec.occs_in. rewrite field_of_ren by auto. destruct (ren_nth m Hm) as (f & -> & -> & _). reflexivity. Qed.
  Lemma occs_out d n : known_doc S d -> (forall m, (m < len)%nat -> ren m <> n) -> occs_in F n d = [].
  Proof. intros H Hn. unfold Invert_Spec.occs_in. rewrite field_of_out by auto. reflexivity. Qed.
  Lemma norm_ren d m : known_doc S d -> (m < len)%nat -> norm_of ana norm max F (ren m) d = norm_of ana norm max S m d.
  Proof. intros H Hm. unfold norm_of. rewrite field_of_ren by auto. destruct (ren_nth m Hm) as (f & -> & -> & _). reflexivity. Qed.
  Lemma has_field_ren d m : known_doc S d -> (m < len)%nat -> has_field F (ren m) d = has_field S m d.
  Proof. intros H Hm. unfold has_field. rewrite field_of_ren by auto. reflexivity. Qed.
  Lemma has_field_none d n : known_doc S d -> (forall m, (m < len)%nat -> ren m <> n) -> has_field F n d = false.
  Proof. intros H Hn. unfold has_field. rewrite field_of_out by auto. reflexivity. Qed.
  Lemma posts_ren m t ds : Forall (known_doc S) ds -> (m < len)%nat -> forall i, posts F (ren m) t i ds = posts S m t i ds.
  Proof. intros H Hm. induction H as [|d ds H1 H2 IH]; intros i; [reflexivity|]. cbn [Invert_Spec.posts]. rewrite occs_ren, IH by auto. reflexivity. Qed.
  Lemma posts_out n t ds : Forall (known_doc S) ds -> (forall m, (m < len)%nat -> ren m <> n) -> forall i, posts F n t i ds = [].
  Proof. intros H Hn. induction H as [|d ds H1 H2 IH]; intros i; [reflexivity|]. cbn [Invert_Spec.posts]. rewrite occs_out, IH by auto. reflexivity. Qed.
  Lemma vectors_ren d : known_doc S d -> vectors ana max F d = map (retv S F) (vectors ana max S d).
  Proof.
    intros H. unfold vectors. assert (G : forall l, (forall df, In df l -> In df (d_fields d)) -> forall g h, (forall df, In df (d_fields d) -> g df = map (retv S F) (h df)) -> flat_map g l = map (retv S F) (flat_map h l)).
    { clear. induction l as [|df l IH]; intros Hl g h E; [reflexivity|]. cbn [flat_map]. rewrite map_app, (E df) by (apply Hl; left; auto). f_equal. apply IH; auto. intros x Hx. apply Hl. right. auto. }
    apply G; auto. intros df Hd. destruct (H df Hd) as ((m & f) & E). rewrite E, (ren_get _ _ _ E). destruct (fi_is_indexed f && fi_store_term_vector f); reflexivity.
  Qed.
  Lemma vectors_in d t : known_doc S d -> In t (vectors ana max S d) -> (fst (fst t) < len)%nat.
  Proof.
    intros H Ht. unfold vectors in Ht. apply in_flat_map in Ht. destruct Ht as (df & Hd & Ht). destruct (H df Hd) as ((m & f) & E). rewrite E in Ht. destruct (fi_is_indexed f && fi_store_term_vector f); [|destruct Ht]. destruct Ht as [<-|[]]. cbn [fst]. apply fis_get_nth in E. destruct E as [E _]. apply nth_error_Some. congruence.
  Qed.

  (* ---------- the inverted index *)
  Lemma find_ren {A} (fs : list (Z * A)) m : Forall (fun f => 0 <= fst f < Z.of_nat len) fs -> (m < len)%nat ->
    find (fun x => fst x =? Z.of_nat (ren m)) (map (fun f => (Z.of_nat (ren (Z.to_nat (fst f))), snd f)) fs) = match find (fun x => fst x =? Z.of_nat m) fs with Some f => Some (Z.of_nat (ren m), snd f) | None => None end.
  Proof.
    intros HF Hm. induction HF as [|f fs H1 H2 IH]; [reflexivity|]. cbn [map find fst]. destruct (Z.eqb_spec (fst f) (Z.of_nat m)) as [E|E].
    - rewrite E, Nat2Z.id, Z.eqb_refl. reflexivity.
    - destruct (Z.eqb_spec (Z.of_nat (ren (Z.to_nat (fst f)))) (Z.of_nat (ren m))) as [X|X]; [|exact IH]. exfalso. apply Nat2Z.inj in X. apply ren_inj in X; lia.
  Qed.
  Lemma postings_ren fs m t : Forall (fun f => 0 <= fst f < Z.of_nat len) fs -> (m < len)%nat -> postings (map (refield S F) fs) (Z.of_nat (ren m)) t = postings fs (Z.of_nat m) t.
  Proof. intros HF Hm. unfold postings, refield. rewrite find_ren by auto. destruct (find _ fs) as [(k & l)|]; reflexivity. Qed.
  Lemma postings_out fs n t : Forall (fun f => 0 <= fst f < Z.of_nat len) fs -> (forall m, (m < len)%nat -> ren m <> n) -> postings (map (refield S F) fs) (Z.of_nat n) t = [].
  Proof.
    intros HF Hn. unfold postings. rewrite find_filter_none; [reflexivity|]. intros y Hy. apply in_map_iff in Hy. destruct Hy as (f & <- & Hf). cbn [refield fst]. apply Z.eqb_neq. rewrite Forall_forall in HF. specialize (HF f Hf). intros X. apply Nat2Z.inj in X. apply (Hn (Z.to_nat (fst f))); auto. lia.
  Qed.
  Lemma snd_refield fs : map snd (map (refield S F) fs) = map snd fs.
  Proof. rewrite map_map. apply map_ext. reflexivity. Qed.
  Lemma nodup_ren (l : list Z) : Forall (fun z => 0 <= z < Z.of_nat len) l -> NoDup l -> NoDup (map (fun z => Z.of_nat (ren (Z.to_nat z))) l).
  Proof.
    intros HF HN. induction HN as [|z l H1 H2 IH]; [constructor|]. inversion HF as [|? ? F1 F2]; subst. cbn [map]. constructor; auto. intros Hi. apply in_map_iff in Hi. destruct Hi as (y & E & Hy). apply Nat2Z.inj in E. rewrite Forall_forall in F2. specialize (F2 y Hy). apply ren_inj in E; [|lia|lia]. assert (y = z) by lia. subst. auto.
  Qed.
  Lemma inv_ok_ren fs : Z.of_nat (length (fis_fields F)) < 2 ^ 31 -> Forall (fun f => 0 <= fst f < Z.of_nat len) fs -> inv_ok fs -> inv_ok (map (refield S F) fs).
  Proof.
    intros HL HF (H1 & H2 & H3 & H4 & H5). unfold inv_ok. cbv zeta in *. rewrite snd_refield, !map_length. split; [|split; [|auto]].
    - apply Forall_map. rewrite Forall_forall in *. intros f Hf. destruct (H1 f Hf) as (A1 & A2 & A3 & A4). cbn [refield fst snd]. split; auto. specialize (HF f Hf). pose proof (ren_lt (Z.to_nat (fst f)) ltac:(lia)). lia.
    - rewrite map_map. cbn [refield fst]. rewrite <- (map_map fst (fun z => Z.of_nat (ren (Z.to_nat z)))). apply nodup_ren; auto. apply Forall_map. auto.
  Qed.
End REN.
