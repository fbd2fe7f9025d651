From Verif Require Import Util Codec_Model Codec_Spec Codec_Proofs Seg_Model Seg_Spec SegCodec_Proofs Dict_Model Dict_Spec DictCodec_Proofs Dict_Proofs Post_Proofs Merge_Model Merge_Spec MergeDocs_Proofs Fields_Model Fields_Spec.
Open Scope Z_scope.
Lemma zip_size_val : Z.of_nat ZIP_BUFFER_SIZE = 16348.
Proof. reflexivity. Qed.
#[global] Opaque ZIP_BUFFER_SIZE.

Definition reads {A} (bs : list Z) (v : A) (p : parser A) : Prop := forall rest, p (bs ++ rest) = POk v rest.
Lemma reads_ret {A} (v : A) : reads [] v (pret v).
Proof. intros rest. reflexivity. Qed.
Lemma reads_bind {A B} b1 b2 (v : A) (u : B) p k : reads b1 v p -> reads b2 u (k v) -> reads (b1 ++ b2) u (pbind p k).
Proof. intros H1 H2 rest. unfold pbind. rewrite <- app_assoc, H1. apply H2. Qed.
Lemma reads_map {A B} bs (v : A) (f : A -> B) p : reads bs v p -> reads bs (f v) (pbind p (fun x => pret (f x))).
Proof. intros H rest. unfold pbind. rewrite H. reflexivity. Qed.
Lemma reads_eint z : i32 z -> reads (eint z) z dec_int.
Proof. intros H rest. apply dec_eint. auto. Qed.
Lemma reads_nat n : Z.of_nat n < 2 ^ 31 -> reads (eint (Z.of_nat n)) (Z.of_nat n) dec_int.
Proof. intros H. apply reads_eint. unfold i32. lia. Qed.
Lemma reads_list {A B} (e : A -> list Z) (g : A -> B) (p : parser B) l : Forall (fun x => reads (e x) (g x) p) l -> reads (concat (map e l)) (map g l) (dec_n p (length l)).
Proof.
  induction 1 as [|x l Hx Hl IH]; cbn [map concat length dec_n]; [apply reads_ret|]. apply reads_bind with (g x); auto. exact (reads_map _ _ (fun r => g x :: r) _ IH).
Qed.
Lemma reads_take b : reads b b (take (length b)).
Proof. intros rest. apply (proj1 (good_take b)). Qed.
Lemma reads_good {A} bs (v : A) p w : good bs v p w -> reads bs v p.
Proof. intros H. exact (proj1 H). Qed.

(* ---------- FieldInfos *)
Definition ext (a b : field_infos) : Prop := exists more, fis_fields b = fis_fields a ++ more.
Lemma ext_refl a : ext a a. Proof. exists []. rewrite app_nil_r. reflexivity. Qed.
Lemma ext_trans a b c : ext a b -> ext b c -> ext a c.
Proof. intros (x & E1) (y & E2). exists (x ++ y). rewrite E2, E1, app_assoc. reflexivity. Qed.
Lemma same_name_eq a b : same_name a b = true <-> a = b.
Proof. unfold same_name. destruct (list_eq_dec Z.eq_dec a b); split; intros; auto; congruence. Qed.
Lemma field_at_app l : forall more name k n f, field_at l name k = Some (n, f) -> field_at (l ++ more) name k = Some (n, f).
Proof. induction l as [|x l IH]; intros more name k n f; cbn; [discriminate|]. destruct (same_name (fi_name x) name); auto. Qed.
Lemma field_at_nth l : forall name k n f, field_at l name k = Some (n, f) -> (k <= n)%nat /\ nth_error l (n - k) = Some f /\ fi_name f = name.
Proof.
  induction l as [|x l IH]; intros name k n f; cbn [field_at]; [discriminate|]. destruct (same_name (fi_name x) name) eqn:E.
  - intros H. apply some_inj in H. injection H as <- <-. rewrite Nat.sub_diag. apply same_name_eq in E. auto.
  - intros H. apply IH in H. destruct H as (H1 & H2 & H3). replace (n - k)%nat with (S (n - S k)) by lia. repeat split; auto; lia.
Qed.
Lemma fis_get_ext a b name n f : ext a b -> fis_get a name = Some (n, f) -> fis_get b name = Some (n, f).
Proof. intros (more & E) H. unfold fis_get in *. rewrite E. apply field_at_app. auto. Qed.
Lemma fis_get_nth a name n f : fis_get a name = Some (n, f) -> nth_error (fis_fields a) n = Some f /\ fi_name f = name.
Proof. intros H. apply field_at_nth in H. rewrite Nat.sub_0_r in H. tauto. Qed.
Lemma get_or_add_ext a name : ext a (fis_get_or_add a name).
Proof. unfold fis_get_or_add. destruct (fis_get a name); [apply ext_refl|]. eexists. reflexivity. Qed.
Lemma field_at_none l : forall name k, field_at l name k = None <-> ~ In name (map fi_name l).
Proof.
  induction l as [|x l IH]; intros name k; cbn [field_at map In]; [tauto|]. destruct (same_name (fi_name x) name) eqn:E.
  - apply same_name_eq in E. split; [discriminate|tauto].
  - rewrite IH. assert (fi_name x <> name) by (intros H; apply same_name_eq in H; congruence). tauto.
Qed.
Lemma get_or_add_has a name : exists p, fis_get (fis_get_or_add a name) name = Some p.
Proof.
  unfold fis_get_or_add. destruct (fis_get a name) eqn:E; [eauto|]. destruct (fis_get (mkFis _ _ _ _) name) eqn:E2; [eauto|]. exfalso. unfold fis_get in E2. cbn [fis_fields] in E2.
  apply field_at_none in E2. apply E2. rewrite map_app. apply in_or_app. right. left. reflexivity.
Qed.
Lemma fold_add_ext l : forall a, ext a (fold_left (fun s df => fis_get_or_add s (df_name df)) l a).
Proof. induction l as [|x l IH]; intros a; cbn; [apply ext_refl|]. eapply ext_trans; [apply get_or_add_ext|apply IH]. Qed.
Lemma add_fields_ext a d : ext a (add_fields a d).
Proof. apply fold_add_ext. Qed.
Lemma fold_add_has l : forall a df, In df l -> exists p, fis_get (fold_left (fun s df => fis_get_or_add s (df_name df)) l a) (df_name df) = Some p.
Proof.
  induction l as [|x l IH]; intros a df H; [destruct H|]. cbn [fold_left]. destruct H as [->|H]; [|auto].
  destruct (get_or_add_has a (df_name df)) as ((n & f) & E). exists (n, f). eapply fis_get_ext; [apply fold_add_ext|exact E].
Qed.
Lemma get_or_add_good a name : fis_good a -> fis_good (fis_get_or_add a name).
Proof.
  unfold fis_good, fis_get_or_add. intros H. destruct (fis_get a name) eqn:E; auto. cbn [fis_fields]. rewrite map_app. cbn [map fi_name fi_default]. apply field_at_none in E.
  apply (Permutation_NoDup (l := name :: map fi_name (fis_fields a))). { apply Permutation_cons_append. } constructor; auto.
Qed.
Lemma fis_after_ext l : forall a, ext a (fis_after a l).
Proof. unfold fis_after. induction l as [|x l IH]; intros a; cbn; [apply ext_refl|]. eapply ext_trans; [apply add_fields_ext|apply IH]. Qed.

(* ---------- the bytes *)
Definition e64 (z : Z) : list Z := match enc_vint (z mod 2 ^ 64) with Some b => b | None => [] end.
Lemma u64_mod z : u64 (z mod 2 ^ 64). Proof. unfold u64. apply Z.mod_pos_bound. lia. Qed.
Lemma e64_some z : enc_vint (z mod 2 ^ 64) = Some (e64 z).
Proof. unfold e64. destruct (enc_some _ enc_vint _ _ vll_roundtrips (u64_mod z)) as (b & ->). reflexivity. Qed.
Definition i64 (z : Z) : Prop := - 2 ^ 63 <= z < 2 ^ 63.
Lemma reads_e64 z : i64 z -> reads (e64 z) z dec_voff.
Proof.
  intros Hz. assert (G : good (e64 z) (z mod 2 ^ 64) (lift (dec_v 64)) never) by (eapply good_lift; [apply vll_roundtrips|apply vll_trunc|apply u64_mod|apply e64_some]).
  apply reads_good in G. replace z with (to_signed 64 (z mod 2 ^ 64)) at 2 by (apply to_signed_mod; [lia|exact Hz]). exact (reads_map _ _ (to_signed 64) _ G).
Qed.

(* ---------- zipped bytes *)
Lemma zip_loop_small z fuel : (length z < ZIP_BUFFER_SIZE)%nat -> zip_loop (S fuel) ZIP_BUFFER_SIZE [] z [] = Some z.
Proof.
  intros H. cbn [zip_loop app]. rewrite Nat.min_r by lia. rewrite firstn_all. destruct (Nat.eqb_spec (ZIP_BUFFER_SIZE - length z) 0); [lia|].
  replace (ZIP_BUFFER_SIZE - (ZIP_BUFFER_SIZE - length z))%nat with (length z) by lia. rewrite firstn_all. reflexivity.
Qed.
Lemma zip_loop_stuck fuel : forall buf left out, zip_loop fuel 0 buf left out = None.
Proof. induction fuel as [|fuel IH]; intros buf left out; cbn [zip_loop]; [reflexivity|]. rewrite Nat.min_0_l. cbn [Nat.sub Nat.eqb]. apply IH. Qed.
Lemma zip_loop_big z fuel : (ZIP_BUFFER_SIZE <= length z)%nat -> zip_loop fuel ZIP_BUFFER_SIZE [] z [] = None.
Proof.
  intros H. destruct fuel as [|fuel]; [reflexivity|]. cbn [zip_loop]. rewrite Nat.min_l by lia. rewrite Nat.sub_diag. cbn [Nat.eqb]. apply zip_loop_stuck.
Qed.
Lemma unzip_loop_small d fuel : (length d < ZIP_BUFFER_SIZE)%nat -> unzip_loop (S fuel) ZIP_BUFFER_SIZE d [] = Some d.
Proof.
  intros H. cbn [unzip_loop app]. rewrite Nat.min_r by lia. rewrite firstn_all. destruct (Nat.eqb_spec (ZIP_BUFFER_SIZE - length d) 0); [lia|].
  replace (ZIP_BUFFER_SIZE - (ZIP_BUFFER_SIZE - length d) - length d)%nat with 0%nat by lia. cbn [repeat]. rewrite app_nil_r. reflexivity.
Qed.
Lemma unzip_loop_stuck fuel : forall left out, unzip_loop fuel 0 left out = None.
Proof. induction fuel as [|fuel IH]; intros left out; cbn [unzip_loop]; [reflexivity|]. rewrite Nat.min_0_l. cbn [Nat.sub Nat.eqb]. apply IH. Qed.
Lemma unzip_loop_big d fuel : (ZIP_BUFFER_SIZE <= length d)%nat -> unzip_loop fuel ZIP_BUFFER_SIZE d [] = None.
Proof.
  intros H. destruct fuel as [|fuel]; [reflexivity|]. cbn [unzip_loop]. rewrite Nat.min_l by lia. rewrite Nat.sub_diag. cbn [Nat.eqb]. apply unzip_loop_stuck.
Qed.

Section RW.
  Variable zip : list Z -> list Z.
  Variable unzip : list Z -> option (list Z).
  Variable fuel : nat.
  Notation fu := (S fuel).

  Definition vb (comp : bool) (d : list Z) : list Z := if comp then zip d else d ++ [32].
  Definition vlen (comp : bool) (d : list Z) : Z := Z.of_nat (length (vb comp d)) - 1.
  Definition vok (comp : bool) (d : list Z) : Prop := comp = true -> (length d < ZIP_BUFFER_SIZE)%nat /\ (length (zip d) < ZIP_BUFFER_SIZE)%nat.
  Lemma enc_values_ok comp l : Forall (vok comp) l -> enc_values zip fu comp l = Some (concat (map (fun d => eint (vlen comp d)) l), concat (map (vb comp) l)).
  Proof.
    induction 1 as [|d l Hd Hl IH]; [reflexivity|]. cbn [enc_values map concat].
    assert (E : (if comp then os_write_zipped zip fu d else Some (d ++ [32])) = Some (vb comp d)).
    { destruct comp; [|reflexivity]. unfold os_write_zipped, vb. apply zip_loop_small. destruct (Hd eq_refl); auto. }
    rewrite E. cbn [obind]. rewrite eint_some. cbn [obind]. rewrite IH. reflexivity.
  Qed.
  (* a field with its information *)
  Definition hb (fis : field_infos) (df : dfield) : list Z :=
    match fis_get fis (df_name df) with
    | Some (n, f) => eint (Z.of_nat n) ++ eint (Z.of_nat (length (df_data df))) ++ concat (map (fun d => eint (vlen (fi_is_compressed f) d)) (df_data df))
    | None => [] end.
  Definition db (fis : field_infos) (df : dfield) : list Z := concat (map (vb (is_comp fis df)) (df_data df)).
  Definition fok (fis : field_infos) (df : dfield) : Prop := (exists p, fis_get fis (df_name df) = Some p) /\ (is_stored fis df = true -> Forall (vok (is_comp fis df)) (df_data df)).
  Lemma enc_stored_ok fis l : Forall (fok fis) l ->
    enc_stored zip fu fis l = Some (concat (map (hb fis) (filter (is_stored fis) l)), concat (map (db fis) (filter (is_stored fis) l))).
  Proof.
    induction 1 as [|df l ((p & E) & Hv) Hl IH]; [reflexivity|]. cbn [enc_stored filter]. rewrite E. destruct p as (n & f). cbn [obind fst snd].
    unfold is_stored in *. rewrite E in *. cbn [snd] in *. destruct (fi_is_stored f); [|exact IH]. rewrite !eint_some. cbn [obind].
    unfold is_comp in Hv. rewrite E in Hv. cbn [snd] in Hv. rewrite enc_values_ok by auto. cbn [obind fst snd]. rewrite IH. cbn [obind fst snd map concat].
    unfold hb at 2, db at 2, is_comp. rewrite E. cbn [snd]. rewrite <- !app_assoc. reflexivity.
  Qed.
  Definition sb (fis : field_infos) (d : document) : list Z :=
    let st := filter (is_stored fis) (d_fields d) in
    eint (Z.of_nat (length st)) ++ concat (map (hb fis) st) ++ concat (map (db fis) st).

  (* term vectors *)
  Fixpoint pb (last : Z) (ps : list Z) : list Z := match ps with [] => [] | p :: t => eint (p - last) ++ pb p t end.
  Lemma enc_positions_ok ps : forall last, enc_positions last ps = Some (pb last ps).
  Proof. induction ps as [|p t IH]; intros last; [reflexivity|]. cbn [enc_positions pb]. rewrite eint_some. cbn [obind]. rewrite IH. reflexivity. Qed.
  Fixpoint tb (pos : bool) (last : list Z) (l : list (list Z * list Z)) : list Z :=
    match l with
    | [] => []
    | (t, ps) :: r => let s := string_diff last t in
        (eint (Z.of_nat s) ++ eint (Z.of_nat (length t - s)) ++ skipn s t) ++ eint (Z.of_nat (length ps)) ++ (if pos then pb 0 ps else []) ++ tb pos t r
    end.
  Lemma enc_terms_ok pos l : forall last, enc_terms pos last l = Some (tb pos last l).
  Proof.
    induction l as [|(t & ps) r IH]; intros last; [reflexivity|]. cbn [enc_terms tb]. cbv zeta. rewrite !eint_some. cbn [obind].
    replace (if pos then enc_positions 0 ps else Some []) with (Some (if pos then pb 0 ps else [])) by (destruct pos; [rewrite enc_positions_ok|]; reflexivity).
    cbn [obind]. rewrite IH. cbn [obind]. rewrite <- !app_assoc. reflexivity.
  Qed.
  Fixpoint ob (last : Z) (l : list (Z * Z)) : list Z := match l with [] => [] | (s, e) :: t => e64 (s - last) ++ e64 (e - s) ++ ob e t end.
  Lemma enc_offsets_ok l : forall last, enc_offsets last l = Some (ob last l).
  Proof. induction l as [|(s & e) t IH]; intros last; [reflexivity|]. cbn [enc_offsets ob]. rewrite !e64_some. cbn [obind]. rewrite IH. reflexivity. Qed.
  Definition tvb (f : field_info) (ts : list (list Z * list Z)) (os : list (Z * Z)) : list Z :=
    eint (Z.of_nat (length ts)) ++ tb (fi_store_positions f) [] ts ++ (if fi_store_offsets f then eint (Z.of_nat (length os)) ++ ob 0 os else []).
  Lemma enc_tv_ok f ts os : enc_tv f ts os = Some (tvb f ts os).
  Proof.
    unfold enc_tv, tvb. rewrite !eint_some. cbn [obind]. rewrite enc_terms_ok. cbn [obind]. destruct (fi_store_offsets f); [|reflexivity]. rewrite enc_offsets_ok. reflexivity.
  Qed.
  Definition tvf (fis : field_infos) (x : tv_in) : list Z := match nth_error (fis_fields fis) (fst (fst x)) with Some f => tvb f (snd (fst x)) (snd x) | None => [] end.
  Definition ixe (fis : field_infos) (x : tv_in) : Z * Z := (Z.of_nat (fst (fst x)), Z.of_nat (length (tvf fis x))).
  Definition eb (x : Z * Z) : list Z := eint (fst x) ++ eint (snd x).
  Lemma enc_index_ok l : enc_list enc_tv_entry l = Some (concat (map eb l)).
  Proof. induction l as [|x l IH]; [reflexivity|]. cbn [enc_list map concat]. unfold enc_tv_entry at 1. rewrite !eint_some. cbn [obind]. rewrite IH. reflexivity. Qed.
  Lemma fw_tvs_ok fis l : Forall (fun t : tv_in => (fst (fst t) < length (fis_fields fis))%nat) l -> forall w,
    fw_tvs fis w l = Some (mkFw (fw_fdt w ++ concat (map (tvf fis) l)) (fw_fdx w) (fw_start w) (fw_tv w ++ map (ixe fis) l)).
  Proof.
    induction 1 as [|((n & ts) & os) l Hn Hl IH]; intros w; cbn [fw_tvs map concat]. { rewrite !app_nil_r. destruct w; reflexivity. }
    cbn [fst] in Hn. destruct (nth_error (fis_fields fis) n) as [f|] eqn:E; [|apply nth_error_None in E; lia]. cbn [obind]. unfold fw_add_postings. rewrite enc_tv_ok. cbn [obind]. rewrite IH.
    cbn [fw_fdt fw_fdx fw_start fw_tv]. unfold ixe at 2, tvf at 2 4. cbn [fst snd]. rewrite E. rewrite <- !app_assoc. reflexivity.
  Qed.
  Definition tvs_b (fis : field_infos) (l : list tv_in) : list Z := concat (map (tvf fis) l).
  Definition ib (fis : field_infos) (l : list tv_in) : list Z := eint (Z.of_nat (length l)) ++ concat (map eb (rev (map (ixe fis) l))).
  Definition rec_of (fis : field_infos) (x : document * list tv_in) : list Z * Z :=
    (sb fis (fst x) ++ tvs_b fis (snd x) ++ ib fis (snd x), Z.of_nat (length (sb fis (fst x) ++ tvs_b fis (snd x)))).

  Lemma sb_ext a b d : ext a b -> (forall df, In df (d_fields d) -> exists p, fis_get a (df_name df) = Some p) -> sb a d = sb b d /\ filter (is_stored a) (d_fields d) = filter (is_stored b) (d_fields d).
  Proof.
    intros Hx Hk. assert (E : forall df, In df (d_fields d) -> fis_get a (df_name df) = fis_get b (df_name df)).
    { intros df H. destruct (Hk df H) as ((n & f) & E). rewrite E. symmetry. eapply fis_get_ext; eauto. }
    assert (EF : filter (is_stored a) (d_fields d) = filter (is_stored b) (d_fields d)).
    { apply filter_ext_in. intros df H. unfold is_stored. rewrite E by auto. reflexivity. }
    split; auto. unfold sb. cbv zeta. rewrite EF. f_equal. f_equal; f_equal; apply map_ext_in; intros df H; apply filter_In in H; destruct H as [H _].
    - unfold hb. rewrite E by auto. reflexivity.
    - unfold db, is_comp. rewrite E by auto. reflexivity.
  Qed.
  Lemma tvf_ext a b x : ext a b -> (fst (fst x) < length (fis_fields a))%nat -> tvf a x = tvf b x.
  Proof. intros (more & E) H. unfold tvf. rewrite E, nth_error_app1 by auto. reflexivity. Qed.
  Lemma rec_ext a b x : ext a b -> (forall df, In df (d_fields (fst x)) -> exists p, fis_get a (df_name df) = Some p) -> Forall (fun t : tv_in => (fst (fst t) < length (fis_fields a))%nat) (snd x) ->
    rec_of a x = rec_of b x.
  Proof.
    intros Hx Hk Ht. unfold rec_of. destruct (sb_ext a b (fst x) Hx Hk) as [-> _]. rewrite Forall_forall in Ht.
    assert (E : forall t, In t (snd x) -> tvf a t = tvf b t) by (intros; apply tvf_ext; auto).
    unfold tvs_b, ib. rewrite (map_ext_in _ _ _ E). rewrite (map_ext_in (ixe a) (ixe b)); [reflexivity|]. intros t H. unfold ixe. rewrite E by auto. reflexivity.
  Qed.

  Definition xok (fis : field_infos) (x : document * list tv_in) : Prop := Forall (fok fis) (d_fields (fst x)).
  Lemma fw_put_ok fis w x : xok (add_fields fis (fst x)) x -> Forall (fun t : tv_in => (fst (fst t) < length (fis_fields (add_fields fis (fst x))))%nat) (snd x) ->
    exists w', fw_put zip fu fis w x = Some (w', add_fields fis (fst x)) /\
      fw_fdt w' = fw_fdt w ++ fst (rec_of (add_fields fis (fst x)) x) /\
      fw_fdx w' = fw_fdx w ++ enc_64 (Z.of_nat (length (fw_fdt w))) ++ enc_32 (snd (rec_of (add_fields fis (fst x)) x)).
  Proof.
    intros Hk Ht. set (F := add_fields fis (fst x)) in *. unfold fw_put, fw_add_doc. cbv zeta. fold F. rewrite eint_some. cbn [obind]. rewrite enc_stored_ok by auto. cbn [obind fst snd].
    rewrite fw_tvs_ok by auto. cbn [obind fw_fdt fw_fdx fw_start fw_tv]. unfold fw_write_tv_index. rewrite eint_some. cbn [obind fw_fdt fw_fdx fw_start fw_tv app]. rewrite enc_index_ok. cbn [obind].
    eexists. split; [reflexivity|]. cbn [fw_fdt fw_fdx]. unfold rec_of, sb, tvs_b, ib. cbv zeta. cbn [fst snd]. rewrite map_length. split; [rewrite <- !app_assoc; reflexivity|]. rewrite <- !app_assoc. f_equal. f_equal. f_equal.
    rewrite !app_length. lia.
  Qed.
  Lemma fw_puts_ok l : forall fis w F, tvs_known fis l -> F = fis_after fis l -> Forall (xok F) l ->
    exists w', fw_puts zip fu fis w l = Some (w', F) /\ fw_fdt w' = fw_fdt w ++ fdt_of (map (rec_of F) l) /\ fw_fdx w' = fw_fdx w ++ fdx_of (length (fw_fdt w)) (map (rec_of F) l).
  Proof.
    induction l as [|x l IH]; intros fis w F Hk EF HF.
    - exists w. cbn in EF. subst. cbn [fw_puts map fdt_of fdx_of concat]. unfold fdt_of. cbn [map concat]. rewrite !app_nil_r. auto.
    - cbn [tvs_known] in Hk. destruct Hk as [Hk1 Hk2]. inversion HF as [|? ? Hx Hl]; subst x0 l0.
      change (fis_after fis (x :: l)) with (fis_after (add_fields fis (fst x)) l) in EF.
      assert (He : ext (add_fields fis (fst x)) F) by (rewrite EF; apply fis_after_ext).
      assert (Hh : forall df, In df (d_fields (fst x)) -> exists p, fis_get (add_fields fis (fst x)) (df_name df) = Some p) by (intros df H; apply fold_add_has; auto).
      assert (Hx' : xok (add_fields fis (fst x)) x).
      { unfold xok in *. rewrite Forall_forall in *. intros df H. destruct (Hh df H) as ((n & f) & E). split; [eauto|]. destruct (Hx df H) as [_ Hs]. unfold is_stored, is_comp in *. rewrite (fis_get_ext _ _ _ _ _ He E) in Hs. rewrite E. exact Hs. }
      destruct (fw_put_ok fis w x Hx' Hk1) as (w1 & E1 & E2 & E3). destruct (IH (add_fields fis (fst x)) w1 F Hk2 EF Hl) as (w2 & E4 & E5 & E6).
      exists w2. cbn [fw_puts]. rewrite E1. cbn [obind fst snd]. split; [exact E4|]. rewrite (rec_ext _ F) in E2, E3 by auto. cbn [map fdx_of]. unfold fdt_of. cbn [map concat]. fold (fdt_of (map (rec_of F) l)).
      rewrite E5, E2, E6, E3, E2, app_length. rewrite <- !app_assoc. auto.
  Qed.
End RW.
