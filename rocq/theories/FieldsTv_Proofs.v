From Verif Require Import Util Codec_Model Codec_Spec Codec_Proofs Seg_Model Seg_Spec SegCodec_Proofs Dict_Model Dict_Spec DictCodec_Proofs Dict_Proofs Post_Proofs Merge_Model Merge_Spec MergeDocs_Proofs Fields_Model Fields_Spec Fields_Proofs FieldsRead_Proofs.
Open Scope Z_scope.

(* ---------- bytes of a lazy field *)
Lemma joined_cons t r : r <> [] -> joined (t :: r) = t ++ 32 :: joined r.
Proof. destruct r; [congruence|reflexivity]. Qed.
Lemma vb_joined zip l : l <> [] -> concat (map (vb zip false) l) = joined l ++ [32].
Proof.
  induction l as [|t r IH]; [congruence|]. intros _. cbn [map concat]. unfold vb at 1. destruct r as [|u r]; [cbn [map concat joined]; rewrite app_nil_r; reflexivity|].
  rewrite IH by discriminate. rewrite (joined_cons t) by discriminate. rewrite <- !app_assoc. reflexivity.
Qed.
Lemma joined_len l : l <> [] -> Z.of_nat (length (joined l)) = fold_right (fun t n => Z.of_nat (length t) + 1 + n) 0 l - 1.
Proof.
  induction l as [|t r IH]; [congruence|]. intros _. destruct r as [|u r]; [cbn [joined fold_right]; lia|]. rewrite (joined_cons t) by discriminate. rewrite app_length. cbn [length]. specialize (IH ltac:(discriminate)).
  change (fold_right (fun t n => Z.of_nat (length t) + 1 + n) 0 (t :: u :: r)) with (Z.of_nat (length t) + 1 + fold_right (fun t n => Z.of_nat (length t) + 1 + n) 0 (u :: r)). lia.
Qed.
Lemma zcopy_cons t r cs start len : zcopy (t :: r) cs start len =
  let cur_end := (cs + length t)%nat in
  if (start <? cur_end)%nat then
    let copy_start := (if cs <? start then start - cs else 0)%nat in
    let copy_len := (cur_end - cs - copy_start)%nat in
    if (len <=? copy_len)%nat then firstn len (skipn copy_start t)
    else firstn copy_len (skipn copy_start t) ++ 32 :: (if (len - copy_len - 1 =? 0)%nat then [] else zcopy r (cur_end + 1) start (len - copy_len - 1))
  else zcopy r (cur_end + 1) start len.
Proof. reflexivity. Qed.
Lemma firstn_app_le {A} n (a b : list A) : (n <= length a)%nat -> firstn n (a ++ b) = firstn n a.
Proof. intros H. rewrite firstn_app. replace (n - length a)%nat with O by lia. cbn [firstn]. apply app_nil_r. Qed.
Lemma zcopy_from l : forall cs start len, (start < cs)%nat -> (1 <= len)%nat -> (len <= length (joined l) + 1)%nat -> l <> [] -> zcopy l cs start len = firstn len (joined l ++ [32]).
Proof.
  induction l as [|t r IH]; intros cs start len Hs Hl Hb Hn; [congruence|]. rewrite zcopy_cons. cbv zeta. rewrite (proj2 (Nat.ltb_lt start (cs + length t))) by lia. rewrite (proj2 (Nat.ltb_ge cs start)) by lia.
  replace (cs + length t - cs - 0)%nat with (length t) by lia. cbn [skipn]. rewrite firstn_all.
  destruct r as [|u r].
  - cbn [joined] in *. destruct (Nat.leb_spec len (length t)) as [H|H]; [rewrite firstn_app_le by lia; reflexivity|]. replace (len - length t - 1)%nat with O by lia. cbn [Nat.eqb]. symmetry. apply firstn_all2. rewrite app_length. cbn. lia.
  - rewrite (joined_cons t) in * by discriminate. rewrite app_length in Hb. cbn [length] in Hb. destruct (Nat.leb_spec len (length t)) as [H|H]; [rewrite <- app_assoc, firstn_app_le by lia; reflexivity|].
    rewrite <- app_assoc. rewrite firstn_app. rewrite (firstn_all2 t) by lia. f_equal. cbn [app]. remember (len - length t - 1)%nat as m eqn:Em. replace (len - length t)%nat with (S m) by lia. cbn [firstn]. f_equal.
    destruct (Nat.eqb_spec m 0) as [E|E]; [rewrite E; reflexivity|]. apply IH; [lia|lia|lia|discriminate].
Qed.
Lemma zcopy_ok l : forall cs start len, (cs <= start)%nat -> gap l (start - cs) = false -> (start - cs + len <= length (joined l))%nat -> (1 <= len)%nat -> zcopy l cs start len = firstn len (skipn (start - cs) (joined l)).
Proof.
  induction l as [|t r IH]; intros cs start len Hs Hg Hb Hl; [cbn in Hb; lia|]. rewrite zcopy_cons. cbv zeta. destruct (Nat.ltb_spec start (cs + length t)) as [H|H].
  - assert (Ec : (if cs <? start then start - cs else 0)%nat = (start - cs)%nat) by (destruct (Nat.ltb_spec cs start); lia). rewrite Ec.
    assert (Ef : firstn (cs + length t - cs - (start - cs)) (skipn (start - cs) t) = skipn (start - cs) t) by (apply firstn_all2; rewrite skipn_length; lia). rewrite Ef.
    assert (Ej : exists more, joined (t :: r) = t ++ more /\ (r <> [] -> more = 32 :: joined r) /\ (r = [] -> more = [])). { destruct r as [|u r]; [exists []; cbn; rewrite app_nil_r; repeat split; congruence|]. exists (32 :: joined (u :: r)). rewrite (joined_cons t) by discriminate. repeat split; congruence. }
    destruct Ej as (more & Ej & Em & Em0). rewrite Ej in *. rewrite skipn_app. replace (start - cs - length t)%nat with O by lia. cbn [skipn].
    destruct (Nat.leb_spec len (cs + length t - cs - (start - cs))) as [H2|H2]; [rewrite firstn_app_le by (rewrite skipn_length; lia); reflexivity|].
    rewrite app_length in Hb. destruct r as [|u r]; [rewrite (Em0 eq_refl) in Hb; cbn in Hb; lia|]. rewrite Em in * by discriminate. cbn [length] in Hb.
    rewrite firstn_app, skipn_length. rewrite (firstn_all2 (skipn _ _)) by (rewrite skipn_length; lia). f_equal. replace (len - (length t - (start - cs)))%nat with (S (len - (cs + length t - cs - (start - cs)) - 1)) by lia. cbn [firstn]. f_equal.
    destruct (Nat.eqb_spec (len - (cs + length t - cs - (start - cs)) - 1) 0) as [E|E]; [rewrite E; reflexivity|]. rewrite zcopy_from by (try discriminate; lia). apply firstn_app_le. lia.
  - destruct r as [|u r]; [cbn [joined] in Hb; lia|]. change (gap (t :: u :: r) (start - cs)) with (if (start - cs <? length t)%nat then false else if (start - cs =? length t)%nat then true else gap (u :: r) (start - cs - length t - 1)) in Hg.
    rewrite (proj2 (Nat.ltb_ge (start - cs) (length t))) in Hg by lia. destruct (Nat.eqb_spec (start - cs) (length t)); [discriminate|]. rewrite (joined_cons t) in * by discriminate. rewrite app_length in Hb. cbn [length] in Hb.
    replace (start - cs - length t - 1)%nat with (start - (cs + length t + 1))%nat in Hg by lia.
    rewrite IH; [|lia|exact Hg|lia|auto]. rewrite skipn_app. rewrite (skipn_all2 t) by lia. cbn [app]. replace (start - cs - length t)%nat with (S (start - (cs + length t + 1))) by lia. reflexivity.
Qed.
(* between two values: one place further, a space at the end *)
Lemma zcopy_gap l : forall cs start len, (cs <= start)%nat -> gap l (start - cs) = true -> (start - cs + len <= length (joined l))%nat -> (1 <= len)%nat -> zcopy l cs start len = firstn len (skipn (S (start - cs)) (joined l) ++ [32]).
Proof.
  induction l as [|t r IH]; intros cs start len Hs Hg Hb Hl; [cbn in Hb; lia|]. destruct r as [|u r]; [discriminate|]. rewrite zcopy_cons. cbv zeta.
  change (gap (t :: u :: r) (start - cs)) with (if (start - cs <? length t)%nat then false else if (start - cs =? length t)%nat then true else gap (u :: r) (start - cs - length t - 1)) in Hg.
  destruct (Nat.ltb_spec (start - cs) (length t)) as [H|H]; [discriminate|]. rewrite (proj2 (Nat.ltb_ge start (cs + length t))) by lia. rewrite (joined_cons t) in * by discriminate. rewrite app_length in Hb. cbn [length] in Hb.
  destruct (Nat.eqb_spec (start - cs) (length t)) as [E|E].
  - rewrite zcopy_from by (try discriminate; lia). f_equal. rewrite skipn_app. rewrite (skipn_all2 t) by lia. cbn [app]. replace (S (start - cs) - length t)%nat with 1%nat by lia. reflexivity.
  - replace (start - cs - length t - 1)%nat with (start - (cs + length t + 1))%nat in Hg by lia. rewrite IH; [|lia|exact Hg|lia|auto]. f_equal. f_equal. rewrite skipn_app. rewrite (skipn_all2 t) by lia. cbn [app].
    replace (S (start - cs) - length t)%nat with (S (S (start - (cs + length t + 1)))) by lia. reflexivity.
Qed.

Section TV.
  Variable zip : list Z -> list Z.
  Variable unzip : list Z -> option (list Z).
  Variable fuel : nat.
  Notation fu := (S fuel).
  Notation vb := (vb zip). Notation vlen := (vlen zip). Notation vok := (vok zip). Notation hb := (hb zip). Notation db := (db zip). Notation sb := (sb zip). Notation rec_of := (rec_of zip).
  Hypothesis HC : codec zip unzip.

  (* what a lazy field gives for its values *)
  Definition lazy_good (fdt : list Z) (z : lazy) (df : dfield) : Prop :=
    z_name z = df_name df /\ length (z_data z) = length (df_data df) /\ (forall i d, nth_error (df_data df) i = Some d -> lazy_get unzip fu fdt z i = Some d) /\
    (z_comp z = false -> z_len z = Z.of_nat (length (concat (map (vb false) (df_data df)))) - 1 /\ exists A B, fdt = A ++ concat (map (vb false) (df_data df)) ++ B /\ (df_data df <> [] -> option_map fst (nth_error (z_data z) 0) = Some (Z.of_nat (length A)))).
  Lemma lazy_all fis l : Forall (fun df => fok zip fis df /\ is_stored fis df = true) l -> forall A B s base, base + s = Z.of_nat (length A) -> 
    Forall2 (fun z df => lazy_good (A ++ concat (map (db fis) l) ++ B) (zshift base z) df /\ z_comp z = is_comp fis df) (lazy_of s (map (head_of zip fis) l)) l.
  Proof.
    induction 1 as [|df l [[((n & f) & E) Hv] Hs] Hl IH]; intros A B s base Hb; [constructor|]. cbn [map concat]. unfold head_of at 1. rewrite E. cbn [lazy_of]. cbv zeta. unfold is_comp in Hv. rewrite E in Hv. cbn [snd] in Hv. specialize (Hv Hs).
    assert (Ed : db fis df = concat (map (vb (fi_is_compressed f)) (df_data df))) by (unfold Fields_Proofs.db, is_comp; rewrite E; reflexivity).
    constructor.
    - split; [|cbn [z_comp]; unfold is_comp; rewrite E; reflexivity]. destruct (fis_get_nth _ _ _ _ E) as [_ En]. split; [exact En|]. split; [unfold zshift; cbn [z_data]; rewrite map_length, starts_len, map_length; reflexivity|]. split.
      + intros i d Hd. rewrite Ed, <- app_assoc. apply lazy_field; auto. lia.
      + intros Ec. unfold zshift in *. cbn [z_comp z_len z_data] in *. split; [rewrite vb_sum, Ec; lia|]. exists A, (concat (map (db fis) l) ++ B). split; [rewrite Ed, Ec, <- app_assoc; reflexivity|].
        intros Hn. destruct (df_data df) as [|d t]; [congruence|]. cbn [map starts_of nth_error option_map fst]. f_equal. lia.
    - rewrite vb_sum. rewrite <- Ed. rewrite <- app_assoc. rewrite (app_assoc A). apply IH. rewrite app_length. lia.
  Qed.
  Lemma get_lazy_ok fis l : let recs := map (rec_of fis) l in
    Z.of_nat (length (fis_fields fis)) < 2 ^ 31 -> Forall (xok zip fis) l -> Forall doc_fits l -> Z.of_nat (length (fdt_of recs)) < 2 ^ 63 -> Z.of_nat (12 * length l) < 2 ^ 31 ->
    forall n x, nth_error l n = Some x -> exists zs, fr_get_lazy fis (fdt_of recs) (fdx_of O recs) n = Some zs /\
      Forall2 (fun z df => lazy_good (fdt_of recs) z df /\ z_comp z = is_comp fis df) zs (filter (is_stored fis) (d_fields (fst x))).
  Proof.
    intros recs HN HX HF HL H12 n x En. assert (Er : nth_error recs n = Some (rec_of fis x)) by (unfold recs; apply map_nth_error; auto).
    assert (HO : Forall doc_ok recs). { unfold recs. apply Forall_map. apply Forall_forall. intros y Hy. rewrite Forall_forall in HX, HF. apply (rec_size zip fis y); auto. }
    assert (Hin : In x l) by (eapply nth_error_In; eauto). rewrite Forall_forall in HX, HF. specialize (HX x Hin). specialize (HF x Hin).
    destruct (doc_at recs n (rec_of fis x) HO HL) as (pre & post & E0 & _ & E1 & E2 & _); auto. { unfold recs. rewrite map_length. lia. }
    unfold fr_get_lazy. rewrite E1. cbn [obind]. rewrite E2. unfold Fields_Proofs.rec_of. cbn [fst]. unfold Fields_Proofs.sb. cbv zeta. set (st := filter (is_stored fis) (d_fields (fst x))).
    assert (HS : Z.of_nat (stored_size (fst x)) < 2 ^ 31) by (unfold doc_fits in HF; lia).
    pose proof (reads_heads zip unzip HC fis (fst x) HN HX HS) as R1. cbv zeta in R1. fold st in R1. rewrite <- !app_assoc. rewrite (app_assoc (eint _)). rewrite R1.
    assert (Ef : fdt_of recs = (fdt_of pre ++ eint (Z.of_nat (length st)) ++ concat (map (hb fis) st)) ++ concat (map (db fis) st) ++ tvs_b fis (snd x) ++ ib fis (snd x) ++ fdt_of post).
    { rewrite E0, fdt_app. unfold fdt_of at 2. cbn [map concat]. fold (fdt_of post). unfold Fields_Proofs.rec_of. cbn [fst]. unfold Fields_Proofs.sb. cbv zeta. fold st. rewrite <- !app_assoc. reflexivity. }
    eexists. split; [reflexivity|]. 
    assert (El : (length (fdt_of recs) - length (concat (map (db fis) st) ++ tvs_b fis (snd x) ++ ib fis (snd x) ++ fdt_of post))%nat = length (fdt_of pre ++ eint (Z.of_nat (length st)) ++ concat (map (hb fis) st))) by (rewrite Ef, app_length; lia).
    rewrite El. set (A := fdt_of pre ++ _) in *.
    assert (HA : Forall (fun df => fok zip fis df /\ is_stored fis df = true) st) by (apply Forall_filter; exact HX).
    pose proof (lazy_all fis st HA A (tvs_b fis (snd x) ++ ib fis (snd x) ++ fdt_of post) 0 (Z.of_nat (length A)) ltac:(lia)) as HZ. rewrite <- Ef in HZ. clear -HZ. generalize dependent (Z.of_nat (length A)). intros base HZ. generalize dependent (fdt_of recs). intros file HZ. clearbody st.
    induction HZ as [|z df zs dfs Hz Hr IH]; cbn [map]; constructor; [exact Hz|exact IH].
  Qed.
  Lemma texts_ok fdt z df : lazy_good fdt z df -> fold_right (fun i r => do a <- lazy_get unzip fu fdt z i; do l <- r; Some (a :: l)) (Some []) (seq 0 (length (z_data z))) = Some (df_data df).
  Proof.
    intros (_ & HL & HG & _). rewrite HL. assert (G : forall m k, (k + m = length (df_data df))%nat -> fold_right (fun i r => do a <- lazy_get unzip fu fdt z i; do l <- r; Some (a :: l)) (Some []) (seq k m) = Some (skipn k (df_data df))).
    { induction m as [|m IH]; intros k Hk; cbn [seq fold_right]; [rewrite skipn_all2 by lia; reflexivity|]. destruct (nth_error (df_data df) k) as [d|] eqn:E; [|apply nth_error_None in E; lia]. rewrite (HG _ _ E). cbn [obind]. rewrite IH by lia. cbn [obind]. f_equal.
      apply nth_error_split in E. destruct E as (a & b & E & <-). rewrite E. rewrite skipn_app_exact. replace (a ++ d :: b) with ((a ++ [d]) ++ b) by (rewrite <- app_assoc; reflexivity). replace (S (length a)) with (length (a ++ [d])) by (rewrite app_length; cbn; lia). rewrite skipn_app_exact. reflexivity. }
    rewrite (G _ O) by lia. reflexivity.
  Qed.
  Lemma lazy_bytes_plain fdt z df start len : lazy_good fdt z df -> z_comp z = false ->
    lazy_bytes unzip fu fdt z start len = if (1 <=? len)%nat && (start + len <=? length (joined (df_data df)))%nat then Some (firstn len (skipn start (joined (df_data df)))) else None.
  Proof.
    intros (_ & _ & _ & HP) Ec. unfold lazy_bytes. rewrite Ec. cbn [obind]. cbv zeta. destruct (HP Ec) as (EL & A & B & Ef & Hs). destruct (list_eq_dec (list_eq_dec Z.eq_dec) (df_data df) []) as [En|En].
    - rewrite EL, En. cbn [map concat length joined]. rewrite (proj2 (Z.leb_le (Z.of_nat 0 - 1) _)) by lia. cbn [orb]. destruct (Nat.leb_spec 1 len); [|reflexivity]. destruct (Nat.leb_spec (start + len) 0); [lia|]. reflexivity.
    - specialize (Hs En). rewrite vb_joined in EL, Ef by auto. rewrite app_length in EL. cbn [length] in EL.
      destruct (Nat.leb_spec 1 len) as [H1|H1]. 2:{ rewrite (proj2 (Nat.eqb_eq len 0)) by lia. rewrite Bool.orb_true_r. reflexivity. }
      destruct (Nat.eqb_spec len 0); [lia|]. destruct (Nat.leb_spec (start + len) (length (joined (df_data df)))) as [H2|H2]; cbn [andb].
      + rewrite (proj2 (Z.leb_gt (z_len z) _)) by lia. rewrite (proj2 (Z.ltb_ge (z_len z) _)) by lia. cbn [orb]. destruct (nth_error (z_data z) 0) as [(p & q)|]; [|discriminate]. cbn [option_map fst] in Hs. apply some_inj in Hs. subst p. cbn [obind fst].
        unfold seek, take. rewrite Ef. replace (Z.to_nat (Z.of_nat (length A) + Z.of_nat start)) with (length A + start)%nat by lia. rewrite <- skipn_skipn', skipn_app_exact. rewrite <- app_assoc. rewrite skipn_app. replace (start - length (joined (df_data df)))%nat with O by lia. cbn [skipn].
        rewrite app_length, skipn_length. rewrite (proj2 (Nat.ltb_ge _ _)) by lia. rewrite firstn_app_le by (rewrite skipn_length; lia). reflexivity.
      + rewrite (proj2 (Z.ltb_lt (z_len z) _)) by lia. rewrite Bool.orb_true_r. reflexivity.
  Qed.
  Lemma lazy_bytes_comp fdt z df start len : lazy_good fdt z df -> z_comp z = true ->
    lazy_bytes unzip fu fdt z start len =
      if (1 <=? len)%nat && (start + len <=? length (joined (df_data df)))%nat
      then Some (if gap (df_data df) start then firstn len (skipn (S start) (joined (df_data df)) ++ [32]) else firstn len (skipn start (joined (df_data df)))) else None.
  Proof.
    intros HG Ec. unfold lazy_bytes. rewrite Ec. rewrite (texts_ok fdt z df HG). cbn [obind]. cbv zeta. destruct (list_eq_dec (list_eq_dec Z.eq_dec) (df_data df) []) as [En|En].
    - rewrite En. cbn [joined fold_right length]. rewrite (proj2 (Z.leb_le (0 - 1) _)) by lia. cbn [orb]. destruct (Nat.leb_spec 1 len); [|reflexivity]. destruct (Nat.leb_spec (start + len) 0); [lia|]. reflexivity.
    - rewrite <- joined_len by auto. set (J := Z.of_nat (length (joined (df_data df)))).
      destruct (Nat.leb_spec 1 len) as [H1|H1]. 2:{ rewrite (proj2 (Nat.eqb_eq len 0)) by lia. rewrite Bool.orb_true_r. reflexivity. }
      destruct (Nat.eqb_spec len 0); [lia|]. destruct (Nat.leb_spec (start + len) (length (joined (df_data df)))) as [H2|H2]; cbn [andb].
      + rewrite (proj2 (Z.leb_gt J _)) by (unfold J; lia). rewrite (proj2 (Z.ltb_ge J _)) by (unfold J; lia). cbn [orb]. f_equal. destruct (gap (df_data df) start) eqn:EG.
        * rewrite zcopy_gap by (rewrite ?Nat.sub_0_r; auto; lia). rewrite Nat.sub_0_r. reflexivity.
        * rewrite zcopy_ok by (rewrite ?Nat.sub_0_r; auto; lia). rewrite Nat.sub_0_r. reflexivity.
      + rewrite (proj2 (Z.ltb_lt J _)) by (unfold J; lia). rewrite Bool.orb_true_r. reflexivity.
  Qed.
End TV.
