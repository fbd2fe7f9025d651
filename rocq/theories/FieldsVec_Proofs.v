From Verif Require Import Util Codec_Model Codec_Spec Codec_Proofs Seg_Model Seg_Spec SegCodec_Proofs Dict_Model Dict_Spec DictCodec_Proofs Dict_Proofs Post_Proofs Merge_Model Merge_Spec MergeDocs_Proofs Fields_Model Fields_Spec Fields_Proofs FieldsRead_Proofs FieldsTv_Proofs.
Open Scope Z_scope.

Lemma reads_pos ps : forall z, -1 <= z < 2 ^ 31 - 1 -> Forall (fun p => -1 <= p < 2 ^ 31 - 1) ps -> reads (pb z ps) ps (dec_positions (length ps) z).
Proof.
  induction ps as [|p t IH]; intros z Hz HF; cbn [pb length dec_positions]; [apply reads_ret|]. inversion HF; subst. apply reads_bind with (p - z); [apply reads_eint; unfold i32; lia|].
  replace (z + (p - z)) with p by lia. exact (reads_map _ _ (fun r => p :: r) _ (IH p H1 H2)).
Qed.
Lemma reads_terms pos l : Forall (fun t => term_ok (fst t) /\ Forall (fun p => -1 <= p < 2 ^ 31 - 1) (snd t)) l -> Forall (fun t : list Z * list Z => Z.of_nat (length (snd t)) < 2 ^ 31) l -> forall last,
  reads (tb pos last l) (map (fun t => (fst t, Z.of_nat (length (snd t)), if pos then Some (snd t) else None)) l) (dec_terms pos (length l) last).
Proof.
  intros H. induction H as [|(t & ps) l [Ht Hp] Hl IH]; intros HS last; cbn [tb map length dec_terms fst snd] in *; [apply reads_ret|]. inversion HS; subst. cbv zeta. cbn [snd] in *.
  apply reads_bind with t. { eapply reads_good. apply (good_term_read last t); auto; apply eint_some. }
  apply reads_bind with (Z.of_nat (length ps)); [apply reads_nat; auto|]. apply reads_bind with (if pos then Some ps else None).
  - destruct pos; [|apply reads_ret]. rewrite Nat2Z.id. apply (reads_map _ _ (fun l => Some l)). apply reads_pos; auto. lia.
  - exact (reads_map _ _ (fun r => _ :: r) _ (IH H2 t)).
Qed.
Lemma reads_offs l : forall z, 0 <= z < 2 ^ 62 -> Forall (fun o => 0 <= fst o < 2 ^ 62 /\ 0 <= snd o < 2 ^ 62) l -> reads (ob z l) l (dec_offsets (length l) z).
Proof.
  induction l as [|(s & e) t IH]; intros z Hz HF; cbn [ob length dec_offsets]; [apply reads_ret|]. inversion HF as [|? ? [H1 H2] H3]; subst. cbn [fst snd] in *. assert (2 ^ 62 < 2 ^ 63) by reflexivity.
  apply reads_bind with (s - z); [apply reads_e64; unfold i64; lia|]. apply reads_bind with (e - s); [apply reads_e64; unfold i64; lia|].
  replace (z + (s - z)) with s by lia. replace (s + (e - s)) with e by lia. exact (reads_map _ _ (fun r => (s, e) :: r) _ (IH e H2 H3)).
Qed.
Definition tv_small (x : tv_in) : Prop := Z.of_nat (tv_size x) < 2 ^ 31.
Lemma tv_small_parts x : tv_small x -> Z.of_nat (length (snd (fst x))) < 2 ^ 31 /\ Z.of_nat (length (snd x)) < 2 ^ 31 /\ Forall (fun t : list Z * list Z => Z.of_nat (length (snd t)) < 2 ^ 31) (snd (fst x)).
Proof.
  unfold tv_small, tv_size. rewrite (fold_plus (fun t => (length (fst t) + 5 * length (snd t) + 15)%nat) _ 30). intros H.
  pose proof (fold_len_le (fun t : list Z * list Z => (length (fst t) + 5 * length (snd t) + 15)%nat) (snd (fst x))) as HL. cbv beta in HL. lapply HL; [|apply Forall_forall; intros; lia]. clear HL. intros HL.
  split; [lia|]. split; [lia|]. apply Forall_forall. intros t Ht. pose proof (fold_in_le (fun t : list Z * list Z => (length (fst t) + 5 * length (snd t) + 15)%nat) _ _ Ht) as G. cbv beta in G. lia.
Qed.
(* a vector without terms leaves its offsets unread *)
Definition tail_of (f : field_info) (x : tv_in) : list Z := match snd (fst x) with [] => if fi_store_offsets f then eint (Z.of_nat (length (snd x))) ++ ob 0 (snd x) else [] | _ => [] end.
Lemma read_tv f x rest : tv_ok x -> tv_small x -> dec_tv f (tvb f (snd (fst x)) (snd x) ++ rest) = POk (tv_of f x) (tail_of f x ++ rest).
Proof.
  destruct x as ((n & ts) & os). intros [H1 H2] HS. destruct (tv_small_parts _ HS) as (S1 & S2 & S3). cbn [fst snd] in *. unfold dec_tv, tvb, tv_of, tail_of. cbn [fst snd]. unfold pbind at 1. rewrite <- app_assoc. rewrite reads_nat by auto.
  destruct (Z.ltb_spec 0 (Z.of_nat (length ts))) as [H|H].
  - destruct ts as [|t ts]; [cbn in H; lia|]. remember (t :: ts) as l. rewrite Nat2Z.id. unfold pbind at 1. rewrite <- app_assoc. rewrite reads_terms by auto. destruct (fi_store_offsets f) eqn:EO.
    + unfold pbind at 1. unfold pbind at 1. rewrite <- app_assoc. rewrite reads_nat by auto. unfold pbind at 1. rewrite Nat2Z.id. rewrite reads_offs; [|lia|auto]. unfold pret. subst l. reflexivity.
    + unfold pbind, pret. subst l. reflexivity.
  - destruct ts as [|t ts]; [|cbn in H; lia]. cbn [tb app map]. unfold pret. destruct (fi_store_offsets f); reflexivity.
Qed.

(* the index *)
Fixpoint find_spec (es : list (Z * Z)) (want off : Z) : option Z := match es with [] => None | (n, s) :: t => if n =? want then Some (off + s) else find_spec t want (off + s) end.
Lemma find_tv_ok want es : Forall (fun e => i32 (fst e) /\ i32 (snd e)) es -> forall off rest, exists rest', find_tv (length es) want off (concat (map eb es) ++ rest) = POk (find_spec es want off) rest'.
Proof.
  induction 1 as [|(n & s) es [H1 H2] Hl IH]; intros off rest; cbn [length find_tv map concat find_spec]; [exists rest; reflexivity|]. unfold pbind, eb at 1. cbn [fst snd] in *. rewrite <- !app_assoc. rewrite reads_eint by auto. rewrite reads_eint by auto.
  destruct (n =? want); [eexists; reflexivity|]. apply IH.
Qed.
Lemma find_app a b want : forall off, (forall e, In e a -> fst e <> want) -> find_spec (a ++ b) want off = find_spec b want (off + fold_right (fun x z => snd x + z) 0 a).
Proof.
  induction a as [|(n & s) a IH]; intros off H; cbn [app find_spec fold_right snd]; [f_equal; lia|]. destruct (Z.eqb_spec n want) as [->|]; [exfalso; apply (H (want, s)); [left; auto|reflexivity]|]. rewrite IH by (intros; apply H; right; auto). f_equal. lia.
Qed.
Lemma find_spec_none a want : forall off, (forall e, In e a -> fst e <> want) -> find_spec a want off = None.
Proof. intros off H. rewrite <- (app_nil_r a). rewrite find_app by auto. reflexivity. Qed.
Lemma ixe_sum fis l : fold_right (fun x z => snd x + z) 0 (rev (map (ixe fis) l)) = Z.of_nat (length (concat (map (tvf fis) l))).
Proof.
  assert (A : forall a b : list (Z * Z), fold_right (fun x z => snd x + z) 0 (a ++ b) = fold_right (fun x z => snd x + z) 0 a + fold_right (fun x z => snd x + z) 0 b) by (induction a as [|y a IHa]; intros b; cbn [app fold_right]; [lia|rewrite IHa; lia]).
  induction l as [|x l IH]; [reflexivity|]. cbn [map rev concat]. rewrite A, app_length, IH. cbn [fold_right]. unfold ixe. cbn [snd]. lia.
Qed.
Lemma find_index fis l1 t l2 : NoDup (map (fun x : tv_in => fst (fst x)) (l1 ++ t :: l2)) ->
  find_spec (rev (map (ixe fis) (l1 ++ t :: l2))) (Z.of_nat (fst (fst t))) 0 = Some (Z.of_nat (length (concat (map (tvf fis) (t :: l2))))).
Proof.
  intros HN. rewrite map_app. cbn [map]. rewrite rev_app_distr. cbn [rev]. rewrite <- app_assoc. rewrite find_app.
  - cbn [app find_spec]. unfold ixe at 1. rewrite Z.eqb_refl. f_equal. rewrite ixe_sum. cbn [concat]. rewrite app_length. lia.
  - intros e He. apply in_rev in He. apply in_map_iff in He. destruct He as (y & <- & Hy). unfold ixe. cbn [fst]. intros E. apply Nat2Z.inj in E. rewrite map_app in HN. cbn [map] in HN. apply NoDup_remove_2 in HN. apply HN. apply in_or_app. right. rewrite <- E. apply (in_map (fun x : tv_in => fst (fst x))). auto.
Qed.

Section VEC.
  Variable zip : list Z -> list Z.
  Notation sb := (sb zip). Notation rec_of := (rec_of zip).

  Definition known (fis : field_infos) (x : document * list tv_in) : Prop := Forall (fun t : tv_in => (fst (fst t) < length (fis_fields fis))%nat) (snd x).
  Lemma size_fits x : doc_fits x -> Forall tv_small (snd x) /\ Z.of_nat (length (snd x)) < 2 ^ 31.
  Proof.
    unfold doc_fits, tvs_size. rewrite (fold_plus tv_size _ 5). intros H. split.
    - apply Forall_forall. intros t Ht. unfold tv_small. pose proof (fold_in_le tv_size _ _ Ht). lia.
    - assert (length (snd x) <= fold_right (fun v n => (tv_size v + n)%nat) O (snd x))%nat by (apply fold_len_le; apply Forall_forall; intros; unfold tv_size; rewrite (fold_plus (fun t => (length (fst t) + 5 * length (snd t) + 15)%nat) _ 30); lia). lia.
  Qed.
  Lemma entries_ok fis x : Z.of_nat (length (fis_fields fis)) < 2 ^ 31 -> known fis x -> doc_fits x -> Forall (fun e => i32 (fst e) /\ i32 (snd e)) (rev (map (ixe fis) (snd x))).
  Proof.
    intros HN HK HD. apply Forall_rev. apply Forall_map. destruct (size_fits x HD) as [HS _]. apply Forall_forall. intros t Ht. unfold known in HK. rewrite Forall_forall in *. specialize (HK t Ht). specialize (HS t Ht). unfold ixe, i32, tv_small in *. cbn [fst snd]. pose proof (tvf_size fis t). lia.
  Qed.
  Lemma fr_size_ok recs : fr_size (fdx_of O recs) = length recs.
  Proof. unfold fr_size. rewrite fdx_len. rewrite Nat.mul_comm. apply Nat.div_mul. lia. Qed.
  (* what is there for a document *)
  Lemma tv_at fis l n x : let recs := map (rec_of fis) l in
    Forall (xok zip fis) l -> Forall doc_fits l -> Z.of_nat (length (fdt_of recs)) < 2 ^ 63 -> Z.of_nat (12 * length l) < 2 ^ 31 -> nth_error l n = Some x ->
    exists A B, fdt_of recs = A ++ tvs_b fis (snd x) ++ ib fis (snd x) ++ B /\ tv_index (fdx_of O recs) n = Some (Z.of_nat (length (A ++ tvs_b fis (snd x)))) /\ (n < fr_size (fdx_of O recs))%nat.
  Proof.
    intros recs HX HF HL H12 En. assert (Er : nth_error recs n = Some (rec_of fis x)) by (unfold recs; apply map_nth_error; auto).
    assert (HO : Forall doc_ok recs). { unfold recs. apply Forall_map. apply Forall_forall. intros y Hy. rewrite Forall_forall in HX, HF. apply (rec_size zip fis y); auto. }
    destruct (doc_at recs n (rec_of fis x) HO HL) as (pre & post & E0 & E0' & E1 & E2 & E3); auto. { unfold recs. rewrite map_length. lia. }
    exists (fdt_of pre ++ sb fis (fst x)), (fdt_of post). split.
    - rewrite E0, fdt_app. unfold fdt_of at 2. cbn [map concat]. fold (fdt_of post). unfold Fields_Proofs.rec_of. cbn [fst]. rewrite <- !app_assoc. reflexivity.
    - split; [rewrite E3; unfold Fields_Proofs.rec_of; cbn [snd]; f_equal; rewrite !app_length; lia|]. rewrite fr_size_ok. apply nth_error_Some. congruence.
  Qed.
  Lemma field_tv_ok fis l n x num : let recs := map (rec_of fis) l in Z.of_nat (length (fis_fields fis)) < 2 ^ 31 ->
    Forall (xok zip fis) l -> Forall doc_fits l -> Forall (known fis) l -> Z.of_nat (length (fdt_of recs)) < 2 ^ 63 -> Z.of_nat (12 * length l) < 2 ^ 31 -> nth_error l n = Some x ->
    Forall tv_ok (snd x) -> NoDup (map (fun t : tv_in => fst (fst t)) (snd x)) ->
    fr_get_field_tv fis (fdt_of recs) (fdx_of O recs) n num =
      Some (match find (fun t : tv_in => (fst (fst t) =? num)%nat) (snd x) with Some t => match nth_error (fis_fields fis) num with Some f => Some (tv_of f t) | None => None end | None => None end).
  Proof.
    intros recs HN HX HF HK HL H12 En HT HD. destruct (tv_at fis l n x HX HF HL H12 En) as (A & B & Ef & Ei & Hn). fold recs in Ef, Ei, Hn.
    assert (Hin : In x l) by (eapply nth_error_In; eauto). rewrite Forall_forall in HK, HF. specialize (HK x Hin). specialize (HF x Hin). destruct (size_fits x HF) as [HS HSn].
    unfold fr_get_field_tv. rewrite (proj2 (Nat.ltb_lt _ _) Hn). rewrite Ei. cbn [obind]. rewrite Ef at 1. rewrite (app_assoc A). rewrite seek_app. unfold ib. unfold pbind. rewrite <- !app_assoc. rewrite reads_nat by auto. rewrite Nat2Z.id.
    pose proof (find_tv_ok (Z.of_nat num) _ (entries_ok fis x HN HK HF) 0 B) as (rest & E). rewrite rev_length, map_length in E. rewrite E. clear E.
    destruct (find (fun t : tv_in => (fst (fst t) =? num)%nat) (snd x)) as [t|] eqn:EF.
    - apply find_some in EF. destruct EF as [Ht Et]. apply Nat.eqb_eq in Et. apply in_split in Ht. destruct Ht as (l1 & l2 & El). rewrite El in *. rewrite <- Et. rewrite (find_index fis l1 t l2 HD).
      destruct (nth_error (fis_fields fis) (fst (fst t))) as [f|] eqn:Ef'. 2:{ exfalso. apply nth_error_None in Ef'. unfold known in HK. rewrite Forall_forall in HK. specialize (HK t). rewrite El in HK. specialize (HK ltac:(apply in_or_app; right; left; auto)). lia. }
      cbn [obind]. rewrite Ef. unfold tvs_b. rewrite map_app, concat_app. cbn [map concat]. rewrite <- !app_assoc. rewrite (app_assoc A).
      replace (Z.of_nat (length (A ++ concat (map (tvf fis) l1) ++ tvf fis t ++ concat (map (tvf fis) l2))) - Z.of_nat (length (tvf fis t ++ concat (map (tvf fis) l2)))) with (Z.of_nat (length (A ++ concat (map (tvf fis) l1)))) by (rewrite !app_length; lia).
      rewrite seek_app. unfold tvf at 1. rewrite Ef'. rewrite Forall_app in HT, HS. destruct HT as [_ HT]. destruct HS as [_ HS]. inversion HT; inversion HS; subst. rewrite read_tv by auto. reflexivity.
    - rewrite find_spec_none; [reflexivity|]. intros e He. apply in_rev in He. apply in_map_iff in He. destruct He as (y & <- & Hy). unfold ixe. cbn [fst]. intros E. apply Nat2Z.inj in E. apply (find_none _ _ EF) in Hy. apply Nat.eqb_neq in Hy. auto.
  Qed.
  (* all of them *)
  Definition no_tail (fis : field_infos) (t : tv_in) : Prop := snd (fst t) = [] -> match nth_error (fis_fields fis) (fst (fst t)) with Some f => fi_store_offsets f = false | None => True end.
  Definition tv_at_num (fis : field_infos) (t : tv_in) : tvec := match nth_error (fis_fields fis) (fst (fst t)) with Some f => tv_of f t | None => mkTv [] [] None end.
  Lemma reads_tvs fis l : Forall (fun t : tv_in => (fst (fst t) < length (fis_fields fis))%nat) l -> Forall tv_ok l -> Forall tv_small l -> Forall (no_tail fis) l ->
    reads (concat (map (tvf fis) l)) (map (tv_at_num fis) l) (dec_tvs fis (map (fun t : tv_in => Z.of_nat (fst (fst t))) l)).
  Proof.
    induction l as [|t l IH]; intros H1 H2 H3 H4; cbn [map concat dec_tvs]; [apply reads_ret|]. inversion H1; inversion H2; inversion H3; inversion H4; subst. destruct (Z.ltb_spec (Z.of_nat (fst (fst t))) 0); [lia|]. rewrite Nat2Z.id.
    destruct (nth_error (fis_fields fis) (fst (fst t))) as [f|] eqn:E; [|apply nth_error_None in E; lia]. unfold tvf at 1, tv_at_num at 1. rewrite E.
    apply reads_bind with (tv_of f t).
    - intros rest. rewrite read_tv by auto. f_equal. unfold tail_of. destruct (snd (fst t)) eqn:Es; [|reflexivity]. unfold no_tail in *. match goal with H : _ = [] -> _ |- _ => rewrite E in H; rewrite H by auto end. reflexivity.
    - exact (reads_map _ _ (fun r => _ :: r) _ (IH H6 H10 H14 H18)).
  Qed.
  Lemma get_tv_ok fis l n x : let recs := map (rec_of fis) l in Z.of_nat (length (fis_fields fis)) < 2 ^ 31 ->
    Forall (xok zip fis) l -> Forall doc_fits l -> Forall (known fis) l -> Z.of_nat (length (fdt_of recs)) < 2 ^ 63 -> Z.of_nat (12 * length l) < 2 ^ 31 -> nth_error l n = Some x ->
    Forall tv_ok (snd x) -> Forall (no_tail fis) (snd x) -> fr_get_tv fis (fdt_of recs) (fdx_of O recs) n = Some (map (tv_at_num fis) (snd x)).
  Proof.
    intros recs HN HX HF HK HL H12 En HT HE. destruct (tv_at fis l n x HX HF HL H12 En) as (A & B & Ef & Ei & Hn). fold recs in Ef, Ei, Hn.
    assert (Hin : In x l) by (eapply nth_error_In; eauto). rewrite Forall_forall in HK, HF. specialize (HK x Hin). specialize (HF x Hin). destruct (size_fits x HF) as [HS HSn].
    unfold fr_get_tv. rewrite (proj2 (Nat.ltb_lt _ _) Hn). rewrite Ei. cbn [obind]. rewrite Ef at 1. rewrite (app_assoc A). rewrite seek_app. unfold ib. unfold pbind. rewrite <- !app_assoc. rewrite reads_nat by auto. rewrite Nat2Z.id.
    assert (RL : reads (concat (map eb (rev (map (ixe fis) (snd x))))) (rev (map (ixe fis) (snd x))) (dec_n dec_pair (length (snd x)))).
    { replace (length (snd x)) with (length (rev (map (ixe fis) (snd x)))) by (rewrite rev_length, map_length; reflexivity). rewrite <- (map_id (rev (map (ixe fis) (snd x)))) at 2. apply reads_list. eapply Forall_impl; [|apply (entries_ok fis x HN HK HF)]. intros (a & b) [Ha Hb]. cbn [fst snd] in *. unfold eb, dec_pair. cbn [fst snd].
      apply reads_bind with a; [apply reads_eint; auto|]. exact (reads_map _ _ (fun b => (a, b)) _ (reads_eint b Hb)). }
    rewrite RL. rewrite ixe_sum. rewrite Ef. replace (Z.of_nat (length (A ++ tvs_b fis (snd x))) - Z.of_nat (length (concat (map (tvf fis) (snd x))))) with (Z.of_nat (length A)) by (unfold tvs_b; rewrite app_length; lia). rewrite seek_app.
    rewrite map_rev, map_map, rev_involutive. unfold tvs_b. change (map (fun x0 : tv_in => fst (ixe fis x0)) (snd x)) with (map (fun t : tv_in => Z.of_nat (fst (fst t))) (snd x)). rewrite reads_tvs by auto. reflexivity.
  Qed.
End VEC.
