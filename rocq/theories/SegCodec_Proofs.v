From Coq Require Import String.
From Verif Require Import Util Codec_Model Codec_Spec Codec_Proofs Seg_Model Seg_Spec Seg_Proofs.
Open Scope Z_scope.

(* A parser p reads back v from bs whatever follows; on a proper prefix of bs it reports end of file, except for the lengths
   marked by w, where it crashes. *)
Definition good {A} (bs : list Z) (v : A) (p : parser A) (w : nat -> bool) : Prop :=
  (forall rest, p (bs ++ rest) = POk v rest) /\ (forall n, (n < length bs)%nat -> p (firstn n bs) = if w n then PUB else PEof).
Definition never (n : nat) : bool := false.

Lemma good_ret {A} (v : A) w : good [] v (pret v) w.
Proof. split; [reflexivity|cbn; lia]. Qed.
Lemma good_bind {A B} b1 b2 (v : A) (u : B) p k w1 w2 w : good b1 v p w1 -> good b2 u (k v) w2 ->
  (forall n, (n < length b1 + length b2)%nat -> w n = if (n <? length b1)%nat then w1 n else w2 (n - length b1)%nat) -> good (b1 ++ b2) u (pbind p k) w.
Proof.
  intros [H1 T1] [H2 T2] Hw. split.
  - intros rest. unfold pbind. rewrite <- app_assoc, H1. apply H2.
  - intros n Hn. rewrite app_length in Hn. rewrite Hw by auto. unfold pbind. rewrite firstn_app. destruct (Nat.ltb_spec n (length b1)) as [H|H].
    + replace (n - length b1)%nat with 0%nat by lia. cbn [firstn]. rewrite app_nil_r, T1 by auto. destruct (w1 n); reflexivity.
    + rewrite (firstn_all2 b1) by lia. rewrite H1. rewrite T2 by lia. reflexivity.
Qed.
(* ordinary composition *)
Lemma good_bind0 {A B} b1 b2 (v : A) (u : B) p k : good b1 v p never -> good b2 u (k v) never -> good (b1 ++ b2) u (pbind p k) never.
Proof. intros H1 H2. eapply good_bind; eauto. intros n _. unfold never. destruct (_ <? _)%nat; reflexivity. Qed.
(* a parser followed by a change of the value *)
Lemma good_map {A B} bs (v : A) (f : A -> B) p w : good bs v p w -> good bs (f v) (pbind p (fun x => pret (f x))) w.
Proof.
  intros H. rewrite <- (app_nil_r bs). apply good_bind with v w never; auto using good_ret.
  cbn [length]. intros n Hn. destruct (Nat.ltb_spec n (length bs)); [reflexivity|lia].
Qed.
Lemma good_ext {A} bs (v : A) p w w' : good bs v p w -> (forall n, (n < length bs)%nat -> w n = w' n) -> good bs v p w'.
Proof. intros [H1 H2] H. split; auto. intros n Hn. rewrite H2 by auto. rewrite H by auto. reflexivity. Qed.

Lemma good_lift {A} dom (enc : A -> option (list Z)) dec v bs : roundtrips dom enc dec -> detects_truncation dom enc dec -> dom v -> enc v = Some bs ->
  good bs v (lift dec) never.
Proof.
  intros HR HT Hv E. split.
  - intros rest. destruct (HR v Hv) as (b & E' & _ & _ & H). rewrite E in E'. apply some_inj in E'. subst b. unfold lift. rewrite H. reflexivity.
  - intros n Hn. unfold lift. rewrite (HT v bs n Hv E Hn). reflexivity.
Qed.
Lemma enc_some {A} dom (enc : A -> option (list Z)) dec v : roundtrips dom enc dec -> dom v -> exists bs, enc v = Some bs.
Proof. intros H Hv. destruct (H v Hv) as (bs & E & _). eauto. Qed.
Lemma enc_32_len v : length (enc_32 v) = 4%nat. Proof. reflexivity. Qed.
Lemma enc_64_len v : length (enc_64 v) = 8%nat. Proof. reflexivity. Qed.
Lemma good_u32 v : u32 v -> good (enc_32 v) v (lift dec_u32) never.
Proof.
  intros H. eapply good_lift with (enc := fun v => Some (enc_32 v)); eauto using u32_roundtrips.
  intros v' bs n _ E Hn. apply some_inj in E. subst bs. rewrite enc_32_len in Hn. unfold enc_32.
  destruct n as [|[|[|[|n]]]]; try reflexivity. lia.
Qed.
Lemma good_u64 v : u64 v -> good (enc_64 v) v (lift dec_u64) never.
Proof.
  intros H. eapply good_lift with (enc := fun v => Some (enc_64 v)); eauto using u64_roundtrips.
  intros v' bs n _ E Hn. apply some_inj in E. subst bs. rewrite enc_64_len in Hn. unfold enc_64.
  destruct n as [|[|[|[|[|[|[|[|n]]]]]]]]; try reflexivity. lia.
Qed.
Lemma u32_mod v : u32 (v mod 2 ^ 32).
Proof. unfold u32. apply Z.mod_pos_bound. lia. Qed.
Lemma enc_int_some v : exists bs, enc_int v = Some bs.
Proof. unfold enc_int. eapply (enc_some _ enc_vint); [apply vint_roundtrips|apply u32_mod]. Qed.
Lemma enc_int_nonempty v bs : enc_int v = Some bs -> (0 < length bs)%nat.
Proof. intros E. destruct (enc_v_bytes _ _ _ E) as [_ H]. destruct bs; [congruence|cbn; lia]. Qed.
Lemma good_uint v bs : u32 v -> enc_int v = Some bs -> good bs v dec_uint never.
Proof.
  intros Hv E. unfold enc_int in E. rewrite Z.mod_small in E by exact Hv. eapply good_lift; eauto using vint_roundtrips, vint_trunc.
Qed.
Lemma good_int v bs : i32 v -> enc_int v = Some bs -> good bs v dec_int never.
Proof.
  intros Hv E. assert (HG : good bs (v mod 2 ^ 32) dec_uint never).
  { eapply good_lift; [apply vint_roundtrips|apply vint_trunc|apply u32_mod|exact E]. }
  replace v with (to_signed 32 (v mod 2 ^ 32)) by (apply to_signed_mod; [lia|exact Hv]).
  exact (good_map _ _ (to_signed 32) _ _ HG).
Qed.
Lemma good_nat n bs : Z.of_nat n < 2 ^ 31 -> enc_int (Z.of_nat n) = Some bs -> good bs (Z.of_nat n) dec_int never.
Proof. intros H E. apply good_int; auto. unfold i32. lia. Qed.
Lemma good_str s bs : byte_string s -> enc_str s = Some bs -> good bs s (lift dec_str) never.
Proof. intros Hs E. eapply good_lift; eauto using str_roundtrips, str_trunc. Qed.
Lemma good_byte b : good [b] b dec_byte never.
Proof. split; [reflexivity|]. cbn. intros n Hn. replace n with 0%nat by lia. reflexivity. Qed.

Lemma good_list {A} (ok : A -> Prop) (f : A -> option (list Z)) (p : parser A) :
  (forall v bs, ok v -> f v = Some bs -> good bs v p never) ->
  forall l bs, Forall ok l -> enc_list f l = Some bs -> good bs l (dec_n p (length l)) never.
Proof.
  intros Hp. induction l as [|v l IH]; intros bs HF E; cbn [enc_list] in E.
  - apply some_inj in E. subst. apply good_ret.
  - inversion HF; subst. destruct (f v) as [a|] eqn:Ea; [|discriminate]. cbn [obind] in E. destruct (enc_list f l) as [b|] eqn:Eb; [|discriminate].
    cbn [obind] in E. apply some_inj in E. subst bs. cbn [length dec_n]. apply good_bind0 with v; [auto|].
    exact (good_map _ _ (fun l => v :: l) _ _ (IH b H2 eq_refl)).
Qed.
Lemma enc_list_some {A} (ok : A -> Prop) (f : A -> option (list Z)) l : (forall v, ok v -> exists bs, f v = Some bs) -> Forall ok l -> exists bs, enc_list f l = Some bs.
Proof.
  intros Hf. induction 1 as [|v l Hv Hl IH]; cbn; eauto. destruct (Hf v Hv) as (a & ->). destruct IH as (b & ->). cbn. eauto.
Qed.
Ltac odestruct E :=
  repeat match type of E with
  | obind ?o _ = Some _ => let a := fresh "a" in let Ea := fresh "Ea" in destruct o as [a|] eqn:Ea; [|discriminate E]; cbn [obind] in E
  end; apply some_inj in E; subst.

Lemma enc_si_some s : si_ok s -> exists bs, enc_si s = Some bs.
Proof.
  intros (H1 & H2 & H3 & H4 & H5). unfold enc_si. destruct (enc_some _ _ _ _ str_roundtrips H1) as (a & ->). cbn [obind].
  destruct (enc_int_some (si_doc_cnt s)) as (b & ->). destruct (enc_int_some (si_del_gen s)) as (c & ->). destruct (enc_int_some (Z.of_nat (length (si_norm_gens s)))) as (d & ->). cbn [obind].
  destruct (enc_list_some (fun _ => True) enc_int (rev (si_norm_gens s))) as (e & ->); [intros v _; apply enc_int_some|apply Forall_forall; auto|]. cbn. eauto.
Qed.
Lemma good_si s bs : si_ok s -> enc_si s = Some bs -> good bs s dec_si never.
Proof.
  intros (H1 & H2 & H3 & H4 & H5) E. unfold enc_si in E. odestruct E. unfold dec_si.
  apply good_bind0 with (si_name s); [apply good_str; auto|].
  apply good_bind0 with (si_doc_cnt s); [apply good_int; auto|].
  apply good_bind0 with (si_del_gen s); [apply good_int; auto|].
  apply good_bind0 with (Z.of_nat (length (si_norm_gens s))); [apply good_nat; auto|].
  apply good_bind0 with (rev (si_norm_gens s)).
  - rewrite Nat2Z.id. rewrite <- (rev_length (si_norm_gens s)). apply good_list with i32 enc_int; auto using good_int. apply Forall_rev; auto.
  - pose proof (good_map _ _ (fun cfs => mkSi (si_name s) (si_doc_cnt s) (si_del_gen s) (rev (rev (si_norm_gens s))) (negb (cfs =? 0))) _ _ (good_byte (if si_cfs s then 1 else 0))) as G.
    cbv beta in G.
    replace (mkSi (si_name s) (si_doc_cnt s) (si_del_gen s) (rev (rev (si_norm_gens s))) (negb ((if si_cfs s then 1 else 0) =? 0))) with s in G
      by (rewrite rev_involutive; destruct s as [? ? ? ? []]; reflexivity).
    exact G.
Qed.
Lemma enc_fi_some f : fi_ok f -> exists bs, enc_fi f = Some bs.
Proof.
  intros (H1 & H2 & H3). unfold enc_fi. destruct (enc_some _ _ _ _ str_roundtrips H1) as (a & ->). destruct (enc_int_some (fi_bits f)) as (b & ->). cbn. eauto.
Qed.
Lemma good_fi f bs : fi_ok f -> enc_fi f = Some bs -> good bs f dec_fi never.
Proof.
  intros (H1 & H2 & H3) E. unfold enc_fi in E. odestruct E. unfold dec_fi.
  apply good_bind0 with (fi_name f); [apply good_str; auto|].
  apply good_bind0 with (fi_boost f); [apply good_u32; auto|].
  pose proof (good_map _ _ (mkFi (fi_name f) (fi_boost f)) _ _ (good_uint _ _ H3 Ea0)) as G. destruct f; exact G.
Qed.
Lemma good_fields : forall l seen bs, Forall fi_ok l -> NoDup (map fi_name (seen ++ l)) -> enc_list enc_fi l = Some bs ->
  good bs (seen ++ l) (dec_fields (length l) seen) never.
Proof.
  induction l as [|f l IH]; intros seen bs HF HN E; cbn [enc_list] in E.
  - apply some_inj in E. subst. rewrite app_nil_r. apply good_ret.
  - odestruct E. inversion HF; subst. cbn [length dec_fields]. apply good_bind0 with f; [apply good_fi; auto|].
    assert (Hex : existsb (fun g => beqb (fi_name g) (fi_name f)) seen = false).
    { destruct (existsb _ seen) eqn:Ex; auto. exfalso. apply existsb_exists in Ex. destruct Ex as (g & Hg & He). apply beqb_eq in He.
      rewrite map_app in HN. cbn [map] in HN. apply NoDup_remove_2 in HN. apply HN. apply in_app_iff. left. rewrite <- He. apply in_map. auto. }
    rewrite Hex. replace (seen ++ f :: l) with ((seen ++ [f]) ++ l) by (rewrite <- app_assoc; reflexivity).
    apply IH; auto. rewrite <- app_assoc. exact HN.
Qed.
Lemma good_null {A} bs (v : A) p : good bs v p never -> good bs v (null_deref p) (fun _ => true).
Proof.
  intros [H1 H2]. split.
  - intros rest. unfold null_deref. rewrite H1. reflexivity.
  - intros n Hn. unfold null_deref. rewrite H2 by auto. reflexivity.
Qed.
Lemma enc_fis_some f : fis_ok f -> exists bs, enc_fis f = Some bs.
Proof.
  intros (H1 & H2 & H3 & H4 & H5 & H6 & H7). unfold enc_fis.
  destruct (enc_int_some (fis_store f)) as (a & ->). destruct (enc_int_some (fis_index f)) as (b & ->). destruct (enc_int_some (fis_tv f)) as (c & ->).
  destruct (enc_int_some (Z.of_nat (length (fis_fields f)))) as (d & ->). destruct (enc_list_some _ _ _ enc_fi_some H6) as (e & ->). cbn. eauto.
Qed.
Lemma good_fis f bs x y z : fis_ok f -> enc_fis f = Some bs -> enc_int (fis_store f) = Some x -> enc_int (fis_index f) = Some y -> enc_int (fis_tv f) = Some z ->
  good bs f dec_fis (fun n => n <? length x + length y + length z)%nat.
Proof.
  intros (H1 & H2 & H3 & H4 & H5 & H6 & H7) E Ex Ey Ez. unfold enc_fis in E. rewrite Ex, Ey, Ez in E. cbn [obind] in E. odestruct E. unfold dec_fis.
  rewrite !app_assoc. rewrite <- (app_assoc (_ ++ _)).
  apply good_bind with (v := (fis_store f, fis_index f, fis_tv f)) (w1 := fun _ => true) (w2 := never).
  - apply good_null. rewrite <- app_assoc. apply good_bind0 with (fis_store f); [apply good_uint; auto|].
    apply good_bind0 with (fis_index f); [apply good_uint; auto|]. 
    rewrite <- (app_nil_r z). apply good_bind0 with (fis_tv f); [apply good_uint; auto|].
    assert (Hc : (fis_index f =? INDEX_NO) && negb (fis_tv f =? TERM_VECTOR_NO) = false).
    { unfold INDEX_NO, TERM_VECTOR_NO. destruct (Z.eqb_spec (fis_index f) 0); cbn; auto. rewrite H4 by auto. reflexivity. }
    rewrite Hc. apply good_ret.
  - apply good_bind0 with (Z.of_nat (length (fis_fields f))); [apply good_nat; auto|]. rewrite Nat2Z.id. cbn [fst snd].
    pose proof (good_map _ _ (mkFis (fis_store f) (fis_index f) (fis_tv f)) _ _ (good_fields (fis_fields f) [] _ H6 H7 Ea0)) as G. destruct f; exact G.
  - intros n Hn. rewrite !app_length. destruct (_ <? _)%nat; reflexivity.
Qed.

Lemma enc_sis_some s : sis_ok s -> exists bs, enc_sis s = Some bs.
Proof.
  intros (H0 & H1 & H2 & H3 & H4 & H5). unfold enc_sis.
  destruct (enc_int_some (Z.of_nat (length (sis_segs s)))) as (a & ->). destruct (enc_list_some _ _ _ enc_si_some H4) as (b & ->).
  destruct (enc_fis_some _ H5) as (c & ->). cbn. eauto.
Qed.
Lemma good_sis s bs lo hi : sis_ok s -> enc_sis s = Some bs -> fis_window s = Some (lo, hi) ->
  good bs s dec_sis (fun n => (lo <=? n) && (n <? hi))%nat.
Proof.
  intros (H0 & H1 & H2 & H3 & H4 & H5) E W. unfold enc_sis in E. odestruct E. unfold fis_window in W. rewrite Ea, Ea0 in W. cbn [obind] in W.
  destruct (enc_int (fis_store (sis_fis s))) as [x|] eqn:Ex; [|discriminate]. destruct (enc_int (fis_index (sis_fis s))) as [y|] eqn:Ey; [|discriminate].
  destruct (enc_int (fis_tv (sis_fis s))) as [z|] eqn:Ez; [|discriminate]. cbn [obind] in W. apply some_inj in W.
  assert (W1 : lo = (20 + length a + length a0)%nat) by congruence. assert (W2 : hi = (lo + length x + length y + length z)%nat) by congruence. clear W.
  unfold dec_sis.
  assert (Hshift : forall (b1 b2 : list Z) (B : Type) (A : Type) (v : A) (u : B) p k (w : nat -> bool), good b1 v p never -> good b2 u (k v) (fun n => w (n + length b1)%nat) ->
    (forall n, (n < length b1)%nat -> w n = false) -> good (b1 ++ b2) u (pbind p k) w).
  { intros b1 b2 B A v u p k w G1 G2 Hw. eapply good_bind; eauto. cbn beta. intros n Hn. destruct (Nat.ltb_spec n (length b1)); [apply Hw; auto|]. f_equal. lia. }
  apply Hshift with (v := 0).
  { apply good_u32. unfold u32. lia. }
  2:{ intros n Hn. rewrite enc_32_len in Hn. destruct (Nat.leb_spec lo n); [lia|reflexivity]. }
  rewrite enc_32_len. apply Hshift with (v := sis_version s) (w := fun n => ((lo <=? n + 4) && (n + 4 <? hi))%nat).
  { apply good_u64; auto. }
  2:{ intros n Hn. rewrite enc_64_len in Hn. destruct (Nat.leb_spec lo (n + 4)); [lia|reflexivity]. }
  rewrite enc_64_len. apply Hshift with (v := sis_counter s) (w := fun n => ((lo <=? n + 8 + 4) && (n + 8 + 4 <? hi))%nat).
  { apply good_u64; auto. }
  2:{ intros n Hn. rewrite enc_64_len in Hn. destruct (Nat.leb_spec lo (n + 8 + 4)); [lia|reflexivity]. }
  rewrite enc_64_len. apply Hshift with (v := Z.of_nat (length (sis_segs s))) (w := fun n => ((lo <=? n + 8 + 8 + 4) && (n + 8 + 8 + 4 <? hi))%nat).
  { apply good_nat; auto. lia. }
  2:{ intros n Hn. destruct (Nat.leb_spec lo (n + 8 + 8 + 4)); [lia|reflexivity]. }
  rewrite Z.gtb_ltb. destruct (Z.ltb_spec (2 ^ 30) (Z.of_nat (length (sis_segs s)))); [lia|]. rewrite Nat2Z.id.
  apply Hshift with (v := sis_segs s) (w := fun n => ((lo <=? n + length a + 8 + 8 + 4) && (n + length a + 8 + 8 + 4 <? hi))%nat).
  { apply good_list with si_ok enc_si; auto using good_si. }
  2:{ intros n Hn. destruct (Nat.leb_spec lo (n + length a + 8 + 8 + 4)); [lia|reflexivity]. }
  assert (Hs : mkSis 0 (sis_version s) (sis_counter s) (sis_segs s) (sis_fis s) = s) by (destruct s; cbn in *; congruence).
  pose proof (fun w => good_map a1 (sis_fis s) (mkSis 0 (sis_version s) (sis_counter s) (sis_segs s)) dec_fis w) as GM. rewrite Hs in GM. apply GM.
  eapply good_ext; [eapply good_fis; eauto|]. intros n Hn. cbn beta.
  destruct (Nat.leb_spec lo (n + length a0 + length a + 8 + 8 + 4)); [|lia].
  destruct (Nat.ltb_spec n (length x + length y + length z)); destruct (Nat.ltb_spec (n + length a0 + length a + 8 + 8 + 4) hi); cbn; auto; lia.
Qed.
Lemma sis_window s : sis_ok s -> exists lo hi bs, fis_window s = Some (lo, hi) /\ enc_sis s = Some bs /\ (lo < hi < length bs)%nat.
Proof.
  intros (H0 & H1 & H2 & H3 & H4 & H5). unfold fis_window, enc_sis, enc_fis.
  destruct (enc_int_some (Z.of_nat (length (sis_segs s)))) as (a & Ea). destruct (enc_list_some _ _ _ enc_si_some H4) as (b & Eb).
  destruct (enc_int_some (fis_store (sis_fis s))) as (x & Ex). destruct (enc_int_some (fis_index (sis_fis s))) as (y & Ey). destruct (enc_int_some (fis_tv (sis_fis s))) as (z & Ez).
  destruct (enc_int_some (Z.of_nat (length (fis_fields (sis_fis s))))) as (d & Ed). destruct H5 as (_ & _ & _ & _ & _ & H6 & _). destruct (enc_list_some _ _ _ enc_fi_some H6) as (e & Ee).
  rewrite Ea, Eb, Ex, Ey, Ez, Ed, Ee. cbn [obind]. eexists _, _, _. split; [reflexivity|]. split; [reflexivity|].
  apply enc_int_nonempty in Ex, Ed. rewrite !app_length, enc_32_len, !enc_64_len. lia.
Qed.
Lemma descriptor_roundtrip s : sis_ok s -> exists bs, enc_sis s = Some bs /\ forall rest, dec_sis (bs ++ rest) = POk s rest.
Proof.
  intros H. destruct (sis_window s H) as (lo & hi & bs & W & E & _). exists bs. split; auto. apply (good_sis s bs lo hi H E W).
Qed.
Lemma descriptor_truncated s : sis_ok s -> forall bs lo hi n, enc_sis s = Some bs -> fis_window s = Some (lo, hi) -> (n < length bs)%nat ->
  dec_sis (firstn n bs) = if ((lo <=? n) && (n <? hi))%nat then PUB else PEof.
Proof. intros H bs lo hi n E W Hn. apply (good_sis s bs lo hi H E W); auto. Qed.
Lemma version_read s : sis_ok s -> exists bs, enc_sis s = Some bs /\ (forall rest, exists t, dec_version (bs ++ rest) = POk (sis_version s) t) /\
  forall n, (n < 12)%nat -> dec_version (firstn n bs) = PEof.
Proof.
  intros H. destruct (enc_sis_some s H) as (bs & E). exists bs. split; auto. destruct H as (H0 & H1 & _). unfold enc_sis in E. odestruct E.
  assert (HG : good (enc_32 0 ++ enc_64 (sis_version s)) (sis_version s) dec_version never).
  { apply good_bind0 with 0; [apply good_u32; unfold u32; lia|apply good_u64; auto]. }
  destruct HG as [G1 G2]. rewrite app_assoc. set (t := enc_64 (sis_counter s) ++ _). split.
  - intros rest. rewrite <- app_assoc. rewrite G1. eauto.
  - intros n Hn. rewrite firstn_app. replace (n - _)%nat with 0%nat by (rewrite app_length, enc_32_len, enc_64_len; lia). cbn [firstn]. rewrite app_nil_r.
    apply G2. rewrite app_length, enc_32_len, enc_64_len. lia.
Qed.
