From Verif Require Import Util Codec_Model Codec_Spec.
Open Scope Z_scope.

Local Ltac Zify.zify_post_hook ::= Z.div_mod_to_equations.

Lemma land127 x : Z.land x 127 = x mod 128.
Proof. change 127 with (2 ^ 7 - 1). rewrite Zland_ones_mod by lia. reflexivity. Qed.
Lemma land255 x : Z.land x 255 = x mod 256.
Proof. change 255 with (2 ^ 8 - 1). rewrite Zland_ones_mod by lia. reflexivity. Qed.

Lemma land128_low x : 0 <= x < 128 -> Z.land x 128 = 0.
Proof.
  intros H. apply Z.bits_inj'; intros i Hi. rewrite Z.land_spec, Z.bits_0.
  change 128 with (2 ^ 7). rewrite Z.pow2_bits_eqb by lia.
  destruct (Z.eqb_spec 7 i) as [<-|Hn]; [|apply andb_false_r].
  rewrite andb_true_r.
  destruct (Z.eq_dec x 0) as [->|Hx]; [apply Z.bits_0|].
  apply Z.bits_above_log2; [lia|].
  apply Z.log2_lt_pow2; lia.
Qed.

Lemma lor128 x : 0 <= x < 128 -> Z.lor x 128 = x + 128.
Proof.
  intros H. change 128 with (Z.shiftl 1 7) at 1.
  rewrite Zlor_disjoint_add by (cbn; lia). reflexivity.
Qed.

Lemma land128_high x : 0 <= x < 128 -> Z.land (x + 128) 128 = 128.
Proof.
  intros H. rewrite <- lor128 by lia. rewrite Z.land_lor_distr_l.
  rewrite land128_low by lia. reflexivity.
Qed.

Lemma cont_byte num : uchar (Z.lor (Z.land num 127) 128) = num mod 128 + 128.
Proof. rewrite land127, lor128 by lia. unfold uchar. lia. Qed.

Lemma shiftr7 num : Z.shiftr num 7 = num / 128.
Proof. rewrite Z.shiftr_div_pow2 by lia. reflexivity. Qed.

(* Shape of an encoding. *)
Lemma enc_v_some fuel num : 0 <= num < 128 ^ Z.of_nat fuel -> (0 < fuel)%nat -> exists bs,
  enc_v fuel num = Some bs.
Proof.
  revert num; induction fuel as [|fuel IH]; intros num Hn Hf; [lia|].
  cbn [enc_v]. destruct (Z.gtb_spec num 127) as [Hgt|Hle].
  - rewrite shiftr7.
    rewrite Nat2Z.inj_succ, Z.pow_succ_r in Hn by lia.
    destruct fuel as [|fuel]; [cbn in Hn; lia|].
    destruct (IH (num / 128)) as [bs Hbs]; [|lia|].
    + split; [lia|]. apply Z.div_lt_upper_bound; lia.
    + rewrite Hbs; cbn. eauto.
  - eauto.
Qed.

Lemma enc_v_bytes fuel num bs : enc_v fuel num = Some bs -> Forall is_byte bs /\ bs <> [].
Proof.
  revert num bs; induction fuel as [|fuel IH]; intros num bs H; [discriminate|].
  cbn [enc_v] in H. destruct (num >? 127).
  - apply obind_some in H. destruct H as (r & Hr & E). injection E as <-.
    apply IH in Hr. split; [constructor; [unfold is_byte, uchar; lia|tauto]|discriminate].
  - injection H as <-. split; [constructor; [unfold is_byte, uchar; lia|constructor]|discriminate].
Qed.

Lemma dec_loop_enc w fuel num bs res shift rest :
  enc_v fuel num = Some bs -> 0 <= num -> 0 <= shift -> 0 <= w ->
  0 <= res < 2 ^ shift -> res + num * 2 ^ shift < 2 ^ w -> 0 < num ->
  dec_loop w res shift (bs ++ rest) = ROk (res + num * 2 ^ shift) rest.
Proof.
  revert num bs res shift; induction fuel as [|fuel IH];
    intros num bs res shift Henc Hn Hs Hw Hres Hlt Hpos; [discriminate|].
  pose proof (pow2_pos shift Hs) as Hp.
  assert (Hsw : shift < w).
  { apply (Z.pow_lt_mono_r_iff 2); [lia|lia|]. nia. }
  cbn [enc_v] in Henc. destruct (Z.gtb_spec num 127) as [Hgt|Hle].
  - apply obind_some in Henc. destruct Henc as (r & Hr & E). injection E as <-.
    rewrite shiftr7 in Hr. rewrite cont_byte.
    cbn [app dec_loop].
    destruct (Z.geb_spec shift w) as [|_]; [lia|].
    rewrite land128_high by lia. cbn [Z.eqb].
    rewrite land127.
    replace ((num mod 128 + 128) mod 128) with (num mod 128) by lia.
    assert (Hsm : 0 <= Z.shiftl (num mod 128) shift < 2 ^ w).
    { rewrite Z.shiftl_mul_pow2 by lia. split; [nia|].
      assert (num mod 128 <= num) by (apply Z.mod_le; lia). nia. }
    rewrite Z.mod_small by exact Hsm.
    rewrite Zlor_disjoint_add by lia.
    rewrite (IH (num / 128) r).
    + f_equal. rewrite Z.pow_add_r by lia. change (2 ^ 7) with 128.
      pose proof (Z.div_mod num 128). nia.
    + exact Hr.
    + lia.
    + lia.
    + exact Hw.
    + rewrite Z.pow_add_r by lia. change (2 ^ 7) with 128. nia.
    + rewrite Z.pow_add_r by lia. change (2 ^ 7) with 128.
      pose proof (Z.div_mod num 128). nia.
    + lia.
  - injection Henc as <-. cbn [app dec_loop].
    destruct (Z.geb_spec shift w) as [|_]; [lia|].
    unfold uchar. rewrite (Z.mod_small num 256) by lia.
    rewrite land128_low by lia. rewrite Z.eqb_refl.
    rewrite land127. rewrite (Z.mod_small num 128) by lia.
    assert (Hsm : 0 <= Z.shiftl num shift < 2 ^ w)
      by (rewrite Z.shiftl_mul_pow2 by lia; nia).
    rewrite Z.mod_small by exact Hsm.
    rewrite Zlor_disjoint_add by lia. reflexivity.
Qed.

Lemma dec_v_enc w fuel num bs rest :
  enc_v fuel num = Some bs -> 0 <= num < 2 ^ w -> 0 <= w ->
  dec_v w (bs ++ rest) = ROk num rest.
Proof.
  intros Henc Hn Hw. destruct fuel as [|fuel]; [discriminate|].
  cbn [enc_v] in Henc. destruct (Z.gtb_spec num 127) as [Hgt|Hle].
  - apply obind_some in Henc. destruct Henc as (r & Hr & E). injection E as <-.
    rewrite shiftr7 in Hr. rewrite cont_byte. cbn [app dec_v].
    rewrite land128_high by lia. cbn [Z.eqb]. rewrite land127.
    replace ((num mod 128 + 128) mod 128) with (num mod 128) by lia.
    rewrite (dec_loop_enc w fuel (num / 128) r); auto;
      change (2 ^ 7) with 128; try lia.
    f_equal. lia.
  - injection Henc as <-. cbn [app dec_v]. unfold uchar.
    rewrite (Z.mod_small num 256) by lia.
    rewrite land128_low by lia. rewrite Z.eqb_refl, land127.
    rewrite Z.mod_small by lia. reflexivity.
Qed.

Lemma vint_roundtrips : roundtrips u32 enc_vint (dec_v 32).
Proof.
  intros v Hv. unfold u32 in Hv. destruct (enc_v_some VINT_MAX_LEN v) as [bs Hbs].
  - split; [lia|]. apply Z.lt_trans with (2 ^ 32); [lia|reflexivity].
  - unfold VINT_MAX_LEN; lia.
  - exists bs. split; [exact Hbs|]. pose proof (enc_v_bytes _ _ _ Hbs) as [Hb He].
    split; [exact Hb|]. split; [exact He|].
    intro rest. apply (dec_v_enc 32 VINT_MAX_LEN); auto; lia.
Qed.

Lemma vll_roundtrips : roundtrips u64 enc_vint (dec_v 64).
Proof.
  intros v Hv. unfold u64 in Hv. destruct (enc_v_some VINT_MAX_LEN v) as [bs Hbs].
  - split; [lia|]. apply Z.lt_trans with (2 ^ 64); [lia|reflexivity].
  - unfold VINT_MAX_LEN; lia.
  - exists bs. split; [exact Hbs|]. pose proof (enc_v_bytes _ _ _ Hbs) as [Hb He].
    split; [exact Hb|]. split; [exact He|].
    intro rest. apply (dec_v_enc 64 VINT_MAX_LEN); auto; lia.
Qed.

Lemma voff_roundtrips : roundtrips off_nonneg enc_vint (dec_v 64).
Proof.
  intros v Hv. apply vll_roundtrips. unfold off_nonneg, u64 in *. 
  assert (2 ^ 63 < 2 ^ 64) by reflexivity. lia.
Qed.

(* sequences *)
Lemma read_n_write_all {A} (dom : A -> Prop) enc dec :
  roundtrips dom enc dec -> forall vs, Forall dom vs ->
  exists bs, write_all enc vs = Some bs /\
    forall rest, read_n dec (length vs) (bs ++ rest) = ROk vs rest.
Proof.
  intros RT vs Hd; induction Hd as [|v vs Hv Hvs IH].
  - exists []; split; [reflexivity|]. reflexivity.
  - destruct (RT v Hv) as (a & Ea & _ & _ & Da). destruct IH as (b & Eb & Db).
    exists (a ++ b). cbn [write_all]. rewrite Ea; cbn [obind]. rewrite Eb; cbn [obind].
    split; [reflexivity|]. intro rest. cbn [length read_n].
    rewrite <- app_assoc, Da, Db. reflexivity.
Qed.

(* truncation *)
Lemma dec_loop_trunc w fuel num bs res shift n :
  enc_v fuel num = Some bs -> 0 <= num -> 0 <= shift -> 0 < num * 2 ^ shift < 2 ^ w -> 0 <= w ->
  (n < length bs)%nat -> dec_loop w res shift (firstn n bs) = REof.
Proof.
  revert num bs res shift n; induction fuel as [|fuel IH];
    intros num bs res shift n Henc Hn Hs Hlt Hw Hl; [discriminate|].
  pose proof (pow2_pos shift Hs) as Hp.
  assert (Hsw : shift < w).
  { apply (Z.pow_lt_mono_r_iff 2); [lia|lia|].
    assert (num <> 0) by (intros ->; lia).
    apply Z.le_lt_trans with (num * 2 ^ shift); [nia|lia]. }
  cbn [enc_v] in Henc. destruct (Z.gtb_spec num 127) as [Hgt|Hle].
  - apply obind_some in Henc. destruct Henc as (r & Hr & E). injection E as <-.
    destruct n as [|n]; [cbn; destruct (Z.geb_spec shift w); [lia|reflexivity]|].
    rewrite shiftr7 in Hr. rewrite cont_byte. cbn [firstn dec_loop].
    destruct (Z.geb_spec shift w) as [|_]; [lia|].
    rewrite land128_high by lia. cbn [Z.eqb].
    apply (IH (num / 128)); auto; try lia.
    + rewrite Z.pow_add_r by lia. change (2 ^ 7) with 128.
      assert (Hd : 0 < num / 128 /\ num / 128 * 128 <= num) by lia.
      replace (num / 128 * (2 ^ shift * 128)) with ((num / 128 * 128) * 2 ^ shift) by ring.
      split; [apply Z.mul_pos_pos; lia|].
      apply Z.le_lt_trans with (num * 2 ^ shift); [|lia].
      apply Z.mul_le_mono_nonneg_r; lia.
    + cbn in Hl; lia.
  - injection Henc as <-. cbn in Hl. destruct n; [|lia]. cbn; destruct (Z.geb_spec shift w); [lia|reflexivity].
Qed.

Lemma dec_v_trunc w fuel num bs n :
  enc_v fuel num = Some bs -> 0 <= num < 2 ^ w -> 0 <= w ->
  (n < length bs)%nat -> dec_v w (firstn n bs) = REof.
Proof.
  intros Henc Hn Hw Hl. destruct fuel as [|fuel]; [discriminate|].
  cbn [enc_v] in Henc. destruct (Z.gtb_spec num 127) as [Hgt|Hle].
  - apply obind_some in Henc. destruct Henc as (r & Hr & E). injection E as <-.
    destruct n as [|n]; [reflexivity|].
    rewrite shiftr7 in Hr. rewrite cont_byte. cbn [firstn dec_v].
    rewrite land128_high by lia. cbn [Z.eqb].
    apply (dec_loop_trunc w fuel (num / 128)); auto; change (2 ^ 7) with 128; try lia.
    cbn in Hl; lia.
  - injection Henc as <-. cbn in Hl. destruct n; [reflexivity|lia].
Qed.

Lemma vint_trunc : detects_truncation u32 enc_vint (dec_v 32).
Proof. intros v bs n Hv He Hl. eapply dec_v_trunc; eauto. lia. Qed.
Lemma vll_trunc : detects_truncation u64 enc_vint (dec_v 64).
Proof. intros v bs n Hv He Hl. eapply dec_v_trunc; eauto. lia. Qed.

(* is_skip_vints skips whole encodings *)
Lemma skip_one_enc fuel num bs rest :
  enc_v fuel num = Some bs -> 0 <= num -> skip_one (bs ++ rest) = ROk tt rest.
Proof.
  revert num bs; induction fuel as [|fuel IH]; intros num bs Henc Hn; [discriminate|].
  cbn [enc_v] in Henc. destruct (Z.gtb_spec num 127) as [Hgt|Hle].
  - apply obind_some in Henc. destruct Henc as (r & Hr & E). injection E as <-.
    rewrite shiftr7 in Hr. rewrite cont_byte. cbn [app skip_one].
    rewrite land128_high by lia. cbn [Z.eqb]. apply (IH (num / 128)); auto; lia.
  - injection Henc as <-. cbn [app skip_one]. unfold uchar.
    rewrite (Z.mod_small num 256) by lia. rewrite land128_low by lia. reflexivity.
Qed.

Lemma skip_vints_enc vs bs rest :
  write_all enc_vint vs = Some bs -> Forall (fun v => 0 <= v) vs ->
  skip_vints (length vs) (bs ++ rest) = ROk tt rest.
Proof.
  revert bs; induction vs as [|v vs IH]; intros bs Hw Hd; cbn in *.
  - injection Hw as <-. reflexivity.
  - apply obind_some in Hw. destruct Hw as (a & Ea & Hw).
    apply obind_some in Hw. destruct Hw as (b & Eb & E). injection E as <-.
    inversion Hd; subst. rewrite <- app_assoc.
    rewrite (skip_one_enc VINT_MAX_LEN v a); auto.
Qed.

(* fixed width *)
Lemma shr_div x k : 0 <= k -> Z.shiftr x k = x / 2 ^ k.
Proof. intro; apply Z.shiftr_div_pow2; auto. Qed.

Lemma lor_shiftl_add hi lo k : 0 <= k -> 0 <= lo < 2 ^ k ->
  Z.lor (Z.shiftl hi k) lo = hi * 2 ^ k + lo.
Proof. intros Hk Hlo. rewrite Z.lor_comm, Zlor_disjoint_add by lia. lia. Qed.

Lemma lor4 a b c d : is_byte a -> is_byte b -> is_byte c -> is_byte d ->
  Z.lor (Z.lor (Z.lor (Z.shiftl a 24) (Z.shiftl b 16)) (Z.shiftl c 8)) d
  = a * 2 ^ 24 + b * 2 ^ 16 + c * 2 ^ 8 + d.
Proof.
  unfold is_byte; intros Ha Hb Hc Hd.
  assert (E1 : Z.lor (Z.shiftl a 24) (Z.shiftl b 16) = Z.shiftl (a * 256 + b) 16).
  { change 24 with (8 + 16) at 1. rewrite <- Z.shiftl_shiftl by lia.
    rewrite <- Z.shiftl_lor. f_equal. rewrite lor_shiftl_add by (cbn; lia). reflexivity. }
  rewrite E1.
  assert (E2 : Z.lor (Z.shiftl (a * 256 + b) 16) (Z.shiftl c 8)
               = Z.shiftl ((a * 256 + b) * 256 + c) 8).
  { change 16 with (8 + 8) at 1. rewrite <- Z.shiftl_shiftl by lia.
    rewrite <- Z.shiftl_lor. f_equal. rewrite lor_shiftl_add by (cbn; lia). reflexivity. }
  rewrite E2, lor_shiftl_add by (cbn; lia). cbn. lia.
Qed.

Lemma lor8 a b c d e f g h :
  is_byte a -> is_byte b -> is_byte c -> is_byte d ->
  is_byte e -> is_byte f -> is_byte g -> is_byte h ->
  Z.lor (Z.lor (Z.lor (Z.lor (Z.lor (Z.lor (Z.lor
            (Z.shiftl a 56) (Z.shiftl b 48)) (Z.shiftl c 40)) (Z.shiftl d 32))
            (Z.shiftl e 24)) (Z.shiftl f 16)) (Z.shiftl g 8)) h
  = (a * 2 ^ 24 + b * 2 ^ 16 + c * 2 ^ 8 + d) * 2 ^ 32 + (e * 2 ^ 24 + f * 2 ^ 16 + g * 2 ^ 8 + h).
Proof.
  intros Ha Hb Hc Hd He Hf Hg Hh.
  assert (E1 : Z.lor (Z.lor (Z.lor (Z.shiftl a 56) (Z.shiftl b 48)) (Z.shiftl c 40)) (Z.shiftl d 32)
    = Z.shiftl (Z.lor (Z.lor (Z.lor (Z.shiftl a 24) (Z.shiftl b 16)) (Z.shiftl c 8)) d) 32).
  { rewrite !Z.shiftl_lor, !Z.shiftl_shiftl by lia. reflexivity. }
  rewrite E1. rewrite <- !Z.lor_assoc.
  replace (Z.lor (Z.shiftl e 24) (Z.lor (Z.shiftl f 16) (Z.lor (Z.shiftl g 8) h)))
    with (Z.lor (Z.lor (Z.lor (Z.shiftl e 24) (Z.shiftl f 16)) (Z.shiftl g 8)) h)
    by (rewrite !Z.lor_assoc; reflexivity).
  rewrite (lor4 e f g h) by auto.
  rewrite !Z.lor_assoc. rewrite (lor4 a b c d) by auto.
  rewrite lor_shiftl_add; [reflexivity|lia|].
  unfold is_byte in *. cbn; lia.
Qed.

Lemma uchar_land x : uchar (Z.land x 255) = x mod 256.
Proof. rewrite land255. unfold uchar. rewrite Z.mod_mod by lia. reflexivity. Qed.

Lemma dec_enc_32 v rest : dec_u32 (enc_32 v ++ rest) = ROk (v mod 2 ^ 32) rest.
Proof.
  unfold enc_32. cbn [app dec_u32]. rewrite !uchar_land, !shr_div by lia.
  rewrite lor4 by (unfold is_byte; lia). f_equal.
  change (2 ^ 24) with 16777216. change (2 ^ 16) with 65536. change (2 ^ 8) with 256.
  change (2 ^ 32) with 4294967296. lia.
Qed.

Lemma split64 v : v mod 2 ^ 64 = ((v / 2 ^ 32) mod 2 ^ 32) * 2 ^ 32 + v mod 2 ^ 32.
Proof.
  change (2 ^ 64) with (2 ^ 32 * 2 ^ 32). rewrite Z.rem_mul_r by lia. lia.
Qed.

Lemma mod32_bytes v : v mod 2 ^ 32 =
  (v / 2 ^ 24) mod 256 * 2 ^ 24 + (v / 2 ^ 16) mod 256 * 2 ^ 16 + (v / 2 ^ 8) mod 256 * 2 ^ 8 + v mod 256.
Proof.
  change (2 ^ 24) with 16777216. change (2 ^ 16) with 65536. change (2 ^ 8) with 256.
  change (2 ^ 32) with 4294967296. lia.
Qed.

Lemma dec_enc_64 v rest : dec_u64 (enc_64 v ++ rest) = ROk (v mod 2 ^ 64) rest.
Proof.
  unfold enc_64. cbn [app dec_u64]. rewrite !uchar_land, !shr_div by lia.
  rewrite lor8 by (unfold is_byte; apply Z.mod_pos_bound; lia). f_equal.
  rewrite split64, (mod32_bytes v), (mod32_bytes (v / 2 ^ 32)).
  rewrite !Z.div_div by lia. rewrite <- !Z.pow_add_r by lia. reflexivity.
Qed.

Lemma enc_32_bytes v : Forall is_byte (enc_32 v) /\ enc_32 v <> [].
Proof. split; [|discriminate]. unfold enc_32, is_byte, uchar. repeat constructor; lia. Qed.
Lemma enc_64_bytes v : Forall is_byte (enc_64 v) /\ enc_64 v <> [].
Proof. split; [|discriminate]. unfold enc_64, is_byte, uchar. repeat constructor; lia. Qed.

Lemma u32_roundtrips : roundtrips u32 (fun v => Some (enc_32 v)) dec_u32.
Proof.
  intros v Hv. exists (enc_32 v). pose proof (enc_32_bytes v) as [? ?]. repeat split; auto.
  intro rest. rewrite dec_enc_32, Z.mod_small; auto.
Qed.
Lemma u64_roundtrips : roundtrips u64 (fun v => Some (enc_64 v)) dec_u64.
Proof.
  intros v Hv. exists (enc_64 v). pose proof (enc_64_bytes v) as [? ?]. repeat split; auto.
  intro rest. rewrite dec_enc_64, Z.mod_small; auto.
Qed.

Lemma to_signed_mod w v : 0 < w -> - 2 ^ (w - 1) <= v < 2 ^ (w - 1) -> to_signed w (v mod 2 ^ w) = v.
Proof.
  intros Hw Hv. unfold to_signed.
  assert (E : 2 ^ w = 2 * 2 ^ (w - 1)).
  { rewrite <- Z.pow_succ_r by lia. f_equal; lia. }
  pose proof (pow2_pos (w - 1)) as Hp.
  assert (Hm : v mod 2 ^ w = if v <? 0 then v + 2 ^ w else v).
  { destruct (Z.ltb_spec v 0).
    - symmetry. apply (Z.mod_unique _ _ (-1)); lia.
    - apply Z.mod_small; lia. }
  rewrite Hm. destruct (Z.ltb_spec v 0); destruct (Z.ltb_spec (if v <? 0 then v + 2 ^ w else v) (2 ^ (w - 1)));
    destruct (Z.ltb_spec v 0); try lia; destruct (Z.ltb_spec (v + 2 ^ w) (2 ^ (w - 1))); try lia;
    destruct (Z.ltb_spec v (2 ^ (w - 1))); lia.
Qed.

Lemma i32_roundtrips : roundtrips i32 (fun v => Some (enc_32 v)) dec_i32.
Proof.
  intros v Hv. exists (enc_32 v). pose proof (enc_32_bytes v) as [? ?]. repeat split; auto.
  intro rest. unfold dec_i32. rewrite dec_enc_32. cbn [rd_map].
  rewrite to_signed_mod; auto; lia.
Qed.
Lemma i64_roundtrips : roundtrips i64 (fun v => Some (enc_64 v)) dec_i64.
Proof.
  intros v Hv. exists (enc_64 v). pose proof (enc_64_bytes v) as [? ?]. repeat split; auto.
  intro rest. unfold dec_i64. rewrite dec_enc_64. cbn [rd_map].
  rewrite to_signed_mod; auto; lia.
Qed.

Lemma firstn_app_exact {A} (a b : list A) : firstn (length a) (a ++ b) = a.
Proof. rewrite firstn_app, Nat.sub_diag, firstn_all, firstn_O, app_nil_r. reflexivity. Qed.
Lemma skipn_app_exact {A} (a b : list A) : skipn (length a) (a ++ b) = b.
Proof. rewrite skipn_app, Nat.sub_diag, skipn_all. reflexivity. Qed.

Lemma str_roundtrips : roundtrips byte_string enc_str dec_str.
Proof.
  intros s [Hs Hl]. destruct (vint_roundtrips (Z.of_nat (length s))) as (l & El & Bl & Nl & Dl).
  { unfold u32. assert (2 ^ 31 < 2 ^ 32) by reflexivity. lia. }
  exists (l ++ s). unfold enc_str. rewrite El. cbn [obind].
  split; [reflexivity|]. split; [apply Forall_app; auto|].
  split; [destruct l; [congruence|discriminate]|].
  intro rest. rewrite <- app_assoc. unfold dec_str. rewrite Dl.
  destruct (Z.leb_spec (2 ^ 31) (Z.of_nat (length s))); [lia|].
  rewrite Nat2Z.id.
  destruct (Nat.ltb_spec (length (s ++ rest)) (length s)) as [Hc|_].
  { rewrite app_length in Hc; lia. }
  rewrite firstn_app_exact, skipn_app_exact. reflexivity.
Qed.

Lemma str_trunc : detects_truncation byte_string enc_str dec_str.
Proof.
  intros s bs n [Hs Hl] He Hn. unfold enc_str in He.
  apply obind_some in He. destruct He as (l & El & E). injection E as <-.
  assert (Hu : u32 (Z.of_nat (length s)))
    by (unfold u32; assert (2 ^ 31 < 2 ^ 32) by reflexivity; lia).
  unfold dec_str. rewrite app_length in Hn.
  destruct (Nat.ltb_spec n (length l)) as [Hlt|Hge].
  - rewrite firstn_app. replace (n - length l)%nat with O by lia.
    rewrite firstn_O, app_nil_r. rewrite (vint_trunc _ _ _ Hu El Hlt). reflexivity.
  - rewrite firstn_app. rewrite firstn_all2 by lia.
    destruct (vint_roundtrips _ Hu) as (l' & El' & _ & _ & Dl).
    assert (l' = l) by congruence; subst l'. rewrite Dl.
    destruct (Z.leb_spec (2 ^ 31) (Z.of_nat (length s))); [lia|].
    rewrite Nat2Z.id, firstn_length.
    destruct (Nat.ltb_spec (Nat.min (n - length l) (length s)) (length s)); [reflexivity|lia].
Qed.
