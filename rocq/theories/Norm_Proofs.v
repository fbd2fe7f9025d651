From Verif Require Import Util Norm_Model Norm_Spec.
Open Scope Z_scope.

(* ---------- values *)
Lemma f_mag_lt i j : 0 <= i -> i < j -> j < 2 ^ 31 -> f_mag i < f_mag j.
Proof.
  intros H0 Hij Hj. unfold f_mag, f_exp, f_frac.
  assert (Hi : 0 <= i / 2 ^ 23 < 256) by (split; [apply Z.div_pos; lia|apply Z.div_lt_upper_bound; lia]).
  assert (Hj' : 0 <= j / 2 ^ 23 < 256) by (split; [apply Z.div_pos; lia|apply Z.div_lt_upper_bound; lia]).
  rewrite !(Z.mod_small (_ / _)) by auto.
  pose proof (Z.div_mod i (2 ^ 23) ltac:(lia)) as Ei. pose proof (Z.div_mod j (2 ^ 23) ltac:(lia)) as Ej.
  pose proof (Z.mod_pos_bound i (2 ^ 23) ltac:(lia)) as Mi. pose proof (Z.mod_pos_bound j (2 ^ 23) ltac:(lia)) as Mj.
  set (e := i / 2 ^ 23) in *. set (m := i mod 2 ^ 23) in *. set (e' := j / 2 ^ 23) in *. set (m' := j mod 2 ^ 23) in *.
  assert (Hc : e < e' \/ e = e' /\ m < m') by (destruct (Z.lt_trichotomy e e') as [|[|]]; [left; auto|right; split; auto; lia|exfalso; nia]).
  destruct Hc as [Hc|[<- Hm]].
  - destruct (Z.eqb_spec e' 0) as [|]; [lia|].
    assert (HB : 2 ^ 23 * 2 ^ (e' - 1) <= (2 ^ 23 + m') * 2 ^ (e' - 1)) by (apply Z.mul_le_mono_nonneg_r; [apply Z.pow_nonneg; lia|lia]).
    apply Z.lt_le_trans with (2 ^ 23 * 2 ^ (e' - 1)); [|exact HB].
    destruct (Z.eqb_spec e 0) as [|].
    + assert (0 < 2 ^ (e' - 1)) by (apply Z.pow_pos_nonneg; lia). nia.
    + apply Z.lt_le_trans with (2 ^ 23 * 2 ^ e).
      * replace (2 ^ e) with (2 * 2 ^ (e - 1)) by (rewrite <- Z.pow_succ_r by lia; f_equal; lia).
        assert (0 < 2 ^ (e - 1)) by (apply Z.pow_pos_nonneg; lia). nia.
      * apply Z.mul_le_mono_nonneg_l; [lia|]. apply Z.pow_le_mono_r; lia.
  - destruct (Z.eqb_spec e 0) as [|He]; [lia|]. apply Z.mul_lt_mono_pos_r; [|lia]. apply Z.pow_pos_nonneg; lia.
Qed.
Lemma f_mag_le i j : 0 <= i -> i <= j -> j < 2 ^ 31 -> f_mag i <= f_mag j.
Proof. intros H1 H2 H3. destruct (Z.eq_dec i j) as [->|]; [lia|]. pose proof (f_mag_lt i j); lia. Qed.
Lemma f_mag_nonneg i : 0 <= f_mag i.
Proof.
  unfold f_mag, f_exp, f_frac. pose proof (Z.mod_pos_bound i (2 ^ 23) ltac:(lia)). destruct (_ =? 0); [lia|].
  apply Z.mul_nonneg_nonneg; [lia|apply Z.pow_nonneg; lia].
Qed.
Lemma fval_pos_pattern i : 0 <= i < 2 ^ 31 -> fval i = f_mag i.
Proof. intros H. unfold fval, f_neg. destruct (Z.leb_spec (2 ^ 31) i); [lia|reflexivity]. Qed.
Lemma fval_le_inv i j : 0 <= i < 2 ^ 31 -> 0 <= j < 2 ^ 31 -> fval i <= fval j -> i <= j.
Proof.
  intros Hi Hj. rewrite !fval_pos_pattern by auto. intros H. destruct (Z.le_gt_cases i j); auto.
  pose proof (f_mag_lt j i). lia.
Qed.
Lemma fval_le i j : 0 <= i -> i <= j -> j < 2 ^ 31 -> fval i <= fval j.
Proof. intros. rewrite !fval_pos_pattern by lia. apply f_mag_le; lia. Qed.
Lemma fval_lt i j : 0 <= i -> i < j -> j < 2 ^ 31 -> fval i < fval j.
Proof. intros. rewrite !fval_pos_pattern by lia. apply f_mag_lt; lia. Qed.
Lemma fval_pos i : 0 <= i < 2 ^ 32 -> 0 < fval i -> 0 < i < 2 ^ 31.
Proof.
  intros Hi. unfold fval, f_neg. destruct (Z.leb_spec (2 ^ 31) i).
  - pose proof (f_mag_nonneg i). lia.
  - destruct (Z.eq_dec i 0) as [->|]; [cbn; lia|lia].
Qed.
Lemma finite_pos i : f_finite i -> i < 2 ^ 31 -> i < 0x7f800000.
Proof.
  intros [Hi He] Hp. unfold f_exp in He. rewrite Z.mod_small in He.
  - pose proof (Z.div_mod i (2 ^ 23) ltac:(lia)). pose proof (Z.mod_pos_bound i (2 ^ 23) ltac:(lia)). lia.
  - split; [apply Z.div_pos; lia|apply Z.div_lt_upper_bound; lia].
Qed.
(* the C comparison is the one of values *)
Lemma le_zero_spec i : f_finite i -> f_le_zero i = (fval i <=? 0).
Proof.
  intros Hf. pose proof Hf as [Hi He]. unfold f_le_zero. destruct (Z.eqb_spec i 0) as [->|H0]; [reflexivity|]. cbn [orb].
  change 0x7fffffff with (2 ^ 31 - 1). rewrite Zland_ones_mod by lia.
  destruct (Z.le_gt_cases (2 ^ 31) i) as [H|H].
  - assert (E : Z.land i 0x80000000 = 0x80000000).
    { apply Z.bits_inj'. intros n Hn. rewrite Z.land_spec. change 0x80000000 with (2 ^ 31). rewrite Z.pow2_bits_eqb by lia.
      destruct (Z.eqb_spec 31 n) as [<-|]; [|apply andb_false_r]. rewrite andb_true_r. apply Z.testbit_true; [lia|].
      replace (i / 2 ^ 31) with 1; [reflexivity|]. apply Z.div_unique with (i - 2 ^ 31); lia. }
    rewrite E. cbn [Z.eqb Pos.eqb andb].
    assert (Em : i mod 2 ^ 31 = i - 2 ^ 31) by (symmetry; apply Z.mod_unique with 1; lia). rewrite Em.
    assert (Hfi : i - 2 ^ 31 < 0x7f800000).
    { unfold f_exp in He. assert (E2 : (i / 2 ^ 23) mod 256 = (i - 2 ^ 31) / 2 ^ 23).
      { symmetry. apply Z.mod_unique with 1; [|].
        - left. split; [apply Z.div_pos; lia|apply Z.div_lt_upper_bound; lia].
        - replace i with (i - 2 ^ 31 + 256 * 2 ^ 23) at 1 by lia. rewrite Z.div_add by lia. lia. }
      rewrite E2 in He. pose proof (Z.div_mod (i - 2 ^ 31) (2 ^ 23) ltac:(lia)). pose proof (Z.mod_pos_bound (i - 2 ^ 31) (2 ^ 23) ltac:(lia)). lia. }
    assert (HF : fval i <= 0) by (unfold fval, f_neg; destruct (Z.leb_spec (2 ^ 31) i); [pose proof (f_mag_nonneg i); lia|lia]).
    destruct (Z.leb_spec (i - 2 ^ 31) 0x7f800000); [|lia]. destruct (Z.leb_spec (fval i) 0); [reflexivity|lia].
  - assert (E : Z.land i 0x80000000 = 0).
    { apply Z.bits_inj'. intros n Hn. rewrite Z.land_spec, Z.bits_0. change 0x80000000 with (2 ^ 31). rewrite Z.pow2_bits_eqb by lia.
      destruct (Z.eqb_spec 31 n) as [<-|]; [|apply andb_false_r]. rewrite andb_true_r. apply Z.testbit_false; [lia|].
      rewrite Z.div_small by lia. reflexivity. }
    rewrite E. cbn [Z.eqb andb]. destruct (Z.leb_spec (fval i) 0) as [HF|]; [|reflexivity].
    exfalso. pose proof (fval_lt 0 i ltac:(lia) ltac:(lia) ltac:(lia)) as HP. change (fval 0) with 0 in HP. lia.
Qed.

(* ---------- the encoding in closed form *)
Definition enc (c : Z) : Z := if c <? 384 then 1 else if c <? 640 then c - 384 else 255.
Lemma float2byte_enc i : f_le_zero i = false -> 0 <= i -> float2byte i = enc (i / 2 ^ 21).
Proof.
  intros Hz Hi. unfold float2byte. rewrite Hz. rewrite Z.shiftr_land. change (Z.shiftr 0xef0000 21) with (2 ^ 3 - 1). rewrite Zland_ones_mod by lia.
  rewrite !Z.shiftr_div_pow2 by lia. replace (i / 2 ^ 24) with (i / 2 ^ 21 / 8) by (rewrite Z.div_div by lia; reflexivity).
  set (c := i / 2 ^ 21). assert (Hc : 0 <= c) by (apply Z.div_pos; lia). clearbody c. change (2 ^ 3) with 8.
  pose proof (Z.div_mod c 8 ltac:(lia)) as E. pose proof (Z.mod_pos_bound c 8 ltac:(lia)) as M. set (q := c / 8) in *. set (r := c mod 8) in *.
  rewrite Z.gtb_ltb. change 255 with (2 ^ 8 - 1). unfold enc.
  destruct (Z.ltb_spec 0x1f (q - 48)) as [H1|H1]; cbn [fst snd].
  - destruct (Z.ltb_spec c 384); [lia|]. destruct (Z.ltb_spec c 640); [lia|reflexivity].
  - destruct (Z.ltb_spec (q - 48) 0) as [H2|H2].
    + destruct (Z.ltb_spec c 384); [reflexivity|lia].
    + rewrite Z.lor_comm. rewrite Zlor_disjoint_add by (change (2 ^ 3) with 8; lia). rewrite Zland_ones_mod by lia. change (2 ^ 3) with 8. change (2 ^ 8) with 256.
      rewrite Z.mod_small by lia. destruct (Z.ltb_spec c 384); [lia|]. destruct (Z.ltb_spec c 640); lia.
Qed.
Lemma byte2float_dec b : 0 < b < 256 -> byte2float b = (b + 384) * 2 ^ 21.
Proof.
  intros Hb. unfold byte2float. destruct (Z.eqb_spec b 0); [lia|]. change 0x07 with (2 ^ 3 - 1). change 0x1f with (2 ^ 5 - 1).
  rewrite !Zland_ones_mod by lia. rewrite Z.shiftr_div_pow2 by lia. change (2 ^ 3) with 8. change (2 ^ 5) with 32.
  pose proof (Z.div_mod b 8 ltac:(lia)) as E. pose proof (Z.mod_pos_bound b 8 ltac:(lia)) as M.
  rewrite (Z.mod_small (b / 8)) by (split; [apply Z.div_pos; lia|apply Z.div_lt_upper_bound; lia]).
  set (q := b / 8) in *. set (r := b mod 8) in *.
  rewrite Z.shiftl_mul_pow2 by lia. rewrite Zlor_disjoint_add by lia. lia.
Qed.
Lemma byte2float_range b : 0 <= b < 256 -> 0 <= byte2float b < 0x7f800000.
Proof.
  intros Hb. destruct (Z.eq_dec b 0) as [->|]; [cbn; lia|]. rewrite byte2float_dec by lia. lia.
Qed.
Lemma pos_not_le_zero i : 0 < i < 0x7f800000 -> f_le_zero i = false.
Proof.
  intros Hi. rewrite le_zero_spec.
  - apply Z.leb_gt. pose proof (fval_lt 0 i ltac:(lia) ltac:(lia) ltac:(lia)) as H. change (fval 0) with 0 in H. exact H.
  - split; [lia|]. unfold f_exp. rewrite Z.mod_small; [apply Z.div_lt_upper_bound; lia|split; [apply Z.div_pos; lia|apply Z.div_lt_upper_bound; lia]].
Qed.

Lemma norm_stable b : 0 <= b < 256 -> float2byte (byte2float b) = b.
Proof.
  intros Hb. destruct (Z.eq_dec b 0) as [->|H0]; [reflexivity|].
  pose proof (byte2float_dec b ltac:(lia)) as E. rewrite float2byte_enc; [|apply pos_not_le_zero; rewrite E; lia|rewrite E; lia].
  rewrite E. rewrite Z.div_mul by lia. unfold enc. destruct (Z.ltb_spec (b + 384) 384); [lia|]. destruct (Z.ltb_spec (b + 384) 640); lia.
Qed.
Lemma norm_increasing b c : 0 <= b -> b < c -> c < 256 -> fval (byte2float b) < fval (byte2float c).
Proof.
  intros H1 H2 H3. apply fval_lt.
  - apply byte2float_range. lia.
  - destruct (Z.eq_dec b 0) as [->|]; [change (byte2float 0) with 0|]; rewrite ?byte2float_dec by lia; lia.
  - pose proof (byte2float_range c ltac:(lia)). lia.
Qed.
(* a number at least as large as the first code gets the greatest code which does not exceed it *)
Lemma norm_truncates i : f_finite i -> fval (byte2float 1) <= fval i ->
  fval (byte2float (float2byte i)) <= fval i /\ (float2byte i = 255 \/ fval i < fval (byte2float (float2byte i + 1))) /\ 1 <= float2byte i <= 255.
Proof.
  intros Hf Hv. pose proof Hf as [Hi He].
  assert (H1 : 0 < fval (byte2float 1)) by (pose proof (norm_increasing 0 1 ltac:(lia) ltac:(lia) ltac:(lia)) as H; change (fval (byte2float 0)) with 0 in H; exact H).
  pose proof (fval_pos i Hi ltac:(lia)) as Hp. pose proof (finite_pos i Hf ltac:(lia)) as Hb.
  apply fval_le_inv in Hv; [|rewrite byte2float_dec by lia; lia|lia]. rewrite byte2float_dec in Hv by lia.
  rewrite float2byte_enc by (try apply pos_not_le_zero; lia).
  pose proof (Z.div_mod i (2 ^ 21) ltac:(lia)) as E. pose proof (Z.mod_pos_bound i (2 ^ 21) ltac:(lia)) as M.
  set (c := i / 2 ^ 21) in *. unfold enc. destruct (Z.ltb_spec c 384); [lia|]. destruct (Z.ltb_spec c 640).
  - split; [|split].
    + rewrite byte2float_dec by lia. apply fval_le; lia.
    + destruct (Z.eq_dec c 639) as [->|]; [left; reflexivity|]. right. rewrite byte2float_dec by lia. apply fval_lt; lia.
    + lia.
  - split; [|split; [left; reflexivity|lia]]. rewrite byte2float_dec by lia. apply fval_le; lia.
Qed.
Lemma two_m31 : two_to (-31) = fval 0x30000000.
Proof. reflexivity. Qed.
Lemma norm_tiny i : f_finite i -> fval i < fval (byte2float 1) ->
  float2byte i = if fval i <=? 0 then 0 else if fval i <? two_to (-31) then 1 else 0.
Proof.
  intros Hf Hv. pose proof Hf as [Hi He]. destruct (Z.leb_spec (fval i) 0) as [H0|H0].
  - unfold float2byte. rewrite le_zero_spec by auto. destruct (Z.leb_spec (fval i) 0); [reflexivity|lia].
  - pose proof (fval_pos i Hi ltac:(lia)) as Hp. pose proof (finite_pos i Hf ltac:(lia)) as Hb.
    assert (Hu : i < byte2float 1).
    { destruct (Z.lt_ge_cases i (byte2float 1)) as [|H]; auto. exfalso. pose proof (byte2float_range 1 ltac:(lia)). pose proof (fval_le (byte2float 1) i ltac:(lia) H ltac:(lia)). lia. }
    rewrite byte2float_dec in Hu by lia. rewrite float2byte_enc by (try apply pos_not_le_zero; lia).
    pose proof (Z.div_mod i (2 ^ 21) ltac:(lia)) as E. pose proof (Z.mod_pos_bound i (2 ^ 21) ltac:(lia)) as M.
    rewrite two_m31. set (c := i / 2 ^ 21) in *. unfold enc. destruct (Z.ltb_spec c 384) as [Hc|Hc].
    + pose proof (fval_lt i 0x30000000 ltac:(lia) ltac:(lia) ltac:(lia)). destruct (Z.ltb_spec (fval i) (fval 0x30000000)); [reflexivity|lia].
    + pose proof (fval_le 0x30000000 i ltac:(lia) ltac:(lia) ltac:(lia)). destruct (Z.ltb_spec (fval i) (fval 0x30000000)); [lia|].
      destruct (Z.ltb_spec c 640); lia.
Qed.
Lemma norm_monotone i j : f_finite i -> f_finite j -> fval i <= fval j -> ~ (two_to (-31) <= fval j < fval (byte2float 1)) ->
  float2byte i <= float2byte j.
Proof.
  intros Hi Hj Hv Hn. 
  destruct (Z.le_gt_cases (fval (byte2float 1)) (fval j)) as [H1|H1].
  - destruct (norm_truncates j Hj H1) as (J1 & J2 & J3). destruct (Z.le_gt_cases (fval (byte2float 1)) (fval i)) as [H2|H2].
    + destruct (norm_truncates i Hi H2) as (I1 & I2 & I3). destruct J2 as [->|J2]; [lia|].
      destruct (Z.le_gt_cases (float2byte i) (float2byte j)) as [|H]; auto. exfalso.
      destruct (Z.eq_dec (float2byte i) (float2byte j + 1)) as [Eq|Ne]; [rewrite <- Eq in J2; lia|].
      pose proof (norm_increasing (float2byte j + 1) (float2byte i) ltac:(lia) ltac:(lia) ltac:(lia)). lia.
    + rewrite (norm_tiny i Hi H2). destruct (_ <=? 0); [lia|]. destruct (_ <? _); lia.
  - rewrite (norm_tiny i Hi) by lia. rewrite (norm_tiny j Hj) by lia. destruct (Z.leb_spec (fval i) 0) as [Hz|Hz].
    + destruct (_ <=? 0); [lia|]. destruct (_ <? _); lia.
    + destruct (Z.leb_spec (fval j) 0); [lia|]. destruct (Z.ltb_spec (fval j) (two_to (-31))); [|lia]. destruct (Z.ltb_spec (fval i) (two_to (-31))); lia.
Qed.
Lemma norm_not_finite i : 0 <= i < 2 ^ 32 -> i >= 0x7f800000 -> i < 2 ^ 31 \/ 0xff800000 < i -> float2byte i = 255.
Proof.
  intros Hi H1 H2. rewrite float2byte_enc.
  - unfold enc. assert (640 <= i / 2 ^ 21) by (apply Z.div_le_lower_bound; lia). destruct (Z.ltb_spec (i / 2 ^ 21) 384); [lia|]. destruct (Z.ltb_spec (i / 2 ^ 21) 640); lia.
  - unfold f_le_zero. destruct (Z.eqb_spec i 0); [lia|]. cbn [orb]. change 0x7fffffff with (2 ^ 31 - 1). rewrite Zland_ones_mod by lia.
    destruct H2 as [H2|H2].
    + assert (E : Z.land i 0x80000000 = 0).
      { apply Z.bits_inj'. intros k Hk. rewrite Z.land_spec, Z.bits_0. change 0x80000000 with (2 ^ 31). rewrite Z.pow2_bits_eqb by lia.
        destruct (Z.eqb_spec 31 k) as [<-|]; [|apply andb_false_r]. rewrite andb_true_r. apply Z.testbit_false; [lia|].
        rewrite Z.div_small by lia. reflexivity. }
      rewrite E. reflexivity.
    + apply andb_false_iff. right. apply Z.leb_gt. replace (i mod 2 ^ 31) with (i - 2 ^ 31); [lia|]. apply Z.mod_unique with 1; lia.
  - lia.
Qed.
