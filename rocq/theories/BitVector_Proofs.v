From Verif Require Import Util Codec_Model Codec_Spec Codec_Proofs BitVector_Model BitVector_Spec.
Open Scope nat_scope.

(* ------------------------------------------------------------ words *)
Definition word_ok (w : Z) : Prop := (0 <= w < 2 ^ 32)%Z.
Lemma tb_high w k : word_ok w -> 32 <= k -> tb w k = false.
Proof.
  intros [H0 H1] Hk. unfold tb. destruct (Z.eq_dec w 0) as [->|Hn]; [apply Z.bits_0|].
  apply Z.bits_above_log2; [lia|]. apply Z.log2_lt_pow2; [lia|].
  apply Z.lt_le_trans with (2 ^ 32)%Z; [lia|]. apply Z.pow_le_mono_r; lia.
Qed.
Lemma word_of_bits w : (forall k, 32 <= k -> tb w k = false) -> (0 <= w)%Z -> word_ok w.
Proof.
  intros H H0. split; auto. destruct (Z_lt_le_dec w (2 ^ 32)) as [|Hge]; auto. exfalso.
  assert (Hp : (0 < w)%Z) by (assert (0 < 2 ^ 32)%Z by reflexivity; lia).
  pose proof (Z.log2_nonneg w) as Hl.
  assert (Hl2 : (32 <= Z.log2 w)%Z).
  { destruct (Z_lt_le_dec (Z.log2 w) 32) as [Hlt|]; [|lia].
    apply Z.log2_lt_pow2 in Hlt; lia. }
  specialize (H (Z.to_nat (Z.log2 w)) ltac:(lia)). unfold tb in H.
  rewrite Z2Nat.id in H by lia. rewrite Z.bit_log2 in H by lia. discriminate.
Qed.
Lemma word_ext a b : word_ok a -> word_ok b -> (forall k, k < 32 -> tb a k = tb b k) -> a = b.
Proof.
  intros Ha Hb H. apply Z.bits_inj'. intros i Hi.
  destruct (Nat.lt_ge_cases (Z.to_nat i) 32) as [Hlt|Hge].
  - specialize (H _ Hlt). unfold tb in H. rewrite Z2Nat.id in H by lia. exact H.
  - pose proof (tb_high a _ Ha Hge) as H1. pose proof (tb_high b _ Hb Hge) as H2.
    unfold tb in *. rewrite Z2Nat.id in * by lia. congruence.
Qed.
Lemma tb_ones k : tb (Z.ones 32) k = (k <? 32).
Proof.
  unfold tb. rewrite Z.testbit_ones by lia. destruct (Nat.ltb_spec k 32); lia.
Qed.
Lemma tb_0 k : tb 0 k = false.
Proof. apply Z.bits_0. Qed.
Lemma tb_wnot w k : tb (wnot w) k = negb (tb w k) && (k <? 32).
Proof.
  unfold wnot, tb. rewrite Z.land_spec, Z.lnot_spec by lia. fold (tb (Z.ones 32) k). rewrite tb_ones. reflexivity.
Qed.
Lemma tb_lor a b k : tb (Z.lor a b) k = tb a k || tb b k. Proof. apply Z.lor_spec. Qed.
Lemma tb_land a b k : tb (Z.land a b) k = tb a k && tb b k. Proof. apply Z.land_spec. Qed.
Lemma tb_lxor a b k : tb (Z.lxor a b) k = xorb (tb a k) (tb b k). Proof. apply Z.lxor_spec. Qed.
Lemma tb_bit j k : tb (Z.shiftl 1 (Z.of_nat j)) k = (k =? j).
Proof.
  unfold tb. rewrite Z.shiftl_spec by lia. destruct (Nat.eqb_spec k j) as [->|Hn].
  - rewrite Z.sub_diag. reflexivity.
  - destruct (Z_lt_le_dec (Z.of_nat k - Z.of_nat j) 0).
    + apply Z.testbit_neg_r; lia.
    + change 1%Z with (2 ^ 0)%Z. rewrite Z.pow2_bits_eqb by lia. lia.
Qed.
Lemma tb_ext_word e k : k < 32 -> tb (ext_word e) k = e.
Proof. intros H. destruct e; cbn [ext_word]; [rewrite tb_ones|rewrite tb_0; reflexivity]. lia. Qed.

Lemma word_ok_0 : word_ok 0. Proof. unfold word_ok; lia. Qed.
Lemma word_ok_ones : word_ok (Z.ones 32). Proof. unfold word_ok; split; reflexivity || (cbn; lia). Qed.
Lemma word_ok_ext e : word_ok (ext_word e).
Proof. destruct e; [apply word_ok_ones|apply word_ok_0]. Qed.
Lemma word_ok_lor a b : word_ok a -> word_ok b -> word_ok (Z.lor a b).
Proof.
  intros Ha Hb. apply word_of_bits; [|apply Z.lor_nonneg; unfold word_ok in *; lia].
  intros k Hk. rewrite tb_lor, !tb_high; auto.
Qed.
Lemma word_ok_land a b : word_ok a -> (0 <= b)%Z -> word_ok (Z.land a b).
Proof.
  intros Ha Hb. apply word_of_bits; [|apply Z.land_nonneg; lia].
  intros k Hk. rewrite tb_land, (tb_high a); auto.
Qed.
Lemma word_ok_lxor a b : word_ok a -> word_ok b -> word_ok (Z.lxor a b).
Proof.
  intros Ha Hb. apply word_of_bits; [|apply Z.lxor_nonneg; unfold word_ok in *; lia].
  intros k Hk. rewrite tb_lxor, !tb_high; auto.
Qed.
Lemma word_ok_wnot w : word_ok (wnot w).
Proof.
  apply word_of_bits.
  - intros k Hk. rewrite tb_wnot. destruct (Nat.ltb_spec k 32); [lia|]. apply andb_false_r.
  - unfold wnot. apply Z.land_nonneg. right. apply word_ok_ones.
Qed.
Lemma word_ok_bit j : j < 32 -> word_ok (Z.shiftl 1 (Z.of_nat j)).
Proof.
  intros Hj. apply word_of_bits.
  - intros k Hk. rewrite tb_bit. destruct (Nat.eqb_spec k j); lia.
  - rewrite Z.shiftl_nonneg. lia.
Qed.
Lemma nonzero_bit w j : negb (Z.land (Z.shiftl 1 (Z.of_nat j)) w =? 0)%Z = tb w j.
Proof.
  destruct (Z.eqb_spec (Z.land (Z.shiftl 1 (Z.of_nat j)) w) 0) as [E|E]; cbn.
  - pose proof (tb_land (Z.shiftl 1 (Z.of_nat j)) w j) as H. rewrite E, tb_0, tb_bit, Nat.eqb_refl in H.
    cbn in H. auto.
  - destruct (tb w j) eqn:Et; auto. exfalso. apply E. apply Z.bits_inj'. intros i Hi.
    rewrite Z.bits_0. pose proof (tb_land (Z.shiftl 1 (Z.of_nat j)) w (Z.to_nat i)) as H.
    rewrite tb_bit in H. unfold tb in H at 1. rewrite Z2Nat.id in H by lia. rewrite H.
    destruct (Nat.eqb_spec (Z.to_nat i) j); [subst; rewrite Et|]; reflexivity.
Qed.
Lemma shiftr_bit w j : negb (Z.land (Z.shiftr w (Z.of_nat j)) 1 =? 0)%Z = tb w j.
Proof.
  change 1%Z with (Z.ones 1). rewrite Z.land_ones by lia.
  unfold tb.
  pose proof (Z.bit0_mod (Z.shiftr w (Z.of_nat j))) as H.
  rewrite Z.shiftr_spec in H by lia. rewrite Z.add_0_l in H.
  change (2 ^ 1)%Z with 2%Z. rewrite <- H. destruct (Z.testbit w (Z.of_nat j)); reflexivity.
Qed.

(* ------------------------------------------------------------ cnt *)
Lemma cnt_add f a b : cnt f (a + b) = cnt f a + cnt (fun i => f (a + i)) b.
Proof.
  induction b as [|b IH]; cbn [cnt].
  - rewrite Nat.add_0_r. lia.
  - rewrite Nat.add_succ_r. cbn [cnt]. rewrite IH. lia.
Qed.
Lemma cnt_eq f g n : (forall i, i < n -> f i = g i) -> cnt f n = cnt g n.
Proof.
  induction n as [|n IH]; intros H; cbn [cnt]; auto. rewrite H by lia. rewrite IH; auto.
Qed.
Lemma cnt_false f n : (forall i, i < n -> f i = false) -> cnt f n = 0.
Proof. induction n as [|n IH]; intros H; cbn [cnt]; auto. rewrite H, IH by auto. lia. Qed.
Lemma cnt_trim f n m : n <= m -> (forall i, n <= i < m -> f i = false) -> cnt f m = cnt f n.
Proof.
  intros Hnm H. replace m with (n + (m - n)) by lia. rewrite cnt_add, (cnt_false (fun i => f (n + i))); [lia|].
  intros i Hi; apply H; lia.
Qed.
Lemma cnt_upd f i (v : bool) n : i < n ->
  cnt (fun j => if j =? i then v else f j) n + (if f i then 1 else 0) = cnt f n + (if v then 1 else 0).
Proof.
  induction n as [|n IH]; intros Hi; [lia|]. cbn [cnt].
  destruct (Nat.eqb_spec n i) as [->|Hn].
  - rewrite (cnt_eq _ f i). lia. intros j Hj. destruct (Nat.eqb_spec j i); [lia|reflexivity].
  - specialize (IH ltac:(lia)). lia.
Qed.
Lemma cnt_filter f n : cnt f n = length (filter f (seq 0 n)).
Proof.
  induction n as [|n IH]; [reflexivity|]. rewrite seq_S, filter_app, app_length. cbn [cnt]. rewrite IH.
  cbn. destruct (f n); reflexivity.
Qed.

(* ------------------------------------------------------------ bits of a word list *)
Definition wbit (ws : list Z) (i : nat) : bool := tb (nth (i / 32) ws 0%Z) (i mod 32).

Lemma wbit_app l1 l2 i : wbit (l1 ++ l2) i =
  if i <? 32 * length l1 then wbit l1 i else wbit l2 (i - 32 * length l1).
Proof.
  unfold wbit. destruct (Nat.ltb_spec i (32 * length l1)).
  - rewrite app_nth1; [reflexivity|]. apply Nat.div_lt_upper_bound; lia.
  - rewrite app_nth2 by (apply Nat.div_le_lower_bound; lia).
    replace (i / 32 - length l1) with ((i - 32 * length l1) / 32).
    + f_equal. pose proof (Nat.div_mod i 32 ltac:(lia)). pose proof (Nat.div_mod (i - 32 * length l1) 32 ltac:(lia)).
      pose proof (Nat.mod_upper_bound i 32 ltac:(lia)). pose proof (Nat.mod_upper_bound (i - 32 * length l1) 32 ltac:(lia)).
      lia.
    + pose proof (Nat.div_mod i 32 ltac:(lia)). pose proof (Nat.div_mod (i - 32 * length l1) 32 ltac:(lia)).
      pose proof (Nat.mod_upper_bound i 32 ltac:(lia)). pose proof (Nat.mod_upper_bound (i - 32 * length l1) 32 ltac:(lia)).
      lia.
Qed.
Lemma wbit_repeat_ext e n i : i < 32 * n -> wbit (repeat (ext_word e) n) i = e.
Proof.
  intros H. unfold wbit. rewrite nth_indep with (d' := ext_word e).
  - rewrite nth_repeat. apply tb_ext_word. apply Nat.mod_upper_bound; lia.
  - rewrite repeat_length. apply Nat.div_lt_upper_bound; lia.
Qed.
Lemma wbit_repeat_0 n i : wbit (repeat 0%Z n) i = false.
Proof. unfold wbit. rewrite nth_repeat. apply tb_0. Qed.
Lemma wbit_firstn n ws i : i < 32 * n -> wbit (firstn n ws) i = wbit ws i.
Proof. intros H. unfold wbit. rewrite nth_firstn; auto. apply Nat.div_lt_upper_bound; lia. Qed.
Lemma wbit_skipn n ws i : wbit (skipn n ws) i = wbit ws (32 * n + i).
Proof.
  unfold wbit. rewrite nth_skipn. replace (32 * n + i) with (i + n * 32) by lia.
  rewrite Nat.div_add, Nat.mod_add by lia. f_equal. f_equal. lia.
Qed.
Lemma wbit_cons w ws i : wbit (w :: ws) i = if i <? 32 then tb w i else wbit ws (i - 32).
Proof.
  change (w :: ws) with ([w] ++ ws). rewrite wbit_app. cbn [length]. change (32 * 1) with 32.
  destruct (Nat.ltb_spec i 32); auto. unfold wbit. rewrite Nat.div_small, Nat.mod_small by lia. reflexivity.
Qed.
Lemma wbit_map_ws f ws i : i < 32 * length ws ->
  wbit (map f ws) i = tb (f (nth (i / 32) ws 0%Z)) (i mod 32).
Proof.
  intros H. unfold wbit. rewrite nth_indep with (d' := f 0%Z).
  - rewrite map_nth. reflexivity.
  - rewrite map_length. apply Nat.div_lt_upper_bound; lia.
Qed.
Lemma wbit_upd ws i w j : i / 32 < length ws ->
  wbit (upd ws (i / 32) w) j = if j / 32 =? i / 32 then tb w (j mod 32) else wbit ws j.
Proof.
  intros H. unfold wbit. rewrite nth_upd.
  destruct (Nat.ltb_spec (i / 32) (length ws)); [|lia]. rewrite andb_true_r.
  rewrite (Nat.eqb_sym (i / 32)). destruct (Nat.eqb_spec (j / 32) (i / 32)); reflexivity.
Qed.

Lemma TO_WORD_le n k : TO_WORD n <= k <-> n <= 32 * k.
Proof.
  unfold TO_WORD. destruct n as [|m]; [lia|].
  pose proof (Nat.div_mod m 32 ltac:(lia)). pose proof (Nat.mod_upper_bound m 32 ltac:(lia)). lia.
Qed.
Lemma TO_WORD_lt n k : k < TO_WORD n <-> 32 * k < n.
Proof. pose proof (TO_WORD_le n k). lia. Qed.
Lemma TO_WORD_ub n : n <= 32 * TO_WORD n. Proof. apply TO_WORD_le; lia. Qed.
Lemma TO_WORD_max a b : TO_WORD (Nat.max a b) = Nat.max (TO_WORD a) (TO_WORD b).
Proof.
  destruct (Nat.max_spec a b) as [[H ->]|[H ->]].
  - assert (TO_WORD a <= TO_WORD b) by (apply TO_WORD_le; pose proof (TO_WORD_ub b); lia). lia.
  - assert (TO_WORD b <= TO_WORD a) by (apply TO_WORD_le; pose proof (TO_WORD_ub a); lia). lia.
Qed.
Lemma TO_WORD_min a b : TO_WORD (Nat.min a b) = Nat.min (TO_WORD a) (TO_WORD b).
Proof.
  destruct (Nat.min_spec a b) as [[H ->]|[H ->]].
  - assert (TO_WORD a <= TO_WORD b) by (apply TO_WORD_le; pose proof (TO_WORD_ub b); lia). lia.
  - assert (TO_WORD b <= TO_WORD a) by (apply TO_WORD_le; pose proof (TO_WORD_ub a); lia). lia.
Qed.
Lemma round2_gt w : w < round2 w.
Proof.
  unfold round2. destruct w as [|w]; [lia|].
  pose proof (Nat.log2_spec (S w) ltac:(lia)) as [_ H]. exact H.
Qed.

(* ------------------------------------------------------------ invariants *)
Definition sem (b : bv) (i : nat) : bool := if bv_size b <=? i then bv_ext b else wbit (bv_bits b) i.
(* the words are words, the size fits, and the unused bits of the last used word are as the extension *)
Definition ok0 (b : bv) : Prop :=
  Forall word_ok (bv_bits b) /\ bv_size b <= 32 * length (bv_bits b) /\ 0 < length (bv_bits b) /\
  forall i, bv_size b <= i < 32 * TO_WORD (bv_size b) -> wbit (bv_bits b) i = bv_ext b.
(* all unused bits are as the extension *)
Definition ok1 (b : bv) : Prop :=
  ok0 b /\ forall i, bv_size b <= i < 32 * length (bv_bits b) -> wbit (bv_bits b) i = bv_ext b.
Definition cntok (b : bv) : Prop := bv_ext b = false -> bv_count b = Z.of_nat (cnt (sem b) (bv_size b)).

Lemma sem_bits b i : ok0 b -> i < 32 * TO_WORD (bv_size b) -> sem b i = wbit (bv_bits b) i.
Proof.
  intros (_ & _ & _ & H) Hi. unfold sem. destruct (Nat.leb_spec (bv_size b) i); auto.
  symmetry; apply H; lia.
Qed.
Lemma sem_bits1 b i : ok1 b -> i < 32 * length (bv_bits b) -> sem b i = wbit (bv_bits b) i.
Proof.
  intros (_ & H) Hi. unfold sem. destruct (Nat.leb_spec (bv_size b) i); auto.
  symmetry; apply H; lia.
Qed.
Lemma sem_ext b i : bv_size b <= i -> sem b i = bv_ext b.
Proof. intros H. unfold sem. destruct (Nat.leb_spec (bv_size b) i); [auto|lia]. Qed.

Lemma bv_get_ok b i : ok0 b -> bv_get b i = Some (sem b i).
Proof.
  intros (Hw & Hs & Hl & H). unfold bv_get, sem. destruct (Nat.leb_spec (bv_size b) i); auto.
  assert (Hd : i / 32 < length (bv_bits b)) by (apply Nat.div_lt_upper_bound; lia).
  rewrite (nth_error_nth_len _ _ 0%Z Hd). cbn [obind]. rewrite shiftr_bit. reflexivity.
Qed.

Lemma TO_WORD_len b : ok0 b -> TO_WORD (bv_size b) <= length (bv_bits b).
Proof. intros (_ & H & _). apply TO_WORD_le; lia. Qed.

Lemma Forall_upd {A} (P : A -> Prop) l i v : Forall P l -> P v -> Forall P (upd l i v).
Proof. intros H Hv; revert i; induction H; intros [|i]; cbn; constructor; auto. Qed.

Lemma grow_capa_ok fuel : forall capa word, 0 < capa -> word + 1 < capa + fuel -> 0 < fuel ->
  exists c, grow_capa fuel capa word = Some c /\ word < c /\ capa <= c.
Proof.
  induction fuel as [|fuel IH]; intros capa word Hc Hw Hf; [lia|]. cbn [grow_capa].
  destruct (Nat.leb_spec capa word).
  - destruct (IH (2 * capa) word) as (c & -> & H1 & H2); try lia.
    exists c; repeat split; auto; lia.
  - exists capa; repeat split; auto.
Qed.

(* growing keeps the meaning *)
Definition same_set (b b' : bv) : Prop := bv_ext b' = bv_ext b /\ forall i, sem b' i = sem b i.

Lemma set_value_ok b bit v : ok1 b -> exists b', bv_set_value b bit v = Some b' /\ ok1 b' /\
  bv_ext b' = bv_ext b /\ (forall j, sem b' j = if j =? bit then v else sem b j) /\
  (cntok b -> cntok b') /\ bv_size b' = Nat.max (bv_size b) (bit + 1).
Proof.
  intros H1. pose proof H1 as ((Hw & Hs & Hl & _) & Hx). unfold bv_set_value.
  set (e1 := if bv_size b <=? bit then _ else Some b).
  assert (Hb1 : exists b1, e1 = Some b1 /\ ok1 b1 /\ bv_ext b1 = bv_ext b /\ (forall j, sem b1 j = sem b j) /\
            bv_size b1 = Nat.max (bv_size b) (bit + 1) /\ bv_count b1 = bv_count b).
  { subst e1. destruct (Nat.leb_spec (bv_size b) bit) as [Hge|Hlt].
    - destruct (Nat.leb_spec (length (bv_bits b)) (bit / 32)) as [Hg|Hg].
      + destruct (grow_capa_ok (S (bit / 32)) (2 * length (bv_bits b)) (bit / 32)) as (c & -> & Hc & Hc2); try lia.
        cbn [obind]. eexists; split; [reflexivity|].
        assert (Hbit : bit < 32 * c).
        { pose proof (Nat.div_mod bit 32 ltac:(lia)). pose proof (Nat.mod_upper_bound bit 32 ltac:(lia)). lia. }
        assert (Hlen : length (bv_bits b ++ repeat (ext_word (bv_ext b)) (c - length (bv_bits b))) = c)
          by (rewrite app_length, repeat_length; lia).
        assert (Hbits : forall i, i < 32 * c -> wbit (bv_bits b ++ repeat (ext_word (bv_ext b)) (c - length (bv_bits b))) i
                          = sem b i).
        { intros i Hi. rewrite wbit_app. destruct (Nat.ltb_spec i (32 * length (bv_bits b))).
          - symmetry; apply sem_bits1; auto.
          - rewrite wbit_repeat_ext by lia. rewrite sem_ext by lia. reflexivity. }
        assert (Hok1 : forall i, bit + 1 <= i < 32 * c -> wbit (bv_bits b ++ repeat (ext_word (bv_ext b)) (c - length (bv_bits b))) i
                          = bv_ext b).
        { intros i Hi. rewrite Hbits by lia. apply sem_ext; lia. }
        split; [|split; [reflexivity|split; [|split; [cbn [bv_size]; lia|reflexivity]]]].
        * split; [split; [|split; [|split]]|]; cbn [bv_bits bv_size bv_ext]; rewrite ?Hlen; try lia.
          -- apply Forall_app; split; auto. apply Forall_forall. intros x Hxx. apply repeat_spec in Hxx; rewrite Hxx. apply word_ok_ext.
          -- intros i Hi. apply Hok1. pose proof (proj2 (TO_WORD_le (bit + 1) c) ltac:(lia)). lia.
          -- exact Hok1.
        * intros j. unfold sem at 1. cbn [bv_size bv_ext bv_bits].
          destruct (Nat.leb_spec (bit + 1) j); [rewrite sem_ext by lia; reflexivity|]. apply Hbits; lia.
      + eexists; split; [reflexivity|].
        assert (Hbit : bit < 32 * length (bv_bits b)).
        { pose proof (Nat.div_mod bit 32 ltac:(lia)). pose proof (Nat.mod_upper_bound bit 32 ltac:(lia)). lia. }
        split; [|split; [reflexivity|split; [|split; [cbn [bv_size]; lia|reflexivity]]]].
        * split; [split; [|split; [|split]]|]; cbn [bv_bits bv_size bv_ext]; auto; try lia.
          -- intros i Hi. apply Hx. pose proof (proj2 (TO_WORD_le (bit + 1) (length (bv_bits b))) ltac:(lia)). lia.
          -- intros i Hi. apply Hx. lia.
        * intros j. unfold sem. cbn [bv_size bv_ext bv_bits].
          destruct (Nat.leb_spec (bit + 1) j), (Nat.leb_spec (bv_size b) j); auto; try lia. apply Hx; lia.
    - exists b. repeat (split; [now auto|]). split; [lia|reflexivity]. }
  destruct Hb1 as (b1 & -> & Hok & He & Hsem & Hsz & Hc). cbn [obind].
  pose proof Hok as ((Hw1 & Hs1 & Hl1 & _) & Hx1).
  assert (Hd : bit / 32 < length (bv_bits b1)) by (apply Nat.div_lt_upper_bound; lia).
  rewrite (nth_error_nth_len _ _ 0%Z Hd). cbn [obind]. rewrite nonzero_bit.
  set (w := nth (bit / 32) (bv_bits b1) 0%Z).
  assert (Hwok : word_ok w) by (apply (proj1 (Forall_forall _ _) Hw1); apply nth_In; auto).
  pose proof (Nat.mod_upper_bound bit 32 ltac:(lia)) as Hm.
  assert (Hcur : tb w (bit mod 32) = sem b bit).
  { rewrite <- Hsem. rewrite sem_bits1 by (auto; lia). reflexivity. }
  (* common part for both writes *)
  assert (Hput : forall w' cnt', word_ok w' ->
    (forall k, k < 32 -> tb w' k = if k =? bit mod 32 then v else tb w k) ->
    (cntok b -> bv_ext b = false -> cnt' = (bv_count b + (if v then 1 else 0) - (if sem b bit then 1 else 0))%Z) ->
    let b' := mkBv (upd (bv_bits b1) (bit / 32) w') (bv_size b1) cnt' (bv_curr b1) (bv_ext b1) in
    ok1 b' /\ bv_ext b' = bv_ext b /\ (forall j, sem b' j = if j =? bit then v else sem b j) /\
    (cntok b -> cntok b') /\ bv_size b' = Nat.max (bv_size b) (bit + 1)).
  { intros w' cnt' Hw' Hb' Hc' b'.
    assert (HB : forall j, j < 32 * length (bv_bits b1) ->
              wbit (upd (bv_bits b1) (bit / 32) w') j = if j =? bit then v else sem b j).
    { intros j Hj. rewrite wbit_upd by auto. destruct (Nat.eqb_spec (j / 32) (bit / 32)) as [E|E].
      - rewrite Hb' by (apply Nat.mod_upper_bound; lia).
        destruct (Nat.eqb_spec (j mod 32) (bit mod 32)) as [E2|E2].
        + assert (j = bit) by (pose proof (Nat.div_mod j 32 ltac:(lia)); pose proof (Nat.div_mod bit 32 ltac:(lia)); lia).
          subst. rewrite Nat.eqb_refl. reflexivity.
        + destruct (Nat.eqb_spec j bit); [subst; lia|]. subst w. rewrite <- E.
          rewrite <- Hsem, sem_bits1 by auto. reflexivity.
      - destruct (Nat.eqb_spec j bit); [subst; lia|]. rewrite <- Hsem, sem_bits1 by auto. reflexivity. }
    assert (Hsem' : forall j, sem b' j = if j =? bit then v else sem b j).
    { intros j. unfold sem at 1. subst b'; cbn [bv_size bv_ext bv_bits].
      destruct (Nat.leb_spec (bv_size b1) j).
      - destruct (Nat.eqb_spec j bit); [lia|]. rewrite He. symmetry. apply sem_ext; lia.
      - apply HB. lia. }
    split; [|split; [|split; [|split]]]; auto.
    - assert (Hxx : forall i, bv_size b1 <= i < 32 * length (bv_bits b1) ->
               wbit (upd (bv_bits b1) (bit / 32) w') i = bv_ext b1).
      { intros i Hi. rewrite HB by lia. destruct (Nat.eqb_spec i bit); [lia|]. rewrite He. apply sem_ext; lia. }
      subst b'. split; [split; [|split; [|split]]|]; cbn [bv_bits bv_size bv_ext]; rewrite ?upd_length; auto.
      + apply Forall_upd; auto.
      + intros i Hi. apply Hxx. pose proof (TO_WORD_len b1 (proj1 Hok)). lia.
    - intros Hcb. intros Hee. cbn [b' bv_ext] in Hee. rewrite He in Hee.
      change (cnt' = Z.of_nat (cnt (sem b') (bv_size b1))).
      rewrite (cnt_eq (sem b') _ (bv_size b1) (fun i _ => Hsem' i)).
      rewrite (Hc' Hcb Hee). rewrite (Hcb Hee).
      assert (Hct : cnt (sem b) (bv_size b1) = cnt (sem b) (bv_size b)).
      { apply cnt_trim; [lia|]. intros i Hi. rewrite sem_ext by lia. exact Hee. }
      rewrite <- Hct.
      pose proof (cnt_upd (sem b) bit v (bv_size b1) ltac:(lia)) as HU.
      destruct v, (sem b bit); lia. }
  destruct (Bool.eqb (tb w (bit mod 32)) v) eqn:Eq.
  - apply Bool.eqb_prop in Eq. exists b1. split; [reflexivity|]. split; [exact Hok|]. split; [exact He|].
    split; [|split; [|exact Hsz]].
    + intros j. rewrite Hsem. destruct (Nat.eqb_spec j bit); [subst; congruence|reflexivity].
    + intros Hcb Hee. rewrite He in Hee. rewrite Hc, (Hcb Hee). f_equal.
      rewrite (cnt_eq (sem b1) (sem b)) by auto. symmetry. apply cnt_trim; [lia|].
      intros i Hi. rewrite sem_ext by lia. exact Hee.
  - destruct v.
    + eexists; split; [reflexivity|].
      apply Hput.
      * apply word_ok_lor; auto. apply word_ok_bit; auto.
      * intros k Hk. rewrite tb_lor, tb_bit. destruct (Nat.eqb_spec k (bit mod 32)); [apply orb_true_r|apply orb_false_r].
      * intros _ _. rewrite Hc. rewrite <- Hcur. destruct (tb w (bit mod 32)); [discriminate|lia].
    + eexists; split; [reflexivity|].
      apply Hput.
      * apply word_ok_land; auto. apply word_ok_wnot.
      * intros k Hk. rewrite tb_land, tb_wnot, tb_bit.
        destruct (Nat.eqb_spec k (bit mod 32)); cbn [negb andb]; [apply andb_false_r|].
        destruct (Nat.ltb_spec k 32); [apply andb_true_r|lia].
      * intros _ _. rewrite Hc. rewrite <- Hcur. destruct (tb w (bit mod 32)); [lia|discriminate].
Qed.

Lemma ok1_new c : ok1 (bv_new_capa c) /\ cntok (bv_new_capa c) /\ (forall i, sem (bv_new_capa c) i = false).
Proof.
  unfold bv_new_capa, ok1, ok0, cntok, sem; cbn [bv_bits bv_size bv_ext bv_count].
  rewrite repeat_length. split; [split; [split; [|split; [|split]]|]|split]; try lia.
  - apply Forall_forall. intros x Hx. apply repeat_spec in Hx; subst. apply word_ok_0.
  - intros i Hi. cbn in Hi. lia.
  - intros i Hi. apply wbit_repeat_0.
  - intros _. reflexivity.
  - intros i. reflexivity.
Qed.
Lemma ok1_clear b : ok1 b -> ok1 (bv_clear b) /\ cntok (bv_clear b) /\ (forall i, sem (bv_clear b) i = false).
Proof.
  intros ((Hw & Hs & Hl & _) & _).
  unfold bv_clear, ok1, ok0, cntok, sem; cbn [bv_bits bv_size bv_ext bv_count].
  rewrite repeat_length. split; [split; [split; [|split; [|split]]|]|split]; try lia.
  - apply Forall_forall. intros x Hx. apply repeat_spec in Hx; subst. apply word_ok_0.
  - intros i Hi. cbn in Hi. lia.
  - intros i Hi. apply wbit_repeat_0.
  - intros _. reflexivity.
  - intros i. reflexivity.
Qed.

Lemma bv_run_ok ops : forall b, ok1 b -> exists b', bv_run b ops = Some b' /\ ok1 b' /\
  bv_ext b' = (if existsb (fun o => match o with SClear => true | _ => false end) ops then false else bv_ext b) /\
  (forall j, sem b' j = set_after (sem b) ops j) /\ (cntok b -> cntok b').
Proof.
  assert (HA : forall ops s s', (forall i, s i = s' i) -> forall j, set_after s ops j = set_after s' ops j).
  { clear. induction ops as [|o ops IH]; intros s s' H j; cbn [set_after]; auto.
    apply IH. intros i. destruct o; cbn [set_step]; rewrite ?H; reflexivity. }
  induction ops as [|o ops IH]; intros b Hb; cbn [bv_run set_after existsb].
  - exists b; auto.
  - assert (Hst : exists b1, bv_step b o = Some b1 /\ ok1 b1 /\
              bv_ext b1 = (match o with SClear => false | _ => bv_ext b end) /\
              (forall j, sem b1 j = set_step (sem b) o j) /\ (cntok b -> cntok b1)).
    { destruct o as [i|i|]; cbn [bv_step set_step].
      - destruct (set_value_ok b i true Hb) as (b1 & E & H1 & H2 & H3 & H4 & _). exists b1.
        split; [exact E|]. split; [exact H1|]. split; [exact H2|]. split; [|exact H4].
        intros j. rewrite H3. destruct (j =? i); reflexivity.
      - destruct (set_value_ok b i false Hb) as (b1 & E & H1 & H2 & H3 & H4 & _). exists b1.
        split; [exact E|]. split; [exact H1|]. split; [exact H2|]. split; [|exact H4].
        intros j. rewrite H3. destruct (j =? i); reflexivity.
      - destruct (ok1_clear b Hb) as (H1 & H2 & H3). exists (bv_clear b). auto. }
    destruct Hst as (b1 & -> & H1 & H2 & H3 & H4). cbn [obind].
    destruct (IH b1 H1) as (b' & E' & H1' & H2' & H3' & H4'). exists b'.
    split; [exact E'|]. split; [exact H1'|]. split; [|split; [|auto]].
    + rewrite H2', H2. destruct o; cbn; auto.
      match goal with |- (if ?x then _ else _) = _ => destruct x end; reflexivity.
    + intros j. rewrite H3'. apply HA. exact H3.
Qed.

(* ------------------------------------------------------------ recounting *)
Lemma count_ones_mask w m lo :
  (forall k, k < 32 -> tb m k = (lo <=? k) && (k <? lo + 8)) -> lo + 8 <= 32 ->
  count_ones (Z.land w m) = cnt (fun k => tb w (lo + k)) 8.
Proof.
  intros Hm Hlo. unfold count_ones. replace 32 with (lo + (8 + (32 - lo - 8))) by lia.
  rewrite cnt_add, cnt_add. rewrite (cnt_false (tb (Z.land w m)) lo).
  2:{ intros i Hi. rewrite tb_land, Hm by lia. destruct (Nat.leb_spec lo i); [lia|]. apply andb_false_r. }
  rewrite (cnt_false _ (32 - lo - 8)).
  2:{ intros i Hi. rewrite tb_land, Hm by lia. destruct (Nat.ltb_spec (lo + (8 + i)) (lo + 8)); [lia|].
      rewrite andb_false_r. apply andb_false_r. }
  rewrite Nat.add_0_r. cbn [Nat.add]. apply cnt_eq. intros i Hi. rewrite tb_land, Hm by lia.
  destruct (Nat.leb_spec lo (lo + i)), (Nat.ltb_spec (lo + i) (lo + 8)); try lia. apply andb_true_r.
Qed.
Lemma tb_mask_check m lo : (forallb (fun k => Bool.eqb (tb m k) ((lo <=? k) && (k <? lo + 8))) (seq 0 32) = true) ->
  forall k, k < 32 -> tb m k = (lo <=? k) && (k <? lo + 8).
Proof.
  intros H k Hk. rewrite forallb_forall in H. specialize (H k ltac:(apply in_seq; lia)).
  apply Bool.eqb_prop in H. exact H.
Qed.

Lemma sum_ones ws : list_sum (map count_ones ws) = cnt (wbit ws) (32 * length ws).
Proof.
  induction ws as [|w ws IH]; [reflexivity|]. cbn [map list_sum length fold_right].
  change (fold_right Init.Nat.add 0 (map count_ones ws)) with (list_sum (map count_ones ws)).
  replace (32 * S (length ws)) with (32 + 32 * length ws) by lia. rewrite cnt_add, IH. unfold count_ones.
  replace (cnt (wbit (w :: ws)) 32) with (cnt (tb w) 32) by
    (apply cnt_eq; intros i Hi; rewrite wbit_cons; destruct (Nat.ltb_spec i 32); [reflexivity|lia]).
  f_equal.
  apply cnt_eq. intros i Hi. rewrite wbit_cons. destruct (Nat.ltb_spec (32 + i) 32); [lia|]. f_equal. lia.
Qed.

Lemma recount_ok b : bv_size b / 32 < length (bv_bits b) ->
  exists c, bv_recount b = Some (mkBv (bv_bits b) (bv_size b) c (bv_curr b) (bv_ext b)) /\
  (bv_ext b = false -> (forall i, bv_size b <= i < 32 * (bv_size b / 32) + 32 -> wbit (bv_bits b) i = false) ->
   c = Z.of_nat (cnt (wbit (bv_bits b)) (bv_size b))).
Proof.
  intros Hl. unfold bv_recount. destruct (Nat.leb_spec (bv_size b / 32) (length (bv_bits b))); [|lia].
  cbn [obind]. rewrite (nth_error_nth_len _ _ 0%Z Hl). cbn [obind].
  eexists; split; [reflexivity|]. intros -> Hz. f_equal.
  set (n := bv_size b) in *. set (w := nth (n / 32) (bv_bits b) 0%Z).
  pose proof (Nat.div_mod n 32 ltac:(lia)) as Hdm. pose proof (Nat.mod_upper_bound n 32 ltac:(lia)) as Hm.
  rewrite sum_ones, firstn_length, Nat.min_l by lia.
  rewrite (cnt_eq (wbit (firstn _ _)) (wbit (bv_bits b))) by (intros; apply wbit_firstn; lia).
  replace (cnt (wbit (bv_bits b)) n) with (cnt (wbit (bv_bits b)) (32 * (n / 32) + n mod 32)) by (rewrite <- Hdm; reflexivity).
  assert (Hw : forall k, k < 32 -> wbit (bv_bits b) (32 * (n / 32) + k) = tb w k).
  { intros k Hk. unfold wbit, w. rewrite Nat.mul_comm, Nat.add_comm, Nat.div_add, Nat.mod_add by lia.
    rewrite Nat.div_small, Nat.mod_small by lia. reflexivity. }
  rewrite cnt_add. rewrite <- !Nat.add_assoc. f_equal.
  rewrite (cnt_eq (fun i => wbit (bv_bits b) (32 * (n / 32) + i)) (tb w)) by (intros; apply Hw; lia).
  rewrite (count_ones_mask w 4278190080 24), (count_ones_mask w 16711680 16),
    (count_ones_mask w 65280 8), (count_ones_mask w 255 0) by
    (first [lia | apply tb_mask_check; vm_compute; reflexivity]).
  assert (HZ : forall k, n mod 32 <= k < 32 -> tb w k = false).
  { intros k Hk. rewrite <- Hw by lia. apply Hz. lia. }
  assert (H8 : forall lo, cnt (tb w) (lo + 8) = cnt (tb w) lo + cnt (fun k => tb w (lo + k)) 8) by (intros; apply cnt_add).
  pose proof (H8 0) as H80. pose proof (H8 8) as H88. pose proof (H8 16) as H816. pose proof (H8 24) as H824.
  change (cnt (tb w) 0) with 0 in H80. cbn [Nat.add] in H80, H88, H816, H824.
  pose proof (Nat.div_mod (n mod 32) 8 ltac:(lia)) as Hd8. pose proof (Nat.mod_upper_bound (n mod 32) 8 ltac:(lia)) as Hm8.
  assert (HT : forall m, n mod 32 <= m <= 32 -> cnt (tb w) m = cnt (tb w) (n mod 32)).
  { intros m Hmm. apply cnt_trim; [lia|]. intros i Hi. apply HZ. lia. }
  destruct (Nat.leb_spec 4 (n mod 32 / 8 + 1)); destruct (Nat.leb_spec 3 (n mod 32 / 8 + 1));
    destruct (Nat.leb_spec 2 (n mod 32 / 8 + 1)); destruct (Nat.leb_spec 1 (n mod 32 / 8 + 1)); try lia.
  - rewrite <- (HT 32) by lia. cbn [Nat.add]. lia.
  - rewrite <- (HT 24) by lia. cbn [Nat.add]. lia.
  - rewrite <- (HT 16) by lia. cbn [Nat.add]. lia.
  - rewrite <- (HT 8) by lia. cbn [Nat.add]. lia.
Qed.

(* ------------------------------------------------------------ the set operations *)
Lemma wop_bit o a b k : tb (wop o a b) k = bool_op o (tb a k) (tb b k).
Proof. destruct o; cbn [wop bool_op]; [apply tb_land|apply tb_lor|apply tb_lxor]. Qed.
Lemma word_ok_wop o a b : word_ok a -> word_ok b -> word_ok (wop o a b).
Proof.
  intros Ha Hb; destruct o; cbn [wop]; [apply word_ok_land; unfold word_ok in *; auto; lia|apply word_ok_lor; auto|apply word_ok_lxor; auto].
Qed.
Lemma zip_words_ok f n : forall a b, n <= length a -> n <= length b ->
  exists r, zip_words f n a b = Some r /\ length r = n /\
    (forall i, i < n -> nth i r 0%Z = f (nth i a 0%Z) (nth i b 0%Z)).
Proof.
  induction n as [|n IH]; intros a b Ha Hb; cbn [zip_words].
  - exists []. repeat split; auto. intros; lia.
  - destruct a as [|x a], b as [|y b]; cbn [length] in *; try lia.
    destruct (IH a b ltac:(lia) ltac:(lia)) as (r & -> & Hr & Hn). cbn [obind].
    eexists; split; [reflexivity|]. split; [cbn; lia|]. intros [|i] Hi; cbn [nth]; auto. apply Hn; lia.
Qed.
Lemma oop_bool_op o : oop_bool o = bool_op o. Proof. destruct o; reflexivity. Qed.

Lemma ext_cb_bit o e src i : i < 32 * length src -> wbit (ext_cb o e src) i = bool_op o e (wbit src i).
Proof.
  intros H. pose proof (Nat.mod_upper_bound i 32 ltac:(lia)) as Hm.
  destruct o; cbn [ext_cb bool_op].
  - destruct e; [reflexivity|]. rewrite wbit_map_ws by auto. apply tb_0.
  - destruct e; [|reflexivity]. rewrite wbit_map_ws by auto. rewrite tb_ones. cbn [orb]. apply Nat.ltb_lt; auto.
  - rewrite wbit_map_ws by auto. rewrite tb_lxor, tb_ext_word by auto. rewrite xorb_comm. reflexivity.
Qed.
Lemma ext_cb_length o e src : length (ext_cb o e src) = length src.
Proof. destruct o, e; cbn [ext_cb]; rewrite ?map_length; reflexivity. Qed.
Lemma ext_cb_word o e src : Forall word_ok src -> Forall word_ok (ext_cb o e src).
Proof.
  intros H. destruct o, e; cbn [ext_cb]; auto; apply Forall_forall; intros x Hx;
    apply in_map_iff in Hx; destruct Hx as (y & <- & Hy);
    try apply word_ok_0; try apply word_ok_ones;
    apply word_ok_lxor; try apply word_ok_ext; rewrite Forall_forall in H; auto.
Qed.
Lemma bool_op_comm o x y : bool_op o x y = bool_op o y x.
Proof. destruct o, x, y; reflexivity. Qed.

Lemma Forall_firstn {A} (P : A -> Prop) n l : Forall P l -> Forall P (firstn n l).
Proof. intros H. rewrite Forall_forall in *. intros x Hx. apply H. rewrite <- (firstn_skipn n l). apply in_or_app; auto. Qed.

(* the destination after frt_bv_capa: its first [k] words are those of the old buffer, the rest as required *)
Lemma bv_capa_ok junk d capa size (k : nat) :
  k <= TO_WORD size -> k <= length (bv_bits d) -> TO_WORD size < capa -> 0 < length (bv_bits d) ->
  Forall word_ok (bv_bits d) ->
  let d2 := bv_capa junk d capa size in
  TO_WORD size < length (bv_bits d2) /\ bv_size d2 = size /\ bv_ext d2 = bv_ext d /\
  Forall word_ok (bv_bits d2) /\
  firstn k (bv_bits d2) = firstn k (bv_bits d) /\
  ((forall i, 32 * TO_WORD size <= i < 32 * length (bv_bits d) -> wbit (bv_bits d) i = bv_ext d) ->
   forall i, 32 * TO_WORD size <= i < 32 * length (bv_bits d2) -> wbit (bv_bits d2) i = bv_ext d).
Proof.
  intros Hk Hkd Hc Hl Hw d2. subst d2. unfold bv_capa.
  destruct (Nat.ltb_spec (length (bv_bits d)) capa) as [Hg|Hg]; cbn [bv_bits bv_size bv_ext].
  - set (grown := bv_bits d ++ junk_words junk (length (bv_bits d)) (capa - length (bv_bits d))).
    assert (Hgl : length grown = capa).
    { unfold grown, junk_words. rewrite app_length, map_length, seq_length. lia. }
    assert (Hfl : length (firstn (TO_WORD size) grown) = TO_WORD size) by (rewrite firstn_length; lia).
    assert (Hgw : Forall word_ok grown).
    { unfold grown, junk_words. apply Forall_app; split; auto. apply Forall_forall. intros x Hx.
      apply in_map_iff in Hx. destruct Hx as (y & <- & _). unfold word_ok. apply Z.mod_pos_bound. reflexivity. }
    rewrite app_length, Hfl, repeat_length.
    split; [lia|]. split; [reflexivity|]. split; [reflexivity|]. split; [|split].
    + apply Forall_app; split; [apply Forall_firstn; auto|].
      apply Forall_forall. intros x Hx. apply repeat_spec in Hx; rewrite Hx. apply word_ok_ext.
    + rewrite firstn_app, firstn_firstn, Hfl.
      replace (k - TO_WORD size) with 0 by lia. rewrite firstn_O, app_nil_r, Nat.min_l by lia.
      unfold grown. rewrite firstn_app. replace (k - length (bv_bits d)) with 0 by lia.
      rewrite firstn_O, app_nil_r. reflexivity.
    + intros _ i Hi. rewrite wbit_app, Hfl. destruct (Nat.ltb_spec i (32 * TO_WORD size)); [lia|].
      apply wbit_repeat_ext. lia.
  - split; [lia|]. repeat (split; [now auto|]). auto.
Qed.

Lemma wbit_zip o r n a b i : length r = n -> i < 32 * n ->
  (forall i, i < n -> nth i r 0%Z = wop o (nth i a 0%Z) (nth i b 0%Z)) ->
  wbit r i = bool_op o (wbit a i) (wbit b i).
Proof.
  intros Hl Hi H. unfold wbit. rewrite H by (apply Nat.div_lt_upper_bound; lia). apply wop_bit.
Qed.
Lemma wbit_firstn_eq k l l' i : firstn k l = firstn k l' -> i < 32 * k -> wbit l i = wbit l' i.
Proof. intros E H. rewrite <- (wbit_firstn k l), <- (wbit_firstn k l') by auto. rewrite E. reflexivity. Qed.

Lemma bv_op_ok junk o dest a b :
  ok0 a -> ok0 b ->
  let ext' := bool_op o (bv_ext a) (bv_ext b) in
  match dest with
  | Some d => d = bv_new
  | None => ok1 a /\ ext' = bv_ext a
  end ->
  exists r, bv_op junk o dest a b = Some r /\ ok0 r /\ bv_ext r = ext' /\
    (forall i, sem r i = bool_op o (sem a i) (sem b i)) /\
    (match dest with Some _ => ext' = false -> ok1 r | None => ok1 r end) /\ cntok r /\
    bv_size r < 32 * length (bv_bits r).
Proof.
  intros Ha Hb ext' Hd. unfold bv_op. rewrite oop_bool_op. fold ext'.
  set (mx := Nat.max (bv_size a) (bv_size b)). set (mn := Nat.min (bv_size a) (bv_size b)).
  set (d := match dest with Some d => d | None => a end).
  set (d1 := mkBv (bv_bits d) (bv_size d) (bv_count d) (bv_curr d) ext').
  set (d2 := bv_capa junk d1 (Nat.max (round2 (TO_WORD mx)) 4) mx).
  set (a1 := match dest with Some _ => a | None => d2 end).
  pose proof Ha as (Haw & Has & Hal & _). pose proof Hb as (Hbw & Hbs & Hbl & _).
  pose proof (TO_WORD_len a Ha) as Hta. pose proof (TO_WORD_len b Hb) as Htb.
  set (A := TO_WORD (bv_size a)) in *. set (B := TO_WORD (bv_size b)) in *.
  assert (Emx : TO_WORD mx = Nat.max A B) by apply TO_WORD_max.
  assert (Emn : TO_WORD mn = Nat.min A B) by apply TO_WORD_min.
  pose proof (round2_gt (TO_WORD mx)) as Hr2.
  set (k := match dest with Some _ => 0 | None => A end).
  assert (Hdd : length (bv_bits d1) > 0 /\ Forall word_ok (bv_bits d1) /\ k <= length (bv_bits d1)).
  { subst d1 d k. destruct dest as [d|]; cbn [bv_bits].
    - subst d. destruct (ok1_new 256) as (((H1 & _ & H2 & _) & _) & _). split; [exact H2|]. split; [exact H1|lia].
    - split; [lia|]. split; [exact Haw|lia]. }
  destruct Hdd as (Hd1l & Hd1w & Hkd).
  destruct (bv_capa_ok junk d1 (Nat.max (round2 (TO_WORD mx)) 4) mx k) as (HL & HS & HE & HW & HF & HX); auto; try lia.
  { subst k. destruct dest; lia. }
  fold d2 in HL, HS, HE, HW, HF, HX. change (bv_ext d1) with ext' in HE, HX.
  (* words of the first operand, as read during the operation *)
  assert (Ha1 : firstn A (bv_bits a1) = firstn A (bv_bits a) /\ A <= length (bv_bits a1)).
  { subst a1 k d1 d. destruct dest as [dd|].
    - split; [reflexivity|lia].
    - cbn [bv_bits] in HF. split; [exact HF|]. lia. }
  destruct Ha1 as (Ha1 & Ha1l).
  assert (Ha1e : bv_ext a1 = bv_ext a).
  { subst a1. destruct dest as [dd|]; [reflexivity|]. rewrite HE. apply Hd. }
  assert (Ha1w : Forall word_ok (bv_bits a1)).
  { subst a1. destruct dest; auto. }
  rewrite Emn, Emx in *.
  destruct (zip_words_ok (wop o) (Nat.min A B) (bv_bits a1) (bv_bits b)) as (low & -> & Hlow & Hln); try lia.
  cbn [obind].
  (* bits of the operands *)
  assert (HsemA : forall i, i < 32 * A -> wbit (bv_bits a1) i = sem a i).
  { intros i Hi. rewrite (wbit_firstn_eq A (bv_bits a1) (bv_bits a)) by auto. symmetry. apply sem_bits; auto. }
  assert (HsemB : forall i, i < 32 * B -> wbit (bv_bits b) i = sem b i).
  { intros i Hi. symmetry. apply sem_bits; auto. }
  assert (HA : forall i, 32 * A <= i -> sem a i = bv_ext a).
  { intros i Hi. apply sem_ext. pose proof (TO_WORD_ub (bv_size a)). subst A. lia. }
  assert (HB : forall i, 32 * B <= i -> sem b i = bv_ext b).
  { intros i Hi. apply sem_ext. pose proof (TO_WORD_ub (bv_size b)). subst B. lia. }
  assert (Hloww : Forall word_ok low).
  { apply Forall_forall. intros x Hx. apply In_nth with (d := 0%Z) in Hx. destruct Hx as (n & Hn & <-).
    rewrite Hln by lia. apply word_ok_wop.
    - rewrite Forall_forall in Ha1w. apply Ha1w. apply nth_In. lia.
    - rewrite Forall_forall in Hbw. apply Hbw. apply nth_In. lia. }
  match goal with |- context [obind ?e _] => set (eb := e) end.
  assert (Hbits : exists bits, eb = Some bits /\ length bits = length (bv_bits d2) /\ Forall word_ok bits /\
     (forall i, i < 32 * Nat.max A B -> wbit bits i = bool_op o (sem a i) (sem b i)) /\
     (forall i, 32 * Nat.max A B <= i -> wbit bits i = wbit (bv_bits d2) i)).
  { assert (Hlowb : forall i, i < 32 * Nat.min A B -> wbit low i = bool_op o (sem a i) (sem b i)).
    { intros i Hi. rewrite (wbit_zip o low (Nat.min A B) (bv_bits a1) (bv_bits b)) by auto.
      rewrite HsemA, HsemB by lia. reflexivity. }
    subst eb. destruct (Nat.eqb_spec A B) as [E|E].
    - eexists; split; [reflexivity|]. split; [rewrite app_length, skipn_length; lia|].
      split; [apply Forall_app; split; auto; apply Forall_forall; intros x Hx; rewrite Forall_forall in HW; apply HW;
              rewrite <- (firstn_skipn (Nat.min A B)); apply in_or_app; right; exact Hx|].
      split; intros i Hi; rewrite wbit_app, Hlow; destruct (Nat.ltb_spec i (32 * Nat.min A B)); try lia.
      + apply Hlowb; auto.
      + rewrite wbit_skipn. f_equal. lia.
    - set (src := if A <? B then bv_bits b else bv_bits a1).
      set (e := if A <? B then bv_ext a1 else bv_ext b).
      assert (Hse : (if A <? B then (bv_bits b, bv_ext a1) else (bv_bits a1, bv_ext b)) = (src, e)).
      { subst src e. destruct (A <? B); reflexivity. }
      rewrite Hse.
      assert (Hsl : Nat.max A B <= length src). { subst src. destruct (Nat.ltb_spec A B); lia. }
      assert (Hsw : Forall word_ok src). { subst src. destruct (Nat.ltb_spec A B); auto. }
      set (part := firstn (Nat.max A B - Nat.min A B) (skipn (Nat.min A B) src)).
      assert (Hpl : length part = Nat.max A B - Nat.min A B) by (subst part; rewrite firstn_length, skipn_length; lia).
      rewrite Hpl, Nat.eqb_refl.
      assert (Hpw : Forall word_ok part).
      { apply Forall_firstn. apply Forall_forall; intros x Hx. rewrite Forall_forall in Hsw; apply Hsw.
        rewrite <- (firstn_skipn (Nat.min A B)); apply in_or_app; right; exact Hx. }
      eexists; split; [reflexivity|].
      split; [rewrite !app_length, ext_cb_length, skipn_length; lia|].
      split.
      { apply Forall_app; split; auto. apply Forall_app; split; [apply ext_cb_word; auto|].
        apply Forall_forall; intros x Hx; rewrite Forall_forall in HW; apply HW.
        rewrite <- (firstn_skipn (Nat.max A B)); apply in_or_app; right; exact Hx. }
      split; intros i Hi; rewrite wbit_app, Hlow; destruct (Nat.ltb_spec i (32 * Nat.min A B)); try lia.
      + apply Hlowb; auto.
      + rewrite wbit_app, ext_cb_length, Hpl.
        destruct (Nat.ltb_spec (i - 32 * Nat.min A B) (32 * (Nat.max A B - Nat.min A B))); [|lia].
        rewrite ext_cb_bit by lia. subst part. rewrite wbit_firstn by lia. rewrite wbit_skipn.
        replace (32 * Nat.min A B + (i - 32 * Nat.min A B)) with i by lia.
        subst src e. destruct (Nat.ltb_spec A B).
        * rewrite Ha1e, HsemB by lia. rewrite (HA i) by lia. reflexivity.
        * rewrite HsemA by lia. rewrite (HB i) by lia. apply bool_op_comm.
      + rewrite wbit_app, ext_cb_length, Hpl.
        destruct (Nat.ltb_spec (i - 32 * Nat.min A B) (32 * (Nat.max A B - Nat.min A B))); [lia|].
        rewrite wbit_skipn. f_equal. lia. }
  destruct Hbits as (bits & -> & Hbl2 & Hbitsw & Hlo & Hhi). cbn [obind].
  rewrite Hbl2, Nat.eqb_refl. rewrite HS, HE.
  set (r := mkBv bits mx (bv_count d2) (bv_curr d2) ext').
  assert (Hmxlt : mx < 32 * length bits).
  { pose proof (TO_WORD_ub mx). rewrite Emx in H. lia. }
  assert (Hsemr : forall c i, sem (mkBv bits mx c (bv_curr d2) ext') i = bool_op o (sem a i) (sem b i)).
  { intros c i. unfold sem at 1. cbn [bv_size bv_ext bv_bits]. destruct (Nat.leb_spec mx i).
    - unfold ext'. rewrite !sem_ext by (subst mx; lia). reflexivity.
    - apply Hlo. pose proof (TO_WORD_ub mx). rewrite Emx in H0. lia. }
  assert (Hx0 : forall i, mx <= i < 32 * Nat.max A B -> wbit bits i = ext').
  { intros i Hi. rewrite Hlo by lia. rewrite !sem_ext by (subst mx; lia). reflexivity. }
  assert (Hx1 : (dest = None \/ ext' = false) -> forall i, mx <= i < 32 * length bits -> wbit bits i = ext').
  { intros Hor i Hi. destruct (Nat.lt_ge_cases i (32 * Nat.max A B)); [apply Hx0; lia|].
    rewrite Hhi by auto. apply HX; [|lia]. intros j Hj. subst d1 d. cbn [bv_bits] in *.
    destruct dest as [dd|].
    - destruct Hor as [Hor|Hor]; [discriminate|]. rewrite Hor. subst dd. unfold bv_new, bv_new_capa. cbn [bv_bits].
      apply wbit_repeat_0.
    - destruct Hd as ((_ & Hd) & ->). apply Hd. pose proof (TO_WORD_ub (bv_size a)). fold A in H0. lia. }
  destruct (recount_ok r) as (c & Hrec & Hcnt).
  { cbn [r bv_size bv_bits]. apply Nat.div_lt_upper_bound; lia. }
  cbn [r bv_bits bv_size bv_curr bv_ext] in Hrec, Hcnt. fold r in Hrec.
  exists (mkBv bits mx c (bv_curr d2) ext'). split; [exact Hrec|].
  assert (Hok0 : ok0 (mkBv bits mx c (bv_curr d2) ext')).
  { split; [|split; [|split]]; cbn [bv_bits bv_size bv_ext]; auto; try lia.
    intros i Hi. apply Hx0. rewrite Emx in Hi. lia. }
  split; [exact Hok0|]. split; [reflexivity|]. split; [apply Hsemr|]. split; [|split].
  - destruct dest as [dd|].
    + intros He. split; [exact Hok0|]. cbn [bv_bits bv_size bv_ext]. apply Hx1; auto.
    + split; [exact Hok0|]. cbn [bv_bits bv_size bv_ext]. apply Hx1; auto.
  - intros He. cbn [bv_ext] in He. cbn [bv_count bv_size].
    rewrite (Hcnt He).
    + f_equal. apply cnt_eq. intros i Hi. unfold sem. cbn [bv_size bv_bits bv_ext].
      destruct (Nat.leb_spec mx i); [lia|reflexivity].
    + intros i Hi. rewrite <- He. apply Hx1; [auto|].
      assert (mx / 32 < length bits) by (apply Nat.div_lt_upper_bound; lia).
      lia.
  - exact Hmxlt.
Qed.

Lemma bv_not_ok junk dest b :
  ok0 b -> match dest with Some d => d = bv_new | None => True end ->
  exists r, bv_not_i junk dest b = Some r /\ ok1 r /\ bv_ext r = negb (bv_ext b) /\
    (forall i, sem r i = negb (sem b i)) /\ cntok r /\ bv_size r < 32 * length (bv_bits r).
Proof.
  intros Hb Hd. unfold bv_not_i.
  set (d := match dest with Some d => d | None => b end).
  set (ext' := negb (bv_ext b)).
  set (d1 := mkBv (bv_bits d) (bv_size d) (bv_count d) (bv_curr d) ext').
  pose proof Hb as (Hbw & Hbs & Hbl & _). pose proof (TO_WORD_len b Hb) as Htb.
  set (W := TO_WORD (bv_size b)) in *.
  set (d2 := bv_capa junk d1 (Nat.max (round2 W) 4) (bv_size b)).
  pose proof (round2_gt W) as Hr2.
  set (k := match dest with Some _ => 0 | None => W end).
  assert (Hdd : length (bv_bits d1) > 0 /\ Forall word_ok (bv_bits d1) /\ k <= length (bv_bits d1)).
  { subst d1 d k. destruct dest as [d|]; cbn [bv_bits].
    - subst d. destruct (ok1_new 256) as (((H1 & _ & H2 & _) & _) & _). split; [exact H2|]. split; [exact H1|lia].
    - split; [lia|]. split; [exact Hbw|lia]. }
  destruct Hdd as (Hd1l & Hd1w & Hkd).
  destruct (bv_capa_ok junk d1 (Nat.max (round2 W) 4) (bv_size b) k) as (HL & HS & HE & HW & HF & HX);
    fold W; auto; try lia.
  { subst k. destruct dest; lia. }
  fold d2 W in HL, HS, HE, HW, HF, HX. change (bv_ext d1) with ext' in HE, HX.
  set (src := match dest with Some _ => b | None => d2 end).
  assert (Hs : firstn W (bv_bits src) = firstn W (bv_bits b) /\ W <= length (bv_bits src)).
  { subst src k d1 d. destruct dest as [dd|].
    - split; [reflexivity|lia].
    - cbn [bv_bits] in HF. split; [exact HF|]. lia. }
  destruct Hs as (Hs & Hsl).
  destruct (Nat.leb_spec W (length (bv_bits src))); [|lia].
  destruct (Nat.leb_spec W (length (bv_bits d2))); [|lia]. cbn [andb].
  rewrite Hs, HS, HE. set (bits := map wnot (firstn W (bv_bits b)) ++ repeat (ext_word ext') (length (bv_bits d2) - W)).
  assert (Hml : length (map wnot (firstn W (bv_bits b))) = W) by (rewrite map_length, firstn_length; lia).
  assert (Hlb : length bits = length (bv_bits d2)) by (subst bits; rewrite app_length, Hml, repeat_length; lia).
  pose proof (TO_WORD_ub (bv_size b)) as Hub. fold W in Hub.
  assert (HB : forall i, i < 32 * length bits -> wbit bits i = negb (sem b i)).
  { intros i Hi. subst bits. rewrite wbit_app, Hml. destruct (Nat.ltb_spec i (32 * W)) as [Hlt|Hge].
    - rewrite wbit_map_ws by (rewrite firstn_length; lia). rewrite tb_wnot.
      pose proof (Nat.mod_upper_bound i 32 ltac:(lia)). destruct (Nat.ltb_spec (i mod 32) 32); [|lia].
      rewrite andb_true_r, (sem_bits b i) by auto. unfold wbit. rewrite nth_firstn by (apply Nat.div_lt_upper_bound; lia).
      reflexivity.
    - rewrite wbit_repeat_ext by lia. rewrite sem_ext by lia. reflexivity. }
  assert (Hlt : bv_size b < 32 * length bits) by lia.
  set (r := mkBv bits (bv_size b) (bv_count d2) (bv_curr d2) ext').
  destruct (recount_ok r) as (c & Hrec & Hcnt).
  { cbn [r bv_size bv_bits]. apply Nat.div_lt_upper_bound; lia. }
  cbn [r bv_bits bv_size bv_curr bv_ext] in Hrec, Hcnt. fold r in Hrec.
  exists (mkBv bits (bv_size b) c (bv_curr d2) ext'). split; [exact Hrec|].
  assert (Hx : forall i, bv_size b <= i < 32 * length bits -> wbit bits i = ext').
  { intros i Hi. rewrite HB by lia. rewrite sem_ext by lia. reflexivity. }
  split; [|split; [reflexivity|split; [|split]]].
  - split; [split; [|split; [|split]]|]; cbn [bv_bits bv_size bv_ext]; try lia; auto.
    + subst bits. apply Forall_app; split.
      * apply Forall_forall. intros x Hxx. apply in_map_iff in Hxx. destruct Hxx as (y & <- & _). apply word_ok_wnot.
      * apply Forall_forall. intros x Hxx. apply repeat_spec in Hxx; rewrite Hxx. apply word_ok_ext.
    + intros i Hi. apply Hx. fold W in Hi. lia.
  - intros i. unfold sem at 1. cbn [bv_size bv_bits bv_ext]. destruct (Nat.leb_spec (bv_size b) i).
    + rewrite sem_ext by auto. reflexivity.
    + apply HB. lia.
  - intros He. cbn [bv_ext] in He. cbn [bv_count bv_size]. rewrite (Hcnt He).
    + f_equal. apply cnt_eq. intros i Hi. unfold sem. cbn [bv_size bv_bits bv_ext].
      destruct (Nat.leb_spec (bv_size b) i); [lia|reflexivity].
    + intros i Hi. rewrite <- He. apply Hx.
      assert (bv_size b / 32 < length bits) by (apply Nat.div_lt_upper_bound; lia). lia.
  - exact Hlt.
Qed.

(* ------------------------------------------------------------ whole programs *)
Lemma cofinite_upd e ops : cofinite (EUpd e ops) =
  (if existsb (fun o => match o with SClear => true | _ => false end) ops then false else cofinite e).
Proof. reflexivity. Qed.

Lemma set_after_ext ops : forall s s', (forall i, s i = s' i) -> forall j, set_after s ops j = set_after s' ops j.
Proof.
  induction ops as [|o ops IH]; intros s s' H j; cbn [set_after]; auto.
  apply IH. intros i. destruct o; cbn [set_step]; rewrite ?H; reflexivity.
Qed.

Lemma eval_ok junk e : admissible e -> exists b, eval junk e = Some b /\ ok0 b /\ bv_ext b = cofinite e /\
  (forall i, sem b i = den e i) /\ (updatable e = true -> ok1 b) /\ cntok b.
Proof.
  induction e as [c|e IH ops|o ip x IHx y IHy|ip e IH]; intros HA.
  - cbn [eval]. destruct (ok1_new c) as (H1 & H2 & H3). eexists; split; [reflexivity|].
    split; [apply H1|]. split; [reflexivity|]. split; [exact H3|]. split; auto.
  - cbn [admissible] in HA. destruct HA as (HA & HU). destruct (IH HA) as (b & E & H0 & H1 & H2 & H3 & H4).
    cbn [eval]. rewrite E. cbn [obind]. destruct (bv_run_ok ops b (H3 HU)) as (b' & E' & K1 & K2 & K3 & K4).
    exists b'. split; [exact E'|]. split; [apply K1|]. split; [rewrite K2, H1; reflexivity|].
    split; [|split; auto]. intros i. rewrite K3. cbn [den]. apply set_after_ext. exact H2.
  - destruct ip; cbn [admissible] in HA.
    + destruct HA as (HAx & HAy & HU & HC).
      destruct (IHx HAx) as (a & Ea & A0 & A1 & A2 & A3 & A4). destruct (IHy HAy) as (b & Eb & B0 & B1 & B2 & B3 & B4).
      cbn [eval]. rewrite Ea, Eb. cbn [obind]. unfold bv_bin_x.
      destruct (bv_op_ok junk o None a b A0 B0) as (r & E & R0 & R1 & R2 & R3 & R4 & _).
      { split; [auto|]. rewrite A1, B1. exact HC. }
      exists r. split; [exact E|]. split; [exact R0|]. split; [rewrite R1, A1, B1; reflexivity|].
      split; [|split; auto]. intros i. rewrite R2, A2, B2. reflexivity.
    + destruct HA as (HAx & HAy).
      destruct (IHx HAx) as (a & Ea & A0 & A1 & A2 & A3 & A4). destruct (IHy HAy) as (b & Eb & B0 & B1 & B2 & B3 & B4).
      cbn [eval]. rewrite Ea, Eb. cbn [obind]. unfold bv_bin.
      destruct (bv_op_ok junk o (Some bv_new) a b A0 B0) as (r & E & R0 & R1 & R2 & R3 & R4 & _); [reflexivity|].
      exists r. split; [exact E|]. split; [exact R0|]. split; [rewrite R1, A1, B1; reflexivity|].
      split; [|split; auto]. { intros i. rewrite R2, A2, B2. reflexivity. }
      cbn [updatable cofinite]. intros HU. apply R3. rewrite A1, B1. destruct (bool_op o (cofinite x) (cofinite y)); [discriminate|reflexivity].
  - assert (HA' : admissible e) by exact HA. destruct (IH HA') as (b & E & H0 & H1 & H2 & H3 & H4).
    destruct ip; cbn [eval]; rewrite E; cbn [obind]; unfold bv_not_x, bv_not.
    + destruct (bv_not_ok junk None b H0 I) as (r & Er & R0 & R1 & R2 & R3 & _).
      exists r. split; [exact Er|]. split; [apply R0|]. split; [rewrite R1, H1; reflexivity|].
      split; [|split; auto]. intros i. rewrite R2, H2. reflexivity.
    + destruct (bv_not_ok junk (Some bv_new) b H0 eq_refl) as (r & Er & R0 & R1 & R2 & R3 & _).
      exists r. split; [exact Er|]. split; [apply R0|]. split; [rewrite R1, H1; reflexivity|].
      split; [|split; auto]. intros i. rewrite R2, H2. reflexivity.
Qed.

(* ------------------------------------------------------------ scanning *)
Lemma find_seq f n : forall a,
  match find f (seq a n) with
  | Some k => a <= k < a + n /\ f k = true /\ forall j, a <= j < k -> f j = false
  | None => forall j, a <= j < a + n -> f j = false
  end.
Proof.
  induction n as [|n IH]; intros a; cbn [seq find].
  - intros; lia.
  - destruct (f a) eqn:E.
    + split; [lia|]. split; auto. intros; lia.
    + specialize (IH (S a)). destruct (find f (seq (S a) n)) as [k|].
      * destruct IH as (H1 & H2 & H3). split; [lia|]. split; auto. intros j Hj.
        destruct (Nat.eq_dec j a); [subst; auto|]. apply H3; lia.
      * intros j Hj. destruct (Nat.eq_dec j a); [subst; auto|]. apply IH; lia.
Qed.
Lemma ctz_spec w : word_ok w -> w <> 0%Z -> ctz w < 32 /\ tb w (ctz w) = true /\ forall k, k < ctz w -> tb w k = false.
Proof.
  intros Hw Hn. unfold ctz. pose proof (find_seq (tb w) 32 0) as H. destruct (find (tb w) (seq 0 32)) as [k|].
  - destruct H as (H1 & H2 & H3). split; [lia|]. split; auto. intros j Hj; apply H3; lia.
  - exfalso. apply Hn. apply word_ext; auto using word_ok_0. intros k Hk. rewrite tb_0. apply H. lia.
Qed.
Lemma scan_words_ok p fuel : forall pos n ws, n <= length ws -> n <= pos + fuel ->
  exists r, scan_words p fuel pos n ws = Some r /\
  match r with
  | None => forall q, pos <= q < n -> p (nth q ws 0%Z) = false
  | Some (q, w) => pos <= q < n /\ w = nth q ws 0%Z /\ p w = true /\ forall q', pos <= q' < q -> p (nth q' ws 0%Z) = false
  end.
Proof.
  induction fuel as [|fuel IH]; intros pos n ws Hn Hf; cbn [scan_words].
  - exists None; split; auto. intros; lia.
  - destruct (Nat.ltb_spec pos n).
    + rewrite (nth_error_nth_len _ _ 0%Z) by lia. cbn [obind]. destruct (p (nth pos ws 0%Z)) eqn:E.
      * eexists; split; [reflexivity|]. cbn. split; [lia|]. split; auto. split; auto. intros; lia.
      * destruct (IH (S pos) n ws Hn ltac:(lia)) as (r & -> & Hr). exists r; split; auto.
        destruct r as [[q w]|].
        -- destruct Hr as (H1 & H2 & H3 & H4). split; [lia|]. split; auto. split; auto. intros q' Hq'.
           destruct (Nat.eq_dec q' pos); [subst q'; auto|]. apply H4; lia.
        -- intros q Hq. destruct (Nat.eq_dec q pos); [subst q; auto|]. apply Hr; lia.
    + exists None; split; auto. intros; lia.
Qed.

Lemma div_mod_32 i : i = 32 * (i / 32) + i mod 32 /\ i mod 32 < 32.
Proof. split; [apply Nat.div_mod; lia|apply Nat.mod_upper_bound; lia]. Qed.
Lemma div_mod_mk q k : k < 32 -> (32 * q + k) / 32 = q /\ (32 * q + k) mod 32 = k.
Proof.
  intros H. rewrite Nat.mul_comm, Nat.add_comm, Nat.div_add, Nat.mod_add by lia.
  rewrite Nat.div_small, Nat.mod_small by lia. auto.
Qed.

Lemma scan_core g word ws n bit (h : nat -> bool) :
  n <= length ws -> bit < 32 * n -> (forall w, word_ok w -> word_ok (g w)) -> Forall word_ok ws -> word_ok (g word) ->
  (forall i, i < 32 * n -> h i = tb (g (nth (i / 32) ws 0%Z)) (i mod 32)) ->
  (forall k, k < 32 -> tb (g word) k = (bit mod 32 <=? k) && tb (g (nth (bit / 32) ws 0%Z)) k) ->
  exists r, (if (g word =? 0)%Z then scan_words (fun w => negb (g w =? 0)%Z) (length ws) (S (bit / 32)) n ws
             else Some (Some (bit / 32, word))) = Some r /\
  match r with
  | None => forall i, bit <= i < 32 * n -> h i = false
  | Some (pos, w) => bit <= 32 * pos + ctz (g w) < 32 * n /\ h (32 * pos + ctz (g w)) = true /\
                     (forall i, bit <= i < 32 * pos + ctz (g w) -> h i = false)
  end.
Proof.
  intros Hn Hb Hg Hws Hgw Hh Hword.
  pose proof (div_mod_32 bit) as [Eb Hbm].
  assert (Hq : bit / 32 < n) by lia.
  assert (Hcur : forall i, i / 32 = bit / 32 -> bit <= i -> h i = tb (g word) (i mod 32)).
  { intros i Ei Hi. pose proof (div_mod_32 i) as [Ei2 Him].
    rewrite Hword by auto. destruct (Nat.leb_spec (bit mod 32) (i mod 32)); [|lia]. cbn [andb].
    rewrite <- Ei. apply Hh. lia. }
  assert (Hnok : forall q, q < n -> word_ok (g (nth q ws 0%Z))).
  { intros q Hq'. apply Hg. rewrite Forall_forall in Hws. apply Hws. apply nth_In. lia. }
  destruct (Z.eqb_spec (g word) 0) as [E|E].
  - destruct (scan_words_ok (fun w => negb (g w =? 0)%Z) (length ws) (S (bit / 32)) n ws Hn ltac:(lia)) as (r & -> & Hr).
    exists r; split; auto.
    assert (Hz : forall i, bit <= i -> i / 32 = bit / 32 -> h i = false).
    { intros i Hi Ei. rewrite Hcur by auto. rewrite E. apply tb_0. }
    assert (Hz2 : forall q i, i / 32 = q -> q < n -> negb (g (nth q ws 0%Z) =? 0)%Z = false -> h i = false).
    { intros q i Ei Hq' Hp. pose proof (div_mod_32 i). rewrite Hh by lia. rewrite Ei.
      destruct (Z.eqb_spec (g (nth q ws 0%Z)) 0) as [->|]; [apply tb_0|discriminate]. }
    destruct r as [[pos w]|].
    + destruct Hr as (H1 & -> & H3 & H4). 
      destruct (ctz_spec (g (nth pos ws 0%Z))) as (K1 & K2 & K3); [apply Hnok; lia| |].
      { destruct (Z.eqb_spec (g (nth pos ws 0%Z)) 0); [discriminate|auto]. }
      set (c := ctz (g (nth pos ws 0%Z))) in *.
      destruct (div_mod_mk pos c K1) as [D1 D2].
      split; [lia|]. split; [rewrite Hh by lia; rewrite D1, D2; exact K2|].
      intros i Hi. pose proof (div_mod_32 i) as [Ei Him].
      destruct (Nat.eq_dec (i / 32) (bit / 32)) as [Ed|Ed]; [apply Hz; lia|].
      destruct (Nat.eq_dec (i / 32) pos) as [Ep|Ep].
      * rewrite Hh by lia. rewrite Ep. apply K3. lia.
      * apply (Hz2 (i / 32)); [auto|lia|]. apply (H4 (i / 32)). lia.
    + intros i Hi. pose proof (div_mod_32 i) as [Ei Him].
      destruct (Nat.eq_dec (i / 32) (bit / 32)) as [Ed|Ed]; [apply Hz; lia|].
      apply (Hz2 (i / 32)); [auto|lia|]. apply (Hr (i / 32)). lia.
  - eexists; split; [reflexivity|]. cbn beta iota.
    destruct (ctz_spec (g word) Hgw E) as (K1 & K2 & K3). set (c := ctz (g word)) in *.
    destruct (div_mod_mk (bit / 32) c K1) as [D1 D2].
    assert (Hc : bit mod 32 <= c).
    { pose proof (Hword c K1) as Hx. rewrite K2 in Hx. destruct (Nat.leb_spec (bit mod 32) c); [auto|discriminate]. }
    split; [lia|]. split; [rewrite Hcur by lia; rewrite D2; exact K2|].
    intros i Hi. pose proof (div_mod_32 i) as [Ei Him].
    assert (i / 32 = bit / 32) by lia. rewrite Hcur by lia. apply K3. lia.
Qed.

Definition with_curr (b : bv) (c : Z) : bv := mkBv (bv_bits b) (bv_size b) (bv_count b) c (bv_ext b).

Lemma scan_next_from_ok b bit : ok0 b -> bit / 32 < length (bv_bits b) ->
  (bv_scan_next_from b bit = Some ((-1)%Z, b) /\ forall i, bit <= i < bv_size b -> sem b i = false) \/
  (exists j, bv_scan_next_from b bit = Some (Z.of_nat j, with_curr b (Z.of_nat j)) /\
     bit <= j /\ sem b j = true /\ bit < bv_size b /\ forall i, bit <= i < j -> sem b i = false).
Proof.
  intros Hok Hl. pose proof Hok as (Hw & Hs & Hlen & _). unfold bv_scan_next_from.
  rewrite (nth_error_nth_len _ _ 0%Z Hl). cbn [obind].
  destruct (Nat.leb_spec (bv_size b) bit) as [Hge|Hlt].
  { left; split; [reflexivity|]. intros; lia. }
  set (w0 := nth (bit / 32) (bv_bits b) 0%Z).
  set (mask := (Z.shiftl (Z.ones 32) (Z.of_nat (bit mod 32)) mod 2 ^ 32)%Z).
  pose proof (div_mod_32 bit) as [Eb Hbm].
  assert (Hmask : forall k, k < 32 -> tb mask k = (bit mod 32 <=? k)).
  { intros k Hk. unfold mask, tb. rewrite Z.mod_pow2_bits_low by lia. rewrite Z.shiftl_spec by lia.
    rewrite Z.testbit_ones by lia. destruct (Nat.leb_spec (bit mod 32) k); lia. }
  assert (Hm0 : (0 <= mask)%Z) by (unfold mask; apply Z.mod_pos_bound; reflexivity).
  assert (Hw0 : word_ok w0) by (rewrite Forall_forall in Hw; apply Hw; apply nth_In; auto).
  pose proof (TO_WORD_len b Hok) as HT. pose proof (TO_WORD_ub (bv_size b)) as HU.
  destruct (scan_core (fun w => w) (Z.land w0 mask) (bv_bits b) (TO_WORD (bv_size b)) bit (sem b)) as (r & Hr & Hsp);
    auto; try lia.
  { apply word_ok_land; auto. }
  { intros i Hi. rewrite sem_bits by auto. reflexivity. }
  { intros k Hk. rewrite tb_land, Hmask by auto. rewrite andb_comm. reflexivity. }
  cbn beta in Hr. rewrite Hr. cbn [obind]. destruct r as [[pos w]|].
  - right. destruct Hsp as (H1 & H2 & H3). exists (32 * pos + ctz w). split; [reflexivity|].
    split; [lia|]. split; [exact H2|]. split; [lia|exact H3].
  - left. split; [reflexivity|]. intros i Hi. apply Hsp. lia.
Qed.

Lemma scan_next_unset_ok b bit : ok0 b -> bit / 32 < length (bv_bits b) ->
  (bv_scan_next_unset_from b bit = Some ((-1)%Z, b) /\ forall i, bit <= i < bv_size b -> sem b i = true) \/
  (exists j, bv_scan_next_unset_from b bit = Some (Z.of_nat j, with_curr b (Z.of_nat j)) /\
     bit <= j /\ sem b j = false /\ bit < bv_size b /\ forall i, bit <= i < j -> sem b i = true).
Proof.
  intros Hok Hl. pose proof Hok as (Hw & Hs & Hlen & _). unfold bv_scan_next_unset_from.
  rewrite (nth_error_nth_len _ _ 0%Z Hl). cbn [obind].
  destruct (Nat.leb_spec (bv_size b) bit) as [Hge|Hlt].
  { left; split; [reflexivity|]. intros; lia. }
  set (w0 := nth (bit / 32) (bv_bits b) 0%Z).
  set (mask := (Z.shiftl 1 (Z.of_nat (bit mod 32)) - 1)%Z).
  pose proof (div_mod_32 bit) as [Eb Hbm].
  assert (Hmask : forall k, tb mask k = negb (bit mod 32 <=? k)).
  { intros k. unfold mask, tb.
    replace (Z.shiftl 1 (Z.of_nat (bit mod 32)) - 1)%Z with (Z.ones (Z.of_nat (bit mod 32))) by (unfold Z.ones; lia).
    rewrite Z.testbit_ones by lia. destruct (Nat.leb_spec (bit mod 32) k); cbn [negb]; lia. }
  pose proof (TO_WORD_len b Hok) as HT. pose proof (TO_WORD_ub (bv_size b)) as HU.
  destruct (scan_core wnot (Z.lor w0 mask) (bv_bits b) (TO_WORD (bv_size b)) bit (fun i => negb (sem b i))) as (r & Hr & Hsp);
    auto; try lia.
  { intros; apply word_ok_wnot. }
  { apply word_ok_wnot. }
  { intros i Hi. rewrite sem_bits by auto. rewrite tb_wnot. unfold wbit.
    pose proof (div_mod_32 i) as [_ Hi2]. destruct (Nat.ltb_spec (i mod 32) 32); [|lia]. rewrite andb_true_r. reflexivity. }
  { intros k Hk. rewrite !tb_wnot, tb_lor, Hmask. fold w0. destruct (Nat.ltb_spec k 32); [|lia].
    rewrite !andb_true_r. destruct (tb w0 k), (bit mod 32 <=? k); reflexivity. }
  rewrite Hr. cbn [obind]. destruct r as [[pos w]|].
  - right. destruct Hsp as (H1 & H2 & H3). exists (32 * pos + cto w). split; [reflexivity|].
    unfold cto. split; [lia|]. split; [apply negb_true_iff; exact H2|]. split; [lia|].
    intros i Hi. apply negb_false_iff. apply H3. exact Hi.
  - left. split; [reflexivity|]. intros i Hi. apply negb_false_iff. apply Hsp. lia.
Qed.

Lemma filter_seq_skip (f : nat -> bool) n m : forall a, a + n = m -> forall j, a <= j -> j < m ->
  (forall i, a <= i < j -> f i = false) -> f j = true ->
  filter f (seq a n) = j :: filter f (seq (S j) (m - S j)).
Proof.
  induction n as [|n IH]; intros a Ha j Hj Hjm H Hf; [lia|]. cbn [seq filter].
  destruct (Nat.eq_dec a j) as [->|Hn].
  - rewrite Hf. f_equal. f_equal. f_equal. lia.
  - rewrite H by lia. apply IH; auto; try lia. intros; apply H; lia.
Qed.
Lemma filter_none (f : nat -> bool) l : (forall i, In i l -> f i = false) -> filter f l = [].
Proof. induction l; intros H; cbn; auto. rewrite H by (left; auto). apply IHl. intros; apply H; right; auto. Qed.

Lemma with_curr_facts b c : ok0 b -> ok0 (with_curr b c) /\ (forall i, sem (with_curr b c) i = sem b i).
Proof. intros H. split; [exact H|reflexivity]. Qed.

Lemma scan_all_ok fuel : forall b, ok0 b -> bv_ext b = false -> bv_size b < 32 * length (bv_bits b) ->
  (-1 <= bv_curr b)%Z -> Z.to_nat (bv_curr b + 1) <= bv_size b ->
  length (filter (sem b) (seq (Z.to_nat (bv_curr b + 1)) (bv_size b - Z.to_nat (bv_curr b + 1)))) < fuel ->
  scan_all fuel b = Some (filter (sem b) (seq (Z.to_nat (bv_curr b + 1)) (bv_size b - Z.to_nat (bv_curr b + 1)))).
Proof.
  induction fuel as [|fuel IH]; intros b Hok He Hsz Hc Hcs Hlen; [lia|].
  cbn [scan_all]. unfold bv_scan_next. set (c := Z.to_nat (bv_curr b + 1)) in *.
  assert (Hd : c / 32 < length (bv_bits b)) by (apply Nat.div_lt_upper_bound; lia).
  destruct (scan_next_from_ok b c Hok Hd) as [(-> & Hn)|(j & -> & Hj1 & Hj2 & Hj3 & Hj4)]; cbn [obind fst snd].
  - cbn [Z.eqb]. rewrite Z.eqb_refl || idtac. cbn. rewrite filter_none; auto.
    intros i Hi. apply in_seq in Hi. apply Hn. lia.
  - assert (Hjs : j < bv_size b).
    { destruct (Nat.lt_ge_cases j (bv_size b)); auto. rewrite sem_ext in Hj2 by auto. congruence. }
    destruct (Z.eqb_spec (Z.of_nat j) (-1)); [lia|].
    pose proof (filter_seq_skip (sem b) (bv_size b - c) (bv_size b) c ltac:(lia) j Hj1 Hjs Hj4 Hj2) as HF.
    rewrite HF in Hlen |- *. cbn [length] in Hlen.
    rewrite (IH (with_curr b (Z.of_nat j))).
    + cbn [obind]. rewrite Nat2Z.id. cbn [with_curr bv_curr bv_size].
      replace (Z.to_nat (Z.of_nat j + 1)) with (S j) by lia. reflexivity.
    + exact Hok.
    + exact He.
    + exact Hsz.
    + cbn [with_curr bv_curr]. lia.
    + cbn [with_curr bv_curr bv_size]. lia.
    + cbn [with_curr bv_curr bv_size]. replace (Z.to_nat (Z.of_nat j + 1)) with (S j) by lia.
      apply (Nat.lt_le_trans _ _ _ (Nat.lt_succ_diag_r _)). apply Nat.lt_succ_r. exact Hlen.
Qed.

Lemma seq_sorted n : forall a, StronglySorted lt (seq a n).
Proof.
  induction n as [|n IH]; intros a; cbn; constructor; auto.
  apply Forall_forall. intros x Hx. apply in_seq in Hx. lia.
Qed.
Lemma filter_sorted (f : nat -> bool) l : StronglySorted lt l -> StronglySorted lt (filter f l).
Proof.
  induction 1 as [|x l Hs IH Hf]; cbn; [constructor|]. destruct (f x); auto. constructor; auto.
  rewrite Forall_forall in *. intros y Hy. apply filter_In in Hy. apply Hf. tauto.
Qed.
Lemma members_lists b : bv_ext b = false -> lists (filter (sem b) (seq 0 (bv_size b))) (sem b).
Proof.
  intros He. split; [apply filter_sorted, seq_sorted|]. intros i. rewrite filter_In, in_seq. split; [tauto|].
  intros H. split; auto. split; [lia|]. destruct (Nat.lt_ge_cases i (bv_size b)); auto.
  rewrite sem_ext in H by auto. congruence.
Qed.
Lemma lists_ext l s s' : (forall i, s i = s' i) -> lists l s -> lists l s'.
Proof. intros H (H1 & H2). split; auto. intros i. rewrite H2, H. tauto. Qed.

Lemma eval_count junk e b : admissible e -> cofinite e = false -> eval junk e = Some b ->
  exists l, lists l (den e) /\ bv_count b = Z.of_nat (length l).
Proof.
  intros HA HC HE. destruct (eval_ok junk e HA) as (b' & E & H0 & H1 & H2 & _ & H4).
  rewrite HE in E. apply some_inj in E. subst b'. rewrite HC in H1.
  exists (filter (sem b) (seq 0 (bv_size b))). split.
  - apply lists_ext with (sem b); auto. apply members_lists; auto.
  - rewrite (H4 H1), cnt_filter. reflexivity.
Qed.

Lemma eval_scan junk e b : admissible e -> cofinite e = false -> eval junk e = Some b ->
  bv_size b < 32 * length (bv_bits b) ->
  exists l, lists l (den e) /\ forall n, length l < n -> scan_all n (bv_scan_reset b) = Some l.
Proof.
  intros HA HC HE Hsz. destruct (eval_ok junk e HA) as (b' & E & H0 & H1 & H2 & _ & H4).
  rewrite HE in E. apply some_inj in E. subst b'. rewrite HC in H1.
  exists (filter (sem b) (seq 0 (bv_size b))). split.
  - apply lists_ext with (sem b); auto. apply members_lists; auto.
  - intros n Hn. rewrite (scan_all_ok n (bv_scan_reset b)); auto.
    + cbn. rewrite Nat.sub_0_r. reflexivity.
    + cbn; lia.
    + cbn; lia.
    + cbn. rewrite Nat.sub_0_r. exact Hn.
Qed.

Definition is_operation (e : bexpr) : Prop := match e with EBin _ _ _ _ | ENot _ _ => True | _ => False end.
Lemma eval_room junk e b : admissible e -> is_operation e -> eval junk e = Some b -> bv_size b < 32 * length (bv_bits b).
Proof.
  intros HA HO HE. destruct e as [c|e ops|o ip x y|ip e]; try contradiction.
  - destruct ip; cbn [admissible] in HA.
    + destruct HA as (HAx & HAy & HU & HC).
      destruct (eval_ok junk x HAx) as (a & Ea & A0 & A1 & A2 & A3 & A4). destruct (eval_ok junk y HAy) as (b0 & Eb & B0 & B1 & B2 & B3 & B4).
      cbn [eval] in HE. rewrite Ea, Eb in HE. cbn [obind] in HE. unfold bv_bin_x in HE.
      destruct (bv_op_ok junk o None a b0 A0 B0) as (r & E & R0 & R1 & R2 & R3 & R4 & R5).
      { split; [auto|]. rewrite A1, B1. exact HC. }
      rewrite E in HE. apply some_inj in HE. subst; auto.
    + destruct HA as (HAx & HAy).
      destruct (eval_ok junk x HAx) as (a & Ea & A0 & A1 & A2 & A3 & A4). destruct (eval_ok junk y HAy) as (b0 & Eb & B0 & B1 & B2 & B3 & B4).
      cbn [eval] in HE. rewrite Ea, Eb in HE. cbn [obind] in HE. unfold bv_bin in HE.
      destruct (bv_op_ok junk o (Some bv_new) a b0 A0 B0) as (r & E & R0 & R1 & R2 & R3 & R4 & R5); [reflexivity|].
      rewrite E in HE. apply some_inj in HE. subst; auto.
  - assert (HA' : admissible e) by exact HA. destruct (eval_ok junk e HA') as (b0 & E & H0 & H1 & H2 & H3 & H4).
    destruct ip; cbn [eval] in HE; rewrite E in HE; cbn [obind] in HE; unfold bv_not_x, bv_not in HE.
    + destruct (bv_not_ok junk None b0 H0 I) as (r & Er & R0 & R1 & R2 & R3 & R4).
      rewrite Er in HE. apply some_inj in HE. subst; auto.
    + destruct (bv_not_ok junk (Some bv_new) b0 H0 eq_refl) as (r & Er & R0 & R1 & R2 & R3 & R4).
      rewrite Er in HE. apply some_inj in HE. subst; auto.
Qed.

(* ------------------------------------------------------------ equality and hash *)
Lemma words_eq_ok n : forall a b, n <= length a -> n <= length b ->
  exists r, words_eq n a b = Some r /\ (r = true <-> firstn n a = firstn n b).
Proof.
  induction n as [|n IH]; intros a b Ha Hb; cbn [words_eq].
  - exists true; split; auto. cbn. tauto.
  - destruct a as [|x a], b as [|y b]; cbn [length] in *; try lia. cbn [firstn].
    destruct (Z.eqb_spec x y) as [->|Hn].
    + destruct (IH a b ltac:(lia) ltac:(lia)) as (r & -> & Hr). exists r; split; auto. rewrite Hr.
      split; intros H; [f_equal; auto|congruence].
    + exists false; split; auto. split; intros; congruence.
Qed.
Lemma words_all_ok n e : forall a, n <= length a ->
  exists r, words_all n e a = Some r /\ (r = true <-> firstn n a = repeat e n).
Proof.
  induction n as [|n IH]; intros a Ha; cbn [words_all].
  - exists true; split; auto. cbn. tauto.
  - destruct a as [|x a]; cbn [length] in *; try lia. cbn [firstn repeat].
    destruct (Z.eqb_spec x e) as [->|Hn].
    + destruct (IH a ltac:(lia)) as (r & -> & Hr). exists r; split; auto. rewrite Hr.
      split; intros H; [f_equal; auto|congruence].
    + exists false; split; auto. split; intros; congruence.
Qed.

(* two vectors with the same set have the same used words, up to words equal to the extension *)
Lemma same_words a b : ok0 a -> ok0 b -> (forall i, sem a i = sem b i) ->
  TO_WORD (bv_size b) <= TO_WORD (bv_size a) ->
  firstn (TO_WORD (bv_size a)) (bv_bits a) =
  firstn (TO_WORD (bv_size b)) (bv_bits b) ++ repeat (ext_word (bv_ext a)) (TO_WORD (bv_size a) - TO_WORD (bv_size b)).
Proof.
  intros Ha Hb H Hle. pose proof (TO_WORD_len a Ha) as La. pose proof (TO_WORD_len b Hb) as Lb.
  pose proof (TO_WORD_ub (bv_size b)) as Ub.
  assert (HE : bv_ext b = bv_ext a).
  { rewrite <- (sem_ext a (bv_size a + bv_size b)), <- (sem_ext b (bv_size a + bv_size b)) by lia. symmetry; apply H. }
  set (A := TO_WORD (bv_size a)) in *. set (B := TO_WORD (bv_size b)) in *.
  apply nth_ext with (d := 0%Z) (d' := 0%Z).
  { rewrite app_length, !firstn_length, repeat_length. lia. }
  intros n Hn. rewrite firstn_length, Nat.min_l in Hn by lia. rewrite nth_firstn by auto.
  assert (Wa : word_ok (nth n (bv_bits a) 0%Z)).
  { destruct Ha as (Hw & _). rewrite Forall_forall in Hw. apply Hw, nth_In. lia. }
  assert (Hbit : forall k, k < 32 -> tb (nth n (bv_bits a) 0%Z) k = sem a (32 * n + k)).
  { intros k Hk. rewrite sem_bits by (auto; fold A; lia). unfold wbit.
    destruct (div_mod_mk n k Hk) as [-> ->]. reflexivity. }
  destruct (Nat.lt_ge_cases n B) as [Hlt|Hge].
  - rewrite app_nth1 by (rewrite firstn_length; lia). rewrite nth_firstn by auto.
    apply word_ext; auto.
    { destruct Hb as (Hw & _). rewrite Forall_forall in Hw. apply Hw, nth_In. lia. }
    intros k Hk. rewrite Hbit, H by auto. rewrite sem_bits by (auto; fold B; lia). unfold wbit.
    destruct (div_mod_mk n k Hk) as [-> ->]. reflexivity.
  - rewrite app_nth2 by (rewrite firstn_length; lia).
    rewrite nth_indep with (l := repeat (ext_word (bv_ext a)) (A - B)) (d' := ext_word (bv_ext a)).
    2:{ rewrite firstn_length, repeat_length. lia. }
    rewrite nth_repeat. apply word_ext; auto using word_ok_ext. intros k Hk. rewrite Hbit, H by auto.
    rewrite tb_ext_word by auto. rewrite <- HE. apply sem_ext. lia.
Qed.

Lemma same_sem_half a b : ok0 a -> ok0 b -> bv_ext a = bv_ext b ->
  TO_WORD (bv_size b) <= TO_WORD (bv_size a) ->
  firstn (TO_WORD (bv_size b)) (bv_bits a) = firstn (TO_WORD (bv_size b)) (bv_bits b) ->
  firstn (TO_WORD (bv_size a) - TO_WORD (bv_size b)) (skipn (TO_WORD (bv_size b)) (bv_bits a)) =
    repeat (ext_word (bv_ext a)) (TO_WORD (bv_size a) - TO_WORD (bv_size b)) ->
  forall i, sem a i = sem b i.
Proof.
  intros Ha Hb HE Hle H1 H2 i. pose proof (TO_WORD_ub (bv_size b)) as Ub. pose proof (TO_WORD_ub (bv_size a)) as Ua.
  destruct (Nat.lt_ge_cases i (32 * TO_WORD (bv_size b))) as [Hlt|Hge].
  - rewrite !sem_bits by (auto; lia). apply (wbit_firstn_eq _ _ _ _ H1 Hlt).
  - rewrite (sem_ext b) by lia. destruct (Nat.lt_ge_cases i (32 * TO_WORD (bv_size a))) as [Hlt|Hge2].
    + rewrite sem_bits by (auto; lia).
      replace i with (32 * TO_WORD (bv_size b) + (i - 32 * TO_WORD (bv_size b))) by lia.
      rewrite <- wbit_skipn.
      rewrite <- (wbit_firstn (TO_WORD (bv_size a) - TO_WORD (bv_size b))) by lia.
      rewrite H2, wbit_repeat_ext by lia. exact HE.
    + rewrite sem_ext by lia. exact HE.
Qed.

Lemma bv_eq_ok a b : ok0 a -> ok0 b -> exists r, bv_eq a b = Some r /\ (r = true <-> forall i, sem a i = sem b i).
Proof.
  intros Ha Hb. unfold bv_eq.
  pose proof (TO_WORD_len a Ha) as La. pose proof (TO_WORD_len b Hb) as Lb.
  destruct (Bool.eqb (bv_ext a) (bv_ext b)) eqn:Ee; cbn [negb].
  2:{ exists false; split; auto. split; [discriminate|]. intros H.
      apply Bool.eqb_false_iff in Ee. elim Ee.
      rewrite <- (sem_ext a (bv_size a + bv_size b)), <- (sem_ext b (bv_size a + bv_size b)) by lia. apply H. }
  apply Bool.eqb_prop in Ee. rewrite TO_WORD_min.
  set (A := TO_WORD (bv_size a)) in *. set (B := TO_WORD (bv_size b)) in *.
  destruct (words_eq_ok (Nat.min A B) (bv_bits a) (bv_bits b)) as (r & -> & Hr); try lia. cbn [obind].
  destruct r.
  2:{ exists false; split; auto. split; [discriminate|]. intros H. apply Hr.
      destruct (Nat.le_ge_cases B A) as [Hle|Hle].
      - pose proof (same_words a b Ha Hb H Hle) as HS. fold A B in HS.
        rewrite Nat.min_r by lia. apply (f_equal (firstn B)) in HS. rewrite firstn_firstn, Nat.min_l in HS by lia.
        rewrite HS, firstn_app, firstn_length, Nat.min_l by lia. rewrite Nat.sub_diag, firstn_O, app_nil_r, firstn_firstn, Nat.min_id. reflexivity.
      - pose proof (same_words b a Hb Ha (fun i => eq_sym (H i)) Hle) as HS. fold A B in HS.
        rewrite Nat.min_l by lia. apply (f_equal (firstn A)) in HS. rewrite firstn_firstn, Nat.min_l in HS by lia.
        rewrite HS, firstn_app, firstn_length, Nat.min_l by lia. rewrite Nat.sub_diag, firstn_O, app_nil_r, firstn_firstn, Nat.min_id. reflexivity. }
  assert (Hfull : firstn (Nat.min A B) (bv_bits a) = firstn (Nat.min A B) (bv_bits b)) by (apply Hr; reflexivity).
  assert (HAB : (bv_size b <= bv_size a -> B <= A) /\ (bv_size a <= bv_size b -> A <= B)).
  { split; intros; unfold A, B; apply TO_WORD_le; [pose proof (TO_WORD_ub (bv_size a))|pose proof (TO_WORD_ub (bv_size b))]; lia. }
  destruct HAB as [HAB1 HAB2].
  (* the remaining words of the longer vector *)
  assert (Hlong : forall x y X Y, ok0 x -> ok0 y -> X = TO_WORD (bv_size x) -> Y = TO_WORD (bv_size y) -> Y <= X ->
     bv_ext x = bv_ext y -> firstn Y (bv_bits x) = firstn Y (bv_bits y) ->
     exists r, (if X =? 0 then Some true else words_all (X - Y) (ext_word (bv_ext x)) (skipn Y (bv_bits x))) = Some r /\
       (r = true <-> forall i, sem x i = sem y i)).
  { intros x y X Y Hx Hy -> -> Hle Hxy Hf. pose proof (TO_WORD_len x Hx).
    destruct (Nat.eqb_spec (TO_WORD (bv_size x)) 0) as [E0|E0].
    - exists true; split; auto. split; auto. intros _. apply same_sem_half; auto. rewrite E0. reflexivity.
    - destruct (words_all_ok (TO_WORD (bv_size x) - TO_WORD (bv_size y)) (ext_word (bv_ext x)) (skipn (TO_WORD (bv_size y)) (bv_bits x))) as (r & -> & Hrr).
      { rewrite skipn_length. lia. }
      exists r; split; auto. rewrite Hrr. split.
      + intros H1. apply same_sem_half; auto.
      + intros H1. pose proof (same_words x y Hx Hy H1 Hle) as HS.
        apply (f_equal (skipn (TO_WORD (bv_size y)))) in HS.
        rewrite skipn_app, skipn_firstn_comm, firstn_length in HS.
        pose proof (TO_WORD_len y Hy). rewrite Nat.min_l, Nat.sub_diag in HS by lia. cbn [skipn] in HS.
        rewrite HS. rewrite skipn_all2; [reflexivity|]. rewrite firstn_length. lia. }
  destruct (Nat.ltb_spec (Nat.min (bv_size a) (bv_size b)) (bv_size a)) as [H1|H1].
  - rewrite (Nat.min_r A B) in * by lia. apply Hlong; auto. lia.
  - destruct (Nat.ltb_spec (Nat.min (bv_size a) (bv_size b)) (bv_size b)) as [H2|H2].
    + rewrite (Nat.min_l A B) in * by lia. rewrite Ee.
      destruct (Hlong b a B A Hb Ha eq_refl eq_refl) as (r & Hr1 & Hr2); auto; try lia.
      exists r; split; auto. rewrite Hr2. split; intros H i; auto.
    + assert (bv_size a = bv_size b) by lia. assert (A = B) by (subst A B; congruence). cbn [Nat.eqb].
      exists true; split; auto. split; auto. intros _. apply same_sem_half; auto.
      * fold A B. lia.
      * fold B. rewrite Nat.min_r in Hfull by lia. exact Hfull.
      * fold A B. replace (A - B) with 0 by lia. reflexivity.
Qed.

Lemma hash_words_trail e k : forall ws, hash_words e (ws ++ repeat e k) = hash_words e ws.
Proof.
  induction ws as [|w ws IH]; cbn [app hash_words]; [|rewrite IH; reflexivity].
  induction k as [|k IHk]; cbn [repeat hash_words]; auto. rewrite Z.eqb_refl. exact IHk.
Qed.
Lemma bv_hash_ok a b : ok0 a -> ok0 b -> (forall i, sem a i = sem b i) ->
  exists h, bv_hash a = Some h /\ bv_hash b = Some h.
Proof.
  intros Ha Hb H. unfold bv_hash. pose proof (TO_WORD_len a Ha) as La. pose proof (TO_WORD_len b Hb) as Lb.
  destruct (Nat.leb_spec (TO_WORD (bv_size a)) (length (bv_bits a))); [|lia].
  destruct (Nat.leb_spec (TO_WORD (bv_size b)) (length (bv_bits b))); [|lia].
  assert (HE : bv_ext a = bv_ext b).
  { rewrite <- (sem_ext a (bv_size a + bv_size b)), <- (sem_ext b (bv_size a + bv_size b)) by lia. apply H. }
  eexists; split; [reflexivity|]. f_equal. rewrite HE.
  destruct (Nat.le_ge_cases (TO_WORD (bv_size b)) (TO_WORD (bv_size a))) as [Hle|Hle].
  - rewrite (same_words a b Ha Hb H Hle), HE, hash_words_trail. reflexivity.
  - rewrite (same_words b a Hb Ha (fun i => eq_sym (H i)) Hle), hash_words_trail. reflexivity.
Qed.

(* ------------------------------------------------------------ set_fast *)
Lemma set_fast_ok b bit : ok1 b -> bv_ext b = false -> bv_size b <= bit -> bit < 32 * length (bv_bits b) ->
  exists b', bv_set_fast b bit = Some b' /\ bv_set b bit = Some b'.
Proof.
  intros H1 He Hs Hb. pose proof H1 as ((Hw & Hsz & Hl & _) & Hx).
  unfold bv_set_fast, bv_set, bv_set_value.
  assert (Hd : bit / 32 < length (bv_bits b)) by (apply Nat.div_lt_upper_bound; lia).
  destruct (Nat.leb_spec (bv_size b) bit); [|lia]. destruct (Nat.leb_spec (length (bv_bits b)) (bit / 32)); [lia|].
  cbn [obind bv_bits]. rewrite (nth_error_nth_len _ _ 0%Z Hd). cbn [obind]. rewrite nonzero_bit.
  assert (Hbf : tb (nth (bit / 32) (bv_bits b) 0%Z) (bit mod 32) = false).
  { rewrite <- He. apply (Hx bit). lia. }
  rewrite Hbf. cbn [Bool.eqb]. eexists; split; reflexivity.
Qed.

Fixpoint run_fast (b : bv) (l : list nat) : option bv :=
  match l with [] => Some b | i :: t => do b1 <- bv_set_fast b i; run_fast b1 t end.
Lemma set_value_len b bit v b' : bv_set_value b bit v = Some b' -> length (bv_bits b) <= length (bv_bits b').
Proof.
  unfold bv_set_value. intros H. apply obind_some in H. destruct H as (b1 & H1 & H2).
  assert (length (bv_bits b) <= length (bv_bits b1)).
  { destruct (bv_size b <=? bit); [|apply some_inj in H1; subst; auto].
    destruct (length (bv_bits b) <=? bit / 32).
    - apply obind_some in H1. destruct H1 as (c & _ & E). apply some_inj in E. subst b1. cbn [bv_bits]. rewrite app_length. lia.
    - apply some_inj in H1. subst b1. cbn. lia. }
  apply obind_some in H2. destruct H2 as (w & _ & H2).
  destruct (Bool.eqb _ v); [apply some_inj in H2; subst; auto|].
  destruct v; apply some_inj in H2; subst b'; cbn [bv_bits]; rewrite upd_length; auto.
Qed.
Lemma run_fast_ok l : forall b, ok1 b -> bv_ext b = false -> StronglySorted lt l ->
  Forall (fun i => bv_size b <= i < 32 * length (bv_bits b)) l ->
  exists b', run_fast b l = Some b' /\ bv_run b (map SSet l) = Some b'.
Proof.
  induction l as [|i l IH]; intros b H1 He Hs Hf; cbn [run_fast map bv_run bv_step].
  - exists b; auto.
  - inversion Hs as [|? ? Hs' Hlt]; subst. inversion Hf as [|? ? Hi Hf']; subst.
    destruct (set_fast_ok b i H1 He ltac:(lia) ltac:(lia)) as (b1 & E1 & E2). rewrite E1, E2. cbn [obind].
    destruct (set_value_ok b i true H1) as (b1' & E & K1 & K2 & _ & _ & K5).
    unfold bv_set in E2. rewrite E in E2. apply some_inj in E2. subst b1'.
    apply IH; auto; [congruence|]. rewrite Forall_forall in *. intros x Hx. specialize (Hlt x Hx). specialize (Hf' x Hx).
    pose proof (set_value_len _ _ _ _ E). lia.
Qed.

(* ------------------------------------------------------------ deletion files *)
Lemma dec_words_ok ws : Forall word_ok ws -> forall rest,
  dec_words (length ws) (enc_words ws ++ rest) = ROk ws rest.
Proof.
  induction 1 as [|w ws Hw Hws IH]; intros rest; [reflexivity|].
  cbn [length dec_words enc_words]. rewrite <- app_assoc, dec_enc_32, IH. unfold word_ok in Hw.
  rewrite Z.mod_small by lia. reflexivity.
Qed.
Lemma bv_write_read b : ok0 b -> bv_ext b = false -> (Z.of_nat (bv_size b) < 2 ^ 31)%Z ->
  exists bs, bv_write b = Some bs /\ forall rest, exists b', bv_read (bs ++ rest) = ROk b' rest /\
    ok1 b' /\ bv_ext b' = false /\ bv_size b' = bv_size b /\ (forall i, sem b' i = sem b i) /\ cntok b' /\
    bv_size b' < 32 * length (bv_bits b').
Proof.
  intros Hok He Hs. pose proof (TO_WORD_len b Hok) as HT. pose proof Hok as (Hw & Hsz & Hl & Hx).
  destruct (vint_roundtrips (Z.of_nat (bv_size b))) as (v & Ev & _ & _ & Hv).
  { unfold u32. assert (2 ^ 31 < 2 ^ 32)%Z by reflexivity. lia. }
  unfold bv_write. rewrite Ev. cbn [obind]. destruct (Nat.leb_spec (TO_WORD (bv_size b)) (length (bv_bits b))); [|lia].
  eexists; split; [reflexivity|]. intros rest. unfold bv_read. rewrite <- app_assoc, Hv.
  destruct (Z.leb_spec (2 ^ 31) (Z.of_nat (bv_size b))); [lia|]. rewrite Nat2Z.id.
  set (W := TO_WORD (bv_size b)) in *. set (ws := firstn W (bv_bits b)).
  assert (Hwl : length ws = W) by (subst ws; rewrite firstn_length; lia).
  assert (Hww : Forall word_ok ws) by (apply Forall_firstn; auto).
  pose proof (dec_words_ok (rev ws) (Forall_rev Hww) rest) as HD. rewrite rev_length, Hwl in HD.
  rewrite HD, rev_involutive.
  set (k := bv_size b / 32 + 1 - W).
  pose proof (div_mod_32 (bv_size b)) as [Ed Hm].
  assert (HWk : W <= bv_size b / 32 + 1) by (apply TO_WORD_le; lia).
  assert (Hlen : length (ws ++ repeat 0%Z k) = bv_size b / 32 + 1) by (rewrite app_length, repeat_length; lia).
  set (r := mkBv (ws ++ repeat 0%Z k) (bv_size b) 0 0 false).
  destruct (recount_ok r) as (c & Hrec & Hcnt).
  { cbn [r bv_size bv_bits]. lia. }
  cbn [r bv_bits bv_size bv_curr bv_ext] in Hrec, Hcnt. fold r in Hrec. rewrite Hrec.
  assert (HB : forall i, i < 32 * (bv_size b / 32 + 1) -> wbit (ws ++ repeat 0%Z k) i = sem b i).
  { intros i Hi. rewrite wbit_app, Hwl. destruct (Nat.ltb_spec i (32 * W)).
    - subst ws. rewrite wbit_firstn by auto. symmetry. apply sem_bits; auto.
    - rewrite wbit_repeat_0, sem_ext; auto. pose proof (TO_WORD_ub (bv_size b)) as HU. fold W in HU. lia. }
  assert (Hz : forall i, bv_size b <= i < 32 * (bv_size b / 32 + 1) -> wbit (ws ++ repeat 0%Z k) i = false).
  { intros i Hi. rewrite HB by lia. rewrite sem_ext by lia. exact He. }
  eexists; split; [reflexivity|].
  split; [split; [split; [|split; [|split]]|]|split; [reflexivity|split; [reflexivity|split; [|split]]]];
    cbn [bv_bits bv_size bv_ext].
  - apply Forall_app; split; auto. apply Forall_forall. intros x Hxx. apply repeat_spec in Hxx. rewrite Hxx. apply word_ok_0.
  - lia.
  - lia.
  - intros i Hi. apply Hz. fold W in Hi. lia.
  - intros i Hi. apply Hz. lia.
  - intros i. unfold sem at 1. cbn [bv_bits bv_size bv_ext]. destruct (Nat.leb_spec (bv_size b) i).
    + rewrite sem_ext by auto. auto.
    + apply HB. lia.
  - intros _. cbn [bv_count bv_size]. rewrite Hcnt; auto.
    + f_equal. apply cnt_eq. intros i Hi. unfold sem. cbn [bv_size bv_bits bv_ext].
      destruct (Nat.leb_spec (bv_size b) i); [lia|reflexivity].
    + intros i Hi. apply Hz. lia.
  - lia.
Qed.

(* ------------------------------------------------------------ statements used by the properties file *)
Lemma run_is_set capa ops : exists b, bv_run (bv_new_capa capa) ops = Some b /\
  (forall i, bv_get b i = Some (set_after (fun _ => false) ops i)) /\
  exists l, lists l (set_after (fun _ => false) ops) /\ bv_count b = Z.of_nat (length l).
Proof.
  destruct (ok1_new capa) as (H1 & H2 & H3).
  destruct (bv_run_ok ops _ H1) as (b & E & K1 & K2 & K3 & K4). exists b. split; [exact E|].
  assert (HS : forall i, sem b i = set_after (fun _ => false) ops i).
  { intros i. rewrite K3. apply set_after_ext. exact H3. }
  assert (He : bv_ext b = false).
  { rewrite K2. cbn. match goal with |- (if ?x then _ else _) = _ => destruct x end; reflexivity. }
  split.
  - intros i. rewrite bv_get_ok by apply K1. rewrite HS. reflexivity.
  - exists (filter (sem b) (seq 0 (bv_size b))). split.
    + apply lists_ext with (sem b); auto. apply members_lists; auto.
    + rewrite (K4 H2 He), cnt_filter. reflexivity.
Qed.
Lemma fast_is_set capa l : StronglySorted lt l ->
  Forall (fun i => i < 32 * Nat.max (TO_WORD capa) 4) l ->
  exists b, run_fast (bv_new_capa capa) l = Some b /\ bv_run (bv_new_capa capa) (map SSet l) = Some b.
Proof.
  intros Hs Hf. destruct (ok1_new capa) as (H1 & H2 & H3). apply run_fast_ok; auto.
  unfold bv_new_capa. cbn [bv_size bv_bits]. rewrite repeat_length. rewrite Forall_forall in *.
  intros x Hx. specialize (Hf x Hx). lia.
Qed.
Lemma recount_same junk e b : admissible e -> updatable e = true -> cofinite e = false -> eval junk e = Some b ->
  bv_size b < 32 * length (bv_bits b) -> bv_recount b = Some b.
Proof.
  intros HA HU HC HE Hs. destruct (eval_ok junk e HA) as (b' & E & H0 & H1 & H2 & H3 & H4).
  rewrite HE in E. apply some_inj in E. subst b'. rewrite HC in H1. specialize (H3 HU).
  destruct (recount_ok b) as (c & Hr & Hc). { apply Nat.div_lt_upper_bound; lia. }
  rewrite Hr. rewrite Hc; auto.
  - f_equal. pose proof (H4 H1) as H5. destruct b as [bits size count curr ext]. cbn [bv_bits bv_size bv_count bv_curr bv_ext] in *.
    f_equal. rewrite H5. f_equal. apply cnt_eq. intros i Hi. unfold sem. cbn [bv_bits bv_size bv_ext].
    destruct (Nat.leb_spec size i); [lia|reflexivity].
  - intros i Hi. rewrite <- H1. destruct H3 as (_ & H3). apply H3.
    assert (bv_size b / 32 < length (bv_bits b)) by (apply Nat.div_lt_upper_bound; lia). lia.
Qed.

Lemma eval_scan_from junk e b bit : admissible e -> cofinite e = false -> eval junk e = Some b ->
  bit / 32 < length (bv_bits b) ->
  exists r b', bv_scan_next_from b bit = Some (r, b') /\
  ((r = (-1)%Z /\ forall i, bit <= i -> den e i = false) \/
   (exists j, r = Z.of_nat j /\ bit <= j /\ den e j = true /\ (forall i, bit <= i < j -> den e i = false) /\ bv_curr b' = r)).
Proof.
  intros HA HC HE Hl. destruct (eval_ok junk e HA) as (b' & E & H0 & H1 & H2 & _ & H4).
  rewrite HE in E. apply some_inj in E. subst b'. rewrite HC in H1.
  destruct (scan_next_from_ok b bit H0 Hl) as [(E & Hn)|(j & E & J1 & J2 & J3 & J4)]; rewrite E.
  - do 2 eexists; split; [reflexivity|]. left; split; [reflexivity|]. intros i Hi. rewrite <- H2.
    destruct (Nat.lt_ge_cases i (bv_size b)); [apply Hn; lia|]. rewrite sem_ext by auto. auto.
  - do 2 eexists; split; [reflexivity|]. right. exists j. split; [reflexivity|]. split; [auto|].
    split; [rewrite <- H2; auto|]. split; [|reflexivity]. intros i Hi. rewrite <- H2. auto.
Qed.
Lemma eval_scan_unset junk e b bit : admissible e -> eval junk e = Some b ->
  bit / 32 < length (bv_bits b) ->
  exists r b', bv_scan_next_unset_from b bit = Some (r, b') /\
  ((r = (-1)%Z /\ forall i, bit <= i < bv_size b -> den e i = true) \/
   (exists j, r = Z.of_nat j /\ bit <= j /\ den e j = false /\ (forall i, bit <= i < j -> den e i = true) /\ bv_curr b' = r)).
Proof.
  intros HA HE Hl. destruct (eval_ok junk e HA) as (b' & E & H0 & H1 & H2 & _ & H4).
  rewrite HE in E. apply some_inj in E. subst b'.
  destruct (scan_next_unset_ok b bit H0 Hl) as [(E & Hn)|(j & E & J1 & J2 & J3 & J4)]; rewrite E.
  - do 2 eexists; split; [reflexivity|]. left; split; [reflexivity|]. intros i Hi. rewrite <- H2. auto.
  - do 2 eexists; split; [reflexivity|]. right. exists j. split; [reflexivity|]. split; [auto|].
    split; [rewrite <- H2; auto|]. split; [|reflexivity]. intros i Hi. rewrite <- H2. auto.
Qed.
Lemma eval_pointwise junk e : admissible e ->
  exists b, eval junk e = Some b /\ forall i, bv_get b i = Some (den e i).
Proof.
  intros HA. destruct (eval_ok junk e HA) as (b & E & H0 & H1 & H2 & _ & H4). exists b; split; auto.
  intros i. rewrite bv_get_ok by auto. rewrite H2. reflexivity.
Qed.
Lemma eval_scan_op junk e : admissible e -> is_operation e -> cofinite e = false ->
  exists b l, eval junk e = Some b /\ lists l (den e) /\ forall n, length l < n -> scan_all n (bv_scan_reset b) = Some l.
Proof.
  intros HA HO HC. destruct (eval_ok junk e HA) as (b & E & _). exists b.
  destruct (eval_scan junk e b HA HC E (eval_room junk e b HA HO E)) as (l & H1 & H2). exists l. auto.
Qed.
Lemma eval_eq junk e1 e2 b1 b2 : admissible e1 -> admissible e2 -> eval junk e1 = Some b1 -> eval junk e2 = Some b2 ->
  exists r, bv_eq b1 b2 = Some r /\ (r = true <-> forall i, den e1 i = den e2 i).
Proof.
  intros HA1 HA2 E1 E2. destruct (eval_ok junk e1 HA1) as (b1' & E1' & H1 & _ & K1 & _).
  destruct (eval_ok junk e2 HA2) as (b2' & E2' & H2 & _ & K2 & _).
  rewrite E1 in E1'. rewrite E2 in E2'. apply some_inj in E1', E2'. subst b1' b2'.
  destruct (bv_eq_ok b1 b2 H1 H2) as (r & Er & Hr). exists r; split; auto. rewrite Hr.
  split; intros H i; specialize (H i); rewrite K1, K2 in *; auto.
Qed.
Lemma eval_hash junk e1 e2 b1 b2 : admissible e1 -> admissible e2 -> eval junk e1 = Some b1 -> eval junk e2 = Some b2 ->
  (forall i, den e1 i = den e2 i) -> exists h, bv_hash b1 = Some h /\ bv_hash b2 = Some h.
Proof.
  intros HA1 HA2 E1 E2 H. destruct (eval_ok junk e1 HA1) as (b1' & E1' & H1 & _ & K1 & _).
  destruct (eval_ok junk e2 HA2) as (b2' & E2' & H2 & _ & K2 & _).
  rewrite E1 in E1'. rewrite E2 in E2'. apply some_inj in E1', E2'. subst b1' b2'.
  apply bv_hash_ok; auto. intros i. rewrite K1, K2. auto.
Qed.
Lemma eval_file junk e b : admissible e -> cofinite e = false -> eval junk e = Some b ->
  (Z.of_nat (bv_size b) < 2 ^ 31)%Z ->
  exists bs, bv_write b = Some bs /\ forall rest, exists b', bv_read (bs ++ rest) = ROk b' rest /\
    bv_count b' = bv_count b /\
    forall ops, exists b'', bv_run b' ops = Some b'' /\
      (forall i, bv_get b'' i = Some (set_after (den e) ops i)) /\
      exists l, lists l (set_after (den e) ops) /\ bv_count b'' = Z.of_nat (length l).
Proof.
  intros HA HC HE Hs. destruct (eval_ok junk e HA) as (b' & E & H0 & H1 & H2 & _ & H4).
  rewrite HE in E. apply some_inj in E. subst b'. rewrite HC in H1.
  destruct (bv_write_read b H0 H1 Hs) as (bs & Ew & Hr). exists bs; split; auto. intros rest.
  destruct (Hr rest) as (b' & Er & R1 & R2 & R3 & R4 & R5 & R6). exists b'; split; [exact Er|]. split.
  - rewrite (R5 R2), (H4 H1), R3. f_equal. apply cnt_eq. auto.
  - intros ops. destruct (bv_run_ok ops b' R1) as (b'' & E'' & K1 & K2 & K3 & K4). exists b''; split; [exact E''|].
    assert (HS : forall i, sem b'' i = set_after (den e) ops i).
    { intros i. rewrite K3. apply set_after_ext. intros j. rewrite R4, H2. reflexivity. }
    assert (He : bv_ext b'' = false).
    { rewrite K2, R2. match goal with |- (if ?x then _ else _) = _ => destruct x end; reflexivity. }
    split.
    + intros i. rewrite bv_get_ok by apply K1. rewrite HS. reflexivity.
    + exists (filter (sem b'') (seq 0 (bv_size b''))). split.
      * apply lists_ext with (sem b''); auto. apply members_lists; auto.
      * rewrite (K4 R5 He), cnt_filter. reflexivity.
Qed.
