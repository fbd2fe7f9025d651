From Verif Require Import Util Lex_Model Lex_Spec.
Open Scope Z_scope.

(* the w last digits *)
Fixpoint fixed (w : nat) (n : Z) : list Z :=
  match w with O => [] | S v => fixed v (n / 10) ++ [48 + n mod 10] end.
Lemma fixed_len w : forall n, length (fixed w n) = w.
Proof. induction w; intros; cbn [fixed]; [reflexivity|]. rewrite app_length, IHw. cbn. lia. Qed.
Lemma fixed_digit w : forall n, Forall digit (fixed w n).
Proof.
  induction w; intros; cbn [fixed]; [constructor|]. apply Forall_app. split; [apply IHw|]. constructor; [|constructor].
  unfold digit. pose proof (Z.mod_pos_bound n 10 eq_refl). lia.
Qed.
Lemma value_app s t : value (s ++ [t]) = 10 * value s + (t - 48).
Proof. unfold value. rewrite fold_left_app. reflexivity. Qed.
Lemma fixed_value w : forall n, 0 <= n < 10 ^ Z.of_nat w -> value (fixed w n) = n.
Proof.
  induction w; intros n H; cbn [fixed].
  - change (10 ^ Z.of_nat 0) with 1 in H. cbn. lia.
  - rewrite value_app, IHw. { pose proof (Z.div_mod n 10). lia. }
    rewrite Nat2Z.inj_succ, Z.pow_succ_r in H by lia. split; [apply Z.div_pos; lia|apply Z.div_lt_upper_bound; lia].
Qed.
(* the least width *)
Lemma dec_fixed f : forall n acc, 0 <= n -> n < 2 ^ Z.of_nat f -> (1 <= f)%nat ->
  exists w, (1 <= w)%nat /\ dec f n acc = fixed w n ++ acc /\ n < 10 ^ Z.of_nat w /\ (n = 0 /\ w = 1%nat \/ 10 ^ (Z.of_nat w - 1) <= n).
Proof.
  induction f as [|f IH]; intros n acc Hn Hf H1; [lia|]. cbn [dec]. destruct (Z.ltb_spec n 10).
  - exists 1%nat. cbn [fixed app]. rewrite Z.mod_small by lia. split; [lia|]. split; [reflexivity|].
    change (Z.of_nat 1) with 1. change (1 - 1) with 0. rewrite Z.pow_1_r. change (10 ^ 0) with 1. split; [lia|]. destruct (Z.eq_dec n 0); lia.
  - rewrite Nat2Z.inj_succ, Z.pow_succ_r in Hf by lia.
    assert (D : 1 <= n / 10) by (apply Z.div_le_lower_bound; lia).
    assert (U : n / 10 < 2 ^ Z.of_nat f) by (apply Z.div_lt_upper_bound; lia).
    destruct (IH (n / 10) ((48 + n mod 10) :: acc)) as (w & W1 & E & U1 & L); [lia|exact U| |].
    { destruct f; [|lia]. change (2 ^ Z.of_nat 0) with 1 in U. lia. }
    exists (S w). split; [lia|]. split; [rewrite E; cbn [fixed]; rewrite <- app_assoc; reflexivity|].
    rewrite Nat2Z.inj_succ. replace (Z.succ (Z.of_nat w) - 1) with (Z.succ (Z.of_nat w - 1)) by lia.
    rewrite !Z.pow_succ_r by lia. pose proof (Z.div_mod n 10). pose proof (Z.mod_pos_bound n 10 eq_refl).
    split; [lia|]. right. destruct L as [[? ?]|L]; lia.
Qed.
Lemma to_s_fixed n : 0 <= n -> exists w, (1 <= w)%nat /\ to_s n = fixed w n /\ n < 10 ^ Z.of_nat w /\ (n = 0 /\ w = 1%nat \/ 10 ^ (Z.of_nat w - 1) <= n).
Proof.
  intros H. unfold to_s. destruct (dec_fixed (S (Z.to_nat (Z.log2 n))) n []) as (w & W & E & R); [lia| |lia|].
  - rewrite Nat2Z.inj_succ, Z2Nat.id by apply Z.log2_nonneg. destruct (Z.eq_dec n 0) as [->|]; [reflexivity|].
    apply Z.log2_spec. lia.
  - exists w. rewrite E, app_nil_r. auto.
Qed.
Lemma size_pos n : 0 <= n -> 1 <= size (to_s n).
Proof. intros H. destruct (to_s_fixed n H) as (w & W & E & _). unfold size. rewrite E, fixed_len. lia. Qed.
Lemma to_s_eq n : 0 <= n -> to_s n = fixed (Z.to_nat (size (to_s n))) n.
Proof. intros H. destruct (to_s_fixed n H) as (w & _ & E & _). rewrite E at 2. unfold size. rewrite fixed_len, Nat2Z.id. exact E. Qed.
Lemma size_upper n : 0 <= n -> n < 10 ^ size (to_s n).
Proof. intros H. destruct (to_s_fixed n H) as (w & _ & E & U & _). unfold size. rewrite E, fixed_len. exact U. Qed.
Lemma size_le n k : 0 <= n -> 1 <= k -> n < 10 ^ k -> size (to_s n) <= k.
Proof.
  intros H Hk U. destruct (to_s_fixed n H) as (w & W & E & _ & L). unfold size. rewrite E, fixed_len.
  destruct L as [[_ ->]|L]; [lia|]. assert (10 ^ (Z.of_nat w - 1) < 10 ^ k) as P by lia.
  apply Z.pow_lt_mono_r_iff in P; lia.
Qed.
Lemma size_lower n : 0 < n -> 10 ^ (size (to_s n) - 1) <= n.
Proof. intros H. destruct (to_s_fixed n) as (w & W & E & _ & L); [lia|]. unfold size. rewrite E, fixed_len. lia. Qed.
Lemma size_mono n m : 0 <= n <= m -> size (to_s n) <= size (to_s m).
Proof. intros H. apply size_le; [lia|apply size_pos; lia|]. pose proof (size_upper m ltac:(lia)). lia. Qed.

Lemma fixed_zeros k : forall w n, 0 <= n < 10 ^ Z.of_nat w -> fixed (k + w) n = repeat 48 k ++ fixed w n.
Proof.
  intros w. revert k. induction w as [|w IH]; intros k n H.
  - rewrite Nat.add_0_r, app_nil_r. change (10 ^ Z.of_nat 0) with 1 in H. assert (n = 0) as -> by lia.
    clear. induction k; cbn [fixed repeat]; [reflexivity|]. change (0 / 10) with 0. change (48 + 0 mod 10) with 48. rewrite IHk.
    clear. induction k; cbn; [reflexivity|]. f_equal. exact IHk.
  - rewrite Nat.add_succ_r. cbn [fixed]. rewrite IH, app_assoc; [reflexivity|].
    rewrite Nat2Z.inj_succ, Z.pow_succ_r in H by lia. split; [apply Z.div_pos; lia|apply Z.div_lt_upper_bound; lia].
Qed.
Lemma fmt0_fixed w n : 0 <= n -> 1 <= w -> n < 10 ^ w -> fmt0 w n = fixed (Z.to_nat w) n.
Proof.
  intros H W U. unfold fmt0. pose proof (size_le n w H W U). pose proof (size_pos n H). rewrite (to_s_eq n H) at 2.
  rewrite <- fixed_zeros.
  - f_equal. lia.
  - rewrite Z2Nat.id by lia. split; [exact H|apply size_upper; exact H].
Qed.

Lemma str_lt_irr s : ~ str_lt s s.
Proof. induction s as [|c s IH]; intros H; inversion H; subst; [lia|auto]. Qed.
Lemma str_lt_app_r s t u v : length s = length t -> str_lt s t -> str_lt (s ++ u) (t ++ v).
Proof.
  intros L H. revert L. induction H; intros L; cbn [app].
  - discriminate.
  - apply lt_head. assumption.
  - apply lt_tail. apply IHstr_lt. cbn in L. lia.
Qed.
Lemma str_lt_app_l s u v : str_lt u v -> str_lt (s ++ u) (s ++ v).
Proof. intros H. induction s; cbn; [exact H|]. apply lt_tail. assumption. Qed.
Lemma fixed_lt w : forall n m, 0 <= n < m -> m < 10 ^ Z.of_nat w -> str_lt (fixed w n) (fixed w m).
Proof.
  induction w; intros n m H U; cbn [fixed].
  - change (10 ^ Z.of_nat 0) with 1 in U. lia.
  - rewrite Nat2Z.inj_succ, Z.pow_succ_r in U by lia.
    pose proof (Z.div_mod n 10). pose proof (Z.div_mod m 10). pose proof (Z.mod_pos_bound n 10 eq_refl). pose proof (Z.mod_pos_bound m 10 eq_refl).
    destruct (Z.eq_dec (n / 10) (m / 10)) as [E|E].
    + rewrite E. apply str_lt_app_l. apply lt_head. lia.
    + apply str_lt_app_r; [rewrite !fixed_len; reflexivity|]. apply IHw; [|apply Z.div_lt_upper_bound; lia].
      split; [apply Z.div_pos; lia|]. assert (n / 10 <= m / 10) by (apply Z.div_le_mono; lia). lia.
Qed.

(* the two shapes *)
Definition BOUND : Z := 9999.
Definition in_range (n : Z) : Prop := - 10 ^ (BOUND + 1) < n < 10 ^ BOUND.
#[local] Opaque BOUND.
Lemma BOUND_1 : 1 <= BOUND. Proof. apply Z.leb_le. reflexivity. Qed.
Lemma BOUND_2 : 1 <= BOUND + 1. Proof. apply Z.leb_le. reflexivity. Qed.
Lemma pos_size n : 0 <= n -> in_range n -> size (to_s n) <= 9999.
Proof. intros H [_ U]. exact (size_le n BOUND H BOUND_1 U). Qed.
Lemma neg_size n : n < 0 -> in_range n -> size (to_s (- n)) <= 10000.
Proof. intros H [U _]. apply (size_le (- n) (BOUND + 1)); [|exact BOUND_2|]; revert U; generalize (10 ^ (BOUND + 1)); lia. Qed.
Lemma lex_pos n : 0 <= n -> size (to_s n) <= 9999 ->
  to_s_lex n = fixed 4 (size (to_s n)) ++ fixed (Z.to_nat (size (to_s n))) n /\ 1 <= size (to_s n) <= 9999.
Proof.
  intros H U. pose proof (size_pos n H).
  unfold to_s_lex. rewrite (proj2 (Z.leb_le 0 n)) by lia. unfold fmt0s. rewrite (proj2 (Z.ltb_ge (size (to_s n)) 0)) by lia.
  unfold LEN_STR_SIZE. rewrite fmt0_fixed; [|lia|lia|change (10 ^ 4) with 10000; lia]. rewrite (to_s_eq n H) at 2. split; [reflexivity|lia].
Qed.
Lemma lex_neg n : n < 0 -> size (to_s (- n)) <= 10000 -> let k := size (to_s (- n)) in
  to_s_lex n = 45 :: fixed 4 (10000 - k) ++ fixed (Z.to_nat k) (10 ^ k + n) /\ 1 <= k <= 10000 /\ 0 < 10 ^ k + n < 10 ^ k.
Proof.
  intros H S1. cbn zeta. pose proof (size_pos (- n) ltac:(lia)).
  pose proof (size_upper (- n) ltac:(lia)) as S2.
  unfold to_s_lex. rewrite (proj2 (Z.leb_gt 0 n)) by lia. replace (n * -1) with (- n) by lia. set (k := size (to_s (- n))) in *.
  unfold fmt0s. unfold LEN_STR_SIZE. change NEG_LEN_MASK with 10000. rewrite (proj2 (Z.ltb_ge (10000 - k) 0)) by lia.
  rewrite (proj2 (Z.ltb_ge (10 ^ k - - n) 0)) by lia.
  rewrite (fmt0_fixed 4); [|lia|lia|change (10 ^ 4) with 10000; lia].
  rewrite (fmt0_fixed k); [|lia|lia|lia]. replace (10 ^ k - - n) with (10 ^ k + n) by lia. split; [reflexivity|lia].
Qed.
Lemma lex_lt n m : in_range n -> in_range m -> n < m -> str_lt (to_s_lex n) (to_s_lex m).
Proof.
  intros N M L. destruct (Z_lt_le_dec n 0) as [Hn|Hn], (Z_lt_le_dec m 0) as [Hm|Hm];
    [pose proof (neg_size n Hn N) as N1; pose proof (neg_size m Hm M) as M1|pose proof (neg_size n Hn N) as N1; pose proof (pos_size m Hm M) as M2
    | |pose proof (pos_size n Hn N) as N2; pose proof (pos_size m Hm M) as M2]; clear N M.
  - destruct (lex_neg n Hn N1) as (-> & K1 & P1). destruct (lex_neg m Hm M1) as (-> & K2 & P2). apply lt_tail.
    pose proof (size_mono (- m) (- n) ltac:(lia)).
    destruct (Z.eq_dec (size (to_s (- n))) (size (to_s (- m)))) as [E|E].
    + rewrite E in *. apply str_lt_app_l. apply fixed_lt; [lia|]. rewrite Z2Nat.id by lia. lia.
    + apply str_lt_app_r; [rewrite !fixed_len; reflexivity|]. apply fixed_lt; [lia|]. change (10 ^ Z.of_nat 4) with 10000. lia.
  - destruct (lex_neg n Hn N1) as (-> & _ & _). destruct (lex_pos m Hm M2) as (-> & K). cbn [fixed app]. apply lt_head.
    pose proof (Z.mod_pos_bound (size (to_s m) / 10 / 10 / 10) 10 eq_refl). lia.
  - lia.
  - destruct (lex_pos n Hn N2) as (-> & K1). destruct (lex_pos m Hm M2) as (-> & K2).
    pose proof (size_mono n m ltac:(lia)).
    destruct (Z.eq_dec (size (to_s n)) (size (to_s m))) as [E|E].
    + rewrite E in *. apply str_lt_app_l. apply fixed_lt; [lia|]. rewrite Z2Nat.id by lia. apply size_upper. lia.
    + apply str_lt_app_r; [rewrite !fixed_len; reflexivity|]. apply fixed_lt; [lia|]. change (10 ^ Z.of_nat 4) with 10000. lia.
Qed.
Lemma str_lt_asym s t : str_lt s t -> ~ str_lt t s.
Proof. intros H. induction H; intros G; inversion G; subst; try lia; auto. Qed.
Lemma lex_order n m : in_range n -> in_range m -> (n < m <-> str_lt (to_s_lex n) (to_s_lex m)).
Proof.
  intros N M. split; [apply lex_lt; assumption|]. intros H. destruct (Z_lt_le_dec n m) as [|L]; [assumption|exfalso].
  destruct (Z.eq_dec m n) as [->|]; [exact (str_lt_irr _ H)|]. refine (str_lt_asym _ _ H (lex_lt m n M N _)). clear - L n0. lia.
Qed.
Lemma to_i_value s : forall acc, Forall digit s -> to_i_acc acc s = fold_left (fun a c => 10 * a + (c - 48)) s acc.
Proof.
  induction s as [|c s IH]; intros acc H; [reflexivity|]. inversion H as [|? ? D F]; subst. cbn [to_i_acc fold_left]. unfold digit in D.
  rewrite (proj2 (Z.leb_le 48 c)), (proj2 (Z.leb_le c 57)) by lia. apply IH. exact F.
Qed.
Lemma to_i_fixed w n : 0 <= n < 10 ^ Z.of_nat w -> to_i (fixed w n) = n.
Proof. intros H. unfold to_i. rewrite to_i_value by apply fixed_digit. exact (fixed_value w n H). Qed.
Lemma skipn_exact {A} k (s t : list A) : length s = k -> skipn k (s ++ t) = t.
Proof. intros <-. rewrite skipn_app, Nat.sub_diag, skipn_all. reflexivity. Qed.
Lemma lex_roundtrip n : in_range n -> to_i_lex (to_s_lex n) = n.
Proof.
  intros N. destruct (Z_lt_le_dec n 0) as [Hn|Hn]; [pose proof (neg_size n Hn N) as N1|pose proof (pos_size n Hn N) as N2]; clear N.
  - destruct (lex_neg n Hn N1) as (-> & K & P). set (k := size (to_s (- n))) in *. cbn [to_i_lex].
    change (Z.to_nat (LEN_STR_SIZE + 1)) with 5%nat.
    change (45 :: ?a ++ ?b) with ((45 :: a) ++ b). rewrite skipn_exact by (cbn [length]; rewrite fixed_len; reflexivity).
    rewrite to_i_fixed by (rewrite Z2Nat.id by lia; lia). unfold size, LEN_STR_SIZE. rewrite app_length. cbn [length]. rewrite !fixed_len.
    replace (Z.of_nat (5 + Z.to_nat k) - 4 - 1) with k by lia. lia.
  - destruct (lex_pos n Hn N2) as (-> & K). set (k := size (to_s n)) in *. pose proof (size_upper n Hn) as U. fold k in U.
    assert (E : to_i_lex (fixed 4 k ++ fixed (Z.to_nat k) n) = to_i (skipn (Z.to_nat LEN_STR_SIZE) (fixed 4 k ++ fixed (Z.to_nat k) n))).
    { pose proof (fixed_digit 4 k) as D. pose proof (fixed_len 4 k) as Ln. destruct (fixed 4 k) as [|c t]; [discriminate|].
      inversion D as [|? ? Dc _]; subst. unfold digit in Dc. cbn [app]. unfold to_i_lex.
      destruct c as [|p|p]; try reflexivity. do 6 (destruct p; try reflexivity). lia. }
    rewrite E. change (Z.to_nat LEN_STR_SIZE) with 4%nat. rewrite skipn_exact by apply fixed_len.
    apply to_i_fixed. rewrite Z2Nat.id by lia. lia.
Qed.
(* beyond the range the length no longer fits in four digits *)
Lemma lex_size_eq n k : 1 <= k -> 10 ^ (k - 1) <= n < 10 ^ k -> size (to_s n) = k.
Proof.
  intros K [L U]. assert (P : 0 < 10 ^ (k - 1)) by (apply Z.pow_pos_nonneg; lia). pose proof (size_le n k ltac:(lia) K U).
  destruct (Z_lt_le_dec (size (to_s n)) k); [|lia]. pose proof (size_upper n ltac:(lia)).
  assert (10 ^ size (to_s n) <= 10 ^ (k - 1)) by (apply Z.pow_le_mono_r; lia). lia.
Qed.
Lemma lex_order_beyond k : k = 9999 -> 10 ^ k - 1 < 10 ^ k /\ str_lt (to_s_lex (10 ^ k)) (to_s_lex (10 ^ k - 1)).
Proof.
  intros Hk. assert (P : 0 < 10 ^ (k - 1)) by (apply Z.pow_pos_nonneg; lia).
  assert (Q : 10 ^ k = 10 * 10 ^ (k - 1)) by (rewrite <- Z.pow_succ_r by lia; f_equal; lia).
  assert (R : 10 ^ (k + 1) = 10 * 10 ^ k) by (rewrite <- Z.pow_succ_r by lia; f_equal; lia).
  assert (S1 : size (to_s (10 ^ k)) = 10000).
  { rewrite (lex_size_eq _ (k + 1)); [lia|lia|]. replace (k + 1 - 1) with k by lia. lia. }
  assert (S2 : size (to_s (10 ^ k - 1)) = 9999).
  { rewrite (lex_size_eq _ k); [lia|lia|lia]. }
  split; [lia|].
  unfold to_s_lex. rewrite (proj2 (Z.leb_le 0 (10 ^ k))), (proj2 (Z.leb_le 0 (10 ^ k - 1))) by lia. rewrite S1, S2.
  change (fmt0s LEN_STR_SIZE 10000) with [49; 48; 48; 48; 48]. change (fmt0s LEN_STR_SIZE 9999) with [57; 57; 57; 57].
  cbn [app]. apply lt_head. reflexivity.
Qed.

(* to_s_pad *)
Lemma fmt_split w n : 0 <= n -> n < 10 ^ w -> 1 <= w -> to_s_pad w n = repeat 32 (Z.to_nat (w - size (to_s n))) ++ fixed (Z.to_nat (size (to_s n))) n.
Proof. intros H U W. unfold to_s_pad, fmt, to_s_signed. rewrite (proj2 (Z.ltb_ge n 0)) by lia. rewrite (to_s_eq n H) at 2. reflexivity. Qed.
Lemma pad_lt w n m : 1 <= w -> 0 <= n < m -> m < 10 ^ w -> str_lt (to_s_pad w n) (to_s_pad w m).
Proof.
  intros W H U. rewrite !fmt_split by lia. pose proof (size_mono n m ltac:(lia)). pose proof (size_le m w ltac:(lia) W U). pose proof (size_pos n ltac:(lia)).
  destruct (Z.eq_dec (size (to_s n)) (size (to_s m))) as [E|E].
  - rewrite E. apply str_lt_app_l. apply fixed_lt; [lia|]. rewrite Z2Nat.id by lia. apply size_upper. lia.
  - replace (Z.to_nat (w - size (to_s n))) with (Z.to_nat (w - size (to_s m)) + S (Z.to_nat (size (to_s m) - size (to_s n) - 1)))%nat by lia.
    rewrite repeat_app, <- app_assoc. apply str_lt_app_l. cbn [repeat app].
    pose proof (fixed_digit (Z.to_nat (size (to_s m))) m) as D. pose proof (fixed_len (Z.to_nat (size (to_s m))) m) as L.
    destruct (fixed (Z.to_nat (size (to_s m))) m) as [|c t]; [cbn [length] in L; lia|]. apply Forall_inv in D. unfold digit in D. apply lt_head. lia.
Qed.
Lemma pad_len w n : 1 <= w -> 0 <= n < 10 ^ w -> size (to_s_pad w n) = w.
Proof.
  intros W H. rewrite fmt_split by lia. unfold size at 1. rewrite app_length, repeat_length, fixed_len.
  pose proof (size_le n w ltac:(lia) W ltac:(lia)). pose proof (size_pos n ltac:(lia)). lia.
Qed.
Lemma pad_zero_refuted w n : 2 <= w -> 0 <= n < 10 ^ (w - 1) -> ~ zero_padded (Z.to_nat w) n (to_s_pad w n).
Proof.
  intros W H (_ & D & _). assert (10 ^ (w - 1) <= 10 ^ w) by (apply Z.pow_le_mono_r; lia). rewrite fmt_split in D by lia.
  pose proof (size_le n (w - 1) ltac:(lia) ltac:(lia) ltac:(lia)).
  destruct (Z.to_nat (w - size (to_s n))) as [|k] eqn:E; [lia|]. cbn [repeat app] in D. inversion D as [|? ? Dc _]; subst. unfold digit in Dc. lia.
Qed.
