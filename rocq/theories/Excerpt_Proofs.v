From Coq Require Import Sorting.Permutation Sorting.Sorted.
From Verif Require Import Util Match_Model Match_Spec Match_Proofs PQueue_Model PQueue_Spec PQueue_Proofs Excerpt_Model Excerpt_Spec.
Open Scope Z_scope.
Ltac splits := repeat match goal with |- _ /\ _ => split end.

(* ---------- sums over windows *)
Lemma zsum_app a b : zsum (a ++ b) = zsum a + zsum b.
Proof. unfold zsum. induction a as [|x a IH]; cbn [app fold_right]; [lia|]. rewrite IH. lia. Qed.
Definition win (l : list Z) (i n : nat) : Z := zsum (map (fun k => nth k l 0) (seq i n)).
Lemma win_last l i n : win l i (S n) = win l i n + nth (i + n) l 0.
Proof. unfold win. rewrite seq_S, map_app, zsum_app. cbn. lia. Qed.
Lemma win_first l i n : win l i (S n) = nth i l 0 + win l (S i) n.
Proof. unfold win. cbn [seq map]. reflexivity. Qed.
Lemma win_nonneg l : (forall k, 0 <= nth k l 0) -> forall n i, 0 <= win l i n.
Proof. intros H. induction n as [|n IH]; intros i; [reflexivity|]. rewrite win_first. specialize (IH (S i)). specialize (H i). lia. Qed.
Lemma win_mono l i n m : (forall k, 0 <= nth k l 0) -> (n <= m)%nat -> win l i n <= win l i m.
Proof. intros H Hm. induction Hm as [|m Hm IH]; [lia|]. rewrite win_last. specialize (H (i + m)%nat). lia. Qed.
Definition masked (sc : list Z) (seen : list (nat * nat)) : list Z := map (fun k => if hidden seen k then 0 else nth k sc 0) (seq 0 (length sc)).
Lemma masked_nth sc seen k : nth k (masked sc seen) 0 = if hidden seen k then 0 else nth k sc 0.
Proof.
  unfold masked. destruct (Nat.ltb_spec k (length sc)) as [H|H].
  - apply nth_error_nth. rewrite nth_error_map, (nth_error_nth' _ 0%nat) by (rewrite seq_length; exact H). rewrite seq_nth by exact H. reflexivity.
  - rewrite nth_overflow by (rewrite map_length, seq_length; exact H). rewrite (nth_overflow sc) by exact H. destruct (hidden seen k); reflexivity.
Qed.
Lemma masked_len sc seen : length (masked sc seen) = length sc.
Proof. unfold masked. rewrite map_length, seq_length. reflexivity. Qed.
Lemma worth_win sc seen i j : worth sc seen (i, j) = win (masked sc seen) i (S j - i).
Proof. unfold worth, win. cbn [fst snd]. f_equal. apply map_ext. intros k. symmetry. apply masked_nth. Qed.
Lemma nth_some {A} (l : list A) i d : (i < length l)%nat -> nth_error l i = Some (nth i l d).
Proof. intros H. apply nth_error_nth'. exact H. Qed.

(* ---------- the candidates *)
Section CAND.
  Variables (L : Z) (os : list (Z * Z)) (sc : list Z).
  Hypothesis Hlen : length sc = length os.
  Hypothesis Hst : forall i j, (i <= j < length os)%nat -> st os i <= st os j.
  Hypothesis Hfit : forall i, (i < length os)%nat -> en os i <= st os i + L.
  Lemma widen_ok i limit : forall fuel e, (length os - e < fuel)%nat -> (i <= e <= length os)%nat ->
    exists j, widen os sc fuel limit e (win sc i (e - i)) = Some (j, win sc i (j - i)) /\ (e <= j <= length os)%nat /\ (forall k, (e <= k < j)%nat -> en os k <= limit) /\ ((j < length os)%nat -> limit < en os j).
  Proof.
    induction fuel as [|fuel IH]; intros e Hf He; [lia|]. cbn [widen]. destruct (nth_error os e) as [m|] eqn:E.
    - assert (Hlt : (e < length os)%nat) by (apply nth_error_Some; congruence). assert (Em : en os e = snd m) by (unfold en; rewrite (nth_error_nth _ _ _ E); reflexivity). destruct (Z.leb_spec (snd m) limit) as [H|H].
      + rewrite (nth_some sc e 0) by lia. cbn [obind]. replace (win sc i (e - i) + nth e sc 0) with (win sc i (S e - i)) by (replace (S e - i)%nat with (S (e - i)) by lia; rewrite win_last; do 2 f_equal; lia).
        destruct (IH (S e) ltac:(lia) ltac:(lia)) as (j & E1 & H1 & H2 & H3). exists j. splits; auto; try lia. intros k Hk. destruct (Nat.eq_dec k e) as [->|]; [lia|apply H2; lia].
      + exists e. splits; auto; try lia.
    - apply nth_error_None in E. exists e. splits; auto; lia.
  Qed.
  Definition fresh (s : list Z) (x : exc) : Prop := x_score x = win s (Z.to_nat (x_start x)) (Z.to_nat (x_end x - x_start x + 1)).
  (* a candidate: the longest window from its first match *)
  Definition is_cand (x : exc) : Prop := exists i j, x_start x = Z.of_nat i /\ x_end x = Z.of_nat j /\ fits L os i j.
  Lemma cands_ok : forall n i e, (i + n = length os)%nat -> (i <= e <= length os)%nat -> (forall k, (i <= k < e)%nat -> (i < length os)%nat -> en os k <= st os i + L) ->
    exists cs, cands L os sc (seq i n) e (win sc i (e - i)) = Some cs /\ map x_start cs = map Z.of_nat (seq i n) /\ Forall (fun x => is_cand x /\ fresh sc x) cs.
  Proof.
    induction n as [|n IH]; intros i e Hn He Hk; [exists []; splits; constructor|]. cbn [seq cands]. rewrite (nth_some os i (0, 0)) by lia. cbn [obind]. fold (st os i).
    rewrite (proj2 (Nat.ltb_ge e i)) by lia. destruct (widen_ok i (st os i + L) (S (length os)) e ltac:(lia) He) as (j & E1 & H1 & H2 & H3). rewrite E1. cbn [obind fst snd].
    assert (G : forall k, (i <= k < j)%nat -> en os k <= st os i + L) by (intros k Hk2; destruct (Nat.ltb_spec k e) as [D|D]; [apply Hk; lia|apply H2; lia]).
    assert (Hij : (i < j)%nat). { destruct (Nat.eq_dec j i) as [D|]; [|lia]. specialize (H3 ltac:(lia)). rewrite D in H3. specialize (Hfit i ltac:(lia)). lia. }
    rewrite (nth_some sc i 0) by lia. cbn [obind]. replace (win sc i (j - i) - nth i sc 0) with (win sc (S i) (j - S i)) by (replace (j - i)%nat with (S (j - S i)) by lia; rewrite win_first; lia).
    destruct (IH (S i) j ltac:(lia) ltac:(lia)) as (cs & E2 & E3 & HF).
    { intros k Hk2 Hi2. specialize (G k ltac:(lia)). specialize (Hst i (S i) ltac:(lia)). lia. }
    rewrite E2. cbn [obind]. eexists. split; [reflexivity|]. cbn [map x_start]. split; [f_equal; exact E3|]. constructor; [|exact HF]. split.
    - exists i, (j - 1)%nat. cbn [x_start x_end]. splits; [reflexivity|lia|]. unfold fits. fold (st os i). splits; [lia|lia|intros k Hk2; apply G; lia|]. intros Hs. replace (S (j - 1)) with j in * by lia. apply H3. exact Hs.
    - unfold fresh. cbn [x_score x_start x_end]. rewrite Nat2Z.id. f_equal. lia.
  Qed.
End CAND.

(* ---------- the queue *)
Lemma exc_pre : preorder exc exc_lt.
Proof. unfold preorder, le, exc_lt. split; [intros a b; destruct (Z.ltb_spec (x_score b) (x_score a)), (Z.ltb_spec (x_score a) (x_score b)); auto; lia|]. intros a b c H1 H2. rewrite Z.ltb_ge in *. lia. Qed.
Notation QInv := (PInv exc exc_lt).
Lemma push_cands_ok capa : forall l q m, QInv capa q m -> exists q1, push_cands q l = Some q1 /\ QInv capa q1 (rev l ++ m).
Proof.
  induction l as [|e l IH]; intros q m H; cbn [push_cands rev app]; [exists q; auto|]. destruct (push_ok exc exc_lt exc_pre capa q m e H) as (q1 & E & H1). rewrite E. cbn [obind]. destruct (IH q1 _ H1) as (q2 & E2 & H2). exists q2. split; [exact E2|]. rewrite <- app_assoc. exact H2.
Qed.

Lemma same_top capa q m x : QInv capa q m -> elt exc (pq_heap q) 1 = Some x -> (0 < pq_size q)%nat -> pq_replace_top exc exc_lt q x = Some q.
Proof.
  intros [P1 P2 P3 P4 P5] Hx Hs. pose proof (proj1 (elt_some _ _ _ _) Hx) as Hx2. unfold pq_replace_top. rewrite Hx2. cbn [obind]. rewrite (upd_id _ _ _ Hx2). unfold pq_down. cbn [pq_heap pq_size pq_capa]. rewrite Hx2. cbn [obind down].
  destruct (child_ok exc exc_lt exc_pre (pq_heap q) 1 (pq_size q) (perm_full _ _ _ _ P4 P1) ltac:(lia)) as (j & E & Hj & _). rewrite E. cbn [obind]. destruct (Nat.leb_spec j (pq_size q)) as [H|H].
  - destruct (perm_full _ _ _ _ P4 P1 j ltac:(lia)) as (c & Hc). rewrite Hc. cbn [obind]. assert (Hle : le exc exc_lt x c) by (apply (P2 j ltac:(lia)); [replace (j / 2)%nat with 1%nat by (destruct Hj; subst j; reflexivity); exact Hx|exact Hc]).
    unfold le in Hle. rewrite Hle. cbn [obind]. rewrite (upd_id _ _ _ Hx2). destruct q; reflexivity.
  - cbn [obind]. rewrite (upd_id _ _ _ Hx2). destruct q; reflexivity.
Qed.
Lemma pop_top q r q1 : pq_pop exc exc_lt q = Some (r, q1) -> (0 < pq_size q)%nat -> nth_error (pq_heap q) 1 = Some r.
Proof.
  unfold pq_pop. intros E H. rewrite (proj2 (Nat.ltb_lt _ _) H) in E. destruct (nth_error (pq_heap q) 1) as [r1|]; [|discriminate]. cbn [obind] in E. destruct (nth_error _ (pq_size q)); [|discriminate]. cbn [obind] in E. destruct (pq_down _ _ _); [|discriminate]. cbn [obind] in E. apply some_inj in E. injection E as -> _. reflexivity.
Qed.

Section CHOICE.
  Variables (L : Z) (os : list (Z * Z)) (sc : list Z).
  Hypothesis Hlen : length sc = length os.
  Hypothesis Hst : forall i j, (i <= j < length os)%nat -> st os i <= st os j.
  Hypothesis Hen : forall i j, (i <= j < length os)%nat -> en os i <= en os j.
  Hypothesis Hsc : forall k, 0 <= nth k sc 0.
  Notation cnd := (is_cand L os).
  Lemma fits_unique i j j2 : fits L os i j -> fits L os i j2 -> j = j2.
  Proof.
    intros (A1 & A2 & A3 & A4) (B1 & B2 & B3 & B4). destruct (Nat.lt_trichotomy j j2) as [H|[H|H]]; [|exact H|].
    - specialize (A4 ltac:(lia)). specialize (B3 (S j) ltac:(lia)). lia.
    - specialize (B4 ltac:(lia)). specialize (A3 (S j2) ltac:(lia)). lia.
  Qed.
  Lemma span_seq x i j : x_start x = Z.of_nat i -> x_end x = Z.of_nat j -> (i <= j)%nat -> span x = seq i (S j - i).
  Proof. intros E1 E2 H. unfold span. rewrite E1, E2, Nat2Z.id. f_equal. lia. Qed.
  Lemma recalc_ok s x : length s = length os -> cnd x -> recalc s x = Some (mkExc (x_start x) (x_end x) (x_spos x) (x_epos x) (x_soff x) (x_eoff x) (win s (Z.to_nat (x_start x)) (Z.to_nat (x_end x - x_start x + 1)))).
  Proof.
    intros Hs (i & j & E1 & E2 & F1 & F2 & _). unfold recalc. rewrite (span_seq x i j E1 E2 F1). rewrite E1, E2, Nat2Z.id. replace (Z.to_nat (Z.of_nat j - Z.of_nat i + 1)) with (S j - i)%nat by lia.
    assert (H : forall n a i, (i + n <= length s)%nat -> fold_left (fun a j => do x <- a; do y <- nth_error s j; Some (x + y)) (seq i n) (Some a) = Some (a + win s i n)).
    { induction n as [|n IH]; intros a i0 Hi; cbn [seq fold_left]; [unfold win; cbn; f_equal; lia|]. rewrite (nth_some s i0 0) by lia. cbn [obind]. rewrite IH by lia. rewrite win_first. f_equal. lia. }
    rewrite H by lia. cbn [obind]. reflexivity.
  Qed.
  Lemma upd_nth {A} (l : list A) i k v d : (i < length l)%nat -> nth k (upd l i v) d = if (k =? i)%nat then v else nth k l d.
  Proof.
    intros Hi. destruct (Nat.eqb_spec k i) as [->|H]; [apply nth_error_nth; apply upd_eq; exact Hi|]. destruct (nth_error l k) as [x|] eqn:E.
    - rewrite (nth_error_nth l k d E). apply nth_error_nth. rewrite upd_neq by auto. exact E.
    - rewrite !nth_overflow; [reflexivity|apply nth_error_None; exact E|]. rewrite upd_length. apply nth_error_None. exact E.
  Qed.
  Lemma zero_ok seen x i j : x_start x = Z.of_nat i -> x_end x = Z.of_nat j -> (i <= j < length os)%nat -> zero (masked sc seen) x = Some (masked sc ((i, j) :: seen)).
  Proof.
    intros E1 E2 Hij. unfold zero. rewrite (span_seq x i j E1 E2 ltac:(lia)).
    assert (H : forall n i l, (i + n <= length l)%nat -> exists l2, fold_left (fun a j => do l <- a; do _ <- nth_error l j; Some (upd l j 0)) (seq i n) (Some l) = Some l2 /\ length l2 = length l /\ forall k, nth k l2 0 = if ((i <=? k) && (k <? i + n))%nat then 0 else nth k l 0).
    { induction n as [|n IH]; intros i0 l Hi; cbn [seq fold_left].
      - exists l. splits; auto. intros k. destruct (Nat.leb_spec i0 k), (Nat.ltb_spec k (i0 + 0)); cbn [andb]; try reflexivity; lia.
      - cbn [obind]. rewrite (nth_some l i0 0) by lia. cbn [obind]. destruct (IH (S i0) (upd l i0 0) ltac:(rewrite upd_length; lia)) as (l2 & H1 & H2 & H3). exists l2. rewrite upd_length in H2. splits; auto. intros k. rewrite H3, upd_nth by lia.
        destruct (Nat.leb_spec (S i0) k), (Nat.ltb_spec k (S i0 + n)), (Nat.leb_spec i0 k), (Nat.ltb_spec k (i0 + S n)), (Nat.eqb_spec k i0); cbn [andb]; try reflexivity; lia. }
    destruct (H (S j - i)%nat i (masked sc seen) ltac:(rewrite masked_len; lia)) as (l2 & F1 & F2 & F3). rewrite F1. f_equal. apply nth_ext with 0 0; [rewrite F2, !masked_len; reflexivity|]. intros k _. rewrite F3, !masked_nth. unfold hidden. cbn [existsb fst snd].
    destruct (Nat.leb_spec i k), (Nat.ltb_spec k (i + (S j - i))), (Nat.leb_spec k j); cbn [andb orb]; try reflexivity; lia.
  Qed.
  Lemma masked_nonneg seen k : 0 <= nth k (masked sc seen) 0.
  Proof. rewrite masked_nth. destruct (hidden seen k); [lia|apply Hsc]. Qed.
  Lemma masked_win_le seen w : forall n i, win (masked sc (w :: seen)) i n <= win (masked sc seen) i n.
  Proof.
    induction n as [|n IH]; intros i; [reflexivity|]. rewrite !win_first. specialize (IH (S i)). rewrite !masked_nth. unfold hidden at 1. cbn [existsb]. fold (hidden seen i). specialize (Hsc i). destruct (_ && _), (hidden seen i); cbn [orb]; lia.
  Qed.
  Lemma masked_win_0 seen i j : forall n k, (i <= k)%nat -> (k + n <= S j)%nat -> win (masked sc ((i, j) :: seen)) k n = 0.
  Proof.
    induction n as [|n IH]; intros k H1 H2; [reflexivity|]. rewrite win_first, IH by lia. rewrite masked_nth. unfold hidden. cbn [existsb fst snd]. rewrite (proj2 (Nat.leb_le i k)), (proj2 (Nat.leb_le k j)) by lia. reflexivity.
  Qed.
  (* what the queue holds: scores are not too low *)
  Record Holds (s : list Z) (m : list exc) : Prop := {
    H_cand : forall x, In x m -> cnd x;
    H_nd : NoDup (map x_start m);
    H_up : forall x, In x m -> win s (Z.to_nat (x_start x)) (Z.to_nat (x_end x - x_start x + 1)) <= x_score x;
    H_all : forall i j, fits L os i j -> (exists x, In x m /\ x_start x = Z.of_nat i) \/ win s i (S j - i) = 0 }.
  Lemma Holds_perm s a b : Permutation a b -> Holds s a -> Holds s b.
  Proof.
    intros HP [A B C D]. assert (HI : forall x, In x b -> In x a) by (intros x; apply Permutation_in, Permutation_sym, HP). split; auto.
    - apply (Permutation_NoDup (Permutation_map x_start HP) B).
    - intros i j F. destruct (D i j F) as [(x & Hx & E)|E]; [left; exists x; split; [apply (Permutation_in _ HP)|]; assumption|right; exact E].
  Qed.
  Definition stale (s : list Z) (x : exc) : bool := negb (x_score x =? win s (Z.to_nat (x_start x)) (Z.to_nat (x_end x - x_start x + 1))).
  Definition is_top (q : pq exc) (x : exc) : Prop := elt exc (pq_heap q) 1 = Some x.
  Lemma top_nth q x : is_top q x -> nth_error (pq_heap q) 1 = Some (Some x).
  Proof. intros H. apply elt_some. exact H. Qed.
  Lemma settle_ok capa s : length s = length os -> forall fuel q m e, QInv capa q m -> Holds s m -> (length (filter (stale s) m) + 2 <= fuel)%nat ->
    match e with Some i => exists x, In x m /\ x_start x = i /\ fresh s x | None => True end ->
    exists q1 m1, settle fuel q s e = Some q1 /\ QInv capa q1 m1 /\ Holds s m1 /\ (forall x, is_top q1 x -> (0 < pq_size q1)%nat -> fresh s x) /\ Permutation (map x_start m1) (map x_start m).
  Proof.
    intros Hs. induction fuel as [|fuel IH]; intros q m e HQ HH Hf He; [lia|]. cbn [settle]. unfold pq_top. destruct (Nat.ltb_spec 0 (pq_size q)) as [Hp|Hp].
    - destruct (top_elt exc exc_lt capa q m HQ Hp) as (x & m2 & Hx & HP). rewrite (top_nth q x Hx). cbn [obind].
      assert (Hxm : In x m) by (apply (Permutation_in _ (Permutation_sym HP)); left; reflexivity).
      destruct (match e with Some i => i =? x_start x | None => false end) eqn:Ee.
      + exists q, m. splits; auto. intros y Hy _. unfold is_top in *. assert (Exy : x = y) by congruence. subst y. destruct e as [i|]; [|discriminate]. apply Z.eqb_eq in Ee. destruct He as (y & Hy1 & Hy2 & Hy3).
        assert (y = x); [|subst; assumption]. pose proof (H_nd _ _ HH) as ND. clear - ND Hy1 Hxm Ee Hy2. assert (E : x_start y = x_start x) by lia. clear Ee Hy2. induction m as [|a m IH]; [contradiction|]. cbn [map] in ND. inversion ND as [|? ? N1 N2]; subst. destruct Hy1 as [->|Hy1], Hxm as [->|Hxm]; auto; exfalso; apply N1; [rewrite E|rewrite <- E]; apply in_map; assumption.
      + pose proof (H_cand _ _ HH x Hxm) as Hc. rewrite (recalc_ok s x Hs Hc). cbn [obind]. set (y := mkExc _ _ _ _ _ _ _).
        assert (Hyf : fresh s y) by reflexivity. destruct (stale s x) eqn:Est.
        * destruct (replace_top_ok exc exc_lt exc_pre capa q m x m2 y HQ Hx HP) as (q1 & E1 & HQ1). rewrite E1. cbn [obind].
          pose proof (Holds_perm _ _ _ HP HH) as [A B C D]. assert (HH1 : Holds s (y :: m2)).
          { split; [intros z [<-|Hz]; [exact Hc|apply A; right; exact Hz]|exact B|intros z [<-|Hz]; [unfold y; cbn; lia|apply C; right; exact Hz]|].
            intros i j F. destruct (D i j F) as [(z & [<-|Hz] & E)|E]; [left; exists y; split; [left; reflexivity|exact E]|left; exists z; split; [right|]; assumption|right; exact E]. }
          destruct (IH q1 (y :: m2) (Some (x_start x)) HQ1 HH1) as (q2 & m3 & R1 & R2 & R3 & R4 & R5).
          -- assert (Ey : stale s y = false) by (unfold stale, y; cbn [x_score x_start x_end]; rewrite Z.eqb_refl; reflexivity). cbn [filter]. rewrite Ey. pose proof (Permutation_length (filter_perm (stale s) _ _ HP)) as PL. cbn [filter] in PL. rewrite Est in PL. cbn [length] in PL. lia.
          -- exists y. splits; [left; reflexivity|reflexivity|exact Hyf].
          -- exists q2, m3. splits; auto. etransitivity; [exact R5|]. apply Permutation_sym. apply (Permutation_map x_start) in HP. exact HP.
        * assert (y = x). { unfold stale in Est. apply negb_false_iff, Z.eqb_eq in Est. unfold y. rewrite <- Est. destruct x; reflexivity. } rewrite H. rewrite (same_top capa q m x HQ Hx Hp). cbn [obind].
          destruct fuel as [|fuel]; [lia|]. cbn [settle]. unfold pq_top. rewrite (proj2 (Nat.ltb_lt _ _) Hp), (top_nth q x Hx). cbn [obind]. rewrite Z.eqb_refl. exists q, m. splits; auto. intros z Hz _. unfold is_top in *. assert (x = z) by congruence. subst z. rewrite H in Hyf. exact Hyf.
    - cbn [obind]. assert (Em : m = []) by (pose proof (pi_size _ _ _ _ _ HQ); apply length_zero_iff_nil; lia). destruct e as [i|]; [destruct He as (x & Hx & _); subst m; contradiction|]. exists q, m. splits; auto. intros; lia.
  Qed.
  Hypothesis Hex : forall i, (i < length os)%nat -> exists j, fits L os i j.
  Lemma fits_window i j : fits L os i j -> window L os (i, j).
  Proof. intros (F1 & F2 & F3 & F4). split; cbn [fst snd]; [lia|]. apply (F3 j). lia. Qed.
  Definition same_w (x : exc) (w : nat * nat) : Prop := x_start x = Z.of_nat (fst w) /\ x_end x = Z.of_nat (snd w) /\ fits L os (fst w) (snd w).
  Lemma choose_ok capa : forall n q m seen, QInv capa q m -> Holds (masked sc seen) m -> (forall x, is_top q x -> (0 < pq_size q)%nat -> fresh (masked sc seen) x) ->
    exists ch ws, choose n q (masked sc seen) = Some ch /\ Forall2 same_w ch ws /\ NoDup (map x_start ch) /\ incl (map x_start ch) (map x_start m) /\ greedy L os sc seen ws /\ length ch = Nat.min n (length m).
  Proof.
    induction n as [|n IH]; intros q m seen HQ HH HT; cbn [choose]; [exists [], []; splits; try constructor; intros ? []|]. destruct (Nat.ltb_spec 0 (pq_size q)) as [Hp|Hp].
    2:{ exists [], []. pose proof (pi_size _ _ _ _ _ HQ). splits; try constructor; [intros ? []|]. cbn [length]. lia. }
    destruct (pop_ok exc exc_lt exc_pre capa q m HQ Hp) as (x & m2 & q2 & E & HP & (Hxm & Hbest) & HQ2). rewrite E. cbn [obind fst snd].
    assert (Hfr : fresh (masked sc seen) x) by (apply HT; [|exact Hp]; unfold is_top; apply elt_some; apply (pop_top q _ _ E Hp)).
    pose proof (H_cand _ _ HH x Hxm) as (i & j & E1 & E2 & HF). assert (Hw : same_w x (i, j)) by (unfold same_w; cbn [fst snd]; splits; assumption). assert (Hij : (i <= j < length os)%nat) by (destruct HF; lia).
    assert (Hsx : x_score x = worth sc seen (i, j)). { rewrite worth_win, Hfr, E1, E2, Nat2Z.id. f_equal. lia. }
    assert (HG : forall w2, window L os w2 -> worth sc seen w2 <= worth sc seen (i, j)).
    { intros (a & b) (W1 & W2). cbn [fst snd] in *. destruct (Hex a ltac:(lia)) as (j2 & HF2). assert (Hb : (b <= j2)%nat). { destruct (Nat.leb_spec b j2) as [D|D]; [exact D|]. destruct HF2 as (F1 & F2 & F3 & F4). specialize (F4 ltac:(lia)). specialize (Hen (S j2) b ltac:(lia)). unfold en, st in *. lia. }
      rewrite worth_win. transitivity (win (masked sc seen) a (S j2 - a)); [apply win_mono; [apply masked_nonneg|lia]|]. destruct (H_all _ _ HH a j2 HF2) as [(y & Hy & Ey)|E0].
      - pose proof (H_up _ _ HH y Hy) as U. pose proof (H_cand _ _ HH y Hy) as (a2 & b2 & C1 & C2 & C3). assert (a2 = a) by lia. subst a2. pose proof (fits_unique _ _ _ HF2 C3) as <-. rewrite C1, C2, Nat2Z.id in U. replace (Z.to_nat (Z.of_nat j2 - Z.of_nat a + 1)) with (S j2 - a)%nat in U by (destruct C3; lia). specialize (Hbest y Hy). unfold le, exc_lt in Hbest. rewrite Z.ltb_ge in Hbest. lia.
      - rewrite E0, worth_win. apply win_nonneg. apply masked_nonneg. }
    pose proof (Permutation_length HP) as PL. cbn [length] in PL. destruct (Nat.eqb_spec n 0) as [->|Hn].
    - exists [x], [(i, j)]. splits; [reflexivity|constructor; [exact Hw|constructor]|constructor; [intros []|constructor]|intros z [<-|[]]; apply in_map; exact Hxm| |cbn [length]; lia]. cbn [greedy]. splits; [apply fits_window; exact HF|exact HG|constructor].
    - rewrite (zero_ok seen x i j E1 E2 Hij). cbn [obind]. pose proof (Holds_perm _ _ _ HP HH) as [A B C D]. assert (HH2 : Holds (masked sc ((i, j) :: seen)) m2).
      { cbn [map] in B. inversion B as [|? ? B1 B2]; subst. split; [intros z Hz; apply A; right; exact Hz|exact B2|intros z Hz; etransitivity; [apply masked_win_le|]; apply C; right; exact Hz|].
        intros a b F. destruct (D a b F) as [(z & [<-|Hz] & Ez)|Ez].
        - right. assert (a = i) by lia. subst a. rewrite (fits_unique _ _ _ F HF). apply masked_win_0; lia.
        - left. exists z. split; assumption.
        - right. pose proof (masked_win_le seen (i, j) (S b - a) a). pose proof (win_nonneg (masked sc ((i, j) :: seen)) (masked_nonneg _) (S b - a) a). lia. }
      assert (Hfil : forall (f : exc -> bool) l, (length (filter f l) <= length l)%nat) by (intros f l; induction l as [|a l IHl]; cbn [filter length]; [lia|]; destruct (f a); cbn [length]; lia).
      destruct (settle_ok capa (masked sc ((i, j) :: seen)) ltac:(rewrite masked_len; exact Hlen) (S (S (pq_size q2))) q2 m2 None HQ2 HH2) as (q3 & m3 & R1 & R2 & R3 & R4 & R5); [pose proof (pi_size _ _ _ _ _ HQ2) as ->; specialize (Hfil (stale (masked sc ((i, j) :: seen))) m2); lia|exact Logic.I|].
      rewrite R1. cbn [obind]. destruct (IH q3 m3 _ R2 R3 R4) as (ch & ws & S1 & S2 & S3 & S4 & S5 & S6). rewrite S1. cbn [obind]. exists (x :: ch), ((i, j) :: ws). splits.
      + reflexivity.
      + constructor; assumption.
      + cbn [map]. constructor; [|exact S3]. intros Hin. apply S4 in Hin. apply (Permutation_in _ R5) in Hin. cbn [map] in B. inversion B; subst. contradiction.
      + cbn [map]. intros z [<-|Hz]; [apply in_map; exact Hxm|]. apply (Permutation_in _ (Permutation_sym (Permutation_map x_start HP))). right. apply (Permutation_in _ R5). apply S4. exact Hz.
      + cbn [greedy]. splits; [apply fits_window; exact HF|exact HG|exact S5].
      + cbn [length]. rewrite S6. apply Permutation_length in R5. rewrite !map_length in R5. lia.
  Qed.
  Lemma chosen cs num : map x_start cs = map Z.of_nat (seq 0 (length os)) -> Forall (fun x => is_cand L os x /\ fresh sc x) cs ->
    exists q ch ws, push_cands (pq_new exc (length os)) cs = Some q /\ choose num q sc = Some ch /\ Forall2 same_w ch ws /\ NoDup (map x_start ch) /\ greedy L os sc [] ws /\ length ch = Nat.min num (length os).
  Proof.
    intros E HF. destruct (push_cands_ok (length os) cs _ _ (new_ok exc exc_lt (length os))) as (q & E1 & HQ). rewrite app_nil_r in HQ. rewrite Forall_forall in HF.
    assert (HI : forall x, In x (rev cs) -> is_cand L os x /\ fresh sc x) by (intros x Hx; apply HF; apply in_rev; exact Hx).
    assert (Em : masked sc [] = sc). { apply nth_ext with 0 0; [apply masked_len|]. intros k _. rewrite masked_nth. reflexivity. }
    assert (Hl : length cs = length os) by (pose proof (f_equal (@length Z) E) as El; rewrite !map_length, seq_length in El; exact El).
    destruct (choose_ok (length os) num q (rev cs) [] HQ) as (ch & ws & S1 & S2 & S3 & S4 & S5 & S6).
    - rewrite Em. split; [intros x Hx; apply HI; exact Hx| |intros x Hx; destruct (HI x Hx) as (_ & ->); reflexivity|].
      + rewrite map_rev. apply NoDup_rev. rewrite E. apply FinFun.Injective_map_NoDup; [intros a b; apply Nat2Z.inj|apply seq_NoDup].
      + intros i j (F1 & F2 & _). left. assert (Hin : In (Z.of_nat i) (map x_start cs)) by (rewrite E; apply in_map; apply in_seq; lia). apply in_map_iff in Hin. destruct Hin as (x & Ex & Hx). exists x. split; [apply in_rev; rewrite rev_involutive; exact Hx|exact Ex].
    - rewrite Em. intros x Hx Hs. apply HI. destruct (PInv_least exc exc_lt exc_pre _ _ _ _ HQ Hx Hs) as (Hin & _). exact Hin.
    - rewrite Em in S1. exists q, ch, ws. splits; auto. rewrite S6, rev_length, Hl. reflexivity.
  Qed.
End CHOICE.
