From Verif Require Import Util PQueue_Model PQueue_Spec.
From Coq Require Import Sorting.Permutation Sorting.Sorted.
Open Scope nat_scope.

Lemma perm_swap_upd {X} (l : list X) i j x y : i < j -> nth_error l i = Some x -> nth_error l j = Some y ->
  Permutation (upd (upd l i y) j x) l.
Proof.
  intros Hij Hi Hj. apply nth_error_split in Hi. destruct Hi as (l1 & l2 & -> & <-).
  rewrite nth_error_app2 in Hj by lia. destruct (j - length l1) as [|d] eqn:Ed; [lia|]. cbn in Hj.
  apply nth_error_split in Hj. destruct Hj as (l3 & l4 & -> & <-).
  assert (U : forall (a : list X) s b s' n, n = length a -> upd (a ++ s :: b) n s' = a ++ s' :: b).
  { intros a s b s' n ->. induction a as [|z a IH]; cbn; auto. f_equal. exact IH. }
  rewrite (U l1) by reflexivity.
  replace (l1 ++ y :: l3 ++ y :: l4) with ((l1 ++ y :: l3) ++ y :: l4) by (rewrite <- app_assoc; reflexivity).
  rewrite U by (rewrite app_length; cbn; lia). rewrite <- app_assoc. cbn [app].
  apply Permutation_app_head.
  transitivity (x :: y :: l3 ++ l4).
  - transitivity (y :: x :: l3 ++ l4); [constructor; apply Permutation_sym, Permutation_middle|apply perm_swap].
  - constructor. apply Permutation_middle.
Qed.
Lemma upd_eq {X} (l : list X) i v : i < length l -> nth_error (upd l i v) i = Some v.
Proof. intros H. rewrite nth_error_upd, Nat.eqb_refl. destruct (Nat.ltb_spec i (length l)); [reflexivity|lia]. Qed.
Lemma upd_neq {X} (l : list X) i j v : i <> j -> nth_error (upd l i v) j = nth_error l j.
Proof. intros H. rewrite nth_error_upd. destruct (Nat.eqb_spec i j); [contradiction|reflexivity]. Qed.
Lemma upd_same {X} (l : list X) i v w : upd (upd l i v) i w = upd l i w.
Proof. revert i. induction l as [|a l IH]; intros [|i]; cbn; auto. f_equal. apply IH. Qed.
Lemma upd_comm {X} (l : list X) i j v w : i <> j -> upd (upd l i v) j w = upd (upd l j w) i v.
Proof. revert i j. induction l as [|a l IH]; intros [|i] [|j] H; cbn; auto; try congruence. f_equal. apply IH. congruence. Qed.
Lemma upd_id {X} (l : list X) i v : nth_error l i = Some v -> upd l i v = l.
Proof. revert i. induction l as [|a l IH]; intros [|i] H; cbn in *; auto; try discriminate; [congruence|]. f_equal. auto. Qed.

Section Heap.
  Variable A : Type.
  Variable lt : A -> A -> bool.
  Hypothesis Hpre : preorder A lt.
  Notation le := (le A lt).
  Notation heap := (list (option A)).
  Notation elt := (elt A).

  Lemma le_refl a : le a a.
  Proof. destruct Hpre as [H _]. destruct (H a a); auto. Qed.
  Lemma le_trans a b c : le a b -> le b c -> le a c.
  Proof. destruct Hpre as [_ H]. apply H. Qed.
  Lemma lt_le a b : lt a b = true -> le a b.
  Proof. intros H. destruct Hpre as [T _]. destruct (T a b) as [H1|H1]; auto. unfold PQueue_Spec.le in H1. congruence. Qed.

  Definition contents (h : heap) (n : nat) : heap := firstn n (skipn 1 h).
  Lemma contents_nth h n i : i < n -> nth_error (contents h n) i = nth_error h (S i).
  Proof. intros H. unfold contents. rewrite nth_error_firstn, nth_error_skipn. destruct (Nat.ltb_spec i n); [reflexivity|lia]. Qed.
  Lemma contents_upd h n i v : i < n -> contents (upd h (S i) v) n = upd (contents h n) i v.
  Proof.
    unfold contents. intros H. destruct h as [|x h].
    - cbn. destruct n; cbn; destruct i; reflexivity.
    - cbn [upd skipn]. revert i n H. induction h as [|y h IH]; intros i n H.
      + destruct n; cbn; destruct i; reflexivity.
      + destruct n as [|n]; [lia|]. destruct i as [|i]; cbn [upd firstn]; [reflexivity|]. f_equal. apply IH. lia.
  Qed.
  Lemma elt_some h i x : elt h i = Some x <-> nth_error h i = Some (Some x).
  Proof. unfold PQueue_Model.elt. destruct (nth_error h i) as [[y|]|]; cbn; split; intros H; congruence. Qed.
  Lemma elt_upd_eq h i x : i < length h -> elt (upd h i (Some x)) i = Some x.
  Proof. intros H. apply elt_some. apply upd_eq; auto. Qed.
  Lemma elt_upd_neq h i j x : i <> j -> elt (upd h i x) j = elt h j.
  Proof. intros H. unfold PQueue_Model.elt. rewrite upd_neq; auto. Qed.

  Definition full (h : heap) (n : nat) : Prop := forall i, 1 <= i <= n -> exists x, elt h i = Some x.
  Definition ordp (h : heap) (i : nat) : Prop := forall x y, elt h (i / 2) = Some x -> elt h i = Some y -> le x y.
  Definition ord (h : heap) (n : nat) : Prop := forall i, 2 <= i <= n -> ordp h i.

  Lemma half_lt i : 1 <= i -> i / 2 < i.
  Proof. intros H. apply Nat.div_lt; lia. Qed.
  Lemma half_pos i : 2 <= i -> 1 <= i / 2.
  Proof. intros H. apply Nat.div_le_lower_bound; lia. Qed.

  (* exchanging two cells keeps the contents *)
  Lemma swap_contents h n i j x y : 1 <= j -> j < i -> i <= n -> n < length h ->
    nth_error h i = Some x -> nth_error h j = Some y ->
    Permutation (contents (upd (upd h i y) j x) n) (contents h n).
  Proof.
    intros H1 H2 H3 H4 Hi Hj. destruct i as [|i]; [lia|]. destruct j as [|j]; [lia|].
    rewrite !contents_upd by lia. rewrite upd_comm by lia. apply perm_swap_upd; [lia| |].
    - rewrite contents_nth by lia. exact Hj.
    - rewrite contents_nth by lia. exact Hi.
  Qed.

  (* ---------- moving up *)
  Lemma up_ok : forall fuel h i n node, 1 <= i <= n -> i < fuel -> n < length h -> full (upd h i (Some node)) n ->
    (forall k, 2 <= k <= n -> k <> i -> ordp (upd h i (Some node)) k) ->
    (forall c x y, 2 <= i -> 2 <= c <= n -> c / 2 = i -> elt h (i / 2) = Some x -> elt (upd h i (Some node)) c = Some y -> le x y) ->
    exists h', up A lt fuel h i node = Some h' /\ length h' = length h /\ ord h' n /\
      Permutation (contents h' n) (contents (upd h i (Some node)) n) /\ nth_error h' 0 = nth_error h 0 /\
      forall k, n < k -> nth_error h' k = nth_error h k.
  Proof.
    induction fuel as [|f IH]; intros h i n node Hi Hf Hn Hfull Hord Hgrand; [lia|]. cbn [up].
    destruct (Nat.ltb_spec 0 (i / 2)) as [Hj|Hj].
    - assert (Hi2 : 2 <= i) by (destruct i as [|[|i]]; cbn in Hj; lia).
      pose proof (half_lt i ltac:(lia)) as Hlt.
      destruct (Hfull (i / 2) ltac:(lia)) as (p & Hp). rewrite elt_upd_neq in Hp by lia. rewrite Hp. cbn [obind].
      destruct (lt node p) eqn:Elt.
      + set (h1 := upd h i (Some p)). set (j := i / 2) in *.
        assert (Hh1 : upd h1 j (Some node) = upd (upd (upd h i (Some node)) i (Some p)) j (Some node)) by (unfold h1; rewrite upd_same; reflexivity).
        assert (Hpi : nth_error (upd h i (Some node)) j = Some (Some p)) by (rewrite upd_neq by lia; apply elt_some; auto).
        assert (Hii : nth_error (upd h i (Some node)) i = Some (Some node)) by (apply upd_eq; lia).
        assert (Hlen1 : length h1 = length h) by (unfold h1; apply upd_length).
        assert (E1 : forall k, k <> i -> k <> j -> elt (upd h1 j (Some node)) k = elt (upd h i (Some node)) k).
        { intros k K1 K2. unfold h1. rewrite !elt_upd_neq by auto. reflexivity. }
        assert (E2 : elt (upd h1 j (Some node)) i = Some p).
        { rewrite elt_upd_neq by lia. unfold h1. apply elt_upd_eq. lia. }
        assert (E3 : elt (upd h1 j (Some node)) j = Some node) by (apply elt_upd_eq; lia).
        destruct (IH h1 j n node) as (h' & R1 & R2 & R3 & R4 & R5 & R6); auto; try lia.
        * intros k Hk. destruct (Nat.eq_dec k i) as [->|K1]; [eauto|]. destruct (Nat.eq_dec k j) as [->|K2]; [eauto|].
          rewrite E1 by auto. apply Hfull; lia.
        * intros k Hk Hkj x y Hx Hy. destruct (Nat.eq_dec k i) as [->|K1].
          { fold j in Hx. rewrite E3 in Hx. rewrite E2 in Hy. apply some_inj in Hx, Hy. subst x y. apply lt_le; auto. }
          rewrite E1 in Hy by auto. destruct (Nat.eq_dec (k / 2) i) as [K3|K3].
          { rewrite K3, E2 in Hx. apply some_inj in Hx. subst x. eapply Hgrand; eauto. }
          destruct (Nat.eq_dec (k / 2) j) as [K4|K4].
          { rewrite K4, E3 in Hx. apply some_inj in Hx. subst x. apply le_trans with p; [apply lt_le; auto|].
            apply (Hord k Hk K1); auto. rewrite K4. apply elt_some; auto. }
          rewrite E1 in Hx by auto. apply (Hord k Hk K1); auto.
        * intros c x y Hj2 Hc Hcj Hx Hy.
          assert (Hxx : elt (upd h i (Some node)) (j / 2) = Some x).
          { unfold h1 in Hx. pose proof (half_lt j ltac:(lia)). rewrite elt_upd_neq in Hx by lia. rewrite elt_upd_neq by lia. exact Hx. }
          assert (Hxp : le x p) by (apply (Hord j ltac:(lia) ltac:(lia)); auto; apply elt_some; auto).
          destruct (Nat.eq_dec c i) as [->|K1]; [rewrite E2 in Hy; apply some_inj in Hy; subst y; auto|].
          assert (Kcj : c <> j) by (pose proof (half_lt c ltac:(lia)); lia).
          rewrite E1 in Hy by auto. apply le_trans with p; auto. apply (Hord c Hc K1); auto. rewrite Hcj. apply elt_some; auto.
        * exists h'. split; auto. split; [lia|]. split; auto. split; [|split].
          -- rewrite R4, Hh1. apply swap_contents; auto; try lia. rewrite upd_length. lia.
          -- rewrite R5. unfold h1. rewrite upd_neq by lia. reflexivity.
          -- intros k Hk. rewrite R6 by auto. unfold h1. rewrite upd_neq by lia. reflexivity.
      + exists (upd h i (Some node)). split; auto. split; [apply upd_length|]. split; [|split; [apply Permutation_refl|split]].
        * intros k Hk. destruct (Nat.eq_dec k i) as [->|K]; [|apply Hord; auto].
          intros x y Hx Hy. rewrite elt_upd_neq in Hx by lia. rewrite elt_upd_eq in Hy by lia. rewrite Hp in Hx.
          apply some_inj in Hx, Hy. subst x y. exact Elt.
        * apply upd_neq. lia.
        * intros k Hk. apply upd_neq. lia.
    - assert (Hi1 : i = 1) by (destruct i as [|[|i]]; [lia|lia|exfalso; pose proof (half_pos (S (S i)) ltac:(lia)); lia]). subst i.
      exists (upd h 1 (Some node)). split; auto. split; [apply upd_length|]. split; [|split; [apply Permutation_refl|split]].
      + intros k Hk. apply Hord; lia.
      + apply upd_neq. lia.
      + intros k Hk. apply upd_neq. lia.
  Qed.

  (* ---------- moving down *)
  Lemma child_ok h i n : full h n -> 1 <= i -> exists j, child A lt h i n = Some j /\ (j = 2 * i \/ j = 2 * i + 1) /\
    (n < j -> n < 2 * i) /\ (forall c x y, c / 2 = i -> 2 <= c <= n -> elt h j = Some x -> elt h c = Some y -> le x y).
  Proof.
    intros Hfull Hi. unfold child.
    assert (Hc : forall c, c / 2 = i -> c = 2 * i \/ c = 2 * i + 1) by (intros c H; pose proof (Nat.div_mod c 2 ltac:(lia)); pose proof (Nat.mod_upper_bound c 2 ltac:(lia)); lia).
    destruct (Nat.leb_spec (2 * i + 1) n) as [H|H].
    - destruct (Hfull (2 * i + 1) ltac:(lia)) as (a & Ha). destruct (Hfull (2 * i) ltac:(lia)) as (b & Hb).
      rewrite Ha, Hb. cbn [obind]. destruct (lt a b) eqn:E; eexists; (split; [reflexivity|]); (split; [lia|]); (split; [lia|]).
      + intros c x y Hcc Hcn Hx Hy. rewrite Ha in Hx. apply some_inj in Hx. subst x.
        destruct (Hc c Hcc) as [->| ->]; [rewrite Hb in Hy|rewrite Ha in Hy]; apply some_inj in Hy; subst y; [apply lt_le; auto|apply le_refl].
      + intros c x y Hcc Hcn Hx Hy. rewrite Hb in Hx. apply some_inj in Hx. subst x.
        destruct (Hc c Hcc) as [->| ->]; [rewrite Hb in Hy|rewrite Ha in Hy]; apply some_inj in Hy; subst y; [apply le_refl|exact E].
    - eexists. split; [reflexivity|]. split; [lia|]. split; [lia|].
      intros c x y Hcc Hcn Hx Hy. destruct (Hc c Hcc) as [->| ->]; [|lia]. rewrite Hx in Hy. apply some_inj in Hy. subst y. apply le_refl.
  Qed.

  Lemma down_ok : forall fuel h i n node, 1 <= i <= n -> n < fuel + i -> n < length h -> full h n ->
    (forall k, 2 <= k <= n -> k / 2 <> i -> ordp (upd h i (Some node)) k) ->
    (forall c x y, 2 <= i -> 2 <= c <= n -> c / 2 = i -> elt h (i / 2) = Some x -> elt h c = Some y -> le x y) ->
    exists h', down A lt fuel h i n (Some node) = Some h' /\ length h' = length h /\ ord h' n /\
      Permutation (contents h' n) (contents (upd h i (Some node)) n) /\ nth_error h' 0 = nth_error h 0 /\
      forall k, n < k -> nth_error h' k = nth_error h k.
  Proof.
    induction fuel as [|f IH]; intros h i n node Hi Hf Hn Hfull Hord Hgrand; [lia|]. cbn [down].
    destruct (child_ok h i n Hfull ltac:(lia)) as (j & Ej & Hj & Hjn & Hmin). rewrite Ej. cbn [obind].
    assert (Hj2 : j / 2 = i) by (destruct Hj as [->| ->]; symmetry; [apply Nat.div_unique with 0|apply Nat.div_unique with 1]; lia).
    destruct (Nat.leb_spec j n) as [Hjle|Hjle].
    - destruct (Hfull j ltac:(lia)) as (c & Hc). rewrite Hc. cbn [obind]. destruct (lt c node) eqn:Elt.
      + set (h1 := upd h i (Some c)).
        assert (Hlen1 : length h1 = length h) by (unfold h1; apply upd_length).
        assert (E1 : forall k, k <> i -> k <> j -> elt (upd h1 j (Some node)) k = elt (upd h i (Some node)) k).
        { intros k K1 K2. unfold h1. rewrite !elt_upd_neq by auto. reflexivity. }
        assert (E2 : elt (upd h1 j (Some node)) i = Some c).
        { rewrite elt_upd_neq by lia. unfold h1. apply elt_upd_eq. lia. }
        assert (E3 : elt (upd h1 j (Some node)) j = Some node) by (apply elt_upd_eq; lia).
        assert (E4 : elt (upd h i (Some node)) j = Some c) by (rewrite elt_upd_neq by lia; auto).
        destruct (IH h1 j n node) as (h' & R1 & R2 & R3 & R4 & R5 & R6); auto; try lia.
        * intros k Hk. unfold h1. destruct (Nat.eq_dec k i) as [->|K1]; [eexists; apply elt_upd_eq; lia|]. rewrite elt_upd_neq by auto. apply Hfull; auto.
        * intros k Hk Hkj x y Hx Hy. destruct (Nat.eq_dec k j) as [->|K1].
          { rewrite Hj2, E2 in Hx. rewrite E3 in Hy. apply some_inj in Hx, Hy. subst x y. apply lt_le; auto. }
          destruct (Nat.eq_dec k i) as [->|K2].
          { rewrite E2 in Hy. apply some_inj in Hy. subst y. pose proof (half_lt i ltac:(lia)). rewrite E1 in Hx by lia.
            apply (Hgrand j x c); auto; try lia. rewrite elt_upd_neq in Hx by lia. exact Hx. }
          rewrite E1 in Hy by auto. rewrite elt_upd_neq in Hy by auto. destruct (Nat.eq_dec (k / 2) i) as [K3|K3].
          { rewrite K3, E2 in Hx. apply some_inj in Hx. subst x. apply (Hmin k c y); auto. }
          rewrite E1 in Hx by auto. apply (Hord k Hk K3); auto. rewrite elt_upd_neq by auto. exact Hy.
        * intros c' x y _ Hc' Hcj Hx Hy. rewrite Hj2 in Hx. unfold h1 in Hx. rewrite elt_upd_eq in Hx by lia. apply some_inj in Hx. subst x.
          assert (c' <> i /\ c' <> j) by (pose proof (half_lt c' ltac:(lia)); lia). destruct H as [K1 K2].
          unfold h1 in Hy. rewrite elt_upd_neq in Hy by auto.
          apply (Hord c' Hc' ltac:(lia)); [rewrite Hcj; exact E4|rewrite elt_upd_neq by auto; exact Hy].
        * exists h'. split; auto. split; [lia|]. split; auto. split; [|split].
          -- rewrite R4. unfold h1.
             assert (Hs : upd (upd h i (Some c)) j (Some node) = upd (upd (upd h i (Some node)) j (Some node)) i (Some c)).
             { rewrite (upd_comm (upd h i (Some node)) j i) by lia. rewrite upd_same. reflexivity. }
             rewrite Hs. apply swap_contents; auto; try lia.
             ++ rewrite upd_length. lia.
             ++ apply elt_some. exact E4.
             ++ apply upd_eq. lia.
          -- rewrite R5. unfold h1. apply upd_neq. lia.
          -- intros k Hk. rewrite R6 by auto. unfold h1. apply upd_neq. lia.
      + exists (upd h i (Some node)). split; auto. split; [apply upd_length|]. split; [|split; [apply Permutation_refl|split]].
        * intros k Hk. destruct (Nat.eq_dec (k / 2) i) as [K|K]; [|apply Hord; auto].
          intros x y Hx Hy. rewrite K, elt_upd_eq in Hx by lia. apply some_inj in Hx. subst x.
          pose proof (half_lt k ltac:(lia)). rewrite elt_upd_neq in Hy by lia. apply le_trans with c; [exact Elt|]. apply (Hmin k c y); auto.
        * apply upd_neq. lia.
        * intros k Hk. apply upd_neq. lia.
    - exists (upd h i (Some node)). split; auto. split; [apply upd_length|]. split; [|split; [apply Permutation_refl|split]].
      * intros k Hk. apply Hord; auto. intros K. pose proof (Nat.div_mod k 2 ltac:(lia)). specialize (Hjn Hjle). lia.
      * apply upd_neq. lia.
      * intros k Hk. apply upd_neq. lia.
  Qed.

  (* ---------- the invariant *)
  Record PInv (capa : nat) (q : pq A) (m : list A) : Prop := {
    pi_perm : Permutation (contents (pq_heap q) (pq_size q)) (map Some m);
    pi_ord : ord (pq_heap q) (pq_size q);
    pi_size : pq_size q = length m;
    pi_len : pq_size q < length (pq_heap q);
    pi_capa : pq_capa q = capa }.

  Lemma perm_full h n (m : list A) : n < length h -> Permutation (contents h n) (map Some m) -> full h n.
  Proof.
    intros Hn HP i Hi. destruct i as [|i]; [lia|].
    destruct (nth_error h (S i)) as [o|] eqn:E; [|apply nth_error_None in E; lia].
    assert (Hin : In o (map Some m)).
    { apply (Permutation_in _ HP). apply nth_error_In with i. rewrite contents_nth by lia. exact E. }
    apply in_map_iff in Hin. destruct Hin as (x & <- & _). exists x. apply elt_some. exact E.
  Qed.
  Lemma perm_elt_in h n (m : list A) i x : n < length h -> Permutation (contents h n) (map Some m) -> 1 <= i <= n ->
    elt h i = Some x -> In x m.
  Proof.
    intros Hn HP Hi Hx. destruct i as [|i]; [lia|]. apply elt_some in Hx.
    assert (Hin : In (Some x) (map Some m)).
    { apply (Permutation_in _ HP). apply nth_error_In with i. rewrite contents_nth by lia. exact Hx. }
    apply in_map_iff in Hin. destruct Hin as (y & E & Hy). apply some_inj in E. subst y. exact Hy.
  Qed.
  Lemma in_elt h n (m : list A) x : n < length h -> Permutation (contents h n) (map Some m) -> In x m ->
    exists i, 1 <= i <= n /\ elt h i = Some x.
  Proof.
    intros Hn HP Hx. apply (in_map Some) in Hx. apply (Permutation_in _ (Permutation_sym HP)) in Hx.
    apply In_nth_error in Hx. destruct Hx as (i & Hi).
    assert (i < n).
    { assert (HS : i < length (contents h n)) by (apply nth_error_Some; congruence). unfold contents in HS. rewrite firstn_length in HS. lia. }
    rewrite contents_nth in Hi by auto. exists (S i). split; [lia|]. apply elt_some. exact Hi.
  Qed.
  (* the root is least *)
  Lemma root_least h n x : full h n -> ord h n -> elt h 1 = Some x -> forall i y, 1 <= i <= n -> elt h i = Some y -> le x y.
  Proof.
    intros Hfull Hord Hx i. induction i as [i IH] using lt_wf_ind. intros y Hi Hy.
    destruct (Nat.eq_dec i 1) as [->|Hi1].
    - rewrite Hx in Hy. apply some_inj in Hy. subst y. apply le_refl.
    - pose proof (half_lt i ltac:(lia)). pose proof (half_pos i ltac:(lia)).
      destruct (Hfull (i / 2) ltac:(lia)) as (z & Hz). apply le_trans with z.
      + apply (IH (i / 2)); auto. lia.
      + apply (Hord i ltac:(lia)); auto.
  Qed.
  Lemma PInv_least capa q m x : PInv capa q m -> elt (pq_heap q) 1 = Some x -> 0 < pq_size q -> least A lt x m.
  Proof.
    intros [P1 P2 P3 P4 P5] Hx Hs. pose proof (perm_full _ _ _ P4 P1) as Hfull. split.
    - apply (perm_elt_in _ _ _ 1 x P4 P1); auto; lia.
    - intros y Hy. destruct (in_elt _ _ _ y P4 P1 Hy) as (i & Hi & Ey). eapply root_least; eauto.
  Qed.
  Lemma contents_length h n : n < length h -> length (contents h n) = n.
  Proof. intros H. unfold contents. rewrite firstn_length, skipn_length. lia. Qed.
  Lemma contents_S h n v : S n < length h -> contents (upd h (S n) v) (S n) = contents h n ++ [v].
  Proof.
    intros H. rewrite contents_upd by lia. unfold contents.
    destruct h as [|x h]; [cbn in H; lia|]. cbn [skipn]. cbn [length] in H. revert n H. clear. induction h as [|y h IH]; intros n H; [cbn in H; lia|].
    destruct n as [|n]; [cbn; reflexivity|]. cbn [length] in H. cbn [firstn upd app]. f_equal. apply IH. lia.
  Qed.
  Lemma contents_ext h h' n : length h = length h' -> (forall i, 1 <= i <= n -> nth_error h i = nth_error h' i) -> contents h n = contents h' n.
  Proof.
    intros Hl H. unfold contents. apply list_ext.
    intros i. rewrite !nth_error_firstn, !nth_error_skipn. destruct (Nat.ltb_spec i n); auto. apply H. lia.
  Qed.
  Lemma ord_ext h h' n : (forall i, 1 <= i <= n -> nth_error h i = nth_error h' i) -> ord h n -> ord h' n.
  Proof.
    intros H Ho i Hi x y Hx Hy. pose proof (half_lt i ltac:(lia)). pose proof (half_pos i ltac:(lia)).
    apply (Ho i Hi); unfold PQueue_Model.elt in *; rewrite H by lia; auto.
  Qed.

  Lemma push_ok capa q m e : PInv capa q m -> exists q', pq_push A lt q e = Some q' /\ PInv capa q' (e :: m).
  Proof.
    intros [P1 P2 P3 P4 P5]. unfold pq_push.
    set (n := pq_size q) in *. set (h := if length (pq_heap q) <=? n + 1 then pq_heap q ++ repeat None (length (pq_heap q)) else pq_heap q).
    assert (Hh : n + 1 < length h).
    { unfold h. destruct (Nat.leb_spec (length (pq_heap q)) (n + 1)); [rewrite app_length, repeat_length; lia|lia]. }
    assert (Heq : forall i, i <= n -> nth_error h i = nth_error (pq_heap q) i).
    { intros i Hi. unfold h. destruct (length (pq_heap q) <=? n + 1); auto. apply nth_error_app1. lia. }
    destruct (nth_error h (n + 1)) as [o|] eqn:Eo; [|apply nth_error_None in Eo; lia]. cbn [obind].
    set (h1 := upd h (n + 1) (Some e)).
    assert (Hh1 : length h1 = length h) by (unfold h1; apply upd_length).
    assert (Hid : upd h1 (n + 1) (Some e) = h1) by (unfold h1; apply upd_same).
    assert (Hlow : forall i, i <= n -> elt h1 i = elt (pq_heap q) i).
    { intros i Hi. unfold h1. rewrite elt_upd_neq by lia. unfold PQueue_Model.elt. rewrite Heq by auto. reflexivity. }
    pose proof (perm_full _ _ _ P4 P1) as Hfull.
    destruct (up_ok (S (n + 1)) h1 (n + 1) (n + 1) e) as (h' & R1 & R2 & R3 & R4 & R5 & R6).
    - lia.
    - lia.
    - lia.
    - rewrite Hid. intros i Hi. destruct (Nat.eq_dec i (n + 1)) as [->|K]; [exists e; unfold h1; apply elt_upd_eq; lia|].
      rewrite Hlow by lia. apply Hfull; lia.
    - rewrite Hid. intros k Hk Hkn x y Hx Hy. pose proof (half_lt k ltac:(lia)). rewrite Hlow in Hx, Hy by lia. apply (P2 k ltac:(lia)); auto.
    - intros c x y H1 Hc Hc2. exfalso. pose proof (half_lt c ltac:(lia)). lia.
    - rewrite R1. cbn [obind]. eexists. split; [reflexivity|]. constructor; cbn [pq_heap pq_size pq_capa]; auto.
      + rewrite R4, Hid. unfold h1. replace (n + 1) with (S n) by lia. rewrite contents_S by lia.
        replace (contents h n) with (contents (pq_heap q) n).
        * cbn [map]. rewrite P1. apply Permutation_sym, Permutation_cons_append.
        * unfold contents. apply list_ext.
          intros i. rewrite !nth_error_firstn, !nth_error_skipn. destruct (Nat.ltb_spec i n); auto. symmetry. apply Heq. lia.
      + cbn. lia.
      + lia.
  Qed.

  Lemma replace_top_ok capa q m x m' e : PInv capa q m -> elt (pq_heap q) 1 = Some x -> Permutation m (x :: m') ->
    exists q', pq_replace_top A lt q e = Some q' /\ PInv capa q' (e :: m').
  Proof.
    intros [P1 P2 P3 P4 P5] Hx Hm. unfold pq_replace_top. pose proof (proj1 (elt_some _ _ _) Hx) as Hx'. rewrite Hx'. cbn [obind]. unfold pq_down. cbn [pq_heap pq_size pq_capa].
    assert (Hpos : 0 < pq_size q) by (rewrite P3, (Permutation_length Hm); cbn; lia).
    assert (H1l : 1 < length (pq_heap q)) by lia.
    rewrite upd_eq by auto. cbn [obind].
    set (h1 := upd (pq_heap q) 1 (Some e)). assert (Hl1 : length h1 = length (pq_heap q)) by (apply upd_length).
    assert (Hid : upd h1 1 (Some e) = h1) by (unfold h1; apply upd_same).
    pose proof (perm_full _ _ _ P4 P1) as Hfull.
    destruct (down_ok (S (pq_size q)) h1 1 (pq_size q) e) as (h' & R1 & R2 & R3 & R4 & R5 & R6); try lia.
    - intros i Hi. unfold h1. destruct (Nat.eq_dec i 1) as [->|K]; [eexists; apply elt_upd_eq; lia|]. rewrite elt_upd_neq by lia. apply Hfull; auto.
    - rewrite Hid. intros k Hk K a b Ha Hb. unfold h1 in *. pose proof (half_pos k ltac:(lia)). rewrite elt_upd_neq in Ha, Hb by lia. apply (P2 k Hk); auto.
    - rewrite R1. cbn [obind]. eexists. split; [reflexivity|]. constructor; cbn [pq_heap pq_size pq_capa]; auto.
      + rewrite R4, Hid. unfold h1. rewrite contents_upd by lia. cbn [map].
        assert (HP : Permutation (contents (pq_heap q) (pq_size q)) (Some x :: map Some m')) by (rewrite P1; apply (Permutation_map Some Hm)).
        pose proof (contents_nth (pq_heap q) (pq_size q) 0 Hpos) as H0. rewrite Hx' in H0.
        destruct (contents (pq_heap q) (pq_size q)) as [|c cs]; [discriminate|]. cbn in H0. apply some_inj in H0. subst c. cbn [upd].
        constructor. apply Permutation_cons_inv in HP. exact HP.
      + rewrite P3, (Permutation_length Hm). reflexivity.
      + lia.
  Qed.
  Lemma top_elt capa q m : PInv capa q m -> 0 < pq_size q -> exists x m', elt (pq_heap q) 1 = Some x /\ Permutation m (x :: m').
  Proof.
    intros HI Hs. pose proof HI as [P1 P2 P3 P4 P5]. destruct (perm_full _ _ _ P4 P1 1 ltac:(lia)) as (x & Hx). exists x.
    pose proof (perm_elt_in _ _ _ 1 x P4 P1 ltac:(lia) Hx) as Hin. apply in_split in Hin. destruct Hin as (l1 & l2 & ->).
    exists (l1 ++ l2). split; auto. apply Permutation_sym, Permutation_middle.
  Qed.
  Lemma pop_ok capa q m : PInv capa q m -> 0 < pq_size q -> exists x m' q', pq_pop A lt q = Some (Some x, q') /\
    Permutation m (x :: m') /\ least A lt x m /\ PInv capa q' m'.
  Proof.
    intros HI Hs. destruct (top_elt capa q m HI Hs) as (x & m' & Hx & Hm). pose proof (PInv_least _ _ _ _ HI Hx Hs) as Hleast.
    pose proof HI as [P1 P2 P3 P4 P5]. exists x, m'. unfold pq_pop. destruct (Nat.ltb_spec 0 (pq_size q)); [|lia].
    pose proof (proj1 (elt_some _ _ _) Hx) as Hx'. rewrite Hx'. cbn [obind].
    pose proof (perm_full _ _ _ P4 P1) as Hfull.
    destruct (Hfull (pq_size q) ltac:(lia)) as (l & Hl). pose proof (proj1 (elt_some _ _ _) Hl) as Hl'. rewrite Hl'. cbn [obind].
    unfold pq_down. cbn [pq_heap pq_size pq_capa]. set (h1 := upd (upd (pq_heap q) 1 (Some l)) (pq_size q) None).
    assert (Hl1 : length h1 = length (pq_heap q)) by (unfold h1; rewrite !upd_length; reflexivity).
    assert (HP : Permutation (contents (pq_heap q) (pq_size q)) (Some x :: map Some m')) by (rewrite P1; apply (Permutation_map Some Hm)).
    destruct (Nat.eq_dec (pq_size q) 1) as [E1|E1].
    - assert (m' = []) by (apply length_zero_iff_nil; apply Permutation_length in Hm; cbn in Hm; lia). subst m'.
      assert (Hn1 : nth_error h1 1 = Some None) by (unfold h1; rewrite E1; apply upd_eq; rewrite upd_length; lia). rewrite Hn1. cbn [obind]. rewrite E1. cbn [Nat.sub].
      cbn [down]. unfold child. cbn [Nat.mul Nat.add Nat.leb obind]. eexists. split; [reflexivity|]. split; auto. split; auto.
      constructor; cbn [pq_heap pq_size pq_capa]; auto.
      + intros i Hi. lia.
      + rewrite upd_length. lia.
    - assert (Hn1 : nth_error h1 1 = Some (Some l)) by (unfold h1; rewrite upd_neq by lia; apply upd_eq; lia). rewrite Hn1. cbn [obind].
      set (n := pq_size q - 1).
      assert (Hlow : forall i, 2 <= i <= n -> elt h1 i = elt (pq_heap q) i).
      { intros i Hi. unfold h1, n in *. rewrite !elt_upd_neq by lia. reflexivity. }
      assert (He1 : elt h1 1 = Some l) by (apply elt_some; auto).
      assert (Hid : upd h1 1 (Some l) = h1) by (apply upd_id; auto).
      destruct (down_ok (S n) h1 1 n l) as (h' & R1 & R2 & R3 & R4 & R5 & R6); try (unfold n; lia).
      + intros i Hi. destruct (Nat.eq_dec i 1) as [->|K]; [eauto|]. rewrite Hlow by lia. apply Hfull. unfold n in Hi. lia.
      + rewrite Hid. intros k Hk K a b Ha Hb. pose proof (half_pos k ltac:(lia)). pose proof (half_lt k ltac:(lia)).
        rewrite Hlow in Ha, Hb by lia. apply (P2 k); auto. unfold n in Hk. lia.
      + rewrite R1. cbn [obind]. eexists. split; [reflexivity|]. split; auto. split; auto. constructor; cbn [pq_heap pq_size pq_capa]; auto.
        * rewrite R4, Hid.
          (* removing the first cell and moving the last one there *)
          assert (Hc : contents h1 n = upd (contents (pq_heap q) n) 0 (Some l)).
          { rewrite <- contents_upd by (unfold n; lia). apply contents_ext; [unfold h1; rewrite !upd_length; reflexivity|].
            intros i Hi. unfold h1. apply upd_neq. unfold n in Hi. lia. }
          assert (Hlast : contents (pq_heap q) (pq_size q) = contents (pq_heap q) n ++ [Some l]).
          { replace (pq_size q) with (S n) by (unfold n; lia). rewrite <- (upd_id (pq_heap q) (S n) (Some l)) at 1; [|replace (S n) with (pq_size q) by (unfold n; lia); auto].
            apply contents_S. unfold n. lia. }
          rewrite Hc. rewrite Hlast in HP.
          pose proof (contents_nth (pq_heap q) n 0 ltac:(unfold n; lia)) as H0. rewrite Hx' in H0.
          destruct (contents (pq_heap q) n) as [|c cs]; [discriminate|]. cbn in H0. apply some_inj in H0. subst c. cbn [upd app] in *.
          apply Permutation_cons_inv in HP. rewrite <- HP. apply Permutation_cons_append.
        * unfold n. apply Permutation_length in Hm. cbn in Hm. lia.
        * unfold n. lia.
  Qed.

  Lemma new_ok capa : PInv capa (pq_new A capa) [].
  Proof.
    unfold pq_new. constructor; cbn [pq_heap pq_size pq_capa]; auto.
    - intros i Hi. lia.
    - rewrite repeat_length. lia.
  Qed.
  Lemma clear_ok capa q m : PInv capa q m -> PInv capa (pq_clear A q) [].
  Proof.
    intros [P1 P2 P3 P4 P5]. unfold pq_clear. constructor; cbn [pq_heap pq_size pq_capa]; auto.
    - intros i Hi. lia.
    - destruct (pq_heap q) as [|x t]; cbn [length] in *; lia.
  Qed.

  Lemma insert_ok capa q m e : PInv capa q m -> exists i q' m', pq_insert A lt q e = Some (i, q') /\
    q_step A lt capa m (QInsert e) (QIns i) m' /\ PInv capa q' m'.
  Proof.
    intros HI. pose proof HI as [P1 P2 P3 P4 P5]. unfold pq_insert. rewrite P5.
    destruct (Nat.ltb_spec (pq_size q) capa) as [H|H].
    - destruct (push_ok capa q m e HI) as (q' & E & HI'). rewrite E. cbn [obind]. eexists _, _, _. split; [reflexivity|].
      split; [constructor; lia|auto].
    - destruct (Nat.ltb_spec 0 (pq_size q)) as [Hs|Hs].
      + destruct (top_elt capa q m HI Hs) as (x & m' & Hx & Hm). pose proof (PInv_least _ _ _ _ HI Hx Hs) as Hleast. rewrite Hx. cbn [obind].
        destruct (lt x e) eqn:El.
        * destruct (replace_top_ok capa q m x m' e HI Hx Hm) as (q' & E & HI'). rewrite E. cbn [obind]. eexists _, _, _. split; [reflexivity|].
          split; [eapply Q_inserted; eauto; lia|auto].
        * eexists _, _, _. split; [reflexivity|]. split; [apply Q_dropped; [lia|]|eauto].
          intros y Hy. apply le_trans with x; [exact El|]. apply Hleast; auto.
      + assert (m = []) by (apply length_zero_iff_nil; lia). subst m.
        eexists _, _, _. split; [reflexivity|]. split; [apply Q_dropped; [lia|]|eauto]. intros y [].
  Qed.

  Lemma p_step_ok capa q m o : PInv capa q m -> (match o with QReplace _ => 0 < length m | _ => True end) ->
    exists r q' m', p_step A lt q o = Some (r, q') /\ q_step A lt capa m o r m' /\ PInv capa q' m'.
  Proof.
    intros HI Hleg. pose proof HI as [P1 P2 P3 P4 P5]. destruct o as [e|e|e| | |]; cbn [p_step].
    - destruct (push_ok capa q m e HI) as (q' & E & HI'). rewrite E. cbn [obind]. eexists _, _, _. split; [reflexivity|]. split; [constructor|auto].
    - destruct (insert_ok capa q m e HI) as (i & q' & m' & E & HS & HI'). rewrite E. cbn [obind fst snd]. eauto 10.
    - destruct (top_elt capa q m HI ltac:(lia)) as (x & m' & Hx & Hm). pose proof (PInv_least _ _ _ _ HI Hx ltac:(lia)) as Hleast.
      destruct (replace_top_ok capa q m x m' e HI Hx Hm) as (q' & E & HI'). rewrite E. cbn [obind]. eexists _, _, _. split; [reflexivity|].
      split; [eapply Q_replace; eauto|auto].
    - destruct (Nat.eq_dec (pq_size q) 0) as [E0|E0].
      + unfold pq_pop. rewrite E0. cbn [Nat.ltb Nat.leb obind fst snd]. assert (m = []) by (apply length_zero_iff_nil; lia). subst m.
        eexists _, _, _. split; [reflexivity|]. split; [apply Q_pop_empty; auto|auto].
      + destruct (pop_ok capa q m HI ltac:(lia)) as (x & m' & q' & E & Hm & Hl & HI'). rewrite E. cbn [obind fst snd].
        eexists _, _, _. split; [reflexivity|]. split; [eapply Q_pop; eauto|auto].
    - unfold pq_top. destruct (Nat.ltb_spec 0 (pq_size q)) as [Hs|Hs].
      + destruct (top_elt capa q m HI Hs) as (x & m' & Hx & Hm). pose proof (PInv_least _ _ _ _ HI Hx Hs) as Hleast.
        apply elt_some in Hx. rewrite Hx. cbn [obind]. eexists _, _, _. split; [reflexivity|]. split; [apply Q_top; auto|auto].
      + assert (m = []) by (apply length_zero_iff_nil; lia). subst m. cbn [obind].
        eexists _, _, _. split; [reflexivity|]. split; [apply Q_top_empty; auto|auto].
    - eexists _, _, _. split; [reflexivity|]. split; [constructor|]. eapply clear_ok; eauto.
  Qed.

  Lemma step_size capa m o r m' : q_step A lt capa m o r m' -> 
    length m' = match o with QPush _ => length m + 1 | QInsert _ => if length m <? capa then length m + 1 else length m
                | QReplace _ => length m | QPop => length m - 1 | QTop => length m | QClear => 0 end.
  Proof.
    intros H. inversion H; subst; cbn [length]; try lia;
      repeat match goal with
      | [ HP : Permutation _ _ |- _ ] => apply Permutation_length in HP; cbn in HP
      | [ |- context [?a <? ?b] ] => destruct (Nat.ltb_spec a b) end; try lia.
  Qed.
  Lemma p_run_ok capa : forall ops q m, PInv capa q m -> legal A capa (length m) ops ->
    exists rs q' m', p_run A lt q ops = Some (rs, q') /\ q_steps A lt capa m ops rs m' /\ PInv capa q' m'.
  Proof.
    induction ops as [|o ops IH]; intros q m HI Hleg; cbn [p_run].
    - eexists _, _, _. split; [reflexivity|]. split; [constructor|eauto].
    - destruct (p_step_ok capa q m o HI) as (r & q1 & m1 & E & HS & HI1); [destruct o; auto; apply Hleg|].
      rewrite E. cbn [obind fst snd]. pose proof (step_size _ _ _ _ _ HS) as Hsz.
      destruct (IH q1 m1 HI1) as (rs & q2 & m2 & E2 & HS2 & HI2).
      { rewrite Hsz. destruct o; cbn [legal] in Hleg; auto. apply Hleg. }
      rewrite E2. cbn [obind fst snd]. eexists _, _, _. split; [reflexivity|]. split; [econstructor; eauto|auto].
  Qed.

  Lemma drain_ok capa : forall n q m, PInv capa q m -> length m <= n ->
    exists l, drain A lt n q = Some l /\ Permutation l m /\ StronglySorted le l.
  Proof.
    induction n as [|n IH]; intros q m HI Hn.
    - assert (m = []) by (apply length_zero_iff_nil; lia). subst m. exists []. repeat split; constructor.
    - cbn [drain]. pose proof HI as [P1 P2 P3 P4 P5]. destruct (Nat.eq_dec (pq_size q) 0) as [E0|E0].
      + unfold pq_pop. rewrite E0. cbn [Nat.ltb Nat.leb obind fst snd]. assert (m = []) by (apply length_zero_iff_nil; lia). subst m.
        exists []. repeat split; constructor.
      + destruct (pop_ok capa q m HI ltac:(lia)) as (x & m' & q' & E & Hm & Hl & HI'). rewrite E. cbn [obind fst snd].
        destruct (IH q' m' HI') as (l & E2 & HP & HS); [apply Permutation_length in Hm; cbn in Hm; lia|].
        rewrite E2. cbn [obind]. exists (x :: l). split; auto. split.
        * rewrite Hm. constructor. exact HP.
        * constructor; auto. apply Forall_forall. intros y Hy. apply Hl. apply (Permutation_in _ (Permutation_sym Hm)). right.
          apply (Permutation_in _ HP). exact Hy.
  Qed.
  Lemma push_all_ok capa : forall l q m, PInv capa q m -> exists q', push_all A lt q l = Some q' /\ PInv capa q' (rev l ++ m).
  Proof.
    induction l as [|e l IH]; intros q m HI; cbn [push_all rev].
    - eauto.
    - destruct (push_ok capa q m e HI) as (q1 & E & HI1). rewrite E. cbn [obind]. destruct (IH q1 (e :: m) HI1) as (q2 & E2 & HI2).
      exists q2. split; auto. rewrite <- app_assoc. exact HI2.
  Qed.
  Lemma heap_sort capa l : exists q r, push_all A lt (pq_new A capa) l = Some q /\ drain A lt (length l) q = Some r /\
    Permutation r l /\ StronglySorted le r.
  Proof.
    destruct (push_all_ok capa l _ _ (new_ok capa)) as (q & E & HI). rewrite app_nil_r in HI. exists q.
    destruct (drain_ok capa (length l) q (rev l) HI) as (r & E2 & HP & HS); [rewrite rev_length; auto|]. exists r.
    split; auto. split; auto. split; auto. rewrite HP. apply Permutation_sym, Permutation_rev.
  Qed.

  Lemma insert_all_ok capa : forall l q m d seen, PInv capa q m -> Permutation seen (m ++ d) -> (forall x y, In x d -> In y m -> le x y) ->
    length m = Nat.min capa (length seen) -> 
    exists q' m' d', insert_all A lt q l = Some q' /\ PInv capa q' m' /\ Permutation (seen ++ l) (m' ++ d') /\
      (forall x y, In x d' -> In y m' -> le x y) /\ length m' = Nat.min capa (length (seen ++ l)).
  Proof.
    induction l as [|e l IH]; intros q m d seen HI HP Hle Hlen; cbn [insert_all].
    - exists q, m, d. rewrite app_nil_r. auto.
    - destruct (insert_ok capa q m e HI) as (i & q1 & m1 & E & HS & HI1). rewrite E. cbn [obind snd].
      replace (seen ++ e :: l) with ((seen ++ [e]) ++ l) by (rewrite <- app_assoc; reflexivity).
      assert (Hl1 : length (seen ++ [e]) = S (length seen)) by (rewrite app_length; cbn; lia).
      pose proof (Permutation_length HP) as HPl. rewrite app_length in HPl.
      inversion HS; subst.
      + apply (IH q1 (e :: m) d); auto.
        * cbn [app]. rewrite <- HP. apply Permutation_sym, Permutation_cons_append.
        * intros x y Hx [<-|Hy]; [|auto]. exfalso.
          assert (Hd : length d = 0) by lia. apply length_zero_iff_nil in Hd. subst d. destruct Hx.
        * cbn [length]. lia.
      + match goal with [ HX : Permutation m (_ :: ?t) |- _ ] => rename t into m'; rename HX into HPm end.
        apply (IH q1 (e :: m') (x :: d)); auto.
        * rewrite <- Permutation_cons_append. cbn [app]. constructor. rewrite HP, HPm. cbn [app]. apply Permutation_middle.
        * match goal with [ HX : least _ _ _ _ |- _ ] => destruct HX as [Hin Hmin] end.
          intros a b [<-|Ha] [<-|Hb].
          -- apply lt_le; auto.
          -- apply Hmin. apply (Permutation_in _ (Permutation_sym HPm)). right; auto.
          -- apply le_trans with x; [apply Hle; auto|apply lt_le; auto].
          -- apply Hle; auto. apply (Permutation_in _ (Permutation_sym HPm)). right; auto.
        * apply Permutation_length in HPm. cbn [length] in *. lia.
      + apply (IH q1 m1 (e :: d)); auto.
        * rewrite <- Permutation_cons_append. rewrite HP. apply Permutation_middle.
        * intros a b [<-|Ha] Hb; auto.
        * lia.
  Qed.
  Lemma top_k capa l : exists q r d, insert_all A lt (pq_new A capa) l = Some q /\ drain A lt capa q = Some r /\
    Permutation l (r ++ d) /\ StronglySorted le r /\ length r = Nat.min capa (length l) /\ (forall x y, In x d -> In y r -> le x y).
  Proof.
    destruct (insert_all_ok capa l (pq_new A capa) [] [] [] (new_ok capa)) as (q & m & d & E & HI & HP & Hle & Hlen).
    - apply Permutation_refl.
    - intros x y [].
    - cbn. lia.
    - cbn [app] in *. destruct (drain_ok capa capa q m HI) as (r & E2 & HP2 & HS); [lia|].
      exists q, r, d. split; auto. split; auto. split; [rewrite HP; apply Permutation_app_tail, Permutation_sym; auto|]. split; auto.
      split; [rewrite (Permutation_length HP2); auto|]. intros x y Hx Hy. apply Hle; auto. apply (Permutation_in _ HP2); auto.
  Qed.
End Heap.

Lemma queue_history (A : Type) (lt : A -> A -> bool) : preorder A lt -> forall capa ops, legal A capa 0 ops ->
  exists rs q m, p_run A lt (pq_new A capa) ops = Some (rs, q) /\ q_steps A lt capa [] ops rs m /\ pq_size q = length m.
Proof.
  intros Hpre capa ops Hleg. destruct (p_run_ok A lt Hpre capa ops _ _ (new_ok A lt capa) Hleg) as (rs & q & m & E & HS & HI).
  exists rs, q, m. split; auto. split; auto. apply HI.
Qed.
