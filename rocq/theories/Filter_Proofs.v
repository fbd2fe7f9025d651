From Coq Require Import Sorting.Sorted.
From Verif Require Import Util BitVector_Model BitVector_Spec BitVector_Proofs Query_Model Bool_Model Bool_Spec Bool_Proofs BoolQuery_Proofs Filter_Model Filter_Spec.
Open Scope nat_scope.

(* ---------- the vector a filter computes *)
Lemma set_all_ok l : forall b, ok1 b -> bv_ext b = false ->
  exists b', set_all b l = Some b' /\ ok1 b' /\ bv_ext b' = false /\ (forall i, sem b' i = member l i || sem b i) /\
    bv_size b' = fold_left (fun n d => Nat.max n (d + 1)) l (bv_size b) /\ length (bv_bits b) <= length (bv_bits b') /\ bv_curr b' = bv_curr b.
Proof.
  induction l as [|d l IH]; intros b H1 He; [exists b; splits; auto|]. cbn [set_all]. unfold bv_set. destruct (set_value_ok b d true H1) as (b1 & E & K1 & K2 & K3 & _ & K5). rewrite E. cbn [obind].
  destruct (IH b1 K1 ltac:(congruence)) as (b' & E' & G1 & G2 & G3 & G4 & G5 & G6). exists b'. splits; auto.
  - intros i. rewrite G3, K3. unfold member. cbn [existsb]. destruct (Nat.eqb_spec i d); [subst|]; destruct (existsb _ l); reflexivity.
  - rewrite G4, K5. reflexivity.
  - pose proof (set_value_len _ _ _ _ E). lia.
  - rewrite G6. clear - E. unfold bv_set_value in E. destruct (bv_size b <=? d).
    + destruct (length (bv_bits b) <=? d / 32); [destruct (grow_capa _ _ _) as [c|]; [|discriminate]|]; cbn [obind bv_bits bv_size bv_count bv_curr bv_ext] in E; (destruct (nth_error _ _) as [w|]; [|discriminate]); cbn [obind] in E; (destruct (Bool.eqb _ _); apply some_inj in E; subst b1; reflexivity).
    + cbn [obind bv_bits bv_size bv_count bv_curr bv_ext] in E; (destruct (nth_error _ _) as [w|]; [|discriminate]); cbn [obind] in E; (destruct (Bool.eqb _ _); apply some_inj in E; subst b1; reflexivity).
Qed.
Lemma member_in l i : member l i = true <-> In i l.
Proof. unfold member. rewrite existsb_exists. split; [intros (x & Hx & E); apply Nat.eqb_eq in E; subst; exact Hx|intros H; exists i; split; [exact H|apply Nat.eqb_refl]]. Qed.
Lemma size_bound l : forall n, fold_left (fun n d => Nat.max n (d + 1)) l n = n \/ exists d, In d l /\ fold_left (fun n d => Nat.max n (d + 1)) l n = d + 1.
Proof.
  induction l as [|d l IH]; intros n; cbn [fold_left]; [auto|]. destruct (IH (Nat.max n (d + 1))) as [E|(x & Hx & E)].
  - rewrite E. destruct (Nat.max_spec n (d + 1)) as [[_ ->]|[_ ->]]; [right; exists d; split; [left|]; auto|auto].
  - right. exists x. split; [right; exact Hx|exact E].
Qed.

(* what is known of the vector of a filter that selects the documents l; c: the next bit to look at *)
Definition V (mx : nat) (l : list nat) (b : bv) (c : nat) : Prop :=
  ok0 b /\ bv_ext b = false /\ (forall i, sem b i = member l i) /\ bv_size b <= mx /\ TO_WORD mx <= length (bv_bits b) /\ bv_curr b = (Z.of_nat c - 1)%Z /\ c <= bv_size b.
Definition room (b : bv) : Prop := bv_size b < 32 * length (bv_bits b).
Lemma fresh_V mx l : within mx l -> exists b, set_all (bv_new_capa mx) l = Some b /\ V mx l b 0 /\ (spare mx l -> room b).
Proof.
  intros HW. destruct (ok1_new mx) as (H1 & _ & H3). destruct (set_all_ok l (bv_new_capa mx) H1 eq_refl) as (b & E & K1 & K2 & K3 & K4 & K5 & K6). exists b. split; [exact E|].
  assert (Hl : Nat.max (TO_WORD mx) 4 <= length (bv_bits b)) by (revert K5; unfold bv_new_capa; cbn [bv_bits]; rewrite repeat_length; auto).
  unfold within in HW. rewrite Forall_forall in HW. change (bv_size (bv_new_capa mx)) with 0 in K4. destruct (size_bound l 0) as [Ez|(d & Hd & Ed)].
  - split; [unfold V; splits; [apply K1|exact K2|intros i; rewrite K3, H3, orb_false_r; reflexivity|lia|lia|rewrite K6; reflexivity|lia]|]. intros _. unfold room. lia.
  - specialize (HW d Hd). split; [unfold V; splits; [apply K1|exact K2|intros i; rewrite K3, H3, orb_false_r; reflexivity|lia|lia|rewrite K6; reflexivity|lia]|]. intros HS. unfold room. rewrite K4, Ed.
    pose proof (TO_WORD_ub mx). destruct HS as [?|[?|?]]; [lia| |].
    + assert (mx <> 32 * TO_WORD mx) by (intros E1; apply H0; rewrite E1, Nat.mul_comm; apply Nat.mod_mul; lia). lia.
    + assert (d <> mx - 1) by (intros ->; auto). lia.
Qed.
(* one scan from bit i on *)
Lemma scan_V mx l b c i : V mx l b c -> i / 32 < length (bv_bits b) ->
  (bv_scan_next_from b i = Some ((-1)%Z, b) /\ forall j, i <= j -> member l j = false) \/
  (exists j, bv_scan_next_from b i = Some (Z.of_nat j, with_curr b (Z.of_nat j)) /\ V mx l (with_curr b (Z.of_nat j)) (S j) /\ i <= j /\ member l j = true /\ forall k, i <= k < j -> member l k = false).
Proof.
  intros (H0 & H1 & H2 & H3 & H4 & H5 & H6) Hi. destruct (scan_next_from_ok b i H0 Hi) as [(E & Hn)|(j & E & Hj1 & Hj2 & Hj3 & Hj4)].
  - left. split; [exact E|]. intros j Hj. rewrite <- H2. destruct (Nat.lt_ge_cases j (bv_size b)); [apply Hn; lia|]. unfold sem. destruct (Nat.leb_spec (bv_size b) j); [exact H1|lia].
  - right. exists j. splits; [exact E| |exact Hj1|rewrite <- H2; exact Hj2|intros k Hk; rewrite <- H2; auto].
    assert (j < bv_size b) by (unfold sem in Hj2; destruct (Nat.leb_spec (bv_size b) j); [congruence|lia]). unfold V. splits; [exact H0|exact H1|exact H2|exact H3|exact H4|cbn [with_curr bv_curr]; lia|cbn [with_curr bv_size]; lia].
Qed.
Lemma V_size mx l b c : V mx l b c -> forall j, member l j = true -> j < bv_size b.
Proof. intros (H0 & H1 & H2 & _) j Hj. rewrite <- H2 in Hj. unfold sem in Hj. destruct (Nat.leb_spec (bv_size b) j); [congruence|lia]. Qed.
Lemma scan_div b c : c <= bv_size b -> room b -> c / 32 < length (bv_bits b).
Proof. unfold room. intros. apply Nat.div_lt_upper_bound; lia. Qed.
Lemma curr_next c : Z.to_nat (Z.of_nat c - 1 + 1) = c. Proof. lia. Qed.
Lemma TO_WORD_div d mx : d < mx -> d / 32 < TO_WORD mx.
Proof. intros H. apply TO_WORD_lt. pose proof (Nat.mul_div_le d 32 ltac:(lia)). lia. Qed.

(* ---------- ConstantScoreScorer *)
(* the members at or above c, as document numbers *)
Definition above_l (l : list nat) (mx c : nat) : list Z := map Z.of_nat (filter (member l) (seq c (mx - c))).
Lemma above_skip l mx c j : c <= j -> j < mx -> member l j = true -> (forall k, c <= k < j -> member l k = false) -> above_l l mx c = Z.of_nat j :: above_l l mx (S j).
Proof. intros H1 H2 H3 H4. unfold above_l. rewrite (filter_seq_skip (member l) (mx - c) mx c ltac:(lia) j H1 H2 H4 H3). reflexivity. Qed.
Lemma above_none l mx c : (forall j, c <= j -> member l j = false) -> above_l l mx c = [].
Proof. intros H. unfold above_l. rewrite filter_none; [reflexivity|]. intros i Hi. apply in_seq in Hi. apply H. lia. Qed.
Lemma above_from l mx c d : c <= d -> filter (at_least (Some (Z.of_nat d))) (above_l l mx c) = above_l l mx d.
Proof.
  intros H. unfold above_l. remember (d - c) as n eqn:En. revert c H En. induction n as [|n IH]; intros c H En.
  - assert (c = d) by lia. subst d. clear. generalize (mx - c) as m. intros m. assert (G : forall a, c <= a -> filter (at_least (Some (Z.of_nat c))) (map Z.of_nat (filter (member l) (seq a m))) = map Z.of_nat (filter (member l) (seq a m))).
    { induction m as [|m IH]; intros a Ha; [reflexivity|]. cbn [seq filter]. destruct (member l a); [|apply IH; lia]. cbn [map filter]. unfold at_least at 1. destruct (Z.leb_spec (Z.of_nat c) (Z.of_nat a)); [|lia]. f_equal. apply IH. lia. }
    apply G. lia.
  - rewrite <- (IH (S c)) by lia. destruct (mx - c) as [|m] eqn:Em; [replace (mx - S c) with 0 by lia; reflexivity|]. replace (mx - S c) with m by lia. cbn [seq filter]. destruct (member l c); [|reflexivity]. cbn [map filter]. unfold at_least at 1. destruct (Z.leb_spec (Z.of_nat d) (Z.of_nat c)); [lia|reflexivity].
Qed.
Lemma lookup_put w f b : lookup f (w_cache (put w f b)) = Some b.
Proof. unfold put. cbn [w_cache lookup]. rewrite Nat.eqb_refl. reflexivity. Qed.
Lemma lookup_put2 w f g b : lookup g (w_cache (put w f b)) = if f =? g then Some b else lookup g (w_cache w).
Proof. reflexivity. Qed.

Lemma move_next mx l w f b c : lookup f (w_cache w) = Some b -> V mx l b c -> room b ->
  (cs_move w f None = Some (None, put w f b) /\ above_l l mx c = []) \/
  (exists j b', cs_move w f None = Some (Some j, put w f b') /\ V mx l b' (S j) /\ room b' /\ above_l l mx c = Z.of_nat j :: above_l l mx (S j)).
Proof.
  intros Hf HV HR. pose proof HV as (H0 & H1 & H2 & H3 & H4 & H5 & H6). unfold cs_move. rewrite Hf. cbn [obind]. unfold bv_scan_next. rewrite H5, curr_next. destruct (scan_V mx l b c c HV (scan_div b c H6 HR)) as [(E & Hn)|(j & E & HV' & Hj1 & Hj2 & Hj3)]; rewrite E; cbn [obind fst snd].
  - left. split; [reflexivity|apply above_none; exact Hn].
  - right. exists j, (with_curr b (Z.of_nat j)). destruct (Z.leb_spec 0 (Z.of_nat j)); [|lia]. rewrite Nat2Z.id. splits; auto. apply above_skip; auto. pose proof (V_size _ _ _ _ HV j Hj2). lia.
Qed.
Lemma move_skip mx l w f b c d : lookup f (w_cache w) = Some b -> V mx l b c -> room b -> d < mx ->
  (cs_move w f (Some d) = Some (None, put w f b) /\ above_l l mx d = []) \/
  (exists j b', cs_move w f (Some d) = Some (Some j, put w f b') /\ V mx l b' (S j) /\ room b' /\ above_l l mx d = Z.of_nat j :: above_l l mx (S j)).
Proof.
  intros Hf HV HR Hd. pose proof HV as (H0 & H1 & H2 & H3 & H4 & H5 & H6). unfold cs_move. rewrite Hf. cbn [obind]. destruct (scan_V mx l b c d HV ltac:(pose proof (TO_WORD_div d mx Hd); lia)) as [(E & Hn)|(j & E & HV' & Hj1 & Hj2 & Hj3)]; rewrite E; cbn [obind fst snd].
  - left. split; [reflexivity|apply above_none; exact Hn].
  - right. exists j, (with_curr b (Z.of_nat j)). destruct (Z.leb_spec 0 (Z.of_nat j)); [|lia]. rewrite Nat2Z.id. splits; auto. apply above_skip; auto. pose proof (V_size _ _ _ _ HV j Hj2). lia.
Qed.
Lemma cs_moves_ok mx l f : forall ops w b c, lookup f (w_cache w) = Some b -> V mx l b c -> room b -> forward mx (Z.of_nat c - 1) (above_l l mx c) ops ->
  cs_moves w f ops = Some (visits (above_l l mx c) ops).
Proof.
  induction ops as [|op ops IH]; intros w b c Hf HV HR HF; [reflexivity|]. cbn [cs_moves visits forward] in *. destruct HF as (Hop & HF). destruct op as [d|]; cbn [option_map].
  - destruct (move_skip mx l w f b c (Z.to_nat d) Hf HV HR ltac:(lia)) as [(E & A)|(j & b' & E & HV' & HR' & A)]; rewrite E; cbn [obind fst snd]; replace d with (Z.of_nat (Z.to_nat d)) in HF |- * by lia; rewrite above_from in HF |- * by lia; rewrite A in HF |- *; [reflexivity|].
    rewrite (IH (put w f b') b' (S j)); [reflexivity|apply lookup_put|exact HV'|exact HR'|]. replace (Z.of_nat (S j) - 1)%Z with (Z.of_nat j) by lia. exact HF.
  - assert (E0 : filter (at_least None) (above_l l mx c) = above_l l mx c) by (clear; induction (above_l l mx c) as [|x t IH]; [reflexivity|]; cbn [filter at_least]; f_equal; exact IH). rewrite E0 in *.
    destruct (move_next mx l w f b c Hf HV HR) as [(E & A)|(j & b' & E & HV' & HR' & A)]; rewrite E; cbn [obind fst snd]; rewrite A in HF |- *; [reflexivity|].
    rewrite (IH (put w f b') b' (S j)); [reflexivity|apply lookup_put|exact HV'|exact HR'|]. replace (Z.of_nat (S j) - 1)%Z with (Z.of_nat j) by lia. exact HF.
Qed.
Lemma cs_loop_ok mx l f : forall n w b c, lookup f (w_cache w) = Some b -> V mx l b c -> room b -> length (above_l l mx c) < n ->
  exists w' b' c', cs_loop n w f = Some (filter (member l) (seq c (mx - c)), w') /\ lookup f (w_cache w') = Some b' /\ V mx l b' c' /\ room b' /\ above_l l mx c' = [] /\ w_deleted w' = w_deleted w /\ forall g, g <> f -> lookup g (w_cache w') = lookup g (w_cache w).
Proof.
  induction n as [|n IH]; intros w b c Hf HV HR Hn; [lia|]. cbn [cs_loop]. destruct (move_next mx l w f b c Hf HV HR) as [(E & A)|(j & b' & E & HV' & HR' & A)]; rewrite E; cbn [obind fst snd].
  - exists (put w f b), b, c. splits; auto; [|apply lookup_put|intros g Hg; rewrite lookup_put2; destruct (Nat.eqb_spec f g); [congruence|reflexivity]]. unfold above_l in A. apply map_eq_nil in A. rewrite A. reflexivity.
  - destruct (IH (put w f b') b' (S j) (lookup_put w f b') HV' HR' ltac:(rewrite A in Hn; cbn [length] in Hn; lia)) as (w' & b2 & c' & E2 & G1 & G2 & G3 & G4 & G5 & G6). rewrite E2. cbn [obind fst snd]. exists w', b2, c'. splits; auto.
    + f_equal. f_equal. unfold above_l in A. destruct (filter (member l) (seq c (mx - c))) as [|x t]; [discriminate|]. cbn [map] in A. injection A as Ex Et. f_equal; [lia|]. clear - Et. revert Et. generalize (filter (member l) (seq (S j) (mx - S j))). intros m. revert t. induction m as [|y m IHm]; intros [|z t] E; try discriminate; [reflexivity|]. cbn [map] in E. injection E as E1 E2. f_equal; [lia|apply IHm; exact E2].
    + intros g Hg. rewrite (G6 g Hg), lookup_put2. destruct (Nat.eqb_spec f g); [congruence|reflexivity].
Qed.

Lemma filter_len {A} (p : A -> bool) l : length (filter p l) <= length l.
Proof. induction l as [|a l IH]; cbn [filter length]; [lia|]. destruct (p a); cbn [length]; lia. Qed.
Section FILTERS.
  Variable mx : nat.
  Variable docs : nat -> list nat -> list nat.
  Hypothesis HW : forall f del, within mx (docs f del).
  Lemma get_new w f : lookup f (w_cache w) = None -> exists w' b, filt_get_bv mx docs w f = Some w' /\ lookup f (w_cache w') = Some b /\ V mx (docs f (w_deleted w)) b 0 /\ (spare mx (docs f (w_deleted w)) -> room b) /\ w_deleted w' = w_deleted w.
  Proof.
    intros Hf. destruct (fresh_V mx (docs f (w_deleted w)) (HW _ _)) as (b & E & HV & HR). exists (put w f b), b. unfold filt_get_bv, get_bv_i. rewrite Hf, E. cbn [obind]. splits; auto. apply lookup_put.
  Qed.
  Lemma get_old w f b : lookup f (w_cache w) = Some b -> filt_get_bv mx docs w f = Some w.
  Proof. intros H. unfold filt_get_bv. rewrite H. reflexivity. Qed.
  Lemma above_0 l : above_l l mx 0 = map Z.of_nat (selected l mx).
  Proof. unfold above_l, selected. rewrite Nat.sub_0_r. reflexivity. Qed.

  Theorem first_search w f : lookup f (w_cache w) = None -> spare mx (docs f (w_deleted w)) ->
    forall n, mx < n -> exists w', cs_search mx docs n w f = Some (selected (docs f (w_deleted w)) mx, w').
  Proof.
    intros Hf HS n Hn. destruct (get_new w f Hf) as (w' & b & E & Hb & HV & HR & _). unfold cs_search. rewrite E. cbn [obind]. destruct (cs_loop_ok mx _ f n w' b 0 Hb HV (HR HS)) as (w2 & b2 & c2 & E2 & _).
    { unfold above_l. rewrite map_length. eapply Nat.le_lt_trans; [apply filter_len|]. rewrite seq_length. lia. }
    rewrite E2. exists w2. unfold selected. rewrite Nat.sub_0_r. reflexivity.
  Qed.
  Theorem first_moves w f w' ops : lookup f (w_cache w) = None -> spare mx (docs f (w_deleted w)) -> filt_get_bv mx docs w f = Some w' ->
    forward mx (-1) (map Z.of_nat (selected (docs f (w_deleted w)) mx)) ops ->
    cs_moves w' f ops = Some (visits (map Z.of_nat (selected (docs f (w_deleted w)) mx)) ops).
  Proof.
    intros Hf HS Ew HF. destruct (get_new w f Hf) as (w2 & b & E & Hb & HV & HR & _). rewrite E in Ew. apply some_inj in Ew. subst w2. rewrite <- above_0 in *. apply (cs_moves_ok mx _ f ops w' b 0); auto.
  Qed.
  Theorem second_search w f w' n l m : lookup f (w_cache w) = None -> spare mx (docs f (w_deleted w)) -> mx < n -> 0 < m ->
    cs_search mx docs n w f = Some (l, w') -> exists w2, cs_search mx docs m w' f = Some ([], w2).
  Proof.
    intros Hf HS Hn Hm Es. destruct (get_new w f Hf) as (w1 & b & E & Hb & HV & HR & _). unfold cs_search in *. rewrite E in Es. cbn [obind] in Es. destruct (cs_loop_ok mx _ f n w1 b 0 Hb HV (HR HS)) as (w2 & b2 & c2 & E2 & G1 & G2 & G3 & G4 & _).
    { unfold above_l. rewrite map_length. eapply Nat.le_lt_trans; [apply filter_len|]. rewrite seq_length. lia. }
    rewrite E2 in Es. apply some_inj in Es. injection Es as _ <-. rewrite (get_old w2 f b2 G1). cbn [obind]. destruct m as [|m]; [lia|]. cbn [cs_loop]. destruct (move_next mx _ w2 f b2 c2 G1 G2 G3) as [(E3 & _)|(j & b' & _ & _ & _ & A)]; [|rewrite G4 in A; discriminate]. rewrite E3. cbn [obind fst snd]. eauto.
  Qed.

  (* ---------- FilteredQueryScorer: the scan position does not matter *)
  Definition C (del : list nat) (w : world) : Prop := w_deleted w = del /\ forall f b, lookup f (w_cache w) = Some b -> ok0 b /\ forall i, sem b i = member (docs f del) i.
  Lemma step_C del w e w' : quiet e -> C del w -> step mx docs w e = Some w' -> C del w'.
  Proof.
    intros Hq (HD & HC) E. destruct e as [f|f op|d]; cbn [step quiet] in *; [| |tauto].
    - destruct (lookup f (w_cache w)) as [b|] eqn:Hf; [rewrite (get_old w f b Hf) in E; apply some_inj in E; subst; split; auto|]. unfold filt_get_bv, get_bv_i in E. rewrite Hf in E. destruct (fresh_V mx (docs f (w_deleted w)) (HW _ _)) as (b & Eb & HV & _). rewrite Eb in E. cbn [obind] in E. apply some_inj in E. subst w'. split; [exact HD|]. intros g b'. rewrite lookup_put2. destruct (Nat.eqb_spec f g) as [->|]; [|apply HC]. intros Eb'. apply some_inj in Eb'. subst b'. rewrite HD in HV. destruct HV as (K0 & K1 & K2 & _). auto.
    - unfold cs_move in E. destruct (lookup f (w_cache w)) as [b|] eqn:Hf; [|discriminate]. cbn [obind] in E. destruct (HC f b Hf) as (K0 & K2).
      assert (G : forall bit r b', bv_scan_next_from b bit = Some (r, b') -> ok0 b' /\ forall i, sem b' i = sem b i).
      { intros bit r b' Es. assert (Hl : bit / 32 < length (bv_bits b)) by (apply nth_error_Some; intros En; unfold bv_scan_next_from in Es; rewrite En in Es; discriminate). destruct (scan_next_from_ok b bit K0 Hl) as [(E1 & _)|(j & E1 & _)]; rewrite E1 in Es; apply some_inj in Es; injection Es as _ <-; [auto|]. split; [exact K0|reflexivity]. }
      assert (Er : exists bit, match op with None => bv_scan_next b | Some d => bv_scan_next_from b d end = bv_scan_next_from b bit) by (destruct op as [d|]; [exists d|exists (Z.to_nat (bv_curr b + 1))]; reflexivity). destruct Er as (bit & Er). rewrite Er in E. clear Er. destruct (bv_scan_next_from b bit) as [[r b']|] eqn:Es; [|discriminate]. cbn [obind fst snd] in E. apply some_inj in E. subst w'. split; [exact HD|].
      destruct (G _ _ _ Es) as (K0' & K2'). intros g b2. rewrite lookup_put2. destruct (Nat.eqb_spec f g) as [->|]; [|apply HC]. intros Eb. apply some_inj in Eb. subst b2. split; [exact K0'|]. intros i. rewrite K2'. apply K2.
  Qed.
  Lemma steps_C del l : Forall quiet l -> forall w w', C del w -> steps mx docs w l = Some w' -> C del w'.
  Proof.
    induction 1 as [|e l Hq HF IH]; intros w w' HC E; [apply some_inj in E; subst; exact HC|]. cbn [steps] in E. destruct (step mx docs w e) as [w1|] eqn:E1; [|discriminate]. apply (IH w1 w'); [apply (step_C del w e w1 Hq HC E1)|exact E].
  Qed.
  Lemma empty_C del : C del (mkW del []).
  Proof. split; [reflexivity|]. intros f b E. discriminate. Qed.
  Lemma open_C del w f : C del w -> exists w' b, filt_get_bv mx docs w f = Some w' /\ lookup f (w_cache w') = Some b /\ C del w'.
  Proof.
    intros HC. destruct (lookup f (w_cache w)) as [b|] eqn:Hf; [exists w, b; splits; auto; apply (get_old w f b Hf)|]. destruct (get_new w f Hf) as (w' & b & E & Hb & _). exists w', b. splits; auto. apply (step_C del w (Open f) w' I HC). exact E.
  Qed.
  Lemma bit_C del w f b s : C del w -> lookup f (w_cache w) = Some b -> bit w f s = Some (member (docs f del) (Z.to_nat (doc_of s))).
  Proof. intros (_ & HC) Hf. destruct (HC f b Hf) as (K0 & K2). unfold bit. rewrite Hf. cbn [obind]. rewrite (bv_get_ok b _ K0), K2. reflexivity. Qed.
  Definition keep (f : nat) (del : list nat) (d : Z) : bool := member (docs f del) (Z.to_nat d).
  (* one move over a scorer that keeps the contract *)
  Lemma next_ok B del w f b : C del w -> lookup f (w_cache w) = Some b -> forall m k rest s cur, length rest <= m -> Beh B k s cur rest ->
    exists s', (exists n, forall n', n <= n' -> fq_next n' w f s = Some (nonnil (filter (keep f del) rest), s')) /\
      forall x r, filter (keep f del) rest = x :: r -> doc_of s' = x /\ exists rest', Beh B k s' (Some x) rest' /\ r = filter (keep f del) rest'.
  Proof.
    intros HC Hf. induction m as [|m IH]; intros k rest s cur Hm HB; destruct (beh_next k s cur rest HB) as (s1 & (n1 & E1) & G1); destruct rest as [|x rest]; cbn [length] in Hm; try lia.
    - exists s1. split; [|intros ? ? E; discriminate]. exists (S n1). intros [|n'] Hn'; [lia|]. cbn [fq_next]. rewrite E1 by lia. reflexivity.
    - exists s1. split; [|intros ? ? E; discriminate]. exists (S n1). intros [|n'] Hn'; [lia|]. cbn [fq_next]. rewrite E1 by lia. reflexivity.
    - destruct (G1 x rest eq_refl) as (Hd & HB1). cbn [filter]. destruct (keep f del x) eqn:Ek.
      + exists s1. split.
        * exists (S n1). intros [|n'] Hn'; [lia|]. cbn [fq_next]. rewrite E1 by lia. cbn [obind fst snd nonnil]. rewrite (bit_C del w f b s1 HC Hf), Hd. unfold keep in Ek. rewrite Ek. reflexivity.
        * intros y r E. injection E as <- <-. split; [exact Hd|]. eauto.
      + destruct (IH k rest s1 (Some x) ltac:(lia) HB1) as (s' & (n2 & E2) & G2). exists s'. split; [|exact G2]. exists (S (n1 + n2)). intros [|n'] Hn'; [lia|]. cbn [fq_next]. rewrite E1 by lia. cbn [obind fst snd nonnil]. rewrite (bit_C del w f b s1 HC Hf), Hd. unfold keep in Ek. rewrite Ek. cbn [obind]. apply E2. lia.
  Qed.
  Lemma move_ok B del w f b op k rest s cur : C del w -> lookup f (w_cache w) = Some b -> Beh B k s cur rest -> allowed B k cur op ->
    exists s', (exists n, forall n', n <= n' -> fq_move n' w f op s = Some (nonnil (filter (keep f del) (tgt op rest)), s')) /\
      forall x r, filter (keep f del) (tgt op rest) = x :: r -> doc_of s' = x /\ exists rest', Beh B k s' (Some x) rest' /\ r = filter (keep f del) rest'.
  Proof.
    intros HC Hf HB Ha. destruct op as [d|]; [|apply (next_ok B del w f b HC Hf (length rest) k rest s cur (le_n _) HB)]. cbn [tgt fq_move]. inversion HB as [? ? ? HS HFa Hop]; subst. destruct (Hop (Some d) Ha) as (s1 & (n1 & E1) & G1). cbn [tgt] in *. unfold fq_skip_to.
    destruct (from d rest) as [|x r1] eqn:Ex.
    - exists s1. split; [|intros ? ? E; discriminate]. exists n1. intros n' Hn'. rewrite E1 by lia. reflexivity.
    - destruct (G1 x r1 eq_refl) as (Hd & HB1). cbn [filter]. destruct (keep f del x) eqn:Ek.
      + exists s1. split.
        * exists n1. intros n' Hn'. rewrite E1 by lia. cbn [obind fst snd nonnil]. rewrite (bit_C del w f b s1 HC Hf), Hd. unfold keep in Ek. rewrite Ek. reflexivity.
        * intros y r E. injection E as <- <-. split; [exact Hd|]. eauto.
      + destruct (next_ok B del w f b HC Hf (length r1) k r1 s1 (Some x) (le_n _) HB1) as (s' & (n2 & E2) & G2). exists s'. split; [|exact G2]. exists (n1 + n2). intros n' Hn'. rewrite E1 by lia. cbn [obind fst snd nonnil]. rewrite (bit_C del w f b s1 HC Hf), Hd. unfold keep in Ek. rewrite Ek. cbn [obind]. apply E2. lia.
  Qed.
  Lemma filter_filter {A} (p q : A -> bool) l : filter p (filter q l) = filter q (filter p l).
  Proof. induction l as [|a l IH]; [reflexivity|]. cbn [filter]. destruct (p a) eqn:Ep, (q a) eqn:Eq; cbn [filter]; rewrite ?Ep, ?Eq, ?IH; reflexivity. Qed.
  Lemma tgt_filter op (p : Z -> bool) rest : SS rest -> filter (at_least op) (filter p rest) = filter p (tgt op rest).
  Proof.
    intros H. rewrite filter_filter. f_equal. destruct op as [d|]; cbn [tgt]; [rewrite (from_filter d rest H); reflexivity|]. clear. induction rest as [|a l IH]; [reflexivity|]. cbn [filter at_least]. f_equal. exact IH.
  Qed.
  Lemma moves_ok B del w f b k : (Z.of_nat mx <= B)%Z -> C del w -> lookup f (w_cache w) = Some b -> forall ops s cur c rest,
    Beh B k s cur rest -> match cur with None => (c = -1)%Z | Some x => c = x /\ (0 <= x)%Z end -> (forall op, In op ops -> skips op = true -> k = true) -> forward mx c (filter (keep f del) rest) ops ->
    exists n, forall n', n <= n' -> fq_moves n' w f s ops = Some (visits (filter (keep f del) rest) ops).
  Proof.
    intros HmB HC Hf. induction ops as [|op ops IH]; intros s cur c rest HB Hc Hk HF; [exists 0; reflexivity|]. cbn [fq_moves visits forward] in *. destruct HF as (Hop & HF). destruct (beh_facts _ _ _ _ HB) as (SR & FR). rewrite (tgt_filter op (keep f del) rest SR) in HF |- *.
    destruct (move_ok B del w f b op k rest s cur HC Hf HB) as (s' & (n1 & E1) & G1).
    { destruct op as [d|]; cbn [allowed]; [|exact I]. split; [apply (Hk (Some d)); [left|]; reflexivity|]. destruct cur as [x|]; cbn [above]; lia. }
    destruct (filter (keep f del) (tgt op rest)) as [|x r] eqn:Ex.
    - exists n1. intros n' Hn'. rewrite E1 by lia. reflexivity.
    - destruct (G1 x r eq_refl) as (Hd & rest' & HB' & Er). assert (Hx : (0 <= x)%Z). { assert (In x (filter (keep f del) (tgt op rest))) as Hi by (rewrite Ex; left; reflexivity). apply filter_In in Hi. destruct Hi as (Hi & _). rewrite Forall_forall in FR. destruct op as [d|]; cbn [tgt] in Hi; [apply from_in in Hi; [|exact SR]|]; apply FR; tauto. }
      subst r. destruct (IH s' (Some x) x rest' HB' (conj eq_refl Hx) ltac:(intros o Ho; apply Hk; right; exact Ho) HF) as (n2 & E2). exists (n1 + n2). intros n' Hn'. rewrite E1 by lia. cbn [obind fst snd nonnil]. rewrite E2 by lia. cbn [obind]. rewrite Hd. reflexivity.
  Qed.
  Lemma loop_ok B del w f b k : C del w -> lookup f (w_cache w) = Some b -> forall m rest s cur, length rest <= m -> Beh B k s cur rest ->
    exists n, forall n', n <= n' -> fq_loop n' w f s = Some (filter (keep f del) rest).
  Proof.
    intros HC Hf. assert (G : forall m rest s cur, length (filter (keep f del) rest) <= m -> Beh B k s cur rest -> exists n, forall n', n <= n' -> fq_loop n' w f s = Some (filter (keep f del) rest)).
    { induction m as [|m IH]; intros rest s cur Hm HB; destruct (next_ok B del w f b HC Hf (length rest) k rest s cur (le_n _) HB) as (s' & (n1 & E1) & G1); destruct (filter (keep f del) rest) as [|x r] eqn:Ex; cbn [length] in Hm; try lia.
      - exists (S n1). intros [|n'] Hn'; [lia|]. cbn [fq_loop]. rewrite E1 by lia. reflexivity.
      - exists (S n1). intros [|n'] Hn'; [lia|]. cbn [fq_loop]. rewrite E1 by lia. reflexivity.
      - destruct (G1 x r eq_refl) as (Hd & rest' & HB' & Er). subst r. destruct (IH rest' s' (Some x) ltac:(lia) HB') as (n2 & E2). exists (S (n1 + n2)). intros [|n'] Hn'; [lia|]. cbn [fq_loop]. rewrite E1 by lia. cbn [obind fst snd nonnil]. rewrite E2 by lia. cbn [obind]. rewrite Hd. reflexivity. }
    intros m rest s cur _ HB. apply (G _ rest s cur (le_n _) HB).
  Qed.

  Theorem filtered_search del l w f q s : Forall quiet l -> steps mx docs (mkW del []) l = Some w -> leaves_ok q -> tame false q = true -> scorer_of q = Some s ->
    exists r w', (exists n, forall n', n <= n' -> fq_search mx docs n' w f (Some s) = Some (r, w')) /\ StronglySorted Z.lt r /\ forall d, In d r <-> matches d q = true /\ In (Z.to_nat d) (docs f del).
  Proof.
    intros Hq Hs HL HT Es. pose proof (steps_C del l Hq _ _ (empty_C del) Hs) as HC. destruct (open_C del w f HC) as (w' & b & Eo & Hb & HC'). destruct (BoolQuery_Proofs.below_some q (Z.of_nat mx)) as (B & HmB & HQ). pose proof (all_good B q false HL HQ HT) as G. unfold good in G. rewrite Es in G. destruct G as (L & HB & Hin). destruct (loop_ok B del w' f b false HC' Hb (length L) L s None (le_n _) HB) as (n & En). exists (filter (keep f del) L), w'. splits.
    - exists n. intros n' Hn'. unfold fq_search. rewrite Eo. cbn [obind]. rewrite En by lia. reflexivity.
    - apply filter_SS. apply (beh_facts _ _ _ _ HB).
    - intros d. rewrite filter_In, Hin. unfold keep. rewrite member_in. reflexivity.
  Qed.
  Theorem filtered_moves del l w w' f q s ops : Forall quiet l -> steps mx docs (mkW del []) l = Some w -> filt_get_bv mx docs w f = Some w' -> leaves_ok q -> tame (existsb skips ops) q = true -> scorer_of q = Some s ->
    exists r, StronglySorted Z.lt r /\ (forall d, In d r <-> matches d q = true /\ In (Z.to_nat d) (docs f del)) /\
      (forward mx (-1) r ops -> exists n, forall n', n <= n' -> fq_moves n' w' f s ops = Some (visits r ops)).
  Proof.
    intros Hq Hs Ew HL HT Es. pose proof (steps_C del l Hq _ _ (empty_C del) Hs) as HC. destruct (open_C del w f HC) as (w2 & b & Eo & Hb & HC'). rewrite Eo in Ew. apply some_inj in Ew. subst w2. destruct (BoolQuery_Proofs.below_some q (Z.of_nat mx)) as (B & HmB & HQ). pose proof (all_good B q _ HL HQ HT) as G. unfold good in G. rewrite Es in G. destruct G as (L & HB & Hin). exists (filter (keep f del) L). splits.
    - apply filter_SS. apply (beh_facts _ _ _ _ HB).
    - intros d. rewrite filter_In, Hin. unfold keep. rewrite member_in. reflexivity.
    - intros HF. apply (moves_ok B del w' f b _ ltac:(lia) HC' Hb ops s None (-1)%Z L HB eq_refl); [|exact HF]. intros op Ho Hk. apply existsb_exists. eauto.
  Qed.
End FILTERS.
