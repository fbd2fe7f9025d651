(* Sloppy phrases with a term that occurs once (C35). *)
From Verif Require Import Util PQueue_Model Phrase_Model Ring.
Open Scope Z_scope.
(* the position is the only one of its document *)
Definition once (x : Z) (p : pp) : Prop := p_cnt p = 0 /\ p_pos p = x - p_off p.
Lemma check_fails : forall fuel k j j0 p_cnt l x p q r, nth_error l k = Some p -> once x p -> (j <= j0 < p_cnt)%nat -> nth_error l j0 = Some q -> once x q -> p_off q <> p_off p -> check_repeats fuel k j p_cnt l = Some r -> fst r = false.
Proof.
  induction fuel as [|f IH]; intros k j j0 p_cnt l x p q r Hk Hp Hj Hq Hqo Hoff E; cbn [check_repeats] in E; [discriminate|]. destruct (Nat.ltb_spec j p_cnt); [|lia]. destruct (nth_error l j) as [pj|] eqn:Ej; cbn [obind] in E; [|discriminate]. rewrite Hk in E. cbn [obind] in E.
  destruct (Z.eqb_spec (p_off pj) (p_off p)) as [E1|E1].
  - assert (j <> j0) by (intros ->; rewrite Hq in Ej; apply some_inj in Ej; congruence). eapply (IH k (S j) j0 p_cnt l x p q); try eassumption. lia.
  - destruct (Z.eqb_spec (p_pos pj + p_off pj) (p_pos p + p_off p)) as [E2|E2].
    + unfold pp_next_position in E. destruct Hp as (Hp1 & _). rewrite Hp1 in E. cbn in E. apply some_inj in E. subst r. reflexivity.
    + assert (j <> j0) by (intros ->; rewrite Hq in Ej; apply some_inj in Ej; subst pj; destruct Hp, Hqo; lia). eapply (IH k (S j) j0 p_cnt l x p q); try eassumption. lia.
Qed.
(* a position that has no further one is not moved *)
Lemma check_keeps : forall fuel k j p_cnt l x p r, nth_error l k = Some p -> once x p -> check_repeats fuel k j p_cnt l = Some r -> fst r = true -> nth_error (snd r) k = Some p.
Proof.
  induction fuel as [|f IH]; intros k j p_cnt l x p r Hk Hp E Hr; cbn [check_repeats] in E; [discriminate|]. destruct (Nat.ltb_spec j p_cnt); [|apply some_inj in E; subst r; exact Hk]. destruct (nth_error l j) as [pj|] eqn:Ej; cbn [obind] in E; [|discriminate]. rewrite Hk in E. cbn [obind] in E.
  destruct (Z.eqb_spec (p_off pj) (p_off p)) as [E1|E1]; [eapply IH; eassumption|]. destruct (Z.eqb_spec (p_pos pj + p_off pj) (p_pos p + p_off p)) as [E2|E2]; [|eapply IH; eassumption].
  unfold pp_next_position in E. rewrite (proj1 Hp) in E. cbn in E. apply some_inj in E. subst r. discriminate Hr.
Qed.
Lemma upd_other {A} (l : list A) i j v : i <> j -> nth_error (upd l i v) j = nth_error l j.
Proof. revert i j. induction l as [|a l IH]; intros [|i] [|j] H; cbn [upd nth_error]; try congruence; try reflexivity. apply IH. congruence. Qed.
Lemma upd_same {A} (l : list A) i v w : nth_error l i = Some w -> nth_error (upd l i v) i = Some v.
Proof. revert i. induction l as [|a l IH]; intros [|i] H; cbn [upd nth_error] in *; try discriminate; [reflexivity|apply IH; exact H]. Qed.
Lemma check_other : forall fuel k j p_cnt l r i, check_repeats fuel k j p_cnt l = Some r -> i <> k -> nth_error (snd r) i = nth_error l i.
Proof.
  induction fuel as [|f IH]; intros k j p_cnt l r i E Hi; cbn [check_repeats] in E; [discriminate|]. destruct (j <? p_cnt)%nat; [|apply some_inj in E; subst r; reflexivity]. destruct (nth_error l j) as [pj|]; cbn [obind] in E; [|discriminate]. destruct (nth_error l k) as [p|] eqn:Ek; cbn [obind] in E; [|discriminate]. destruct (p_off pj =? p_off p); [apply (IH _ _ _ _ _ _ E Hi)|]. destruct (p_pos pj + p_off pj =? p_pos p + p_off p); [|apply (IH _ _ _ _ _ _ E Hi)].
  destruct (pp_next_position p) as [r2|]; cbn [obind] in E; [|discriminate]. destruct (fst r2); [rewrite (IH _ _ _ _ _ _ E Hi)|apply some_inj in E; subst r; cbn [snd]]; apply upd_other; congruence.
Qed.
(* a position entered at a document in which it has one position *)
Definition single (x : Z) (p : pp) : Prop := p_all p = [x] /\ p_left p = [x].
Lemma first_single x p r : single x p -> pp_first_position p = Some r -> once x (snd r) /\ p_off (snd r) = p_off p.
Proof. intros (H1 & H2) E. unfold pp_first_position, pp_next_position in E. destruct (p_open p); [|discriminate]. cbn [p_cnt p_left p_open p_all p_rest p_off p_doc p_pos] in E. rewrite H1, H2 in E. cbn in E. apply some_inj in E. subst r. split; [split; reflexivity|reflexivity]. Qed.
Lemma first_none fuel x k1 k3 p1 p3 : (k1 + 1 < k3)%nat -> p_off p1 <> p_off p3 -> forall n i l q lp r,
  (i + n = length l)%nat -> (i <= k3 < length l)%nat ->
  ((i <= k1)%nat /\ single x p1 /\ nth_error l k1 = Some p1 \/ (k1 < i)%nat /\ exists p1', nth_error l k1 = Some p1' /\ once x p1' /\ p_off p1' = p_off p1) ->
  nth_error l k3 = Some p3 -> single x p3 ->
  sloppy_first fuel true i n l q lp = Some r -> fst r = None.
Proof.
  intros Hk Hoff. induction n as [|n IH]; intros i l q lp r Hlen Hi H1 H3 H3s E; cbn [sloppy_first] in E; [lia|]. destruct (nth_error l i) as [p|] eqn:Ei; cbn [obind] in E; [|discriminate]. destruct (pp_first_position p) as [(b, p')|] eqn:Ep; cbn [obind fst snd] in E; [|discriminate]. destruct b; [|discriminate].
  set (l1 := upd l i p') in *. assert (Hl1 : nth_error l1 i = Some p') by (eapply upd_same; exact Ei).
  destruct (Nat.eq_dec i k3) as [->|Hne].
  - rewrite H3 in Ei. apply some_inj in Ei. subst p. destruct (first_single x p3 _ H3s Ep) as (G1 & G2). cbn [snd] in G1, G2. destruct H1 as [(H1 & _)|(H1 & p1' & H1a & H1b & H1c)]; [lia|]. replace (0 <? k3)%nat with true in E by (symmetry; apply Nat.ltb_lt; lia). cbn [andb] in E.
    destruct (check_repeats fuel k3 0 (k3 - 1) l1) as [c|] eqn:Ec; cbn [obind] in E; [|discriminate]. assert (Gf : fst c = false). { eapply (check_fails fuel k3 0 k1 (k3 - 1) l1 x p' p1'); try eassumption; [lia|unfold l1; rewrite upd_other by lia; exact H1a|congruence]. } rewrite Gf in E. apply some_inj in E. subst r. reflexivity.
  - destruct (if (true && (0 <? i)%nat)%bool then check_repeats fuel i 0 (i - 1) l1 else Some (true, l1)) as [c|] eqn:Ec; cbn [obind] in E; [|discriminate]. destruct (fst c) eqn:Efc; [|apply some_inj in E; subst r; reflexivity]. destruct (nth_error (snd c) i) as [p2|] eqn:Ep2; cbn [obind] in E; [|discriminate]. destruct (pq_push nat (pp_less (snd c)) q i) as [q'|]; cbn [obind] in E; [|discriminate].
    assert (Hoth : forall j, j <> i -> nth_error (snd c) j = nth_error l j). { intros j Hj. transitivity (nth_error l1 j); [|unfold l1; apply upd_other; congruence]. destruct (true && (0 <? i)%nat)%bool; [eapply check_other; eassumption|apply some_inj in Ec; subst c; reflexivity]. }
    assert (Hlc : length (snd c) = length l). { assert (G : forall j, nth_error (snd c) j = None <-> nth_error l j = None). { intros j. destruct (Nat.eq_dec j i) as [->|Hj]; [rewrite Ep2, Ei; split; discriminate|rewrite (Hoth j Hj); tauto]. } pose proof (proj1 (G (length (snd c))) (proj2 (nth_error_None _ _) (le_n _))) as G1. apply nth_error_None in G1. pose proof (proj2 (G (length l)) (proj2 (nth_error_None _ _) (le_n _))) as G2. apply nth_error_None in G2. lia. }
    eapply (IH (S i) (snd c)); [rewrite Hlc; lia|rewrite Hlc; lia| |rewrite Hoth by lia; exact H3|exact H3s|exact E].
    destruct H1 as [(H1a & H1b & H1c)|(H1 & p1' & H1a & H1b & H1c)]; [|right; split; [lia|]; exists p1'; rewrite Hoth by lia; auto]. destruct (Nat.eq_dec i k1) as [->|Hi1]; [|left; splits; [lia|exact H1b|rewrite Hoth by lia; exact H1c]].
    right. split; [lia|]. rewrite Ei in H1c. apply some_inj in H1c. subst p. destruct (first_single x p1 _ H1b Ep) as (G1 & G2). cbn [snd] in G1, G2. exists p'. splits; auto. destruct (true && (0 <? k1)%nat)%bool; [eapply check_keeps; eassumption|apply some_inj in Ec; subst c; exact Hl1].
Qed.
Theorem not_adjacent fuel slop l x k1 k3 p1 p3 r : (k1 + 1 < k3)%nat -> nth_error l k1 = Some p1 -> nth_error l k3 = Some p3 -> single x p1 -> single x p3 -> p_off p1 <> p_off p3 ->
  sphsc_matches fuel true slop l = Some r -> fst r = [].
Proof.
  intros Hk H1 H3 S1 S3 Hoff E. unfold sphsc_matches in E. destruct (sloppy_first fuel true 0 (length l) l (pq_new nat (length l)) 0) as [c|] eqn:Ec; cbn [obind] in E; [|discriminate]. assert (Hk3 : (k3 < length l)%nat) by (apply nth_error_Some; rewrite H3; discriminate).
  assert (G : fst c = None) by (eapply (first_none fuel x k1 k3 p1 p3); try eassumption; try lia; left; splits; [lia|exact S1|exact H1]). rewrite G in E. apply some_inj in E. subst r. reflexivity.
Qed.
Theorem three_times fuel slop l x i j k p1 p2 p3 r : nth_error l i = Some p1 -> nth_error l j = Some p2 -> nth_error l k = Some p3 -> single x p1 -> single x p2 -> single x p3 -> p_off p1 <> p_off p2 -> p_off p1 <> p_off p3 -> p_off p2 <> p_off p3 ->
  sphsc_matches fuel true slop l = Some r -> fst r = [].
Proof.
  intros H1 H2 H3 S1 S2 S3 O1 O2 O3 E. assert (i <> j) by (intros ->; congruence). assert (i <> k) by (intros ->; congruence). assert (j <> k) by (intros ->; congruence).
  assert (D : (i + 1 < j \/ i + 1 < k \/ j + 1 < i \/ j + 1 < k \/ k + 1 < i \/ k + 1 < j)%nat) by lia.
  destruct D as [D|[D|[D|[D|[D|D]]]]]; (eapply (not_adjacent fuel slop l x); [exact D|eassumption|eassumption|assumption|assumption|congruence|exact E]).
Qed.
