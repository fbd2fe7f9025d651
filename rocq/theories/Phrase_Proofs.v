From Coq Require Import Sorting.Permutation Sorting.Sorted.
From Verif Require Import Util PQueue_Model Phrase_Model Phrase_Spec Ring.
Open Scope Z_scope.

(* ---------- positions of one document *)
Definition bases (p : pp) : list Z := p_pos p :: map (fun x => x - p_off p) (p_left p).
Definition same (p p' : pp) : Prop := p_open p' = p_open p /\ p_all p' = p_all p /\ p_rest p' = p_rest p /\ p_off p' = p_off p /\ p_doc p' = p_doc p.
Lemma same_refl p : same p p.
Proof. unfold same. auto. Qed.
Lemma same_trans a b c : same a b -> same b c -> same a c.
Proof. unfold same. intros (? & ? & ? & ? & ?) (? & ? & ? & ? & ?). splits; congruence. Qed.
Definition reading (p : pp) : Prop := p_open p = true /\ p_cnt p = Z.of_nat (length (p_left p)) /\ up (bases p).
Lemma next_pos_ok p : reading p -> exists p', same p p' /\
  match p_left p with
  | [] => pp_next_position p = Some (false, p')
  | x :: t => pp_next_position p = Some (true, p') /\ reading p' /\ bases p' = map (fun x => x - p_off p) (p_left p) /\ length (p_left p') = length t
  end.
Proof.
  intros (H1 & H2 & H3). unfold pp_next_position. rewrite H2. unfold bases in H3. destruct (p_left p) as [|x t] eqn:E.
  - cbn [length]. eexists. split; [|reflexivity]. unfold same. auto.
  - cbn [length]. destruct (Z.leb_spec 0 (Z.of_nat (S (length t)) - 1)); [|lia]. rewrite H1. eexists. split; [|splits; [reflexivity| |reflexivity|reflexivity]]; [unfold same; auto|]. unfold reading, bases. cbn [p_open p_cnt p_left p_pos p_off]. splits; [reflexivity|lia|]. apply up_inv in H3. exact (proj1 H3).
Qed.
Fixpoint from (d : Z) (l : list Z) : list Z := match l with [] => [] | x :: t => if x <? d then from d t else l end.
Lemma catch_ok : forall n p target, (length (p_left p) <= n)%nat -> reading p -> exists p', same p p' /\
  match from target (tl (bases p)) with
  | [] => forall f, (n < f)%nat -> catch_up f p target = Some (false, p')
  | y :: r => (forall f, (n < f)%nat -> catch_up f p target = Some (true, p')) /\ reading p' /\ bases p' = y :: r /\ (length (p_left p') < length (p_left p))%nat
  end.
Proof.
  induction n as [|n IH]; intros p target Hn HR; destruct (next_pos_ok p HR) as (p1 & Hs & H1); unfold bases; cbn [tl]; destruct (p_left p) as [|x t] eqn:E; cbn [length] in Hn; try lia; cbn [map from].
  - exists p1. split; [exact Hs|]. intros [|f] Hf; [lia|]. cbn [catch_up]. rewrite H1. reflexivity.
  - exists p1. split; [exact Hs|]. intros [|f] Hf; [lia|]. cbn [catch_up]. rewrite H1. reflexivity.
  - destruct H1 as (H1 & HR1 & HB1 & HL1). cbn [map] in HB1. unfold bases in HB1. injection HB1 as Ep El. destruct (Z.ltb_spec (x - p_off p) target) as [Hlt|Hge].
    + destruct (IH p1 target ltac:(lia) HR1) as (p' & Hs' & H'). exists p'. split; [exact (same_trans _ _ _ Hs Hs')|]. unfold bases in H'. cbn [tl] in H'. rewrite El in H'. destruct (from target (map (fun x0 => x0 - p_off p) t)) as [|y r].
      * intros [|f] Hf; [lia|]. cbn [catch_up]. rewrite H1. cbn [obind fst snd]. rewrite Ep. destruct (Z.ltb_spec (x - p_off p) target); [|lia]. apply H'. lia.
      * destruct H' as (E1 & E2 & E3 & E4). splits; auto; [|cbn [length]; lia]. intros [|f] Hf; [lia|]. cbn [catch_up]. rewrite H1. cbn [obind fst snd]. rewrite Ep. destruct (Z.ltb_spec (x - p_off p) target); [|lia]. apply E1. lia.
    + exists p1. split; [exact Hs|]. splits; auto.
      * intros [|f] Hf; [lia|]. cbn [catch_up]. rewrite H1. cbn [obind fst snd]. rewrite Ep. destruct (Z.ltb_spec (x - p_off p) target); [lia|reflexivity].
      * unfold bases. rewrite Ep, El. reflexivity.
      * cbn [length]. lia.
Qed.
Lemma from_in d l x : up l -> In x (from d l) <-> In x l /\ d <= x.
Proof.
  induction 1 as [|a l HS IH HF]; cbn [from In]; [tauto|]. rewrite Forall_forall in HF. destruct (Z.ltb_spec a d).
  - rewrite IH. intuition lia.
  - cbn [In]. split; [intros [->|Hx]; [intuition lia|specialize (HF _ Hx); intuition lia]|tauto].
Qed.
Definition common (l : list pp) (b : Z) : Prop := Forall (fun p => In b (bases p)) l.
Definition strict (p : pp) : Prop := StronglySorted Z.lt (bases p).
Definition lefts (l : list pp) : nat := list_sum (map (fun p => length (p_left p)) l).
Lemma lefts_app a b : lefts (a ++ b) = (lefts a + lefts b)%nat.
Proof. unfold lefts. rewrite map_app. apply list_sum_app. Qed.
Lemma lefts_cons p b : lefts (p :: b) = (length (p_left p) + lefts b)%nat.
Proof. reflexivity. Qed.
Lemma bases_ge p b : reading p -> In b (bases p) -> p_pos p <= b.
Proof. intros (_ & _ & H) [->|Hin]; [lia|]. unfold bases in H. apply up_inv in H. apply (proj2 H). exact Hin. Qed.
Lemma from_strict d l : StronglySorted Z.lt l -> StronglySorted Z.lt (from d l).
Proof. induction 1 as [|a l HS IH HF]; cbn [from]; [constructor|]. destruct (a <? d); [exact IH|constructor; assumption]. Qed.
Lemma Forall2_same_refl l : Forall2 same l l.
Proof. induction l; constructor; [apply same_refl|assumption]. Qed.
Lemma Forall2_same_trans : forall a b c, Forall2 same a b -> Forall2 same b c -> Forall2 same a c.
Proof. intros a b c H. revert c. induction H as [|x y a b Hx H IH]; intros c H2; inversion H2; subst; constructor; [eapply same_trans; eassumption|apply IH; assumption]. Qed.
Notation poss := (map p_pos).
(* the loop of ephsc_phrase_freq *)
Lemma scan_ok : forall m a p b c q e l0 freq, (lefts (a ++ p :: b) <= m)%nat -> Forall reading (a ++ p :: b) -> up (poss (rot a p b)) ->
  a ++ p :: b = c ++ q :: e -> rot a p b = l0 ++ [q] -> (forall q', exists a' p' b', c ++ q' :: e = a' ++ p' :: b' /\ length a' = length a /\ rot a' p' b' = l0 ++ [q']) ->
  exists n idx' l', (exists k, forall f, (k <= f)%nat -> scan f freq (length a) (length c) (a ++ p :: b) = Some (freq + n, idx', l')) /\ Forall2 same (a ++ p :: b) l' /\ (idx' < length (a ++ p :: b))%nat /\
    0 <= n /\ (0 < n <-> exists x, common (a ++ p :: b) x) /\ (Forall strict (a ++ p :: b) -> exists bs, NoDup bs /\ (forall x, In x bs <-> common (a ++ p :: b) x) /\ Z.of_nat (length bs) = n).
Proof.
  induction m as [m IH] using lt_wf_ind. intros a p b c q e l0 freq Hm HR Hup Eq Erot Hring. pose proof HR as HR0. rewrite Forall_forall in HR0.
  assert (Hp : reading p) by (apply HR0; apply in_or_app; right; left; reflexivity). assert (Hqin : In q (a ++ p :: b)) by (rewrite Eq; apply in_or_app; right; left; reflexivity). assert (Hq : reading q) by (apply HR0; exact Hqin).
  assert (Hmax : forall x, In x (a ++ p :: b) -> p_pos x <= p_pos q).
  { intros x Hx. apply rot_in in Hx. rewrite Erot in Hx, Hup. rewrite map_app in Hup. apply up_app_inv in Hup. destruct Hup as (_ & _ & G). apply in_app_or in Hx. destruct Hx as [Hx|[<-|[]]]; [|lia]. apply G; [apply in_map; exact Hx|left; reflexivity]. }
  assert (Ep : nth_error (a ++ p :: b) (length a) = Some p) by apply nth_mid. assert (Eqn : nth_error (a ++ p :: b) (length c) = Some q) by (rewrite Eq; apply nth_mid).
  assert (Hlen : (0 < length (a ++ p :: b))%nat) by (rewrite app_length; cbn [length]; lia).
  destruct (Z.ltb_spec (p_pos p) (p_pos q)) as [Hlt|Hge].
  - destruct (catch_ok (length (p_left p)) p (p_pos q) (le_n _) Hp) as (p' & Hs & Hc). unfold bases in Hc at 1. cbn [tl] in Hc. set (R := map (fun x => x - p_off p) (p_left p)) in *.
    assert (HupR : up R) by (destruct Hp as (_ & _ & G); unfold bases in G; apply up_inv in G; exact (proj1 G)).
    assert (HinR : forall x, p_pos q <= x -> (In x (bases p) <-> In x (from (p_pos q) R))) by (intros x Hx; rewrite from_in by exact HupR; unfold bases; fold R; cbn [In]; intuition lia).
    assert (Hcq : forall x, common (a ++ p :: b) x -> p_pos q <= x) by (intros x Hx; unfold common in Hx; rewrite Forall_forall in Hx; apply bases_ge; [exact Hq|apply Hx; exact Hqin]).
    destruct (from (p_pos q) R) as [|y r] eqn:Ef.
    + assert (Hno : forall x, ~ common (a ++ p :: b) x).
      { intros x Hx. pose proof (Hcq x Hx) as G. unfold common in Hx. rewrite Forall_forall in Hx. specialize (Hx p ltac:(apply in_or_app; right; left; reflexivity)). apply HinR in Hx; [destruct Hx|exact G]. }
      exists 0, (length a), (a ++ p' :: b). splits.
      * exists (S (S (length (p_left p)))). intros [|f] Hf; [lia|]. cbn [scan]. rewrite Ep, Eqn. cbn [obind]. destruct (Z.ltb_spec (p_pos p) (p_pos q)); [|lia]. rewrite Hc by lia. cbn [obind fst snd]. rewrite upd_mid, Z.add_0_r. reflexivity.
      * apply Forall2_app; [apply Forall2_same_refl|constructor; [exact Hs|apply Forall2_same_refl]].
      * rewrite app_length. cbn [length]. lia.
      * lia.
      * split; [lia|]. intros (x & Hx). destruct (Hno x Hx).
      * intros _. exists []. splits; [constructor| |reflexivity]. intros x. split; [intros []|]. intros Hx. destruct (Hno x Hx).
    + destruct Hc as (Ec & Hp' & Hb' & Hl'). destruct (ring_next a p b p') as (a2 & p2 & b2 & E2 & Ei & Er2).
      assert (Hyq : p_pos q <= y) by (apply (from_in (p_pos q) R y HupR); rewrite Ef; left; reflexivity).
      assert (Hpy : p_pos p' = y) by (unfold bases in Hb'; injection Hb' as G _; exact G).
      assert (HCC : forall x, common (a ++ p :: b) x <-> common (a2 ++ p2 :: b2) x).
      { intros x. unfold common. rewrite <- E2, !Forall_app, !Forall_cons_iff. rewrite Hb'. split; intros (G1 & G2 & G3); splits; auto.
        - apply HinR; [|exact G2]. apply Hcq. unfold common. rewrite Forall_app, Forall_cons_iff. auto.
        - apply HinR; [|exact G2]. rewrite <- Hb' in G2. pose proof (bases_ge p' x Hp' G2). lia. }
      assert (HR2 : Forall reading (a2 ++ p2 :: b2)) by (rewrite <- E2; apply Forall_app in HR; destruct HR as (G1 & G2); inversion G2; subst; apply Forall_app; split; [assumption|constructor; assumption]).
      destruct (IH (lefts (a2 ++ p2 :: b2))) with (a := a2) (p := p2) (b := b2) (c := a) (q := p') (e := b) (l0 := b ++ a) (freq := freq) as (n & idx' & l' & (k & Ek) & Hsm & Hidx & Hn0 & Hn & Hst).
      * rewrite <- E2. rewrite lefts_app, lefts_cons in *. lia.
      * reflexivity.
      * exact HR2.
      * rewrite Er2, map_app. unfold rot in Hup. cbn [map] in Hup. apply up_inv in Hup. apply up_app; [exact (proj1 Hup)|cbn [map]; repeat constructor|]. intros x z Hx [<-|[]]. apply in_map_iff in Hx. destruct Hx as (w & <- & Hw). rewrite Hpy. assert (Hw2 : In w (a ++ p :: b)) by (apply rot_in; right; exact Hw). specialize (Hmax w Hw2). lia.
      * symmetry. exact E2.
      * exact Er2.
      * intros q'. destruct (ring_next a p b q') as (a3 & p3 & b3 & E3 & Ei3 & Er3). exists a3, p3, b3. splits; [exact E3|congruence|exact Er3].
      * exists n, idx', l'. splits; auto.
        -- exists (S (Nat.max (S (length (p_left p))) k)). intros [|f] Hf; [lia|]. cbn [scan]. rewrite Ep, Eqn. cbn [obind]. destruct (Z.ltb_spec (p_pos p) (p_pos q)); [|lia]. rewrite Ec by lia. cbn [obind fst snd]. rewrite upd_mid. unfold next_num. rewrite Ei, E2. apply Ek. lia.
        -- eapply Forall2_same_trans; [|exact Hsm]. rewrite <- E2. apply Forall2_app; [apply Forall2_same_refl|constructor; [exact Hs|apply Forall2_same_refl]].
        -- replace (length (a ++ p :: b)) with (length (a2 ++ p2 :: b2)) by (rewrite <- E2, !app_length; reflexivity). exact Hidx.
        -- rewrite Hn. split; intros (x & Hx); exists x; apply HCC; exact Hx.
        -- intros HS. destruct Hst as (bs & B1 & B2 & B3).
           { rewrite <- E2. apply Forall_app in HS. destruct HS as (G1 & G2). inversion G2 as [|? ? G3 G4]; subst. apply Forall_app. split; [exact G1|constructor; [|exact G4]]. unfold strict in *. rewrite Hb', <- Ef. apply from_strict. unfold bases in G3. fold R in G3. inversion G3; assumption. }
           exists bs. splits; auto. intros x. rewrite B2. symmetry. apply HCC.
  - (* all positions are equal *)
    assert (Hall : forall x, In x (a ++ p :: b) -> p_pos x = p_pos q).
    { intros x Hx. pose proof (Hmax x Hx). apply rot_in in Hx. unfold rot in Hx, Hup. cbn [map] in Hup. apply up_inv in Hup. destruct Hx as [<-|Hx]; [lia|]. pose proof (proj2 Hup (p_pos x) (in_map p_pos _ _ Hx)). lia. }
    assert (HD : common (a ++ p :: b) (p_pos q)) by (apply Forall_forall; intros x Hx; left; apply Hall; exact Hx).
    destruct (next_pos_ok q Hq) as (q' & Hs & Hnx). assert (Hbq : bases q = p_pos q :: map (fun x => x - p_off q) (p_left q)) by reflexivity. destruct (p_left q) as [|x t] eqn:El.
    + exists 1, (length a), (c ++ q' :: e). splits.
      * exists 1%nat. intros [|f] Hf; [lia|]. cbn [scan]. rewrite Ep, Eqn. cbn [obind]. destruct (Z.ltb_spec (p_pos p) (p_pos q)); [lia|]. rewrite Hnx. cbn [obind fst snd]. rewrite Eq, upd_mid. reflexivity.
      * rewrite Eq. apply Forall2_app; [apply Forall2_same_refl|constructor; [exact Hs|apply Forall2_same_refl]].
      * rewrite app_length. cbn [length]. lia.
      * lia.
      * split; [intros _; exists (p_pos q); exact HD|lia].
      * intros _. exists [p_pos q]. splits; [repeat constructor; intros []| |reflexivity]. intros x. split; [intros [<-|[]]; exact HD|]. intros Hx. unfold common in Hx. rewrite Forall_forall in Hx. specialize (Hx q Hqin). rewrite Hbq in Hx. cbn [map] in Hx. exact Hx.
    + destruct Hnx as (Enx & Hq' & Hb' & Hl'). destruct (Hring q') as (a2 & p2 & b2 & E2 & Ela & Er2).
      assert (Hq'b : forall z, In z (bases q') -> p_pos q <= z) by (intros z Hz; apply (bases_ge q); [exact Hq|rewrite Hbq; right; rewrite <- Hb'; exact Hz]).
      destruct (ring_prev a2 p2 b2) as (c3 & q3 & e3 & Eq3 & Ei3 & l3 & Er3 & Hr3).
      assert (Hsub : forall z, common (a2 ++ p2 :: b2) z -> common (a ++ p :: b) z).
      { intros z. unfold common. rewrite <- E2, Eq, !Forall_app, !Forall_cons_iff. intros (G1 & G2 & G3). splits; auto. rewrite Hbq. right. rewrite <- Hb'. exact G2. }
      assert (Hr2 : forall q'', exists a' p' b', c ++ q'' :: e = a' ++ p' :: b' /\ length a' = length a2 /\ rot a' p' b' = l0 ++ [q'']) by (intros q''; destruct (Hring q'') as (a' & p'' & b' & G1 & G2 & G3); exists a', p'', b'; splits; congruence).
      destruct (IH (lefts (a2 ++ p2 :: b2))) with (a := a2) (p := p2) (b := b2) (c := c) (q := q') (e := e) (l0 := l0) (freq := freq + 1) as (n & idx' & l' & (k & Ek) & Hsm & Hidx & Hn0 & Hn & Hst).
      * rewrite <- E2. rewrite Eq in Hm. rewrite lefts_app, lefts_cons in *. rewrite El in Hm. cbn [length] in Hm. lia.
      * reflexivity.
      * rewrite <- E2. rewrite Eq in HR. apply Forall_app in HR. destruct HR as (G1 & G2). inversion G2; subst. apply Forall_app. split; [assumption|constructor; assumption].
      * rewrite Er2, map_app. rewrite Erot, map_app in Hup. apply up_app_inv in Hup. destruct Hup as (G1 & _ & G2). apply up_app; [exact G1|cbn [map]; repeat constructor|]. intros u v Hu [<-|[]]. specialize (G2 u (p_pos q) Hu (or_introl eq_refl)). assert (p_pos q <= p_pos q') by (apply Hq'b; left; reflexivity). lia.
      * symmetry. exact E2.
      * exact Er2.
      * exact Hr2.
      * exists (1 + n), idx', l'. splits.
        -- exists (S k). intros [|f] Hf; [lia|]. cbn [scan]. rewrite Ep, Eqn. cbn [obind]. destruct (Z.ltb_spec (p_pos p) (p_pos q)); [lia|]. rewrite Enx. cbn [obind fst snd]. rewrite Eq, upd_mid, E2, <- Ela. rewrite (Ek f) by lia. do 3 f_equal. lia.
        -- eapply Forall2_same_trans; [|exact Hsm]. rewrite <- E2, Eq. apply Forall2_app; [apply Forall2_same_refl|constructor; [exact Hs|apply Forall2_same_refl]].
        -- rewrite Eq. replace (length (c ++ q :: e)) with (length (a2 ++ p2 :: b2)) by (rewrite <- E2, !app_length; reflexivity). exact Hidx.
        -- lia.
        -- split; [intros _; exists (p_pos q); exact HD|lia].
        -- intros HS. assert (HSq : strict q) by (rewrite Forall_forall in HS; apply HS; exact Hqin). destruct Hst as (bs & B1 & B2 & B3).
           { rewrite <- E2. rewrite Eq in HS. apply Forall_app in HS. destruct HS as (G1 & G2). inversion G2 as [|? ? G3 G4]; subst. apply Forall_app. split; [exact G1|constructor; [|exact G4]]. unfold strict in *. rewrite Hb'. rewrite Hbq in G3. inversion G3; assumption. }
           assert (Hgt : forall z, In z (bases q') -> p_pos q < z) by (intros z Hz; unfold strict in HSq; rewrite Hbq, <- Hb' in HSq; inversion HSq as [|? ? _ G]; subst; rewrite Forall_forall in G; apply G; exact Hz).
           exists (p_pos q :: bs). splits.
           ++ constructor; [|exact B1]. intros Hin. apply B2 in Hin. unfold common in Hin. rewrite Forall_forall in Hin. assert (In q' (a2 ++ p2 :: b2)) as G by (rewrite <- E2; apply in_or_app; right; left; reflexivity). specialize (Hgt _ (Hin q' G)). lia.
           ++ intros z. cbn [In]. rewrite B2. split; [intros [<-|G]; [exact HD|apply Hsub; exact G]|]. intros G. destruct (Z.eq_dec (p_pos q) z) as [Ez|Ez]; [left; exact Ez|right]. unfold common in *. rewrite <- E2. rewrite Eq in G. rewrite Forall_app, Forall_cons_iff in *. destruct G as (G1 & G2 & G3). splits; auto. rewrite Hb'. rewrite Hbq in G2. destruct G2 as [G2|G2]; [congruence|exact G2].
           ++ cbn [length]. lia.
Qed.

(* ---------- the positions of the phrase at their documents *)
Notation post := (Z * list (Z * list Z))%type.
Notation zp := (post * pp)%type.
Definition pok (z : zp) : Prop :=
  p_open (snd z) = true /\ p_off (snd z) = fst (fst z) /\ exists pre, snd (fst z) = pre ++ (p_doc (snd z), p_all (snd z)) :: p_rest (snd z).
Lemma pok_same t p p' : pok (t, p) -> same p p' -> pok (t, p').
Proof. unfold pok. cbn [fst snd]. intros (H1 & H2 & pre & H3) (S1 & S2 & S3 & S4 & S5). splits; [congruence|congruence|]. exists pre. rewrite S2, S3, S5. exact H3. Qed.
Section PHRASE.
  Variable qsort : (pp -> pp -> Z) -> list pp -> list pp.
  Hypothesis Hsort : sorts qsort.
  Variable ph : phrase.
  Hypothesis Hph : phrase_ok ph.
  Lemma ph_docs t : In t ph -> StronglySorted Z.lt (map fst (snd t)) /\ Forall (fun e : Z * list Z => 0 <= fst e < INT_MAX /\ snd e <> [] /\ up (snd e)) (snd t).
  Proof. intros H. destruct Hph as (_ & HF). rewrite Forall_forall in HF. apply HF. exact H. Qed.
  Definition zok (zs : list zp) : Prop := Permutation (map fst zs) ph /\ Forall pok zs.
  Lemma zok_in zs z : zok zs -> In z zs -> In (fst z) ph /\ pok z.
  Proof. intros (H1 & H2) Hz. rewrite Forall_forall in H2. split; [apply (Permutation_in _ H1); apply in_map; exact Hz|apply H2; exact Hz]. Qed.
  Lemma zok_perm zs zs' : zok zs -> Permutation zs zs' -> zok zs'.
  Proof. intros (H1 & H2) HP. split; [rewrite <- H1; apply Permutation_map, Permutation_sym; exact HP|apply (Permutation_Forall HP); exact H2]. Qed.
  Lemma lift_same : forall zs l', Forall2 same (map snd zs) l' -> exists zs', l' = map snd zs' /\ map fst zs' = map fst zs /\ (Forall pok zs -> Forall pok zs') /\ map (fun z => p_doc (snd z)) zs' = map (fun z => p_doc (snd z)) zs /\ map (fun z => p_rest (snd z)) zs' = map (fun z => p_rest (snd z)) zs.
  Proof.
    induction zs as [|(t, p) zs IH]; intros l' H; cbn [map snd] in H.
    - inversion H; subst. exists []. cbn. auto.
    - inversion H as [|? p' ? l2 Hs H2]; subst. destruct (IH l2 H2) as (zs' & E1 & E2 & E3 & E4 & E5). exists ((t, p') :: zs'). cbn [map fst snd]. splits; [congruence|congruence| | |].
      + intros G. inversion G; subst. constructor; [eapply pok_same; eassumption|auto].
      + f_equal; [exact (proj2 (proj2 (proj2 (proj2 Hs))))|exact E4].
      + f_equal; [exact (proj1 (proj2 (proj2 Hs)))|exact E5].
  Qed.
  Lemma first_all_ok : forall l, Forall (fun p => p_open p = true /\ p_left p = p_all p /\ p_all p <> [] /\ up (p_all p)) l ->
    exists l', first_all l = Some l' /\ Forall2 (fun p p' => same p p' /\ reading p' /\ bases p' = map (fun x => x - p_off p) (p_all p)) l l'.
  Proof.
    induction 1 as [|p l (H1 & H2 & H3 & H4) HF IH]; [exists []; split; [reflexivity|constructor]|]. destruct IH as (l' & E & HF'). cbn [first_all]. unfold pp_first_position, pp_next_position. rewrite H1. cbn [p_cnt p_left p_open p_all p_rest p_off p_doc p_pos]. rewrite H2.
    destruct (p_all p) as [|x t] eqn:Ea; [congruence|]. cbn [length]. destruct (Z.leb_spec 0 (Z.of_nat (S (length t)) - 1)); [|lia]. cbn [obind]. rewrite E. cbn [obind snd]. eexists. split; [reflexivity|]. constructor; [|exact HF']. cbn [snd]. splits.
    - unfold same. cbn [p_open p_all p_rest p_off p_doc]. auto.
    - unfold reading, bases. cbn [p_open p_cnt p_left p_pos p_off]. splits; [reflexivity|lia|].
      apply up_inv in H4. destruct H4 as (H4 & H5). change (up (map (fun x0 => x0 - p_off p) (x :: t))). clear - H4 H5. cbn [map]. constructor.
      + clear H5. induction H4 as [|a l HS IH HF]; [constructor|]. cbn [map]. constructor; [exact IH|]. apply Forall_forall. intros z Hz. apply in_map_iff in Hz. destruct Hz as (w & <- & Hw). rewrite Forall_forall in HF. specialize (HF w Hw). lia.
      + apply Forall_forall. intros z Hz. apply in_map_iff in Hz. destruct Hz as (w & <- & Hw). specialize (H5 w Hw). lia.
    - rewrite Ea. reflexivity.
  Qed.
  Lemma pos_sorts l : Permutation l (qsort pp_pos_cmp l) /\ up (poss (qsort pp_pos_cmp l)).
  Proof.
    destruct (Hsort pp_pos_cmp) with (l := l) as (H1 & H2); [unfold pp_pos_cmp; lia|unfold pp_pos_cmp; lia|]. split; [exact H1|]. clear H1. induction H2 as [|a l' HS IH HF]; [constructor|]. cbn [map]. constructor.
    - apply IH.
    - apply Forall_forall. intros z Hz. apply in_map_iff in Hz. destruct Hz as (w & <- & Hw). rewrite Forall_forall in HF. specialize (HF w Hw). unfold pp_pos_cmp in HF. lia.
  Qed.
  Definition doc_in (zs : list zp) (d : Z) : Prop := Forall (fun z : zp => p_doc (snd z) = d) zs.
  Definition fresh (z : zp) : Prop := p_left (snd z) = p_all (snd z).
  Lemma pok_all z : In (fst z) ph -> pok z -> p_all (snd z) <> [] /\ up (p_all (snd z)) /\ 0 <= p_doc (snd z) < INT_MAX /\ forall ps, In (p_doc (snd z), ps) (snd (fst z)) <-> ps = p_all (snd z).
  Proof.
    intros Hin (_ & _ & pre & E). destruct (ph_docs _ Hin) as (HS & HF). rewrite E in HS, HF. apply Forall_app in HF. destruct HF as (_ & HF). inversion HF as [|? ? (G1 & G2 & G3) _]; subst. cbn [fst snd] in *. splits; auto; try lia. intros ps. split.
    - intros Hps. rewrite E in Hps. rewrite map_app in HS. cbn [map fst] in HS.
      assert (ND : NoDup (map fst pre ++ p_doc (snd z) :: map fst (p_rest (snd z)))). { clear - HS. induction HS as [|a l HS IH HF]; constructor; [intros Ha; rewrite Forall_forall in HF; specialize (HF a Ha); lia|exact IH]. }
      apply NoDup_remove_2 in ND. apply in_app_or in Hps. destruct Hps as [Hps|[Hps|Hps]]; [destruct ND; apply in_or_app; left; apply (in_map fst) in Hps; exact Hps|congruence|destruct ND; apply in_or_app; right; apply (in_map fst) in Hps; exact Hps].
    - intros ->. rewrite E. apply in_or_app. right. left. reflexivity.
  Qed.
  Lemma occurs_zs zs D b : zok zs -> doc_in zs D -> (occurs_at ph D b <-> Forall (fun z : zp => In (b + p_off (snd z)) (p_all (snd z))) zs).
  Proof.
    intros HZ HD. unfold occurs_at. transitivity (Forall (fun t : post => exists ps, In (D, ps) (snd t) /\ In (b + fst t) ps) (map fst zs)).
    - destruct HZ as (HP & _). split; intros H; [apply (Permutation_Forall (Permutation_sym HP)); exact H|apply (Permutation_Forall HP); exact H].
    - rewrite Forall_map. unfold doc_in in HD. rewrite Forall_forall in HD. rewrite !Forall_forall. split; intros H z Hz; specialize (H z Hz); destruct (zok_in _ _ HZ Hz) as (G1 & G2); destruct (pok_all z G1 G2) as (_ & _ & _ & G3); pose proof G2 as (_ & G4 & _); rewrite (HD z Hz) in G3.
      + destruct H as (ps & H1 & H2). apply G3 in H1. subst ps. rewrite G4. exact H2.
      + exists (p_all (snd z)). split; [apply G3; reflexivity|rewrite <- G4; exact H].
  Qed.
  Lemma F2_length l l' : Forall2 same l l' -> length l = length l'.
  Proof. induction 1; cbn [length]; congruence. Qed.
  Lemma freq_ok zs D idx : zok zs -> doc_in zs D -> Forall fresh zs -> exists fr idx' zs', (exists k, forall f, (k <= f)%nat -> ephsc_phrase_freq qsort f idx (map snd zs) = Some (fr, idx', map snd zs')) /\
    zok zs' /\ doc_in zs' D /\ length zs' = length zs /\ (idx' < length zs')%nat /\ list_sum (map (fun z => length (p_rest (snd z))) zs') = list_sum (map (fun z => length (p_rest (snd z))) zs) /\ 0 <= fr /\ (0 < fr <-> phrase_in ph D) /\ (no_repeats ph -> occurrences ph D fr).
  Proof.
    intros HZ HD HF. assert (Hl : Forall (fun p => p_open p = true /\ p_left p = p_all p /\ p_all p <> [] /\ up (p_all p)) (map snd zs)).
    { apply Forall_map. apply Forall_forall. intros z Hz. destruct (zok_in _ _ HZ Hz) as (G1 & G2). destruct (pok_all z G1 G2) as (G3 & G4 & _). rewrite Forall_forall in HF. splits; auto; [exact (proj1 G2)|apply HF; exact Hz]. }
    destruct (first_all_ok _ Hl) as (l1 & E1 & H1). assert (Hsame1 : Forall2 same (map snd zs) l1) by (clear - H1; induction H1 as [|? ? ? ? (G & _)]; constructor; assumption).
    destruct (lift_same zs l1 Hsame1) as (zs1 & -> & Ef1 & Hp1 & Ed1 & Er1). assert (HZ1 : zok zs1) by (split; [rewrite Ef1; exact (proj1 HZ)|apply Hp1; exact (proj2 HZ)]).
    assert (HB1 : Forall (fun z : zp => reading (snd z) /\ bases (snd z) = map (fun x => x - p_off (snd z)) (p_all (snd z))) zs1).
    { clear - H1. remember (map snd zs) as l eqn:El. clear El zs. revert l H1. induction zs1 as [|z zs1 IH]; intros l H1; [constructor|]. cbn [map] in H1. inversion H1 as [|p ? l2 ? ((_ & S2 & _ & S4 & _) & G2 & G3) HF2]; subst. constructor; [split; [exact G2|rewrite S2, S4; exact G3]|apply (IH l2); exact HF2]. }
    destruct (pos_sorts (map snd zs1)) as (HP2 & Hup). destruct (Permutation_map_inv snd zs1 (Permutation_sym HP2)) as (zs2 & E2 & P2).
    assert (HZ2 : zok zs2) by (apply (zok_perm zs1); assumption). assert (HB2 : Forall (fun z : zp => reading (snd z) /\ bases (snd z) = map (fun x => x - p_off (snd z)) (p_all (snd z))) zs2) by (apply (Permutation_Forall P2); exact HB1).
    assert (HD2 : doc_in zs2 D). { apply (Permutation_Forall P2). unfold doc_in in *. apply Forall_forall. intros z Hz. assert (G : In (p_doc (snd z)) (map (fun z => p_doc (snd z)) zs)) by (rewrite <- Ed1; apply (in_map (fun z : zp => p_doc (snd z))); exact Hz). apply in_map_iff in G. destruct G as (w & <- & Hw). rewrite Forall_forall in HD. apply HD. exact Hw. }
    assert (Hlen2 : length zs2 = length zs) by (rewrite <- (Permutation_length P2), <- (map_length fst zs1), Ef1, map_length; reflexivity).
    assert (Hsum2 : list_sum (map (fun z => length (p_rest (snd z))) zs2) = list_sum (map (fun z => length (p_rest (snd z))) zs)).
    { transitivity (list_sum (map (fun z => length (p_rest (snd z))) zs1)).
      - clear - P2. induction P2; cbn [map]; unfold list_sum in *; cbn [fold_right]; lia.
      - rewrite <- (map_map (fun z : zp => p_rest (snd z)) (@length (Z * list Z)) zs1), <- (map_map (fun z : zp => p_rest (snd z)) (@length (Z * list Z)) zs), Er1. reflexivity. }
    assert (Hcom : forall b, common (map snd zs2) b <-> occurs_at ph D b).
    { intros b. rewrite (occurs_zs zs2 D b HZ2 HD2). unfold common. rewrite Forall_map, !Forall_forall. rewrite Forall_forall in HB2. split; intros H z Hz; specialize (H z Hz); destruct (HB2 z Hz) as (_ & G).
      - rewrite G in H. apply in_map_iff in H. destruct H as (x & <- & Hx). replace (x - p_off (snd z) + p_off (snd z)) with x by lia. exact Hx.
      - rewrite G. apply in_map_iff. exists (b + p_off (snd z)). split; [lia|exact H]. }
    destruct zs2 as [|z0 zs2]; [exfalso; destruct HZ2 as (G & _); apply Permutation_nil in G; destruct Hph; contradiction|].
    destruct (ring_prev [] (snd z0) (map snd zs2)) as (c & q & e & Eq & Ei & l0 & Er & Hr). destruct (scan_ok _ [] (snd z0) (map snd zs2) c q e l0 0 (le_n _)) as (n & idx' & l' & (k & Ek) & Hsm & Hidx & Hn0 & Hn & Hst); auto.
    - change (Forall reading (map snd (z0 :: zs2))). rewrite Forall_map. eapply Forall_impl; [|exact HB2]. cbn. tauto.
    - unfold rot. rewrite app_nil_r. rewrite E2 in Hup. exact Hup.
    - cbn [app] in *. change (snd z0 :: map snd zs2) with (map snd (z0 :: zs2)) in *. destruct (lift_same _ _ Hsm) as (zs3 & -> & Ef3 & Hp3 & Ed3 & Er3). exists n, idx', zs3.
      assert (Hc : length c = (length (map snd (z0 :: zs2)) - 1)%nat) by (rewrite <- Ei; cbn [length map]; replace (0 + S (length (map snd zs2)) - 1)%nat with (length (map snd zs2)) by lia; rewrite Nat.mod_small by lia; lia).
      splits.
      + exists k. intros f Hf. unfold ephsc_phrase_freq. rewrite E1. cbn [obind]. cbn [length] in Ek. rewrite E2, <- Hc. rewrite (Ek f Hf). reflexivity.
      + split; [rewrite Ef3; exact (proj1 HZ2)|apply Hp3; exact (proj2 HZ2)].
      + unfold doc_in in *. apply Forall_forall. intros z Hz. assert (G : In (p_doc (snd z)) (map (fun z => p_doc (snd z)) (z0 :: zs2))) by (rewrite <- Ed3; apply (in_map (fun z : zp => p_doc (snd z))); exact Hz). apply in_map_iff in G. destruct G as (w & <- & Hw). rewrite Forall_forall in HD2. apply HD2. exact Hw.
      + rewrite <- Hlen2, <- (map_length fst zs3), Ef3, map_length. reflexivity.
      + rewrite <- (map_length snd zs3), <- (F2_length _ _ Hsm). exact Hidx.
      + rewrite <- Hsum2. rewrite <- (map_map (fun z : zp => p_rest (snd z)) (@length (Z * list Z)) zs3), <- (map_map (fun z : zp => p_rest (snd z)) (@length (Z * list Z)) (z0 :: zs2)), Er3. reflexivity.
      + exact Hn0.
      + rewrite Hn. unfold phrase_in. split; intros (x & Hx); exists x; apply Hcom; exact Hx.
      + intros HNR. destruct Hst as (bs & B1 & B2 & B3).
        * rewrite Forall_map. apply Forall_forall. intros z Hz. rewrite Forall_forall in HB2. destruct (HB2 z Hz) as (_ & G). unfold strict. rewrite G. destruct (zok_in _ _ HZ2 Hz) as (G1 & G2). unfold no_repeats in HNR. rewrite Forall_forall in HNR. specialize (HNR _ G1). rewrite Forall_forall in HNR. destruct G2 as (_ & _ & pre & G2). assert (G3 : In (p_doc (snd z), p_all (snd z)) (snd (fst z))) by (rewrite G2; apply in_or_app; right; left; reflexivity). specialize (HNR _ G3). cbn [snd] in HNR. clear - HNR. induction HNR as [|a l HS IH HF]; [constructor|]. cbn [map]. constructor; [exact IH|]. apply Forall_forall. intros w Hw. apply in_map_iff in Hw. destruct Hw as (u & <- & Hu). rewrite Forall_forall in HF. specialize (HF u Hu). lia.
        * exists bs. splits; auto. intros b. rewrite B2. apply Hcom.
  Qed.
  Lemma SS_app_r (l1 l2 : list Z) : StronglySorted Z.lt (l1 ++ l2) -> StronglySorted Z.lt l2.
  Proof. induction l1 as [|x l1 IH]; cbn [app]; [auto|]. intros H. apply IH. inversion H; assumption. Qed.
  (* a position that can be moved *)
  Definition mok (z : zp) : Prop := p_open (snd z) = true /\ p_off (snd z) = fst (fst z) /\ exists pre, snd (fst z) = pre ++ p_rest (snd z) /\ Forall (fun e : Z * list Z => fst e <= p_doc (snd z)) pre.
  Lemma pok_mok z : In (fst z) ph -> pok z -> mok z.
  Proof.
    intros Hin (H1 & H2 & pre & E). unfold mok. splits; auto. exists (pre ++ [(p_doc (snd z), p_all (snd z))]). split; [rewrite <- app_assoc; exact E|]. destruct (ph_docs _ Hin) as (HS & _). rewrite E, map_app in HS. cbn [map fst] in HS. apply Forall_app. split; [|constructor; [cbn; lia|constructor]].
    clear - HS. induction pre as [|x pre IH]; constructor.
    - cbn [map app] in HS. inversion HS as [|? ? _ HF]; subst. rewrite Forall_forall in HF. assert (fst x < p_doc (snd z)) by (apply HF; apply in_or_app; right; left; reflexivity). lia.
    - apply IH. cbn [map app] in HS. inversion HS; assumption.
  Qed.
  Definition ople (op : option Z) (x : Z) : Prop := match op with None => True | Some d => d <= x end.
  Definition docs_of (z : zp) : list Z := map fst (snd (fst z)).
  Lemma from_doc_split d l : exists pre, l = pre ++ from_doc d l /\ Forall (fun e : Z * list Z => fst e < d) pre /\ match from_doc d l with [] => True | x :: _ => d <= fst x end.
  Proof.
    induction l as [|x t (pre & E1 & E2 & E3)]; cbn [from_doc]; [exists []; splits; auto|]. destruct (Z.ltb_spec (fst x) d); [exists (x :: pre); splits; [cbn [app]; congruence|constructor; assumption|exact E3]|exists []; splits; auto].
  Qed.
  Lemma move_ok op z : In (fst z) ph -> mok z -> exists r, pp_move op (snd z) = Some r /\
    if fst r then pok (fst z, snd r) /\ fresh (fst z, snd r) /\ (forall x, In x (docs_of z) -> p_doc (snd z) < x -> ople op x -> p_doc (snd r) <= x) /\ ople op (p_doc (snd r)) /\ (length (p_rest (snd r)) < length (p_rest (snd z)))%nat /\ In (p_doc (snd r)) (map fst (p_rest (snd z)))
    else forall x, In x (docs_of z) -> p_doc (snd z) < x -> ople op x -> False.
  Proof.
    intros Hin (H1 & H2 & pre & E & Hpre). unfold pp_move. rewrite H1. eexists. split; [reflexivity|]. destruct (ph_docs _ Hin) as (HS & _).
    assert (G : exists pre2, p_rest (snd z) = pre2 ++ (match op with None => p_rest (snd z) | Some d => from_doc d (p_rest (snd z)) end) /\ Forall (fun e : Z * list Z => ~ ople op (fst e)) pre2 /\ match (match op with None => p_rest (snd z) | Some d => from_doc d (p_rest (snd z)) end) with [] => True | x :: _ => ople op (fst x) end).
    { destruct op as [d|]; cbn [ople].
      - destruct (from_doc_split d (p_rest (snd z))) as (pre2 & G1 & G2 & G3). exists pre2. splits; auto. eapply Forall_impl; [|exact G2]. cbn. intros; lia.
      - exists []. splits; auto. destruct (p_rest (snd z)); exact I. }
    destruct G as (pre2 & G1 & G2 & G3). set (l := match op with None => p_rest (snd z) | Some d => from_doc d (p_rest (snd z)) end) in *.
    assert (HX : forall x, In x (docs_of z) -> p_doc (snd z) < x -> ople op x -> In x (map fst l)).
    { intros x Hx Hlt Hop. unfold docs_of in Hx. rewrite E, G1, !map_app in Hx. apply in_app_or in Hx. destruct Hx as [Hx|Hx]; [apply in_map_iff in Hx; destruct Hx as (e & <- & He); rewrite Forall_forall in Hpre; specialize (Hpre e He); cbn in Hpre; lia|]. apply in_app_or in Hx. destruct Hx as [Hx|Hx]; [apply in_map_iff in Hx; destruct Hx as (e & <- & He); rewrite Forall_forall in G2; destruct (G2 e He Hop)|exact Hx]. }
    unfold pp_enter. destruct l as [|(d', ps) r] eqn:El; cbn [fst snd].
    - intros x G4 G5 G6. destruct (HX x G4 G5 G6).
    - splits; cbn [p_doc p_rest].
      + unfold pok. cbn [fst snd p_open p_off p_doc p_all p_rest]. splits; auto. exists (pre ++ pre2). rewrite <- app_assoc, <- G1. exact E.
      + reflexivity.
      + intros x G4 G5 G6. specialize (HX x G4 G5 G6). destruct HX as [HX|HX]; [cbn in HX; lia|]. rewrite E, G1, !map_app in HS. apply SS_app_r in HS. apply SS_app_r in HS. cbn [map fst] in HS. inversion HS as [|? ? _ HF]; subst. rewrite Forall_forall in HF. specialize (HF x HX). lia.
      + exact G3.
      + rewrite G1, app_length. cbn [length]. lia.
      + rewrite G1, map_app. apply in_or_app. right. left. reflexivity.
  Qed.
  Lemma move_gt op z r : In (fst z) ph -> pok z -> pp_move op (snd z) = Some (true, r) -> p_doc (snd z) < p_doc r.
  Proof.
    intros Hin Hpok E. destruct (move_ok op z Hin (pok_mok z Hin Hpok)) as (r2 & E2 & H). rewrite E in E2. apply some_inj in E2. subst r2. cbn [fst snd] in H. destruct H as (_ & _ & _ & _ & _ & H). destruct Hpok as (_ & _ & pre & G). destruct (ph_docs _ Hin) as (HS & _). rewrite G, map_app in HS. apply SS_app_r in HS. cbn [map fst] in HS. inversion HS as [|? ? _ HF]; subst. rewrite Forall_forall in HF. apply HF. exact H.
  Qed.
  (* any way of looking for the phrase in the documents all positions stand at *)
  Section RUN.
  Variable pf : nat -> nat -> list pp -> option (Z * nat * list pp).
  Variable PI : Z -> Prop.
  Variable OC : Z -> Z -> Prop.
  Hypothesis pf_ok : forall zs D idx, zok zs -> doc_in zs D -> Forall fresh zs -> (idx < length zs)%nat -> exists fr idx' zs', (exists k, forall f, (k <= f)%nat -> pf f idx (map snd zs) = Some (fr, idx', map snd zs')) /\
    zok zs' /\ doc_in zs' D /\ length zs' = length zs /\ (idx' < length zs')%nat /\ list_sum (map (fun z => length (p_rest (snd z))) zs') = list_sum (map (fun z => length (p_rest (snd z))) zs) /\ 0 <= fr /\ (0 < fr <-> PI D) /\ OC D fr.
  Hypothesis PI_docs : forall x t, PI x -> In t ph -> In x (map fst (snd t)).
  Lemma phrase_docs zs x z : zok zs -> In z zs -> PI x -> In x (docs_of z).
  Proof. intros HZ Hz Hx. destruct (zok_in _ _ HZ Hz) as (Hin & _). apply PI_docs; assumption. Qed.

  Definition rests (zs : list zp) : nat := list_sum (map (fun z => length (p_rest (snd z))) zs).
  Lemma rests_mid a z b : rests (a ++ z :: b) = (rests a + length (p_rest (snd z)) + rests b)%nat.
  Proof. unfold rests, list_sum. rewrite map_app, fold_right_app. cbn [map fold_right]. generalize (map (fun z : zp => length (p_rest (snd z))) a). intros l. induction l as [|x l IH]; cbn [fold_right]; lia. Qed.
  Notation docs zs := (map (fun z : zp => p_doc (snd z)) zs).
  Definition arrived (A : Z -> Prop) (s' : phsc) : Prop :=
    (exists zs', h_pos s' = map snd zs' /\ zok zs' /\ doc_in zs' (h_doc s') /\ (h_idx s' < length zs')%nat) /\ h_more s' = true /\ A (h_doc s') /\ PI (h_doc s') /\ 0 < h_freq s' /\ OC (h_doc s') (h_freq s') /\ forall x, A x -> PI x -> h_doc s' <= x.
  Definition outcome (A : Z -> Prop) (r : bool * phsc) : Prop := if fst r then arrived A (snd r) else forall x, A x -> ~ PI x.
  Lemma zok_upd a z b z' : zok (a ++ z :: b) -> fst z' = fst z -> pok z' -> zok (a ++ z' :: b).
  Proof. intros (H1 & H2) E Hp. split; [rewrite map_app in *; cbn [map] in *; rewrite E; exact H1|]. apply Forall_app in H2. destruct H2 as (G1 & G2). inversion G2; subst. apply Forall_app. split; [exact G1|constructor; assumption]. Qed.
  Lemma do_next_ok (A : Z -> Prop) (HA : forall x y, A x -> x <= y -> A y) : forall n a z b c q e l0 m freq doc h_i,
    rests (a ++ z :: b) = n -> zok (a ++ z :: b) -> up (docs (rot a z b)) -> a ++ z :: b = c ++ q :: e -> rot a z b = l0 ++ [q] ->
    (forall q', exists a' p' b', c ++ q' :: e = a' ++ p' :: b' /\ length a' = length a /\ rot a' p' b' = l0 ++ [q']) ->
    Forall (fun z => fresh z \/ p_doc (snd z) <= m) (a ++ z :: b) -> m < p_doc (snd q) -> A (p_doc (snd q)) ->
    (forall x, A x -> PI x -> Forall (fun z : zp => p_doc (snd z) <= x) (a ++ z :: b)) ->
    exists r, (exists k, forall f, (k <= f)%nat -> do_next pf f freq doc h_i true (length a) (length c) (map snd (a ++ z :: b)) = Some r) /\ outcome A r.
  Proof.
    induction n as [n IH] using lt_wf_ind. intros a z b c q e l0 m freq doc h_i Hn HZ Hup Eq Erot Hring HF Hm HAq HL.
    assert (Ez : nth_error (map snd (a ++ z :: b)) (length a) = Some (snd z)) by (rewrite map_app; cbn [map]; rewrite <- (map_length snd a); apply nth_mid).
    assert (Eqn : nth_error (map snd (a ++ z :: b)) (length c) = Some (snd q)) by (rewrite Eq, map_app; cbn [map]; rewrite <- (map_length snd c); apply nth_mid).
    assert (Hmax : forall x, In x (a ++ z :: b) -> p_doc (snd x) <= p_doc (snd q)).
    { intros x Hx. apply rot_in in Hx. rewrite Erot in Hx. rewrite Erot, map_app in Hup. apply up_app_inv in Hup. destruct Hup as (_ & _ & G). apply in_app_or in Hx. destruct Hx as [Hx|[<-|[]]]; [|lia]. apply G; [apply (in_map (fun z : zp => p_doc (snd z))); exact Hx|left; reflexivity]. }
    assert (Hzin : In z (a ++ z :: b)) by (apply in_or_app; right; left; reflexivity). destruct (zok_in _ _ HZ Hzin) as (Hz1 & Hz2).
    assert (Hqin : In q (a ++ z :: b)) by (rewrite Eq; apply in_or_app; right; left; reflexivity).
    destruct (Z.ltb_spec (p_doc (snd z)) (p_doc (snd q))) as [Hlt|Hge].
    - destruct (move_ok (Some (p_doc (snd q))) z Hz1 (pok_mok z Hz1 Hz2)) as ((bb, p') & Ep & Hp). cbn [fst snd] in Hp. destruct bb.
      + destruct Hp as (P1 & P2 & P3 & P4 & P5 & _). cbn [ople] in P4. set (z' := (fst z, p') : zp) in *. destruct (ring_next a z b z') as (a2 & z2 & b2 & E2 & Ei & Er2).
        destruct (IH (rests (a2 ++ z2 :: b2))) with (a := a2) (z := z2) (b := b2) (c := a) (q := z') (e := b) (l0 := b ++ a) (m := m) (freq := freq) (doc := doc) (h_i := h_i) as (r & (k & Ek) & Ho).
        * rewrite <- Hn, <- E2, !rests_mid. cbn [snd z']. lia.
        * reflexivity.
        * rewrite <- E2. apply (zok_upd a z b); [exact HZ|reflexivity|exact P1].
        * rewrite Er2, map_app. unfold rot in Hup. cbn [map] in Hup. apply up_inv in Hup. apply up_app; [exact (proj1 Hup)|cbn [map]; repeat constructor|]. intros x y Hx [<-|[]]. apply in_map_iff in Hx. destruct Hx as (w & <- & Hw). assert (Hw2 : In w (a ++ z :: b)) by (apply rot_in; right; exact Hw). specialize (Hmax w Hw2). cbn [snd z']. lia.
        * symmetry. exact E2.
        * exact Er2.
        * intros q'. destruct (ring_next a z b q') as (a3 & p3 & b3 & E3 & Ei3 & Er3). exists a3, p3, b3. splits; [exact E3|congruence|exact Er3].
        * rewrite <- E2. apply Forall_app in HF. destruct HF as (F1 & F2). apply Forall_app. split; [exact F1|constructor; [left; exact P2|inversion F2; assumption]].
        * cbn [snd z']. lia.
        * apply (HA (p_doc (snd q))); [exact HAq|exact P4].
        * intros x HAx Hx. rewrite <- E2. specialize (HL x HAx Hx). pose proof HL as HL2. rewrite Forall_forall in HL2. pose proof (HL2 q Hqin) as Gq. cbn in Gq. apply Forall_app in HL. destruct HL as (L1 & L2). apply Forall_app. split; [exact L1|constructor; [|inversion L2; assumption]]. cbn [snd z']. apply P3; [eapply phrase_docs; eassumption|lia|exact Gq].
        * exists r. split; [|exact Ho]. exists (S k). intros [|f] Hf; [lia|]. cbn [do_next]. rewrite Ez, Eqn. cbn [obind]. destruct (Z.ltb_spec (p_doc (snd z)) (p_doc (snd q))); [|lia]. rewrite Ep. cbn [obind fst snd]. replace (upd (map snd (a ++ z :: b)) (length a) p') with (map snd (a2 ++ z2 :: b2)) by (rewrite <- E2, !map_app; cbn [map snd z']; rewrite <- (map_length snd a), upd_mid; reflexivity). unfold next_num. rewrite map_length, Ei. apply Ek. lia.
      + eexists. split; [exists 2%nat; intros [|[|f]] Hf; [lia|lia|]; cbn [do_next]; rewrite Ez, Eqn; cbn [obind]; destruct (Z.ltb_spec (p_doc (snd z)) (p_doc (snd q))); [|lia]; rewrite Ep; cbn [obind fst snd]; reflexivity|].
        unfold outcome. cbn [fst]. intros x HAx Hx. specialize (HL x HAx Hx). rewrite Forall_forall in HL. pose proof (HL q Hqin) as Gq. cbn in Gq. apply (Hp x); [eapply phrase_docs; eassumption|lia|exact Gq].
    - assert (HD : doc_in (a ++ z :: b) (p_doc (snd q))).
      { apply Forall_forall. intros x Hx. pose proof (Hmax x Hx). apply rot_in in Hx. unfold rot in Hx, Hup. cbn [map] in Hup. apply up_inv in Hup. destruct Hx as [<-|Hx]; [lia|]. pose proof (proj2 Hup (p_doc (snd x)) (in_map (fun z : zp => p_doc (snd z)) _ _ Hx)). lia. }
      assert (HFr : Forall fresh (a ++ z :: b)). { apply Forall_forall. intros x Hx. unfold doc_in in HD. rewrite Forall_forall in HD, HF. destruct (HF x Hx) as [G|G]; [exact G|]. rewrite (HD x Hx) in G. lia. }
      destruct (pf_ok _ _ (length a) HZ HD HFr ltac:(rewrite app_length; cbn [length]; lia)) as (fr & idx' & zs' & (k & Ek) & HZ' & HD' & Hlen & Hidx & Hsum & Hfr0 & Hfr & Hocc). destruct (Z.eqb_spec fr 0) as [E0|E0].
      + assert (Hno : ~ PI (p_doc (snd q))) by (rewrite <- Hfr; lia).
        destruct (nth_split zs' z Hidx) as (a1 & b1 & Ezs & Ela1). set (z1 := nth idx' zs' z) in *. clearbody z1. destruct (ring_prev a1 z1 b1) as (c1 & q1 & e1 & Eq1 & Ei1 & l1 & Er1 & Hr1). rewrite <- Ezs, Ela1 in Ei1.
        assert (Hq1in : In q1 zs') by (rewrite Ezs, Eq1; apply in_or_app; right; left; reflexivity). destruct (zok_in _ _ HZ' Hq1in) as (Hq1 & Hq2). unfold doc_in in HD'. rewrite Forall_forall in HD'. pose proof (HD' q1 Hq1in) as Hq1d.
        destruct (move_ok None q1 Hq1 (pok_mok q1 Hq1 Hq2)) as ((bb, p') & Ep & Hp). cbn [fst snd] in Hp.
        assert (Enq : nth_error (map snd zs') (length c1) = Some (snd q1)) by (rewrite Ezs, Eq1, map_app; cbn [map]; rewrite <- (map_length snd c1); apply nth_mid).
        assert (Estep : forall f, (k <= f)%nat -> do_next pf (S f) freq doc h_i true (length a) (length c) (map snd (a ++ z :: b)) = do_next pf f fr doc idx' bb idx' (length c1) (upd (map snd zs') (length c1) p')).
        { intros f Hf. cbn [do_next]. rewrite Ez, Eqn. cbn [obind]. destruct (Z.ltb_spec (p_doc (snd z)) (p_doc (snd q))); [lia|]. rewrite (Ek f Hf). cbn [obind]. destruct (Z.eqb_spec fr 0); [|contradiction]. unfold prev_num. rewrite map_length. rewrite <- Hlen, Ei1, Enq. cbn [obind]. rewrite Ep. reflexivity. }
        destruct bb.
        * destruct Hp as (P1 & P2 & P3 & P4 & P5 & _). pose proof (move_gt None q1 p' Hq1 Hq2 Ep) as P6. set (q' := (fst q1, p') : zp) in *. destruct (Hr1 q') as (a2 & z2 & b2 & E2 & Ela2 & Er2).
          destruct (IH (rests (a2 ++ z2 :: b2))) with (a := a2) (z := z2) (b := b2) (c := c1) (q := q') (e := e1) (l0 := l1) (m := p_doc (snd q)) (freq := fr) (doc := doc) (h_i := idx') as (r & (k2 & Ek2) & Ho).
          -- rewrite <- Hn. change (rests zs' = rests (a ++ z :: b)) in Hsum. rewrite <- Hsum, Ezs, Eq1, <- E2, !rests_mid. cbn [snd q']. lia.
          -- reflexivity.
          -- rewrite <- E2. apply (zok_upd c1 q1 e1); [rewrite <- Eq1, <- Ezs; exact HZ'|reflexivity|exact P1].
          -- rewrite Er2, map_app.
             assert (Hl1 : forall w, In w l1 -> p_doc (snd w) = p_doc (snd q)) by (intros w Hw; apply HD'; rewrite Ezs; apply rot_in; rewrite Er1; apply in_or_app; left; exact Hw).
             apply up_app; [|cbn [map]; repeat constructor|].
             ++ clear - Hl1. induction l1 as [|w l1 IH]; [constructor|]. cbn [map]. constructor; [apply IH; intros; apply Hl1; right; assumption|]. apply Forall_forall. intros x Hx. apply in_map_iff in Hx. destruct Hx as (u & <- & Hu). rewrite (Hl1 w), (Hl1 u) by (cbn; auto). lia.
             ++ intros x y Hx [<-|[]]. apply in_map_iff in Hx. destruct Hx as (w & <- & Hw). rewrite (Hl1 w Hw). cbn [snd q']. lia.
          -- symmetry. exact E2.
          -- exact Er2.
          -- intros q''. destruct (Hr1 q'') as (a3 & p3 & b3 & G1 & G2 & G3). exists a3, p3, b3. splits; congruence.
          -- rewrite <- E2. assert (G : Forall (fun z : zp => fresh z \/ p_doc (snd z) <= p_doc (snd q)) zs') by (apply Forall_forall; intros w Hw; right; rewrite (HD' w Hw); lia). rewrite Ezs, Eq1 in G. apply Forall_app in G. destruct G as (F1 & F2). apply Forall_app. split; [exact F1|constructor; [left; exact P2|inversion F2; assumption]].
          -- cbn [snd q']. lia.
          -- apply (HA (p_doc (snd q))); [exact HAq|cbn [snd q']; lia].
          -- intros x HAx Hx. specialize (HL x HAx Hx). rewrite Forall_forall in HL. pose proof (HL q Hqin) as Gq. cbn in Gq. assert (p_doc (snd q) <> x) by (intros <-; contradiction).
             rewrite <- E2. assert (G : Forall (fun z : zp => p_doc (snd z) <= x) zs') by (apply Forall_forall; intros w Hw; rewrite (HD' w Hw); lia). rewrite Ezs, Eq1 in G. apply Forall_app in G. destruct G as (F1 & F2). apply Forall_app. split; [exact F1|constructor; [|inversion F2; assumption]]. cbn [snd q']. apply P3; [eapply phrase_docs; [exact HZ'|exact Hq1in|exact Hx]|lia|exact I].
          -- exists r. split; [|exact Ho]. exists (S (Nat.max k k2)). intros [|f] Hf; [lia|]. rewrite Estep by lia. replace (upd (map snd zs') (length c1) p') with (map snd (a2 ++ z2 :: b2)) by (rewrite <- E2, Ezs, Eq1, !map_app; cbn [map snd q']; rewrite <- (map_length snd c1), upd_mid; reflexivity). rewrite <- Ela1 at 2. rewrite <- Ela2. apply Ek2. lia.
        * eexists. split; [exists (S (S k)); intros [|[|f]] Hf; [lia|lia|]; rewrite Estep by lia; cbn [do_next]; reflexivity|].
          unfold outcome. cbn [fst]. intros x HAx Hx. specialize (HL x HAx Hx). rewrite Forall_forall in HL. pose proof (HL q Hqin) as Gq. cbn in Gq. assert (p_doc (snd q) <> x) by (intros <-; contradiction). apply (Hp x); [eapply phrase_docs; [exact HZ'|exact Hq1in|exact Hx]|lia|exact I].
      + assert (Hzd : p_doc (snd z) = p_doc (snd q)) by (unfold doc_in in HD; rewrite Forall_forall in HD; apply HD; exact Hzin).
        eexists. split; [exists (S k); intros [|f] Hf; [lia|]; cbn [do_next]; rewrite Ez, Eqn; cbn [obind]; destruct (Z.ltb_spec (p_doc (snd z)) (p_doc (snd q))); [lia|]; rewrite (Ek f) by lia; cbn [obind]; destruct (Z.eqb_spec fr 0); [contradiction|]; reflexivity|].
        unfold outcome. cbn [fst snd]. unfold arrived. cbn [h_pos h_doc h_idx h_more h_freq]. rewrite Hzd. splits; auto.
        * exists zs'. splits; auto.
        * apply Hfr. lia.
        * lia.
        * intros x HAx Hx. specialize (HL x HAx Hx). rewrite Forall_forall in HL. apply (HL q Hqin).
  Qed.
  Lemma move_all_ok op : forall zs, Forall (fun z : zp => In (fst z) ph /\ mok z) zs -> exists r, move_all op (map snd zs) = Some r /\
    if fst r then exists zs', snd r = map snd zs' /\ map fst zs' = map fst zs /\ Forall pok zs' /\ Forall fresh zs' /\ Forall (fun z => ople op (p_doc (snd z)) /\ exists w, In w zs /\ fst w = fst z /\ In (p_doc (snd z)) (map fst (p_rest (snd w))) /\ forall x, In x (docs_of z) -> p_doc (snd w) < x -> ople op x -> p_doc (snd z) <= x) zs'
    else exists z, In z zs /\ forall x, In x (docs_of z) -> p_doc (snd z) < x -> ople op x -> False.
  Proof.
    induction 1 as [|z zs (Hin & Hmok) HF IH]; [eexists; split; [reflexivity|]; cbn [fst snd]; exists []; splits; auto|]. destruct IH as ((bb, l') & E & H). cbn [map move_all]. rewrite E. cbn [obind fst snd] in *. destruct bb.
    - destruct H as (zs' & -> & H2 & H3 & H4 & H5). destruct (move_ok op z Hin Hmok) as ((b2, p') & Ep & Hp). rewrite Ep. cbn [obind fst snd] in *. eexists. split; [reflexivity|]. cbn [fst snd]. destruct b2.
      + destruct Hp as (P1 & P2 & P3 & P4 & P5 & P6). exists ((fst z, p') :: zs'). cbn [map fst snd]. splits; [reflexivity|congruence|constructor; assumption|constructor; assumption|]. constructor.
        * split; [exact P4|]. exists z. splits; auto. left. reflexivity.
        * eapply Forall_impl; [|exact H5]. intros w (G1 & u & G2 & G3). split; [exact G1|]. exists u. split; [right; exact G2|exact G3].
      + exists z. split; [left; reflexivity|exact Hp].
    - eexists. split; [reflexivity|]. cbn [fst snd]. destruct H as (w & G1 & G2). exists w. split; [right; exact G1|exact G2].
  Qed.
  Lemma cmp_sorts l : Permutation l (qsort pp_cmp l) /\ up (map p_doc (qsort pp_cmp l)).
  Proof.
    destruct (Hsort pp_cmp) with (l := l) as (H1 & H2).
    - intros a b. unfold pp_cmp. destruct (Z.eqb_spec (p_doc a - p_doc b) 0), (Z.eqb_spec (p_doc b - p_doc a) 0); lia.
    - intros a b c. unfold pp_cmp. destruct (Z.eqb_spec (p_doc a - p_doc b) 0), (Z.eqb_spec (p_doc b - p_doc c) 0), (Z.eqb_spec (p_doc a - p_doc c) 0); lia.
    - split; [exact H1|]. clear H1. induction H2 as [|a l' HS IH HF]; [constructor|]. cbn [map]. constructor; [apply IH|].
      apply Forall_forall. intros z Hz. apply in_map_iff in Hz. destruct Hz as (w & <- & Hw). rewrite Forall_forall in HF. specialize (HF w Hw). unfold pp_cmp in HF. destruct (Z.eqb_spec (p_doc a - p_doc w) 0); lia.
  Qed.
  Definition above (c : Z) (op : option Z) (x : Z) : Prop := c < x /\ ople op x.
  Lemma above_up c op x y : above c op x -> x <= y -> above c op y.
  Proof. unfold above, ople. destruct op; lia. Qed.
  (* moving all positions, sorting them and looking for the phrase *)
  Lemma begin_ok zs c op freq doc idx : Permutation (map fst zs) ph -> Forall mok zs -> doc_in zs c -> Forall (fun z : zp => Forall (fun e : Z * list Z => c < fst e) (p_rest (snd z))) zs ->
    exists m, move_all op (map snd zs) = Some m /\ exists r, (exists k, forall f, (k <= f)%nat -> start pf f freq doc (fst m) (if fst m then 0%nat else idx) (if fst m then qsort pp_cmp (snd m) else snd m) = Some r) /\ outcome (above c op) r.
  Proof.
    intros HP HM HD HR. destruct (move_all_ok op zs) as ((bb, l1) & E & H).
    { apply Forall_forall. intros z Hz. rewrite Forall_forall in HM. split; [apply (Permutation_in _ HP), in_map; exact Hz|apply HM; exact Hz]. }
    unfold doc_in in HD. rewrite Forall_forall in HD, HR. eexists. split; [exact E|]. cbn [fst snd] in *. destruct bb.
    - destruct H as (zs1 & -> & Ef & H2 & H3 & H4). destruct (cmp_sorts (map snd zs1)) as (P1 & P2). destruct (Permutation_map_inv snd zs1 (Permutation_sym P1)) as (zs2 & E2 & P3). rewrite E2 in *. rewrite map_map in P2.
      assert (HZ2 : zok zs2) by (apply (zok_perm zs1); [split; [rewrite Ef; exact HP|exact H2]|exact P3]). pose proof (Permutation_Forall P3 H3) as F2. pose proof (Permutation_Forall P3 H4) as G2. rewrite Forall_forall in G2.
      destruct zs2 as [|z b]; [exfalso; destruct HZ2 as (G & _); apply Permutation_nil in G; destruct Hph; contradiction|].
      destruct (ring_prev [] z b) as (c1 & q1 & e1 & Eq1 & Ei1 & l1 & Er1 & Hr1). cbn [app] in *.
      assert (Hq1in : In q1 (z :: b)) by (rewrite Eq1; apply in_or_app; right; left; reflexivity). 
      assert (Hgt : forall w, In w (z :: b) -> above c op (p_doc (snd w))).
      { intros w Hw. destruct (G2 w Hw) as (L1 & u & L2 & L3 & L4 & L5). split; [|exact L1]. specialize (HR u L2). rewrite Forall_forall in HR. apply in_map_iff in L4. destruct L4 as (e & <- & He). apply HR. exact He. }
      destruct (do_next_ok (above c op) (above_up c op) _ [] z b c1 q1 e1 l1 (p_doc (snd q1) - 1) freq doc 0 eq_refl) as (r & (k & Ek) & Ho); auto.
      + unfold rot. rewrite app_nil_r. exact P2.
      + cbn [app]. eapply Forall_impl; [|exact F2]. intros w Hw. left. exact Hw.
      + lia.
      + cbn [app]. intros x (HAx1 & HAx2) Hx. apply Forall_forall. intros w Hw. destruct (G2 w Hw) as (L1 & u & L2 & L3 & L4 & L5). apply L5; [eapply phrase_docs; eassumption|rewrite (HD u L2); exact HAx1|exact HAx2].
      + exists r. split; [|exact Ho]. exists k. intros f Hf. unfold start, prev_num. rewrite map_length. cbn [length] in Ei1 |- *. cbn [length] in Ei1. rewrite Ei1. apply (Ek f Hf).
    - eexists. split; [exists 1%nat; intros [|f] Hf; [lia|]; unfold start; cbn [do_next]; reflexivity|]. unfold outcome. cbn [fst]. intros x (HAx1 & HAx2) Hx. destruct H as (z & Hz & G). apply (G x); [|rewrite (HD z Hz); exact HAx1|exact HAx2].
      apply PI_docs; [exact Hx|]. apply (Permutation_in _ HP), in_map. exact Hz.
  Qed.
  Definition inv (s : phsc) (cur : option Z) : Prop :=
    match cur with
    | None => s = phsc_new ph
    | Some c => exists zs, h_pos s = map snd zs /\ zok zs /\ doc_in zs c /\ (h_idx s < length zs)%nat /\ h_more s = true
    end.
  Definition floor (cur : option Z) : Z := match cur with None => -1 | Some c => c end.
  Lemma rest_gt zs c : zok zs -> doc_in zs c -> Forall (fun z : zp => Forall (fun e : Z * list Z => c < fst e) (p_rest (snd z))) zs.
  Proof.
    intros HZ HD. apply Forall_forall. intros z Hz. destruct (zok_in _ _ HZ Hz) as (Hin & _ & _ & pre & E). unfold doc_in in HD. rewrite Forall_forall in HD. rewrite (HD z Hz) in E. destruct (ph_docs _ Hin) as (HS & _). rewrite E, map_app in HS. apply SS_app_r in HS. cbn [map fst] in HS. inversion HS as [|? ? _ HF]; subst. apply Forall_forall. intros e He. rewrite Forall_forall in HF. apply HF. apply in_map. exact He.
  Qed.
  Lemma run_ok s cur op : inv s cur -> exists r, gives (phsc_run qsort pf) op s r /\ outcome (above (floor cur) op) r.
  Proof.
    intros HI. assert (HB : (h_first s = true \/ op <> None) -> exists r, gives (phsc_run qsort pf) op s r /\ outcome (above (floor cur) op) r).
    { intros Hc. assert (G : exists zs, h_pos s = map snd zs /\ Permutation (map fst zs) ph /\ Forall mok zs /\ doc_in zs (floor cur) /\ Forall (fun z : zp => Forall (fun e : Z * list Z => floor cur < fst e) (p_rest (snd z))) zs).
      { destruct cur as [c|]; cbn [inv floor] in *.
        - destruct HI as (zs & E & HZ & HD & _). exists zs. splits; auto; [exact (proj1 HZ)| |apply rest_gt; assumption]. apply Forall_forall. intros z Hz. destruct (zok_in _ _ HZ Hz) as (G1 & G2). apply pok_mok; assumption.
        - subst s. exists (map (fun t => (t, pp_new (fst t) (snd t))) ph). cbn [phsc_new h_pos]. rewrite !map_map. cbn [fst snd]. rewrite map_id. unfold doc_in. rewrite !Forall_map. splits; auto.
          + apply Forall_forall. intros t _. unfold mok. cbn. splits; auto. exists []. split; [reflexivity|constructor].
          + apply Forall_forall. intros t _. reflexivity.
          + apply Forall_forall. intros t Ht. cbn [snd pp_new p_rest]. destruct (ph_docs t Ht) as (_ & HF). eapply Forall_impl; [|exact HF]. cbn. intros; lia. }
      destruct G as (zs & E & HP & HM & HD & HR). destruct (begin_ok zs (floor cur) op (h_freq s) (h_doc s) (h_idx s) HP HM HD HR) as (m & Em & (bb, s') & (k & Ek) & Ho). destruct op as [d|].
      - exists (bb, mkPh (h_doc s') (h_freq s') (h_pos s') (h_idx s') (h_first s) (h_more s')). split; [|exact Ho]. exists k. intros f Hf. unfold phsc_run. rewrite E, Em. cbn [obind]. rewrite (Ek f Hf). reflexivity.
      - exists (bb, s'). split; [|exact Ho]. exists k. intros f Hf. unfold phsc_run. destruct Hc as [->|Hc]; [|congruence]. rewrite E, Em. cbn [obind]. apply (Ek f Hf). }
    destruct op as [d|]; [apply HB; right; discriminate|]. destruct (h_first s) eqn:Efst; [apply HB; left; reflexivity|]. destruct cur as [c|]; [|cbn [inv] in HI; subst s; discriminate Efst]. cbn [inv floor] in *. clear HB.
    destruct HI as (zs & E & HZ & HD & Hidx & Hmore). destruct zs as [|z00 zs0]; [cbn in Hidx; lia|]. destruct (nth_split (z00 :: zs0) z00 Hidx) as (a1 & b1 & Ezs & Ela1). set (zs := z00 :: zs0) in *. set (z1 := nth (h_idx s) zs z00) in *. clearbody z1 zs. clear z00 zs0.
    destruct (ring_prev a1 z1 b1) as (c1 & q1 & e1 & Eq1 & Ei1 & l1 & Er1 & Hr1). rewrite <- Ezs, Ela1 in Ei1. unfold doc_in in HD. rewrite Forall_forall in HD.
    assert (Hq1in : In q1 zs) by (rewrite Ezs, Eq1; apply in_or_app; right; left; reflexivity). destruct (zok_in _ _ HZ Hq1in) as (Hq1 & Hq2). pose proof (HD q1 Hq1in) as Hq1d.
    destruct (move_ok None q1 Hq1 (pok_mok q1 Hq1 Hq2)) as ((bb, p') & Ep & Hp). cbn [fst snd] in Hp.
    assert (Enq : nth_error (map snd zs) (length c1) = Some (snd q1)) by (rewrite Ezs, Eq1, map_app; cbn [map]; rewrite <- (map_length snd c1); apply nth_mid).
    assert (Estep : forall f, phsc_run qsort pf f None s = start pf f (h_freq s) (h_doc s) bb (h_idx s) (upd (map snd zs) (length c1) p')).
    { intros f. unfold phsc_run. rewrite Efst, Hmore, E. unfold prev_num. rewrite map_length, Ei1, Enq. cbn [obind]. rewrite Ep. reflexivity. }
    destruct bb.
    - destruct Hp as (P1 & P2 & P3 & P4 & P5 & _). pose proof (move_gt None q1 p' Hq1 Hq2 Ep) as P6. set (q' := (fst q1, p') : zp) in *. destruct (Hr1 q') as (a2 & z2 & b2 & E2 & Ela2 & Er2).
      assert (Hl1 : forall w, In w l1 -> p_doc (snd w) = c) by (intros w Hw; apply HD; rewrite Ezs; apply rot_in; rewrite Er1; apply in_or_app; left; exact Hw).
      destruct (do_next_ok (above c None) (above_up c None) _ a2 z2 b2 c1 q' e1 l1 c (h_freq s) (h_doc s) (h_idx s) eq_refl) as (r & (k & Ek) & Ho); auto.
      + rewrite <- E2. apply (zok_upd c1 q1 e1); [rewrite <- Eq1, <- Ezs; exact HZ|reflexivity|exact P1].
      + rewrite Er2, map_app. apply up_app; [|cbn [map]; repeat constructor|].
        * clear - Hl1. induction l1 as [|w l1 IH]; [constructor|]. cbn [map]. constructor; [apply IH; intros; apply Hl1; right; assumption|]. apply Forall_forall. intros x Hx. apply in_map_iff in Hx. destruct Hx as (u & <- & Hu). rewrite (Hl1 w), (Hl1 u) by (cbn; auto). lia.
        * intros x y Hx [<-|[]]. apply in_map_iff in Hx. destruct Hx as (w & <- & Hw). rewrite (Hl1 w Hw). cbn [snd q']. lia.
      + intros q''. destruct (Hr1 q'') as (a3 & p3 & b3 & G1 & G2 & G3). exists a3, p3, b3. splits; congruence.
      + rewrite <- E2. assert (G : Forall (fun z : zp => fresh z \/ p_doc (snd z) <= c) zs) by (apply Forall_forall; intros w Hw; right; rewrite (HD w Hw); lia). rewrite Ezs, Eq1 in G. apply Forall_app in G. destruct G as (F1 & F2). apply Forall_app. split; [exact F1|constructor; [left; exact P2|inversion F2; assumption]].
      + cbn [snd q']. lia.
      + split; [cbn [snd q']; lia|exact I].
      + intros x (HAx & _) Hx. rewrite <- E2. assert (G : Forall (fun z : zp => p_doc (snd z) <= x) zs) by (apply Forall_forall; intros w Hw; rewrite (HD w Hw); lia). rewrite Ezs, Eq1 in G. apply Forall_app in G. destruct G as (F1 & F2). apply Forall_app. split; [exact F1|constructor; [|inversion F2; assumption]]. cbn [snd q']. apply P3; [eapply phrase_docs; [exact HZ|exact Hq1in|exact Hx]|lia|exact I].
      + exists r. split; [|exact Ho]. exists k. intros f Hf. rewrite Estep. unfold start, prev_num. replace (upd (map snd zs) (length c1) p') with (map snd (a2 ++ z2 :: b2)) by (rewrite <- E2, Ezs, Eq1, !map_app; cbn [map snd q']; rewrite <- (map_length snd c1), upd_mid; reflexivity).
        rewrite map_length. replace (length (a2 ++ z2 :: b2)) with (length zs) by (rewrite <- E2, Ezs, Eq1, !app_length; reflexivity). rewrite Ei1. rewrite <- Ela1 at 2. rewrite <- Ela2. apply (Ek f Hf).
    - eexists. split; [exists 1%nat; intros [|f] Hf; [lia|]; rewrite Estep; unfold start; cbn [do_next]; reflexivity|]. unfold outcome. cbn [fst]. intros x (HAx & _) Hx. apply (Hp x); [eapply phrase_docs; eassumption|lia|exact I].
  Qed.
  Lemma reached_inv s cur : reached (phsc_run qsort pf) (phsc_new ph) s cur -> inv s cur.
  Proof.
    induction 1 as [|s cur op s' HR IH Hb (k & Ek)]; [reflexivity|]. destruct (run_ok s cur op IH) as (r & (k2 & Ek2) & Ho). specialize (Ek (Nat.max k k2) ltac:(lia)). specialize (Ek2 (Nat.max k k2) ltac:(lia)). rewrite Ek in Ek2. apply some_inj in Ek2. subst r. unfold outcome in Ho. cbn [fst snd] in Ho. destruct Ho as ((zs & G1 & G2 & G3 & G4) & G5 & _). exists zs. splits; auto.
  Qed.
  Lemma phrase_nonneg x : PI x -> 0 <= x.
  Proof.
    intros Hx. destruct Hph as (Hne & _). destruct ph as [|t ph'] eqn:Eph; [congruence|]. assert (Hin : In t ph) by (rewrite Eph; left; reflexivity). rewrite <- Eph in *. pose proof (PI_docs x t Hx Hin) as G. destruct (ph_docs t Hin) as (_ & HF). apply in_map_iff in G. destruct G as (e & <- & He). rewrite Forall_forall in HF. destruct (HF _ He) as (G & _). lia.
  Qed.
  Lemma after_above cur op x : beyond cur op -> PI x -> (after cur op x <-> above (floor cur) op x).
  Proof. intros Hb Hx. pose proof (phrase_nonneg x Hx). unfold beyond, after, above, ople, floor in *. destruct op, cur; lia. Qed.
  Theorem run_phrase s cur op : reached (phsc_run qsort pf) (phsc_new ph) s cur -> beyond cur op -> exists b s', gives (phsc_run qsort pf) op s (b, s') /\
    if b then after cur op (h_doc s') /\ PI (h_doc s') /\ (forall d, after cur op d -> PI d -> h_doc s' <= d) /\ 0 < h_freq s' /\ OC (h_doc s') (h_freq s')
    else forall d, after cur op d -> ~ PI d.
  Proof.
    intros HR Hb. destruct (run_ok s cur op (reached_inv _ _ HR)) as ((b, s') & Hg & Ho). exists b, s'. split; [exact Hg|]. unfold outcome in Ho. cbn [fst snd] in Ho. destruct b.
    - destruct Ho as (_ & _ & H1 & H2 & H3 & H4 & H5). splits; auto; [apply after_above; assumption|]. intros d G1 G2. apply H5; [apply after_above; assumption|exact G2].
    - intros d G1 G2. apply (Ho d); [apply after_above; assumption|exact G2].
  Qed.
  End RUN.
  Theorem exact_phrase s cur op : reached (exact_run qsort) (phsc_new ph) s cur -> beyond cur op -> exists b s', gives (exact_run qsort) op s (b, s') /\
    if b then after cur op (h_doc s') /\ phrase_in ph (h_doc s') /\ (forall d, after cur op d -> phrase_in ph d -> h_doc s' <= d) /\ 0 < h_freq s' /\ (no_repeats ph -> occurrences ph (h_doc s') (h_freq s'))
    else forall d, after cur op d -> ~ phrase_in ph d.
  Proof.
    refine (run_phrase (ephsc_phrase_freq qsort) (phrase_in ph) (fun d n => no_repeats ph -> occurrences ph d n) _ _ s cur op).
    - intros zs D idx HZ HD HF _. exact (freq_ok zs D idx HZ HD HF).
    - intros x t (b & Hb) Ht. unfold occurs_at in Hb. rewrite Forall_forall in Hb. destruct (Hb _ Ht) as (ps & Hps & _). apply in_map_iff. exists (x, ps). auto.
  Qed.
End PHRASE.
