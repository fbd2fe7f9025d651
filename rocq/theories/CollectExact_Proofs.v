From Coq Require Import Sorting.Sorted Sorting.Permutation.
From Verif Require Import Util Strcmp PQueue_Model PQueue_Spec PQueue_Proofs Match_Model Match_Spec Collect_Model Collect_Spec Collect_Proofs CollectPhrase_Proofs Ring.
Open Scope Z_scope.
Definition reading (p : tvpe) : Prop := up (bases p).
Definition later (p : tvpe) : list Z := map (fun x => x - e_off p) (e_left p).
Lemma drop_in d l x : up l -> In x (drop_before d l) <-> In x l /\ d <= x.
Proof.
  induction 1 as [|a l HS IH HF]; cbn [drop_before In]; [tauto|]. rewrite Forall_forall in HF. destruct (Z.leb_spec d a).
  - cbn [In]. split; [intros [->|Hx]; [intuition lia|specialize (HF _ Hx); intuition lia]|tauto].
  - rewrite IH. intuition lia.
Qed.
Lemma drop_up d l : up l -> up (drop_before d l).
Proof. induction 1 as [|a l HS IH HF]; cbn [drop_before]; [constructor|]. destruct (d <=? a); [constructor; assumption|exact IH]. Qed.
Lemma drop_len d l : (length (drop_before d l) <= length l)%nat.
Proof. induction l as [|a l IH]; cbn [drop_before]; [lia|]. destruct (d <=? a); cbn [length]; lia. Qed.
Lemma drop_map o d l : map (fun x => x - o) (drop_before (d + o) l) = drop_before d (map (fun x => x - o) l).
Proof. induction l as [|a l IH]; cbn [drop_before map]; [reflexivity|]. destruct (Z.leb_spec (d + o) a), (Z.leb_spec d (a - o)); try lia; [reflexivity|exact IH]. Qed.
Lemma skip_ok p d : match drop_before d (later p) with [] => fst (tvpe_skip_to p d) = false | y :: r => fst (tvpe_skip_to p d) = true /\ bases (snd (tvpe_skip_to p d)) = y :: r /\ e_off (snd (tvpe_skip_to p d)) = e_off p /\ (length (e_left (snd (tvpe_skip_to p d))) < length (e_left p))%nat end.
Proof.
  unfold tvpe_skip_to, later. rewrite <- drop_map. pose proof (drop_len (d + e_off p) (e_left p)). destruct (drop_before (d + e_off p) (e_left p)) as [|x t]; cbn [map fst snd length] in *; [reflexivity|]. splits; [reflexivity|reflexivity|reflexivity|cbn [e_left]; lia].
Qed.
Lemma next_ok p : match later p with [] => fst (tvpe_next p) = false | y :: r => fst (tvpe_next p) = true /\ bases (snd (tvpe_next p)) = y :: r /\ e_off (snd (tvpe_next p)) = e_off p /\ (length (e_left (snd (tvpe_next p))) < length (e_left p))%nat end.
Proof. unfold tvpe_next, later. destruct (e_left p) as [|x t]; cbn [map fst snd length] in *; [reflexivity|]. splits; [reflexivity|reflexivity|reflexivity|cbn [e_left]; lia]. Qed.
Lemma reading_later p : reading p -> up (later p) /\ forall x, In x (later p) -> e_pos p <= x.
Proof. intros H. unfold reading, bases in H. apply up_inv in H. exact H. Qed.
Lemma bases_ge p b : reading p -> In b (bases p) -> e_pos p <= b.
Proof. intros H [->|Hin]; [lia|]. apply (proj2 (reading_later p H)). exact Hin. Qed.
Lemma bases_pos p y r : bases p = y :: r -> e_pos p = y.
Proof. unfold bases. congruence. Qed.
Definition common (l : list tvpe) (b : Z) : Prop := Forall (fun p => In b (bases p)) l.
Definition lefts (l : list tvpe) : nat := list_sum (map (fun p => length (e_left p)) l).
Lemma lefts_app a b : lefts (a ++ b) = (lefts a + lefts b)%nat.
Proof. unfold lefts. rewrite map_app. apply list_sum_app. Qed.
Lemma lefts_cons p b : lefts (p :: b) = (length (e_left p) + lefts b)%nat.
Proof. reflexivity. Qed.
Notation poss := (map e_pos).
Lemma exact_go_ok os : forall m a p b c q e l0, (lefts (a ++ p :: b) <= m)%nat -> Forall reading (a ++ p :: b) -> map e_off (a ++ p :: b) = os -> up (poss (rot a p b)) ->
  a ++ p :: b = c ++ q :: e -> rot a p b = l0 ++ [q] -> (forall q', exists a' p' b', c ++ q' :: e = a' ++ p' :: b' /\ length a' = length a /\ rot a' p' b' = l0 ++ [q']) ->
  exists ms, (exists k, forall f, (k <= f)%nat -> exact_go f (length a) (length c) (a ++ p :: b) = Some ms) /\
    forall r, In r ms <-> exists x, common (a ++ p :: b) x /\ r = (x + nth 0 os 0, x + nth (length os - 1) os 0).
Proof.
  induction m as [m IH] using lt_wf_ind. intros a p b c q e l0 Hm HR Ho Hup Eq Erot Hring. pose proof HR as HR0. rewrite Forall_forall in HR0.
  assert (Hp : reading p) by (apply HR0; apply in_or_app; right; left; reflexivity). assert (Hqin : In q (a ++ p :: b)) by (rewrite Eq; apply in_or_app; right; left; reflexivity). assert (Hq : reading q) by (apply HR0; exact Hqin).
  assert (Hmax : forall x, In x (a ++ p :: b) -> e_pos x <= e_pos q).
  { intros x Hx. apply rot_in in Hx. rewrite Erot in Hx, Hup. rewrite map_app in Hup. apply up_app_inv in Hup. destruct Hup as (_ & _ & G). apply in_app_or in Hx. destruct Hx as [Hx|[<-|[]]]; [|lia]. apply G; [apply in_map; exact Hx|left; reflexivity]. }
  assert (Ep : nth_error (a ++ p :: b) (length a) = Some p) by apply nth_mid. assert (Eqn : nth_error (a ++ p :: b) (length c) = Some q) by (rewrite Eq; apply nth_mid).
  assert (Hlen : (0 < length (a ++ p :: b))%nat) by (rewrite app_length; cbn [length]; lia). assert (Hlo : length os = length (a ++ p :: b)) by (rewrite <- Ho, map_length; reflexivity).
  destruct (Z.ltb_spec (e_pos p) (e_pos q)) as [Hlt|Hge].
  - pose proof (skip_ok p (e_pos q)) as Hc. destruct (reading_later p Hp) as (HupR & _). set (R := later p) in *.
    assert (HinR : forall x, e_pos q <= x -> (In x (bases p) <-> In x (drop_before (e_pos q) R))) by (intros x Hx; rewrite drop_in by exact HupR; unfold bases; fold (later p); fold R; cbn [In]; intuition lia).
    assert (Hcq : forall x, common (a ++ p :: b) x -> e_pos q <= x) by (intros x Hx; unfold common in Hx; rewrite Forall_forall in Hx; apply bases_ge; [exact Hq|apply Hx; exact Hqin]).
    pose proof (drop_up (e_pos q) R HupR) as Hdup.
    destruct (drop_before (e_pos q) R) as [|y r] eqn:Ef.
    + assert (Hno : forall x, ~ common (a ++ p :: b) x).
      { intros x Hx. pose proof (Hcq x Hx) as G. unfold common in Hx. rewrite Forall_forall in Hx. specialize (Hx p ltac:(apply in_or_app; right; left; reflexivity)). apply HinR in Hx; [destruct Hx|exact G]. }
      exists []. split.
      * exists 1%nat. intros [|f] Hf; [lia|]. cbn [exact_go]. rewrite Ep, Eqn. cbn [obind]. destruct (Z.ltb_spec (e_pos p) (e_pos q)); [|lia]. rewrite Hc. reflexivity.
      * intros x. split; [intros []|]. intros (z & Hz & _). destruct (Hno z Hz).
    + destruct Hc as (Ec & Hb' & Hoff & Hl'). set (p' := snd (tvpe_skip_to p (e_pos q))) in *. destruct (ring_next a p b p') as (a2 & p2 & b2 & E2 & Ei & Er2).
      assert (Hp' : reading p') by (unfold reading; rewrite Hb'; exact Hdup).
      assert (Hyq : e_pos q <= y) by (apply (drop_in (e_pos q) R y HupR); rewrite Ef; left; reflexivity).
      assert (Hpy : e_pos p' = y) by (exact (bases_pos _ _ _ Hb')).
      assert (HCC : forall x, common (a ++ p :: b) x <-> common (a2 ++ p2 :: b2) x).
      { intros x. unfold common. rewrite <- E2, !Forall_app, !Forall_cons_iff. rewrite Hb'. split; intros (G1 & G2 & G3); splits; auto.
        - apply HinR; [|exact G2]. apply Hcq. unfold common. rewrite Forall_app, Forall_cons_iff. auto.
        - apply HinR; [|exact G2]. rewrite <- Hb' in G2. pose proof (bases_ge p' x Hp' G2). lia. }
      assert (HR2 : Forall reading (a2 ++ p2 :: b2)) by (rewrite <- E2; apply Forall_app in HR; destruct HR as (G1 & G2); inversion G2; subst; apply Forall_app; split; [assumption|constructor; assumption]).
      destruct (IH (lefts (a2 ++ p2 :: b2))) with (a := a2) (p := p2) (b := b2) (c := a) (q := p') (e := b) (l0 := b ++ a) as (ms & (k & Ek) & Hms).
      * rewrite <- E2. rewrite lefts_app, lefts_cons in *. lia.
      * reflexivity.
      * exact HR2.
      * rewrite <- E2, <- Ho, !map_app. cbn [map]. rewrite Hoff. reflexivity.
      * rewrite Er2, map_app. unfold rot in Hup. cbn [map] in Hup. apply up_inv in Hup. apply up_app; [exact (proj1 Hup)|cbn [map]; repeat constructor|]. intros x z Hx [<-|[]]. apply in_map_iff in Hx. destruct Hx as (w & <- & Hw). rewrite Hpy. assert (Hw2 : In w (a ++ p :: b)) by (apply rot_in; right; exact Hw). specialize (Hmax w Hw2). lia.
      * symmetry. exact E2.
      * exact Er2.
      * intros q'. destruct (ring_next a p b q') as (a3 & p3 & b3 & E3 & Ei3 & Er3). exists a3, p3, b3. splits; [exact E3|congruence|exact Er3].
      * exists ms. split.
        -- exists (S k). intros [|f] Hf; [lia|]. cbn [exact_go]. rewrite Ep, Eqn. cbn [obind]. destruct (Z.ltb_spec (e_pos p) (e_pos q)); [|lia]. rewrite Ec. fold p'. rewrite upd_mid. rewrite Ei, E2. apply Ek. lia.
        -- intros z. rewrite Hms. split; intros (x & Hx & G); exists x; (split; [apply HCC; exact Hx|exact G]).
  - (* all positions are equal *)
    assert (Hall : forall x, In x (a ++ p :: b) -> e_pos x = e_pos q).
    { intros x Hx. pose proof (Hmax x Hx). apply rot_in in Hx. unfold rot in Hx, Hup. cbn [map] in Hup. apply up_inv in Hup. destruct Hx as [<-|Hx]; [lia|]. pose proof (proj2 Hup (e_pos x) (in_map e_pos _ _ Hx)). lia. }
    assert (HD : common (a ++ p :: b) (e_pos q)) by (apply Forall_forall; intros x Hx; left; apply Hall; exact Hx).
    assert (Hnth : forall i, (i < length (a ++ p :: b))%nat -> exists z, nth_error (a ++ p :: b) i = Some z /\ e_pos z + e_off z = e_pos q + nth i os 0).
    { intros i Hi. destruct (nth_error (a ++ p :: b) i) as [z|] eqn:Ez; [|apply nth_error_None in Ez; lia]. exists z. split; [reflexivity|]. rewrite (Hall z (nth_error_In _ _ Ez)). f_equal. rewrite <- Ho. symmetry. apply nth_error_nth. rewrite nth_error_map, Ez. reflexivity. }
    destruct (Hnth 0%nat ltac:(lia)) as (z0 & Ez0 & Hz0), (Hnth (length (a ++ p :: b) - 1)%nat ltac:(lia)) as (z1 & Ez1 & Hz1). rewrite <- Hlo in Hz1.
    pose proof (next_ok q) as Hnx. destruct (reading_later q Hq) as (Hlup & Hlge). assert (Hbq : bases q = e_pos q :: later q) by reflexivity. destruct (later q) as [|x t] eqn:El.
    + exists [(e_pos q + nth 0 os 0, e_pos q + nth (length os - 1) os 0)]. split.
      * exists 1%nat. intros [|f] Hf; [lia|]. cbn [exact_go]. rewrite Ep, Eqn. cbn [obind]. destruct (Z.ltb_spec (e_pos p) (e_pos q)); [lia|]. rewrite Ez0, Ez1. cbn [obind]. rewrite Hnx. cbn [obind]. rewrite Hz0, Hz1. reflexivity.
      * intros r. split; [intros [<-|[]]; exists (e_pos q); auto|]. intros (x & Hx & ->). unfold common in Hx. rewrite Forall_forall in Hx. specialize (Hx q Hqin). rewrite Hbq in Hx. destruct Hx as [<-|[]]. left. reflexivity.
    + destruct Hnx as (Enx & Hb' & Hoff & Hl'). set (q' := snd (tvpe_next q)) in *. destruct (Hring q') as (a2 & p2 & b2 & E2 & Ela & Er2).
      assert (Hq' : reading q') by (unfold reading; rewrite Hb'; exact Hlup).
      assert (Hr2 : forall q'', exists a' p' b', c ++ q'' :: e = a' ++ p' :: b' /\ length a' = length a2 /\ rot a' p' b' = l0 ++ [q'']) by (intros q''; destruct (Hring q'') as (a' & p'' & b' & G1 & G2 & G3); exists a', p'', b'; splits; congruence).
      destruct (IH (lefts (a2 ++ p2 :: b2))) with (a := a2) (p := p2) (b := b2) (c := c) (q := q') (e := e) (l0 := l0) as (ms & (k & Ek) & Hms).
      * rewrite <- E2. rewrite Eq in Hm. rewrite lefts_app, lefts_cons in *. lia.
      * reflexivity.
      * rewrite <- E2. rewrite Eq in HR. apply Forall_app in HR. destruct HR as (G1 & G2). inversion G2; subst. apply Forall_app. split; [assumption|constructor; assumption].
      * rewrite <- E2, <- Ho, Eq, !map_app. cbn [map]. rewrite Hoff. reflexivity.
      * rewrite Er2, map_app. rewrite Erot, map_app in Hup. apply up_app_inv in Hup. destruct Hup as (G1 & _ & G2). apply up_app; [exact G1|cbn [map]; repeat constructor|]. intros u w Hu [<-|[]]. specialize (G2 u (e_pos q) Hu (or_introl eq_refl)). assert (e_pos q <= e_pos q') by (rewrite (bases_pos _ _ _ Hb'); apply Hlge; left; reflexivity). lia.
      * symmetry. exact E2.
      * exact Er2.
      * exact Hr2.
      * exists ((e_pos q + nth 0 os 0, e_pos q + nth (length os - 1) os 0) :: ms). split.
        -- exists (S k). intros [|f] Hf; [lia|]. cbn [exact_go]. rewrite Ep, Eqn. cbn [obind]. destruct (Z.ltb_spec (e_pos p) (e_pos q)); [lia|]. rewrite Ez0, Ez1. cbn [obind]. rewrite Enx. fold q'. rewrite Eq, upd_mid, E2, <- Ela. rewrite (Ek f) by lia. cbn [obind]. rewrite Hz0, Hz1. reflexivity.
        -- intros r. cbn [In]. rewrite Hms. split.
           ++ intros [<-|(z & Hz & ->)]; [exists (e_pos q); auto|]. exists z. split; [|reflexivity]. revert Hz. unfold common. rewrite <- E2, Eq, !Forall_app, !Forall_cons_iff. intros (G1 & G2 & G3). splits; auto. rewrite Hbq. right. rewrite <- Hb'. exact G2.
           ++ intros (z & Hz & ->). destruct (Z.eq_dec z (e_pos q)) as [->|Hne]; [left; reflexivity|right]. exists z. split; [|reflexivity]. revert Hz. unfold common. rewrite <- E2, Eq, !Forall_app, !Forall_cons_iff. intros (G1 & G2 & G3). splits; auto. rewrite Hbq in G2. destruct G2 as [G2|G2]; [congruence|]. rewrite Hb'. exact G2.
Qed.
Section TV.
  Variable v : tv.
  Hypothesis HV : tv_ok v.
  Lemma part_later off terms e : part_pe v off terms (Some e) -> up (later e) /\ later e <> [] /\ forall b, In b (later e) <-> part_at v b (off, terms).
  Proof.
    intros (Eo & Hne & Hup & Hin). unfold later. splits.
    - clear -Hup. induction Hup as [|a l HS IH HF]; cbn [map]; constructor; [exact IH|]. rewrite Forall_forall in *. intros x Hx. apply in_map_iff in Hx. destruct Hx as (y & <- & Hy). specialize (HF y Hy). lia.
    - intros E. apply map_eq_nil in E. congruence.
    - intros b. rewrite in_map_iff. unfold part_at. cbn [fst snd]. split.
      + intros (y & <- & Hy). apply Hin in Hy. destruct Hy as (t & Ht & Hy). exists t. split; [exact Ht|]. rewrite Eo. replace (y - off + off) with y by lia. exact Hy.
      + intros (t & Ht & Hy). exists (b + off). split; [lia|]. apply Hin. exists t. auto.
  Qed.
  Definition from (prev : option Z) (b : Z) : Prop := forall d, prev = Some d -> d <= b.
  Lemma exact_fill_ok : forall poss prev, exists r, exact_fill v poss prev = Some r /\
    match r with
    | Some l => map e_off l = map fst poss /\ Forall reading l /\ up (map e_pos l) /\ (forall e, In e l -> from prev (e_pos e)) /\ forall b, from prev b -> (common l b <-> Forall (part_at v b) poss)
    | None => forall b, from prev b -> ~ Forall (part_at v b) poss
    end.
  Proof.
    induction poss as [|(off & terms) poss IH]; cbn [exact_fill]; intros prev.
    - eexists. split; [reflexivity|]. cbn. splits; [reflexivity|constructor|constructor|intros e []|]. intros b _. split; constructor.
    - destruct (get_tvpe_ok v HV terms off) as (x & Ex & Hx). rewrite Ex. cbn [obind]. destruct x as [e|].
      2: { eexists. split; [reflexivity|]. cbn. intros b _ H. apply Forall_inv in H. destruct H as (t & G1 & G2). exact (Hx _ t G1 G2). }
      destruct (part_later _ _ _ Hx) as (Hup & Hne & Hin). assert (Eo : e_off e = off) by apply Hx.
      set (n := match prev with None => tvpe_next e | Some d => tvpe_skip_to e d end).
      set (R := match prev with None => later e | Some d => drop_before d (later e) end).
      assert (Hn : match R with [] => fst n = false | y :: r => fst n = true /\ bases (snd n) = y :: r /\ e_off (snd n) = e_off e /\ (length (e_left (snd n)) < length (e_left e))%nat end) by (unfold R, n; destruct prev; [apply skip_ok|apply next_ok]).
      assert (HRup : up R) by (unfold R; destruct prev; [apply drop_up|]; exact Hup).
      assert (HRin : forall b, In b R <-> part_at v b (off, terms) /\ from prev b).
      { intros b. unfold R, from. destruct prev as [d|]; [rewrite drop_in by exact Hup|]; rewrite Hin; split; intros G; [split; [apply G|intros ? E; apply some_inj in E; subst; apply G]|split; [apply G|apply (proj2 G); reflexivity]|split; [exact G|discriminate]|apply G]. }
      destruct R as [|y r] eqn:ER.
      + rewrite Hn. destruct prev as [d|]; [|unfold R in ER; congruence]. eexists. split; [reflexivity|]. cbn. intros b Hb H. apply Forall_inv in H. destruct (proj2 (HRin b) (conj H Hb)).
      + destruct Hn as (E1 & Hb & Eoff & _). rewrite E1. destruct (IH (Some (e_pos (snd n)))) as (z & Ez & Hz). rewrite Ez. cbn [obind]. eexists. split; [reflexivity|]. rewrite (bases_pos _ _ _ Hb) in *. assert (Hy : forall b, In b (y :: r) -> y <= b) by (intros b [<-|G]; [lia|apply up_inv in HRup; apply HRup; exact G]).
        destruct z as [l|]; cbn [option_map].
        * destruct Hz as (G1 & G2 & G3 & G4 & G5). assert (Hge : forall e0, In e0 l -> y <= e_pos e0) by (intros e0 H0; apply (G4 e0 H0); reflexivity). splits.
          -- cbn [map fst]. rewrite G1, Eoff, Eo. reflexivity.
          -- constructor; [unfold reading; rewrite Hb; exact HRup|exact G2].
          -- cbn [map]. constructor; [exact G3|]. rewrite (bases_pos _ _ _ Hb). apply Forall_forall. intros u Hu. apply in_map_iff in Hu. destruct Hu as (e0 & <- & He0). apply Hge. exact He0.
          -- intros e0 [<-|H0]; [rewrite (bases_pos _ _ _ Hb); apply HRin; left; reflexivity|]. specialize (Hge e0 H0). intros d Ed. assert (d <= y) by (apply (proj2 (proj1 (HRin y) (or_introl eq_refl))); exact Ed). lia.
          -- intros b Hfb. unfold common. rewrite !Forall_cons_iff, Hb. split; intros (K1 & K2).
             ++ split; [apply HRin; exact K1|]. apply G5; [|exact K2]. intros d E. apply some_inj in E. subst d. apply Hy. exact K1.
             ++ assert (K : In b (y :: r)) by (apply HRin; auto). split; [exact K|]. apply G5; [|exact K2]. intros d E. apply some_inj in E. subst d. apply Hy. exact K.
        * intros b Hfb H. apply Forall_cons_iff in H. destruct H as (K1 & K2). assert (K : In b (y :: r)) by (apply HRin; auto). apply (Hz b); [|exact K2]. intros d E. apply some_inj in E. subst d. apply Hy. exact K.
  Qed.
  Lemma ends_ok os b : up os -> os <> [] -> forall r, (least (map (fun o => b + o) os) (fst r) /\ greatest (map (fun o => b + o) os) (snd r)) <-> r = (b + nth 0 os 0, b + nth (length os - 1) os 0).
  Proof.
    intros Hup Hne. destruct (exists_last Hne) as (c & z & E). destruct os as [|a os]; [congruence|].
    assert (H0 : least (map (fun o => b + o) (a :: os)) (b + a)) by (split; [left; reflexivity|]; intros y Hy; apply in_map_iff in Hy; destruct Hy as (o & <- & Ho); apply up_inv in Hup; destruct Ho as [<-|Ho]; [lia|]; pose proof (proj2 Hup o Ho); lia).
    assert (Elast : nth (length (a :: os) - 1) (a :: os) 0 = z) by (rewrite E, app_length; cbn [length]; replace (length c + 1 - 1)%nat with (length c) by lia; rewrite app_nth2 by lia; rewrite Nat.sub_diag; reflexivity).
    assert (H1 : greatest (map (fun o => b + o) (a :: os)) (b + z)).
    { split; [apply in_map; rewrite E; apply in_or_app; right; left; reflexivity|]. intros y Hy. apply in_map_iff in Hy. destruct Hy as (o & <- & Ho). rewrite E in Hup, Ho. apply up_app_inv in Hup. destruct Hup as (_ & _ & G). apply in_app_or in Ho. destruct Ho as [Ho|[<-|[]]]; [|lia]. pose proof (G o z Ho (or_introl eq_refl)). lia. }
    rewrite Elast. cbn [nth]. intros (r0 & r1). cbn [fst snd]. split.
    - intros (K0 & K1). assert (r0 = b + a) by (pose proof (proj2 K0 _ (proj1 H0)); pose proof (proj2 H0 _ (proj1 K0)); lia). assert (r1 = b + z) by (pose proof (proj2 K1 _ (proj1 H1)); pose proof (proj2 H1 _ (proj1 K1)); lia). subst. reflexivity.
    - intros G. injection G as -> ->. split; assumption.
  Qed.
  Lemma exact_ok psort field slop poss : psorts psort -> poss <> [] -> slop <= 0 ->
    exists ms n, (forall f, (n <= f)%nat -> phq_matchv psort f v field slop poss = Some ms) /\ forall r, In r ms <-> tv_field v = field /\ exact_match v poss r.
  Proof.
    intros HS Hne Hslop. unfold phq_matchv. destruct (Z.eqb_spec (tv_field v) field) as [Hf|Hf]; [|exists [], 0%nat; split; [reflexivity|intros r; split; [intros []|tauto]]].
    destruct (Z.ltb_spec 0 slop); [lia|]. destruct (HS poss) as (HP & Hup). destruct (exact_fill_ok (psort poss) None) as (x & Ex & Hx). rewrite Ex. cbn [obind].
    assert (Hfr : forall b, from None b) by (intros b d; discriminate). assert (HFP : forall b, Forall (part_at v b) poss <-> Forall (part_at v b) (psort poss)) by (intros b; split; apply Permutation_Forall; [exact HP|symmetry; exact HP]).
    destruct x as [l|].
    - destruct Hx as (Ho & HR & Hu & _ & Hc). assert (Hl : l <> []).
      { intros ->. cbn [map] in Ho. destruct (psort poss) as [|y t] eqn:E; [|discriminate]. apply Permutation_length in HP. destruct poss; [congruence|discriminate]. }
      destruct (exists_last Hl) as (c & q & El). destruct l as [|p b]; [congruence|].
      destruct (exact_go_ok (map fst (psort poss)) (lefts ([] ++ p :: b)) [] p b c q [] c) as (ms & (k & Ek) & Hms); [lia|exact HR|exact Ho|unfold rot; rewrite app_nil_r; exact Hu|exact El|unfold rot; rewrite app_nil_r; exact El| |].
      { intros q'. destruct c as [|c0 c]; [exists [], q', []; splits; reflexivity|]. exists [], c0, (c ++ [q']). splits; [reflexivity|reflexivity|]. unfold rot. rewrite app_nil_r. reflexivity. }
      exists ms, k. split; [intros f Hk; rewrite El at 1; rewrite app_length; cbn [length]; replace (length c + 1 - 1)%nat with (length c) by lia; exact (Ek f Hk)|].
      intros r. rewrite Hms. assert (Hos : map fst (psort poss) <> []) by (rewrite <- Ho; discriminate). split.
      + intros (x & Hx & Er). split; [exact Hf|]. exists x. apply (Hc x (Hfr x)) in Hx. split; [apply HFP; exact Hx|]. apply (ends_ok _ x Hup Hos r) in Er. rewrite !map_map in Er. destruct Er as (L & G). split; (split; [|intros y Hy]).
        * apply (Permutation_in _ (Permutation_map _ (Permutation_sym HP))). apply L.
        * apply L. apply (Permutation_in _ (Permutation_map _ HP)). exact Hy.
        * apply (Permutation_in _ (Permutation_map _ (Permutation_sym HP))). apply G.
        * apply G. apply (Permutation_in _ (Permutation_map _ HP)). exact Hy.
      + intros (_ & x & Hx & L & G). exists x. split; [apply (Hc x (Hfr x)), HFP; exact Hx|]. apply (ends_ok _ x Hup Hos r). rewrite !map_map. split; (split; [|intros y Hy]).
        * apply (Permutation_in _ (Permutation_map _ HP)). apply L.
        * apply L. apply (Permutation_in _ (Permutation_map _ (Permutation_sym HP))). exact Hy.
        * apply (Permutation_in _ (Permutation_map _ HP)). apply G.
        * apply G. apply (Permutation_in _ (Permutation_map _ (Permutation_sym HP))). exact Hy.
    - exists [], 0%nat. split; [reflexivity|]. intros r. split; [intros []|]. intros (_ & b & Hb & _). destruct (Hx b (Hfr b)). apply HFP. exact Hb.
  Qed.
End TV.
