(* DisjunctionSumScorer *)
From Coq Require Import Sorting.Permutation Sorting.Sorted.
From Verif Require Import Util PQueue_Model PQueue_Spec PQueue_Proofs Query_Model Bool_Model Bool_Spec Bool_Proofs.
Open Scope Z_scope.
Lemma doc_lt_pre : preorder sc doc_lt.
Proof. unfold doc_lt. split; intros; unfold PQueue_Spec.le in *; rewrite ?Z.ltb_ge in *; lia. Qed.
Definition has (ms : list (sc * list Z)) (d : Z) : Prop := exists p, In p ms /\ (d = doc_of (fst p) \/ In d (snd p)).
Definition total (ms : list (sc * list Z)) : nat := list_sum (map (fun p => S (length (snd p))) ms).
Lemma total_perm a b : Permutation a b -> total a = total b.
Proof. intros H. unfold total. induction H; cbn [map]; unfold list_sum in *; cbn [fold_right]; lia. Qed.
Lemma has_perm a b d : Permutation a b -> has a d <-> has b d.
Proof. intros H. unfold has. split; intros (p & Hp & E); exists p; (split; [|exact E]); [exact (Permutation_in _ H Hp)|exact (Permutation_in _ (Permutation_sym H) Hp)]. Qed.
Lemma has_cons p ms d : has (p :: ms) d <-> d = doc_of (fst p) \/ In d (snd p) \/ has ms d.
Proof. unfold has. cbn [In]. split; [intros (x & [<-|Hx] & [E|E]); [auto|auto|right; right; exists x; auto|right; right; exists x; auto]|intros [E|[E|(x & Hx & E)]]; [exists p; auto|exists p; auto|exists x; auto]]. Qed.
Lemma total_cons p ms : total (p :: ms) = (S (length (snd p)) + total ms)%nat.
Proof. reflexivity. Qed.
Section DIS.
  Variable B : Z.
  Local Notation Beh := (Bool_Proofs.Beh B).
  Local Notation above := (Bool_Proofs.above B).
  Local Notation allowed := (Bool_Proofs.allowed B).
  Variable k : bool.
  Definition standing (p : sc * list Z) : Prop := Beh k (fst p) (Some (doc_of (fst p))) (snd p) /\ 0 <= doc_of (fst p) < B.
  Definition DQ (capa : nat) (q : pq sc) (ms : list (sc * list Z)) : Prop := PInv sc doc_lt capa q (map fst ms) /\ Forall standing ms.
  Lemma DQ_size capa q ms : DQ capa q ms -> pq_size q = length ms.
  Proof. intros (H & _). rewrite (pi_size _ _ _ _ _ H), map_length. reflexivity. Qed.
  Lemma dq_top capa q ms : DQ capa q ms -> ms <> [] -> exists p ms', Permutation ms (p :: ms') /\ top_of q = Some (fst p) /\ (forall x, In x ms -> doc_of (fst p) <= doc_of (fst x)) /\ standing p /\
    (forall p', standing p' -> exists q', pq_replace_top sc doc_lt q (fst p') = Some q' /\ DQ capa q' (p' :: ms')) /\
    exists x q', pq_pop sc doc_lt q = Some (x, q') /\ DQ capa q' ms'.
  Proof.
    intros HQ Hne. pose proof (DQ_size _ _ _ HQ) as Hs. destruct HQ as (HP & HF). assert (Hpos : (0 < pq_size q)%nat) by (destruct ms; [congruence|cbn [length] in Hs; lia]).
    destruct (top_elt sc doc_lt capa q (map fst ms) HP Hpos) as (x & m' & Ex & Pm). destruct (Permutation_map_inv _ _ (Permutation_sym Pm)) as (ms1 & E1 & P1). destruct ms1 as [|p ms']; [discriminate|]. cbn [map] in E1. injection E1 as Ex' Em'. subst x m'.
    exists p, ms'. assert (Pms : Permutation ms (p :: ms')) by exact P1. assert (HF2 : Forall standing (p :: ms')) by (apply (Permutation_Forall Pms); exact HF). inversion HF2 as [|? ? Hp Hr]; subst.
    pose proof (PInv_least sc doc_lt doc_lt_pre _ _ _ _ HP Ex Hpos) as (_ & Hl). assert (Ht : pq_top sc q = Some (Some (fst p))) by (unfold pq_top; destruct (Nat.ltb_spec 0 (pq_size q)); [apply elt_some; exact Ex|lia]).
    splits; auto.
    - unfold top_of. rewrite Ht. reflexivity.
    - intros y Hy. specialize (Hl (fst y) (in_map fst _ _ Hy)). unfold PQueue_Spec.le, doc_lt in Hl. apply Z.ltb_ge in Hl. exact Hl.
    - intros p' Hp'. destruct (replace_top_ok sc doc_lt doc_lt_pre capa q (map fst ms) (fst p) (map fst ms') (fst p') HP Ex Pm) as (q' & E & HP'). exists q'. split; [exact E|]. split; [exact HP'|constructor; auto].
    - destruct (pop_ok sc doc_lt doc_lt_pre capa q (map fst ms) HP Hpos) as (y & m2 & q' & E & P2 & _ & HP'). assert (y = fst p).
      { unfold pq_pop in E. destruct (Nat.ltb_spec 0 (pq_size q)); [|lia]. rewrite (proj1 (elt_some _ _ _ _) Ex) in E. cbn [obind] in E. destruct (nth_error (pq_heap q) (pq_size q)); [|discriminate]. cbn [obind] in E. destruct (pq_down _ _ _); [|discriminate]. cbn [obind] in E. congruence. }
      subst y. exists (Some (fst p)), q'. split; [exact E|]. split; [|exact Hr]. assert (Pm2 : Permutation m2 (map fst ms')) by (apply (Permutation_cons_inv (a := fst p)); rewrite <- P2; exact Pm). destruct HP' as [A1 A2 A3 A4 A5]. constructor; auto; [rewrite A1; apply Permutation_map; exact Pm2|rewrite A3; apply Permutation_length; exact Pm2].
  Qed.
  Lemma standing_of s' op p : standing p -> allowed k (Some (doc_of (fst p))) op -> (forall x r, tgt op (snd p) = x :: r -> doc_of s' = x /\ Beh k s' (Some x) r) -> forall x r, tgt op (snd p) = x :: r -> standing (s', r) /\ doc_of s' = x /\ doc_of (fst p) < x /\ 0 <= x.
  Proof.
    intros (HB & H0) Hop H x r E. destruct (beh_facts _ _ _ _ HB) as (S1 & F1). destruct (tgt_facts op k _ _ S1 F1 Hop) as (_ & _ & G). destruct (G x r E) as (_ & G1 & G2 & _). destruct (H x r E) as (Hx & HB'). cbn [Bool_Proofs.above] in G2. splits; try lia; auto. split; cbn [fst snd]; [rewrite Hx; exact HB'|lia].
  Qed.
  Lemma inner_ok capa : forall m q ms num t, (total ms <= m)%nat -> DQ capa q ms -> top_of q = Some t -> ms <> [] -> 1 <= num ->
    exists n' q' ms', DQ capa q' ms' /\ 1 <= n' /\ (forall d, has ms' d <-> has ms d /\ doc_of t < d) /\
      exists n, forall f g, (n <= f)%nat -> (n <= g)%nat -> dis_inner (run f) g 1 (doc_of t) num t q = Some (Some n', q').
  Proof.
    induction m as [m IH] using lt_wf_ind. intros q ms num t Hm HQ Ht Hne Hnum. destruct (dq_top capa q ms HQ Hne) as (p & ms' & HP & Htop & Hmin & Hp & Hrep & Hpop). assert (t = fst p) by congruence. subst t. clear Ht. set (doc := doc_of (fst p)) in *.
    pose proof Hp as (HB & H0). destruct (beh_next _ _ _ _ HB) as (s' & (n1 & E1) & Hs).
    pose proof (total_perm _ _ HP) as HT. rewrite total_cons in HT.
    assert (Hmin' : forall x, In x ms' -> doc <= doc_of (fst x)) by (intros x Hx; apply Hmin; apply (Permutation_in _ (Permutation_sym HP)); right; exact Hx).
    (* what follows once the top has been moved: q2 holds ms2 *)
    assert (KEY : forall q2 ms2, DQ capa q2 ms2 -> (total ms2 < total ms)%nat -> (forall x, In x ms2 -> doc <= doc_of (fst x)) -> (forall d, has ms2 d \/ d = doc <-> has ms d) -> ms2 <> [] ->
      exists n' q' ms', DQ capa q' ms' /\ 1 <= n' /\ (forall d, has ms' d <-> has ms d /\ doc < d) /\
      exists n, forall f g, (n <= f)%nat -> (n <= g)%nat -> (do t <- top_of q2; if doc_of t =? doc then dis_inner (run f) g 1 doc (num + 1) t q2 else Some (Some num, q2)) = Some (Some n', q')).
    { intros q2 ms2 HQ2 HT2 Hm2 Hh2 Hne2. destruct (dq_top capa q2 ms2 HQ2 Hne2) as (p2 & ms2' & HP2 & Htop2 & Hmin2 & _). rewrite Htop2. cbn [obind]. destruct (Z.eqb_spec (doc_of (fst p2)) doc) as [E|E].
      - destruct (IH (total ms2) ltac:(lia) q2 ms2 (num + 1) (fst p2) (le_n _) HQ2 Htop2 Hne2 ltac:(lia)) as (n' & q' & ms3 & HQ3 & Hn' & Hh3 & n & En). exists n', q', ms3. rewrite E in Hh3, En. splits; auto. intros d. rewrite Hh3. rewrite <- Hh2. intuition lia.
        exists n. exact En.
      - exists num, q2, ms2. splits; auto; [|exists O; reflexivity]. intros d. rewrite <- Hh2.
        assert (Hgt : has ms2 d -> doc < d).
        { intros (x & Hx & Hd). assert (doc < doc_of (fst p2)) by (specialize (Hm2 p2 (Permutation_in _ (Permutation_sym HP2) (or_introl eq_refl))); lia). specialize (Hmin2 x Hx). destruct HQ2 as (_ & HF). rewrite Forall_forall in HF. destruct (HF x Hx) as (HBx & _). destruct (beh_facts _ _ _ _ HBx) as (_ & Fx). rewrite Forall_forall in Fx. cbn [Bool_Proofs.above] in Fx. destruct Hd as [->|Hd]; [lia|specialize (Fx _ Hd); lia]. }
        split; [intros H; split; [left; exact H|auto]|]. intros ([H|H] & H2); [exact H|lia]. }
    destruct (snd p) as [|x r] eqn:Ep.
    - destruct Hpop as (y & q2 & Epop & HQ2). assert (Hh : forall d, has ms' d \/ d = doc <-> has ms d) by (intros d; rewrite (has_perm _ _ d HP), has_cons, Ep; cbn [In]; fold doc; tauto). destruct ms' as [|p3 ms3].
      + exists num, q2, []. splits; auto.
        * intros d. rewrite <- Hh. split; [intros (z & [] & _)|intros ([H|H] & H2); [exact H|lia]].
        * exists (S n1). intros f [|g] Hf Hg; [lia|]. cbn [dis_inner]. rewrite (E1 f ltac:(lia)). cbn [obind nonnil fst snd]. rewrite Epop. cbn [obind snd]. rewrite (DQ_size _ _ _ HQ2). cbn [length]. destruct (Z.ltb_spec (Z.of_nat 0) (1 - num)); [lia|]. reflexivity.
      + destruct (KEY q2 (p3 :: ms3) HQ2 ltac:(lia) Hmin' Hh ltac:(discriminate)) as (n' & q' & ms4 & HQ4 & Hn' & Hh4 & n & En). exists n', q', ms4. splits; auto. exists (S (Nat.max n1 n)). intros f [|g] Hf Hg; [lia|]. cbn [dis_inner]. rewrite (E1 f ltac:(lia)). cbn [obind nonnil fst snd]. rewrite Epop. cbn [obind snd]. rewrite (DQ_size _ _ _ HQ2). destruct (Z.ltb_spec (Z.of_nat (length (p3 :: ms3))) (1 - num)); [lia|]. cbn [length Nat.eqb]. apply En; lia.
    - destruct (standing_of s' None p Hp I) with (x := x) (r := r) as (Hst & Hx & Hlt & Hx0); [cbn [tgt]; rewrite Ep; exact Hs|exact Ep|]. destruct (Hrep (s', r) Hst) as (q2 & Erep & HQ2). cbn [fst] in Erep. cbn [nonnil] in E1.
      destruct (KEY q2 ((s', r) :: ms') HQ2) as (n' & q' & ms4 & HQ4 & Hn' & Hh4 & n & En).
      + rewrite total_cons. cbn [snd length] in *. lia.
      + intros z [<-|Hz]; [cbn [fst]; fold doc in Hlt; lia|auto].
      + intros d. rewrite (has_perm _ _ d HP), !has_cons, Ep. cbn [fst snd In]. rewrite Hx. fold doc. intuition congruence.
      + discriminate.
      + exists n', q', ms4. splits; auto. exists (S (Nat.max n1 n)). intros f [|g] Hf Hg; [lia|]. cbn [dis_inner]. rewrite (E1 f ltac:(lia)). cbn [obind fst snd]. rewrite Erep. cbn [obind]. apply En; lia.
  Qed.
  Definition DisR (s : sc) (cur : option Z) (rest : list Z) : Prop :=
    SS rest /\ Forall (fun d => 0 <= d /\ above cur d) rest /\
    ((exists subs Ls, s = Dis (-1) 1 None subs /\ cur = None /\ Forall2 (fun c L => Beh k c None L) subs Ls /\ forall d, In d rest <-> exists L, In L Ls /\ In d L) \/
     (exists doc q subs ms capa, s = Dis doc 1 (Some q) subs /\ cur = Some doc /\ DQ capa q ms /\ forall d, In d rest <-> has ms d)).
  Lemma DQ_docs capa q ms d : DQ capa q ms -> has ms d -> 0 <= d < B.
  Proof. intros (_ & HF) (x & Hx & Hd). rewrite Forall_forall in HF. destruct (HF x Hx) as (HB & H0). destruct (beh_facts _ _ _ _ HB) as (_ & F). rewrite Forall_forall in F. destruct Hd as [->|Hd]; [exact H0|specialize (F _ Hd); cbn [Bool_Proofs.above] in F; lia]. Qed.
  Lemma DQ_ge capa q ms d : DQ capa q ms -> has ms d -> exists x, In x ms /\ doc_of (fst x) <= d.
  Proof. intros (_ & HF) (x & Hx & Hd). rewrite Forall_forall in HF. destruct (HF x Hx) as (HB & H0). destruct (beh_facts _ _ _ _ HB) as (_ & F). rewrite Forall_forall in F. cbn [Bool_Proofs.above] in F. exists x. split; [exact Hx|]. destruct Hd as [->|Hd]; [lia|specialize (F _ Hd); lia]. Qed.
  Lemma advance_ok capa q ms T subs : DQ capa q ms -> ms <> [] -> SS T -> (forall d, In d T <-> has ms d) ->
    exists doc q', (exists n, forall f g, (n <= f)%nat -> (n <= g)%nat -> dis_advance (run f) g 1 q = Some (true, doc, q')) /\
      exists r, T = doc :: r /\ DisR (Dis doc 1 (Some q') subs) (Some doc) r.
  Proof.
    intros HQ Hne HS HT. destruct (dq_top capa q ms HQ Hne) as (p & ms' & HP & Htop & Hmin & _). destruct (inner_ok capa (total ms) q ms 1 (fst p) (le_n _) HQ Htop Hne ltac:(lia)) as (n' & q' & ms2 & HQ2 & Hn' & Hh & n & En).
    exists (doc_of (fst p)), q'. split.
    - exists (S n). intros f [|g] Hf Hg; [lia|]. cbn [dis_advance]. rewrite Htop. cbn [obind]. rewrite (En f g) by lia. cbn [obind fst snd]. destruct (Z.leb_spec 1 n'); [reflexivity|lia].
    - assert (Hin : In (doc_of (fst p)) T) by (apply HT; exists p; split; [exact (Permutation_in _ (Permutation_sym HP) (or_introl eq_refl))|left; reflexivity]). destruct T as [|x r]; [destruct Hin|]. apply SS_inv in HS. destruct HS as (HS & Hgt).
      assert (x = doc_of (fst p)) as ->.
      { destruct Hin as [E|Hin]; [exact E|]. specialize (Hgt _ Hin). destruct (DQ_ge _ _ _ x HQ (proj1 (HT x) (or_introl eq_refl))) as (z & Hz & Hzx). specialize (Hmin z Hz). lia. }
      exists r. split; [reflexivity|]. split; [exact HS|]. split.
      + apply Forall_forall. intros d Hd. pose proof (DQ_docs _ _ _ d HQ (proj1 (HT d) (or_intror Hd))); specialize (Hgt d Hd); cbn [Bool_Proofs.above]; lia.
      + right. exists (doc_of (fst p)), q', subs, ms2, capa. splits; auto. intros d. rewrite Hh, <- HT. cbn [In]. split; [intros Hd; split; [right; exact Hd|apply Hgt; exact Hd]|intros ([E|Hd] & H2); [lia|exact Hd]].
  Qed.
  Lemma dskip_ok capa d doc subs : k = true -> 0 <= d < B -> forall m q ms T, (total ms <= m)%nat -> DQ capa q ms -> ms <> [] -> SS T -> (forall x, In x T <-> has ms x /\ d <= x) ->
    exists s', (exists n, forall f g, (n <= f)%nat -> (n <= g)%nat -> dis_skip (run f) g doc 1 d q subs = Some (nonnil T, s')) /\ forall x r, T = x :: r -> doc_of s' = x /\ DisR s' (Some x) r.
  Proof.
    intros Hk H0. induction m as [m IH] using lt_wf_ind. intros q ms T Hm HQ Hne HS HT. destruct (dq_top capa q ms HQ Hne) as (p & ms' & HP & Htop & Hmin & Hp & Hrep & Hpop). destruct (Z.leb_spec d (doc_of (fst p))) as [Hd|Hd].
    - destruct (advance_ok capa q ms T subs HQ Hne HS) as (doc' & q' & (n & En) & r & -> & HR).
      { intros x. rewrite HT. split; [tauto|]. intros Hx. split; [exact Hx|]. destruct (DQ_ge _ _ _ x HQ Hx) as (z & Hz & Hzx). specialize (Hmin z Hz). lia. }
      exists (Dis doc' 1 (Some q') subs). split.
      + exists (S n). intros f [|g] Hf Hg; [lia|]. cbn [dis_skip]. rewrite Htop. cbn [obind]. destruct (Z.leb_spec d (doc_of (fst p))); [|lia]. rewrite (En f g) by lia. reflexivity.
      + intros x r' E. injection E as <- <-. auto.
    - pose proof Hp as (HB & Hp0). assert (Hal : allowed k (Some (doc_of (fst p))) (Some d)) by (cbn; splits; auto; lia). inversion HB as [? ? ? S1 F1 H3]; subst. destruct (H3 (Some d) Hal) as (s' & (n1 & E1) & Hs). cbn [tgt] in Hs, E1.
      pose proof (total_perm _ _ HP) as HT2. rewrite total_cons in HT2. destruct (from d (snd p)) as [|y r] eqn:Ef.
      + destruct Hpop as (y & q2 & Epop & HQ2). assert (Hh : forall x, In x T <-> has ms' x /\ d <= x).
        { intros x. rewrite HT, (has_perm _ _ x HP), has_cons. split; [|tauto]. intros ([E|[E|E]] & H2); [lia| |auto]. assert (G : In x (from d (snd p))) by (apply from_in; auto). rewrite Ef in G. destruct G. }
        destruct ms' as [|p3 ms3].
        * assert (T = []) as -> by (destruct T as [|x T]; [reflexivity|]; destruct (proj1 (Hh x) (or_introl eq_refl)) as ((z & [] & _) & _)). exists (Dis doc 1 (Some q2) subs). split; [|discriminate]. exists (S n1). intros f [|g] Hf Hg; [lia|]. cbn [dis_skip]. rewrite Htop. cbn [obind]. destruct (Z.leb_spec d (doc_of (fst p))); [lia|]. rewrite (E1 f ltac:(lia)). cbn [obind nonnil fst]. rewrite Epop. cbn [obind snd]. rewrite (DQ_size _ _ _ HQ2). reflexivity.
        * destruct (IH (total (p3 :: ms3)) ltac:(lia) q2 (p3 :: ms3) T (le_n _) HQ2 ltac:(discriminate) HS Hh) as (s2 & (n & En) & Hs2). exists s2. split; [|exact Hs2]. exists (S (Nat.max n1 n)). intros f [|g] Hf Hg; [lia|]. cbn [dis_skip]. rewrite Htop. cbn [obind]. destruct (Z.leb_spec d (doc_of (fst p))); [lia|]. rewrite (E1 f ltac:(lia)). cbn [obind nonnil fst]. rewrite Epop. cbn [obind snd]. rewrite (DQ_size _ _ _ HQ2). cbn [length]. destruct (Z.ltb_spec (Z.of_nat (S (length ms3))) 1); [lia|]. apply En; lia.
      + destruct (standing_of s' (Some d) p Hp Hal) with (x := y) (r := r) as (Hst & Hx & Hlt & Hx0); [cbn [tgt]; rewrite Ef; exact Hs|exact Ef|]. destruct (Hrep (s', r) Hst) as (q2 & Erep & HQ2). cbn [fst] in Erep. cbn [nonnil] in E1.
        destruct (IH (total ((s', r) :: ms'))) with (q := q2) (ms := (s', r) :: ms') (T := T) as (s2 & (n & En) & Hs2); auto.
        * rewrite total_cons. cbn [snd]. pose proof (tgt_shorter (Some d) (snd p) y r Ef). lia.
        * discriminate.
        * intros x. rewrite HT, (has_perm _ _ x HP), !has_cons. cbn [fst snd]. rewrite Hx. assert (G : d <= x -> (In x (snd p) <-> x = y \/ In x r)) by (intros Hdx; transitivity (In x (from d (snd p))); [rewrite from_in by exact S1; tauto|rewrite Ef; cbn [In]; intuition]). split; intros (H & H2); (split; [|exact H2]); specialize (G H2); [|tauto]. destruct H as [H|H]; [lia|tauto].
        * exists s2. split; [|exact Hs2]. exists (S (Nat.max n1 n)). intros f [|g] Hf Hg; [lia|]. cbn [dis_skip]. rewrite Htop. cbn [obind]. destruct (Z.leb_spec d (doc_of (fst p))); [lia|]. rewrite (E1 f ltac:(lia)). cbn [obind fst snd]. rewrite Erep. cbn [obind]. apply En; lia.
  Qed.
  Lemma fill_ok capa : forall subs Ls q ms, Forall2 (fun c L => Beh k c None L) subs Ls -> DQ capa q ms -> (length ms + length subs <= capa)%nat ->
    exists q' ms', DQ capa q' ms' /\ (forall d, has ms' d <-> has ms d \/ exists L, In L Ls /\ In d L) /\ exists n, forall f, (n <= f)%nat -> dis_fill (run f) subs q = Some q'.
  Proof.
    intros subs Ls q ms HF. revert q ms. induction HF as [|c L subs Ls HB HF IH]; intros q ms HQ Hc.
    - exists q, ms. splits; auto; [|exists O; reflexivity]. intros d. split; [auto|]. intros [H|(L & [] & _)]. exact H.
    - destruct (beh_next _ _ _ _ HB) as (s' & (n1 & E1) & Hs). destruct (beh_facts _ _ _ _ HB) as (SL & FL). cbn [length] in Hc. destruct L as [|x r].
      + destruct (IH q ms HQ ltac:(lia)) as (q' & ms' & HQ' & Hh & n & En). exists q', ms'. splits; auto.
        * intros d. rewrite Hh. split; [intros [H|(L & H1 & H2)]; [auto|right; exists L; split; [right|]; auto]|intros [H|(L & [<-|H1] & H2)]; [auto|destruct H2|right; eauto]].
        * exists (Nat.max n n1). intros f Hf. cbn [dis_fill]. rewrite (E1 f ltac:(lia)). cbn [obind nonnil fst]. apply En; lia.
      + destruct (Hs x r eq_refl) as (Hx & HB'). rewrite Forall_forall in FL. assert (Hst : standing (s', r)) by (split; cbn [fst snd]; [rewrite Hx; exact HB'|rewrite Hx; pose proof (FL x (or_introl eq_refl)) as FX; cbn [Bool_Proofs.above] in FX; lia]). pose proof (DQ_size _ _ _ HQ) as Hsz. destruct HQ as (HP & HFm). destruct (push_ok sc doc_lt doc_lt_pre capa q (map fst ms) s' HP) as (q1 & Ep & HP1).
        destruct (IH q1 ((s', r) :: ms) (conj HP1 (Forall_cons _ Hst HFm)) ltac:(cbn [length]; lia)) as (q' & ms' & HQ' & Hh & n & En). exists q', ms'. splits; auto.
        * intros d. rewrite Hh, has_cons. cbn [fst snd]. rewrite Hx. split.
          -- intros [[->|[H|H]]|(L & H1 & H2)]; [right; exists (x :: r); split; left; reflexivity|right; exists (x :: r); split; [left; reflexivity|right; exact H]|auto|right; exists L; split; [right; exact H1|exact H2]].
          -- intros [H|(L & [<-|H1] & H2)]; [auto|destruct H2 as [<-|H2]; auto|right; eauto].
        * exists (Nat.max n n1). intros f Hf. cbn [dis_fill]. rewrite (E1 f ltac:(lia)). cbn [obind nonnil fst snd]. unfold pq_insert. rewrite (pi_capa _ _ _ _ _ HP). destruct (Nat.ltb_spec (pq_size q) capa); [|lia]. rewrite Ep. cbn [obind snd]. apply En; lia.
  Qed.
  Lemma dis_ok s cur rest : DisR s cur rest -> Beh k s cur rest.
  Proof.
    apply beh_coind. clear. intros s cur rest (HS & HF & H). splits; auto. intros op Hop.
    (* the queue is filled *)
    assert (G : exists doc q0 q subs ms capa, s = Dis doc 1 q0 subs /\ DQ capa q ms /\ (forall d, In d rest <-> has ms d) /\ (cur = None /\ doc = -1 \/ cur = Some doc) /\ exists n, forall f, (n <= f)%nat -> dis_queue (run f) q0 subs = Some q).
    { destruct H as [(subs & Ls & -> & -> & HB & Hin)|(doc & q & subs & ms & capa & -> & -> & HQ & Hin)].
      - destruct (fill_ok (length subs) subs Ls (pq_new sc (length subs)) [] HB) as (q' & ms' & HQ' & Hh & n & En); [split; [apply new_ok|constructor]|cbn [length]; lia|]. exists (-1), None, q', subs, ms', (length subs). splits; auto; [|exists n; exact En]. intros d. rewrite Hin, Hh. split; [auto|]. intros [(z & [] & _)|H]. exact H.
      - exists doc, (Some q), q, subs, ms, capa. splits; auto. exists O. reflexivity. }
    destruct G as (doc & q0 & q & subs & ms & capa & -> & HQ & Hin & Hdoc & n0 & E0). pose proof (DQ_size _ _ _ HQ) as Hsz. destruct ms as [|p ms].
    - assert (rest = []) as -> by (destruct rest as [|x r]; [reflexivity|]; destruct (proj1 (Hin x) (or_introl eq_refl)) as (z & [] & _)). exists (Dis doc 1 (Some q) subs). split; [|destruct op; discriminate]. exists (S n0). intros [|f] Hf; [lia|]. destruct op as [d|]; cbn [run]; unfold dis_next, dis_skip_to; rewrite (E0 f ltac:(lia)); cbn [obind]; rewrite Hsz; reflexivity.
    - assert (Hlt : (Z.of_nat (pq_size q) <? 1) = false) by (rewrite Hsz; cbn [length]; apply Z.ltb_ge; lia). destruct op as [d|]; cbn [tgt].
      + cbn [allowed] in Hop. destruct Hop as (Hk & Ha & H0). assert (Hdd : doc < d /\ d < B) by (destruct Hdoc as [(-> & ->)| ->]; cbn [Bool_Proofs.above] in Ha; lia). destruct (dskip_ok capa d doc subs Hk ltac:(lia) _ q (p :: ms) (from d rest) (le_n _) HQ ltac:(discriminate) (from_SS d _ HS)) as (s' & (n & En) & Hs).
        { intros x. rewrite from_in by exact HS. rewrite Hin. reflexivity. }
        exists s'. split; [|exact Hs]. exists (S (Nat.max n0 n)). intros [|f] Hf; [lia|]. cbn [run]. unfold dis_skip_to. rewrite (E0 f ltac:(lia)). cbn [obind]. rewrite Hlt. destruct (Z.leb_spec d doc); [lia|]. apply En; lia.
      + destruct (advance_ok capa q (p :: ms) rest subs HQ ltac:(discriminate) HS Hin) as (doc' & q' & (n & En) & r & -> & HR). exists (Dis doc' 1 (Some q') subs). split.
        * exists (S (Nat.max n0 n)). intros [|f] Hf; [lia|]. cbn [run]. unfold dis_next. rewrite (E0 f ltac:(lia)). cbn [obind]. rewrite Hlt. rewrite (En f f) by lia. reflexivity.
        * intros x r' E. injection E as <- <-. auto.
  Qed.
  Lemma union_list : forall Ls : list (list Z), Forall (fun L => SS L) Ls -> exists U, SS U /\ forall d, In d U <-> exists L, In L Ls /\ In d L.
  Proof.
    assert (INS : forall x U, SS U -> exists V, SS V /\ forall d, In d V <-> d = x \/ In d U).
    { intros x U HU. induction HU as [|a U HS IH HF]; [exists [x]; split; [repeat constructor|intros d; cbn [In]; intuition]|]. destruct (Z.lt_trichotomy x a) as [H|[H|H]].
      - exists (x :: a :: U). split; [constructor; [constructor; assumption|constructor; [exact H|eapply Forall_impl; [|exact HF]; cbn; lia]]|intros d; cbn [In]; intuition].
      - subst. exists (a :: U). split; [constructor; assumption|intros d; cbn [In]; intuition].
      - destruct IH as (V & HV & Hin). exists (a :: V). split; [constructor; [exact HV|]; apply Forall_forall; intros y Hy; apply Hin in Hy; rewrite Forall_forall in HF; destruct Hy as [->|Hy]; [exact H|apply HF; exact Hy]|intros d; cbn [In]; rewrite Hin; tauto]. }
    induction Ls as [|L Ls IH]; intros HF; [exists []; split; [constructor|intros d; split; [intros []|intros (L & [] & _)]]|]. inversion HF as [|? ? HL HF']; subst. destruct (IH HF') as (U & HU & Hin).
    assert (G : exists V, SS V /\ forall d, In d V <-> In d L \/ In d U).
    { clear - INS HU. induction L as [|x L IHL]; [exists U; split; [exact HU|intros d; cbn [In]; tauto]|]. destruct IHL as (V & HV & Hin). destruct (INS x V HV) as (W & HW & HinW). exists W. split; [exact HW|]. intros d. rewrite HinW, Hin. cbn [In]. intuition. }
    destruct G as (V & HV & HinV). exists V. split; [exact HV|]. intros d. rewrite HinV, Hin. split; [intros [H|(L' & H1 & H2)]; [exists L; split; [left; reflexivity|exact H]|exists L'; split; [right; exact H1|exact H2]]|intros (L' & [<-|H1] & H2); [left; exact H2|right; eauto]].
  Qed.
  Lemma dis_beh subs Ls : Forall2 (fun c L => Beh k c None L) subs Ls -> exists U, Beh k (dis_new subs) None U /\ forall d, In d U <-> exists L, In L Ls /\ In d L.
  Proof.
    intros H. destruct (union_list Ls) as (U & HU & Hin). { clear - H. induction H as [|c L cs Ls HB H IH]; constructor; [apply (beh_facts _ _ _ _ HB)|exact IH]. }
    exists U. split; [|exact Hin]. apply dis_ok. split; [exact HU|split].
    - apply Forall_forall. intros d Hd. cbn [Bool_Proofs.above]. apply Hin in Hd. destruct Hd as (L & HL & Hd). clear - H HL Hd. induction H as [|c L' cs Ls HB H IH]; [destruct HL|]. destruct HL as [->|HL]; [|auto]. destruct (beh_facts _ _ _ _ HB) as (_ & F). rewrite Forall_forall in F. apply F. exact Hd.
    - left. exists subs, Ls. auto.
  Qed.
End DIS.
Arguments dis_beh {B}.
