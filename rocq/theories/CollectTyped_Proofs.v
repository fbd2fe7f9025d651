From Verif Require Import Util Strcmp Match_Model Match_Spec Collect_Model Collect_Spec Collect_Proofs Ring.
From Verif Require Range_Model.
Open Scope Z_scope.
Section TYPED.
  Variables (num : Type) (nle nlt : num -> num -> bool) (zero : num) (sscanf : str -> Range_Model.scanres num).
  Notation number := (number num sscanf).
  Lemma set_terms_ok cond (old : Z -> Prop) : forall ts len, old len -> (forall t, In t (map fst ts) -> (exists x l, sscanf t = Range_Model.SOk num x l /\ old l) \/ ((forall x l, sscanf t <> Range_Model.SOk num x l) /\ forall l, old l -> Z.of_nat (length t) <> l)) ->
    exists ms, set_terms num sscanf cond len ts = Some ms /\ forall r, In r ms <-> exists t ps p x, In (t, ps) ts /\ In p ps /\ number t x /\ cond x = true /\ r = (p, p).
  Proof.
    induction ts as [|[t ps] ts IH]; cbn [set_terms map fst snd]; intros len Hold H.
    - eexists. split; [reflexivity|]. intros r. split; [intros []|intros (t & ps & p & x & [] & _)].
    - assert (Hrest : forall u, In u (map fst ts) -> (exists x l, sscanf u = Range_Model.SOk num x l /\ old l) \/ ((forall x l, sscanf u <> Range_Model.SOk num x l) /\ forall l, old l -> Z.of_nat (length u) <> l)) by (intros u Hu; apply H; right; exact Hu).
      destruct (H t (or_introl eq_refl)) as [(x & l & E & Ho)|(Hn & Hne)].
      + rewrite E. destruct (IH l Ho Hrest) as (ms & Em & Hm). unfold number, Collect_Spec.number in *. destruct (Z.eqb_spec (Z.of_nat (length t)) l) as [El|El]; cbn [obind]; rewrite Em; cbn [obind]; eexists; (split; [reflexivity|]); intros r; rewrite in_app_iff, Hm.
        * split.
          -- intros [G|(u & qs & p & y & G1 & G2)]; [|exists u, qs, p, y; split; [right; exact G1|exact G2]]. destruct (cond x) eqn:Ec; [|destruct G]. apply in_each in G. destruct G as (p & Hp & ->). exists t, ps, p, x. splits; auto; [left; reflexivity|rewrite El; exact E].
          -- intros (u & qs & p & y & [G1|G1] & G2 & G3 & G4 & ->); [|right; exists u, qs, p, y; auto]. left. injection G1 as -> ->. rewrite E in G3. injection G3 as -> _. rewrite G4. apply in_each. exists p. auto.
        * split.
          -- intros [G|(u & qs & p & y & G1 & G2)]; [destruct G|exists u, qs, p, y; split; [right; exact G1|exact G2]].
          -- intros (u & qs & p & y & [G1|G1] & G2 & G3 & G4 & ->); [|right; exists u, qs, p, y; auto]. injection G1 as -> ->. rewrite E in G3. injection G3 as _ G3. congruence.
      + destruct (IH len Hold Hrest) as (ms & Em & Hm). assert (Hl : Z.of_nat (length t) =? len = false) by (apply Z.eqb_neq; apply Hne; exact Hold).
        exists ms. split; [destruct (sscanf t) eqn:E; [destruct (Hn _ _ eq_refl)| |]; rewrite Hl; cbn [obind]; rewrite Em; reflexivity|]. intros r. rewrite Hm. split; [intros (u & qs & p & y & G1 & G2); exists u, qs, p, y; split; [right; exact G1|exact G2]|].
        intros (u & qs & p & y & [G1|G1] & G2 & G3 & G4); [|exists u, qs, p, y; auto]. injection G1 as -> ->. destruct (Hn _ _ G3).
  Qed.
  Lemma bound_ok s n len : (forall l, s = Some l -> number l n) -> (s = None -> n = zero) -> Range_Model.bound num zero sscanf s len = (true, n, match s with Some l => Z.of_nat (length l) | None => len end).
  Proof.
    intros H H0. unfold Range_Model.bound. destruct s as [l|]; [|rewrite (H0 eq_refl); reflexivity]. specialize (H l eq_refl). unfold number, Collect_Spec.number in H. unfold Range_Model.put. rewrite H. rewrite Z.eqb_refl. reflexivity.
  Qed.
  Lemma trq_ok v field g : tv_ok v -> Forall (fun t => fst t <> []) (tv_terms v) -> (forall l, Range_Model.r_lower g = Some l -> exists n, number l n) -> (forall u, Range_Model.r_upper g = Some u -> exists n, number u n) -> no_stale num sscanf v g ->
    exists ms, trq_matchv num nle nlt zero sscanf v field g = Some ms /\ forall r, In r ms <-> tv_field v = field /\ exists t p x, number t x /\ num_between num nle nlt sscanf g x /\ occurs v t p /\ r = (p, p).
  Proof.
    intros HV Hne Hlo Hup Hst. unfold trq_matchv. destruct (Z.eqb_spec (tv_field v) field) as [Hf|Hf]; [|eexists; split; [reflexivity|]; intros x; split; [intros []|tauto]].
    assert (Hn : forall s : option str, (forall l, s = Some l -> exists n, number l n) -> exists n, (forall l, s = Some l -> number l n) /\ (s = None -> n = zero)) by (intros [l|] G; [destruct (G l eq_refl) as (n & Hn); exists n; split; [intros w Hw; apply some_inj in Hw; subst w; exact Hn|discriminate]|exists zero; split; [discriminate|reflexivity]]).
    destruct (Hn _ Hlo) as (lo & Hl1 & Hl2), (Hn _ Hup) as (hi & Hu1 & Hu2). rewrite (bound_ok _ lo) by assumption. rewrite (bound_ok _ hi) by assumption. cbn [andb].
    set (len := match Range_Model.r_upper g with Some l => Z.of_nat (length l) | None => match Range_Model.r_lower g with Some l => Z.of_nat (length l) | None => 0 end end).
    destruct (set_terms_ok (Range_Model.within_num num nle nlt g lo hi) (fun l => l = 0 \/ exists s x, sscanf s = Range_Model.SOk num x l /\ (In s (map fst (tv_terms v)) \/ Range_Model.r_lower g = Some s \/ Range_Model.r_upper g = Some s)) (rev (tv_terms v)) len) as (ms & Em & Hm).
    - unfold len. destruct (Range_Model.r_upper g) as [u|] eqn:Eu; [right; exists u, hi; split; [apply Hu1; reflexivity|auto]|]. destruct (Range_Model.r_lower g) as [l|] eqn:El; [right; exists l, lo; split; [apply Hl1; reflexivity|auto]|left; reflexivity].
    - intros t Ht. rewrite map_rev, <- in_rev in Ht. destruct (sscanf t) as [x l| |] eqn:E.
      + left. exists x, l. split; [reflexivity|]. right. exists t, x. auto.
      + right. split; [congruence|]. destruct (Hst t Ht) as [(x & l & G)|G]; [congruence|]. intros l [->|(s & x & G1 & G2)]; [|exact (G s x l G1 G2)]. apply in_map_iff in Ht. destruct Ht as (w & <- & Hw). rewrite Forall_forall in Hne. specialize (Hne w Hw). destruct (fst w); [congruence|cbn [length]; lia].
      + right. split; [congruence|]. destruct (Hst t Ht) as [(x & l & G)|G]; [congruence|]. intros l [->|(s & x & G1 & G2)]; [|exact (G s x l G1 G2)]. apply in_map_iff in Ht. destruct Ht as (w & <- & Hw). rewrite Forall_forall in Hne. specialize (Hne w Hw). destruct (fst w); [congruence|cbn [length]; lia].
    - exists ms. split; [exact Em|]. intros r. rewrite Hm.
      assert (Hw : forall x, Range_Model.within_num num nle nlt g lo hi x = true <-> num_between num nle nlt sscanf g x).
      { intros x. unfold Range_Model.within_num, num_between. rewrite andb_true_iff. assert (U : forall s a b, number s a -> number s b -> a = b) by (unfold number, Collect_Spec.number; congruence). split; intros (G1 & G2); split.
        - intros l n E G. rewrite E in *. rewrite (U l n lo G (Hl1 l eq_refl)). exact G1.
        - intros u n E G. rewrite E in *. rewrite (U u n hi G (Hu1 u eq_refl)). exact G2.
        - destruct (Range_Model.r_lower g) as [l|] eqn:E; [|reflexivity]. exact (G1 l lo eq_refl (Hl1 l eq_refl)).
        - destruct (Range_Model.r_upper g) as [u|] eqn:E; [|reflexivity]. exact (G2 u hi eq_refl (Hu1 u eq_refl)). }
      split.
      + intros (t & ps & p & x & G1 & G2 & G3 & G4 & ->). split; [exact Hf|]. exists t, p, x. splits; auto; [apply Hw; exact G4|]. exists ps. split; [apply in_rev; exact G1|exact G2].
      + intros (_ & t & p & x & G1 & G2 & (ps & G3 & G4) & ->). exists t, ps, p, x. splits; auto; [rewrite <- in_rev; exact G3|apply Hw; exact G2].
  Qed.
  Lemma stale_bad v field g t r x : tv_field v = field -> tv_terms v = r ++ [t] -> Range_Model.r_upper g = None -> (exists l, Range_Model.r_lower g = Some l /\ number l x /\ length (fst t) = length l) -> (forall y l, sscanf (fst t) <> Range_Model.SOk num y l) ->
    trq_matchv num nle nlt zero sscanf v field g = None.
  Proof.
    intros Hf Ht Hu (l & Hl & Hx & Hlen) Hn. unfold trq_matchv. rewrite (proj2 (Z.eqb_eq _ _) Hf). rewrite (bound_ok _ x) by (rewrite Hl; intros; congruence). rewrite (bound_ok _ zero) by (rewrite Hu; intros; congruence). cbn [andb]. rewrite Hu, Hl, Ht, rev_app_distr. cbn [rev app set_terms].
    destruct (sscanf (fst t)) eqn:E; [destruct (Hn _ _ eq_refl)| |]; rewrite Hlen, Z.eqb_refl; reflexivity.
  Qed.
  Lemma bound_no s len : no_number num sscanf s -> exists x l, Range_Model.bound num zero sscanf s len = (false, x, l).
  Proof.
    intros (t & -> & H). unfold Range_Model.bound, Range_Model.put. destruct H as [E|(x & k & E & Hk)]; rewrite E; [eexists _, _; reflexivity|].
    rewrite (proj2 (Z.eqb_neq (Z.of_nat (length t)) k)) by congruence. eexists _, _. reflexivity.
  Qed.
  Lemma trq_words v field g : tv_ok v -> no_number num sscanf (Range_Model.r_lower g) \/ no_number num sscanf (Range_Model.r_upper g) ->
    exists ms, trq_matchv num nle nlt zero sscanf v field g = Some ms /\ forall r, In r ms <-> tv_field v = field /\ exists t p, in_range g t /\ occurs v t p /\ r = (p, p).
  Proof.
    intros HV H. destruct (rq_ok v HV field g) as (ms & E & Hm). exists ms. split; [|exact Hm]. unfold trq_matchv. destruct (tv_field v =? field) eqn:Ef; [|unfold rq_matchv in E; rewrite Ef in E; exact E].
    assert (E1 : exists b x l, Range_Model.bound num zero sscanf (Range_Model.r_lower g) 0 = (b, x, l)) by (destruct (Range_Model.bound num zero sscanf (Range_Model.r_lower g) 0) as [[b x] l]; eauto).
    destruct H as [H|H].
    - destruct (bound_no _ 0 H) as (x & l & E2). rewrite E2. cbn [andb]. exact E.
    - destruct E1 as (b & x & l & E2). rewrite E2. destruct b; cbn [andb]; [|exact E]. destruct (bound_no _ l H) as (y & l' & E3). rewrite E3. cbn [andb]. exact E.
  Qed.
End TYPED.
