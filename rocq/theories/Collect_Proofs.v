From Coq Require Import Sorting.Sorted Sorting.Permutation.
From Verif Require Import Util Strcmp PQueue_Model PQueue_Spec PQueue_Proofs Match_Model Match_Spec Collect_Model Collect_Spec Ring.
From Verif Require Range_Model.
Open Scope Z_scope.

(* ---------- looking up a term *)
Section LOOKUP.
  Variable ts : list (str * list Z).
  Hypothesis HS : StronglySorted slt (map fst ts).
  Lemma nth_lt : forall i j t u, (i < j)%nat -> nth_error ts i = Some t -> nth_error ts j = Some u -> slt (fst t) (fst u).
  Proof.
    revert HS. induction ts as [|x l IH]; cbn [map]; intros H i j t u Hij Hi Hj; [destruct i; discriminate|]. inversion H as [|? ? H1 H2]; subst. destruct j as [|j]; [lia|]. destruct i as [|i]; cbn [nth_error] in *.
    - apply some_inj in Hi. subst x. rewrite Forall_forall in H2. apply H2. apply in_map. exact (nth_error_In _ _ Hj).
    - exact (IH H1 i j t u ltac:(lia) Hi Hj).
  Qed.
  Lemma scan_ok term : forall fuel lo hi, 0 <= lo -> hi < Z.of_nat (length ts) -> lo <= hi + 1 -> hi - lo + 1 < Z.of_nat fuel ->
    (forall i t, (i < Z.to_nat lo)%nat -> nth_error ts i = Some t -> slt (fst t) term) ->
    (forall i t, hi < Z.of_nat i -> nth_error ts i = Some t -> slt term (fst t)) ->
    exists r, scan_loop fuel ts term lo hi = Some r /\ 0 <= r <= Z.of_nat (length ts) /\
      (forall i t, (i < Z.to_nat r)%nat -> nth_error ts i = Some t -> slt (fst t) term) /\
      (forall i t, (Z.to_nat r <= i)%nat -> nth_error ts i = Some t -> sle term (fst t)).
  Proof.
    induction fuel as [|f IH]; intros lo hi H0 H1 H2 Hf HL HR; [lia|]. cbn [scan_loop]. destruct (Z.leb_spec lo hi) as [Hle|Hgt].
    - assert (Hm : lo <= (lo + hi) / 2 <= hi) by (split; [apply Z.div_le_lower_bound; lia|apply Z.div_le_upper_bound; lia]). remember ((lo + hi) / 2) as mid eqn:Emid. clear Emid.
      destruct (nth_error ts (Z.to_nat mid)) as [t|] eqn:Et; [|apply nth_error_None in Et; lia]. cbn [obind]. destruct (scmp term (fst t)) eqn:Ec.
      + exists mid. apply scmp_eq in Ec. subst term. splits; [reflexivity|lia| |].
        * intros i u Hi Hu. exact (nth_lt i (Z.to_nat mid) u t Hi Hu Et).
        * intros i u Hi Hu. destruct (Nat.eq_dec (Z.to_nat mid) i) as [E|E]; [rewrite <- E, Et in Hu; apply some_inj in Hu; subst u; apply sle_refl|]. apply slt_le. apply (nth_lt (Z.to_nat mid) i t u); [lia|exact Et|exact Hu].
      + apply IH; [lia|lia|lia|lia|exact HL|]. intros i u Hi Hu. destruct (Nat.eq_dec (Z.to_nat mid) i) as [E|E]; [rewrite <- E, Et in Hu; apply some_inj in Hu; subst u; exact Ec|]. apply (slt_trans _ (fst t)); [exact Ec|]. apply (nth_lt (Z.to_nat mid) i t u); [lia|exact Et|exact Hu].
      + apply slt_gt in Ec. apply IH; [lia|lia|lia|lia| |exact HR]. intros i u Hi Hu. destruct (Nat.eq_dec (Z.to_nat mid) i) as [E|E]; [rewrite <- E, Et in Hu; apply some_inj in Hu; subst u; exact Ec|]. apply (slt_trans _ (fst t)); [|exact Ec]. apply (nth_lt i (Z.to_nat mid) u t); [lia|exact Hu|exact Et].
    - exists lo. splits; [reflexivity|lia|exact HL|]. intros i u Hi Hu. apply slt_le. apply (HR i); [lia|exact Hu].
  Qed.
End LOOKUP.
Section TV.
  Variable v : tv.
  Hypothesis HV : tv_ok v.
  Lemma scan_to_ok term : exists r, scan_to v term = Some r /\ 0 <= r <= Z.of_nat (length (tv_terms v)) /\
      (forall i t, (i < Z.to_nat r)%nat -> nth_error (tv_terms v) i = Some t -> slt (fst t) term) /\
      (forall i t, (Z.to_nat r <= i)%nat -> nth_error (tv_terms v) i = Some t -> sle term (fst t)).
  Proof.
    unfold scan_to. destruct (scan_ok (tv_terms v) (proj1 HV) term (S (length (tv_terms v))) 0 (Z.of_nat (length (tv_terms v)) - 1)) as (r & H); [lia|lia|lia|lia| | |exists r; exact H].
    - intros i t Hi. cbn in Hi. lia.
    - intros i t Hi Ht. assert (i < length (tv_terms v))%nat by (apply nth_error_Some; congruence). lia.
  Qed.
  Lemma same_text t ps qs : In (t, ps) (tv_terms v) -> In (t, qs) (tv_terms v) -> ps = qs.
  Proof.
    intros H1 H2. apply In_nth_error in H1, H2. destruct H1 as (i & Hi), H2 as (j & Hj). destruct (Nat.lt_trichotomy i j) as [G|[G|G]].
    - destruct (slt_irr t). exact (nth_lt _ (proj1 HV) i j _ _ G Hi Hj).
    - subst j. congruence.
    - destruct (slt_irr t). exact (nth_lt _ (proj1 HV) j i _ _ G Hj Hi).
  Qed.
  Lemma get_term_ok t : exists r, get_term v t = Some r /\ match r with Some ps => In (t, ps) (tv_terms v) /\ ps <> [] /\ up ps /\ forall p, occurs v t p <-> In p ps | None => forall p, ~ occurs v t p end.
  Proof.
    unfold get_term. destruct (scan_to_ok t) as (r & E & Hr & HL & HR). rewrite E. cbn [obind].
    assert (Hno : (forall u, nth_error (tv_terms v) (Z.to_nat r) = Some u -> fst u <> t) -> forall p, ~ occurs v t p).
    { intros Hne p (ps & Hin & _). apply In_nth_error in Hin. destruct Hin as (i & Hi). destruct (Nat.lt_trichotomy i (Z.to_nat r)) as [G|[G|G]].
      - exact (slt_irr t (HL i _ G Hi)).
      - subst i. exact (Hne _ Hi eq_refl).
      - destruct (nth_error (tv_terms v) (Z.to_nat r)) as [u|] eqn:Eu; [|apply nth_error_None in Eu; assert (i < length (tv_terms v))%nat by (apply nth_error_Some; congruence); lia].
        pose proof (HR _ u (le_n _) Eu) as G1. pose proof (nth_lt _ (proj1 HV) _ _ _ _ G Eu Hi) as G2. exact (slt_irr t (sle_lt_trans _ _ _ G1 G2)). }
    destruct (Z.ltb_spec r (Z.of_nat (length (tv_terms v)))) as [Hlt|Hge].
    - destruct (nth_error (tv_terms v) (Z.to_nat r)) as [u|] eqn:Eu; [|apply nth_error_None in Eu; lia]. cbn [obind]. destruct (seqb t (fst u)) eqn:Es.
      + apply seqb_spec in Es. exists (Some (snd u)). split; [reflexivity|]. assert (Hin : In (t, snd u) (tv_terms v)) by (subst t; rewrite <- surjective_pairing; exact (nth_error_In _ _ Eu)).
        pose proof (proj2 HV) as HF. rewrite Forall_forall in HF. destruct (HF _ Hin) as (G1 & G2). splits; auto. intros p. split; [intros (qs & Hq & Hp); rewrite (same_text _ _ _ Hin Hq); exact Hp|intros Hp; exists (snd u); auto].
      + exists None. split; [reflexivity|]. apply Hno. intros w Ew. apply some_inj in Ew. subst w. intros Ef. rewrite (proj2 (seqb_spec t (fst u)) (eq_sym Ef)) in Es. discriminate.
    - exists None. split; [reflexivity|]. apply Hno. intros u Eu. assert (Z.to_nat r < length (tv_terms v))%nat by (apply nth_error_Some; congruence). lia.
  Qed.
  Lemma in_each ps r : In r (each ps) <-> exists p, In p ps /\ r = (p, p).
  Proof. unfold each. rewrite in_map_iff. split; intros (p & H1 & H2); exists p; auto. Qed.
  (* ---------- terms *)
  Lemma tq_ok field t : exists ms, tq_matchv v field t = Some ms /\ forall r, In r ms <-> tv_field v = field /\ exists p, occurs v t p /\ r = (p, p).
  Proof.
    unfold tq_matchv. destruct (Z.eqb_spec (tv_field v) field) as [Hf|Hf].
    - destruct (get_term_ok t) as (r & E & Hr). rewrite E. cbn [obind]. eexists. split; [reflexivity|]. intros x. destruct r as [ps|].
      + destruct Hr as (_ & _ & _ & Ho). rewrite in_each. split; [intros (p & Hp & ->); split; [exact Hf|exists p; split; [apply Ho; exact Hp|reflexivity]]|intros (_ & p & Hp & ->); exists p; split; [apply Ho; exact Hp|reflexivity]].
      + split; [intros []|]. intros (_ & p & Hp & _). destruct (Hr p Hp).
    - eexists. split; [reflexivity|]. intros x. split; [intros []|tauto].
  Qed.
  Lemma multi_loop_ok : forall terms, exists ms, multi_loop v terms = Some ms /\ forall r, In r ms <-> exists t p, In t terms /\ occurs v t p /\ r = (p, p).
  Proof.
    induction terms as [|t l IH]; cbn [multi_loop].
    - eexists. split; [reflexivity|]. intros r. split; [intros []|intros (t & p & [] & _)].
    - destruct (get_term_ok t) as (x & E & Hx), IH as (ms & E2 & Hm). rewrite E, E2. cbn [obind]. eexists. split; [reflexivity|]. intros r. rewrite in_app_iff, Hm. split.
      + intros [H|(u & p & H1 & H2 & H3)]; [|exists u, p; splits; auto; right; exact H1]. destruct x as [ps|]; [|destruct H]. apply in_each in H. destruct H as (p & Hp & ->). exists t, p. splits; [left; reflexivity|apply (proj2 (proj2 (proj2 Hx))); exact Hp|reflexivity].
      + intros (u & p & [<-|H1] & H2 & ->); [left|right; exists u, p; auto]. destruct x as [ps|]; [|destruct (Hx p H2)]. apply in_each. exists p. split; [apply (proj2 (proj2 (proj2 Hx))); exact H2|reflexivity].
  Qed.
  Lemma multi_ok field heap : exists ms, multi_matchv v field heap = Some ms /\ forall r, In r ms <-> tv_field v = field /\ exists t p, In t heap /\ occurs v t p /\ r = (p, p).
  Proof.
    unfold multi_matchv. destruct (Z.eqb_spec (tv_field v) field) as [Hf|Hf].
    - destruct (multi_loop_ok (rev heap)) as (ms & E & H). exists ms. split; [exact E|]. intros r. rewrite H. split; [intros (t & p & H1 & H2); split; [exact Hf|exists t, p; split; [apply in_rev; exact H1|exact H2]]|intros (_ & t & p & H1 & H2); exists t, p; split; [apply in_rev in H1; exact H1|exact H2]].
    - eexists. split; [reflexivity|]. intros x. split; [intros []|tauto].
  Qed.
  (* ---------- ranges *)
  Definition below (g : Range_Model.range) (t : str) : Prop := forall u, Range_Model.r_upper g = Some u -> if Range_Model.r_incu g then sle t u else slt t u.
  Lemma stop_spec g t : match Range_Model.r_upper g with Some u => if Range_Model.r_incu g then sltb u t else sleb u t | None => false end = false <-> below g t.
  Proof.
    unfold below. destruct (Range_Model.r_upper g) as [u|]; [|split; [intros _ w; discriminate|reflexivity]]. destruct (Range_Model.r_incu g).
    - rewrite sltb_ge. split; [intros H w Hw; apply some_inj in Hw; subst w; exact H|intros H; exact (H u eq_refl)].
    - rewrite sleb_gt. split; [intros H w Hw; apply some_inj in Hw; subst w; exact H|intros H; exact (H u eq_refl)].
  Qed.
  Lemma below_down g t u : slt t u -> below g u -> below g t.
  Proof. intros H G w Hw. specialize (G w Hw). destruct (Range_Model.r_incu g); [apply slt_le; exact (slt_le_trans _ _ _ H G)|exact (slt_trans _ _ _ H G)]. Qed.
  Lemma range_loop_ok g : forall ts, StronglySorted slt (map fst ts) -> forall r, In r (range_loop g ts) <-> exists t ps p, In (t, ps) ts /\ In p ps /\ r = (p, p) /\ below g t.
  Proof.
    induction ts as [|t ts IH]; cbn [range_loop map]; intros HS r; [split; [intros []|intros (t & ps & p & [] & _)]|]. inversion HS as [|? ? H1 H2]; subst. rewrite Forall_forall in H2.
    pose proof (stop_spec g (fst t)) as Hst. destruct (match Range_Model.r_upper g with Some u => _ | None => _ end).
    - split; [intros []|]. intros (u & ps & p & Hin & _ & _ & Hu). assert (true = false) by (apply Hst; destruct Hin as [->|Hin]; [exact Hu|exact (below_down g _ _ (H2 _ (in_map fst _ _ Hin)) Hu)]). discriminate.
    - rewrite in_app_iff, in_each, (IH H1). split.
      + intros [(p & Hp & ->)|(u & ps & p & Hin & Hrest)]; [exists (fst t), (snd t), p; splits; auto; [left; apply surjective_pairing|apply Hst; reflexivity]|exists u, ps, p; split; [right; exact Hin|exact Hrest]].
      + intros (u & ps & p & [->|Hin] & Hp & -> & Hb); [left; exists p; auto|right; exists u, ps, p; auto].
  Qed.
  Lemma sorted_skipn {A} (R : A -> A -> Prop) : forall n l, StronglySorted R l -> StronglySorted R (skipn n l).
  Proof. induction n as [|n IH]; intros l H; [exact H|]. destruct l as [|a l]; [exact H|]. cbn [skipn]. apply IH. inversion H; assumption. Qed.
  Lemma skipn_map {A B} (f : A -> B) : forall n l, skipn n (map f l) = map f (skipn n l).
  Proof. induction n as [|n IH]; intros [|a l]; cbn; auto. Qed.
  Lemma rq_ok field g : exists ms, rq_matchv v field g = Some ms /\ forall r, In r ms <-> tv_field v = field /\ exists t p, in_range g t /\ occurs v t p /\ r = (p, p).
  Proof.
    unfold rq_matchv. destruct (Z.eqb_spec (tv_field v) field) as [Hf|Hf]; [|eexists; split; [reflexivity|]; intros x; split; [intros []|tauto]].
    assert (Hj : exists j, (do i <- (match Range_Model.r_lower g with Some l => scan_to v l | None => Some 0 end);
      (match Range_Model.r_lower g with
             | Some l => if (i <? Z.of_nat (length (tv_terms v))) && negb (Range_Model.r_incl g) then do t <- nth_error (tv_terms v) (Z.to_nat i); Some (if seqb l (fst t) then i + 1 else i) else Some i
             | None => Some i
             end)) = Some j /\ forall i t, nth_error (tv_terms v) i = Some t -> ((Z.to_nat j <= i)%nat <-> forall l, Range_Model.r_lower g = Some l -> if Range_Model.r_incl g then sle l (fst t) else slt l (fst t))).
    { destruct (Range_Model.r_lower g) as [l|]; [|exists 0; split; [reflexivity|]; intros i t _; cbn; split; [intros _ w; discriminate|lia]].
      destruct (scan_to_ok l) as (r & E & Hr & HL & HR). rewrite E. cbn [obind].
      assert (Hgen : forall (P : str -> Prop) i t, nth_error (tv_terms v) i = Some t -> (P l <-> (forall w, Some l = Some w -> P w))) by (intros P i t _; split; [intros G w Hw; apply some_inj in Hw; subst w; exact G|intros G; exact (G l eq_refl)]).
      destruct (Range_Model.r_incl g); cbn [negb].
      - rewrite andb_false_r. exists r. split; [reflexivity|]. intros i t Hi. rewrite <- (Hgen (fun w => sle w (fst t)) i t Hi). split; [intros G; exact (HR i t G Hi)|]. intros G. destruct (Nat.le_gt_cases (Z.to_nat r) i) as [|G2]; [assumption|]. specialize (HL i t G2 Hi). destruct (slt_irr l). exact (sle_lt_trans _ _ _ G HL).
      - rewrite andb_true_r. destruct (Z.ltb_spec r (Z.of_nat (length (tv_terms v)))) as [Hlt|Hge].
        + destruct (nth_error (tv_terms v) (Z.to_nat r)) as [u|] eqn:Eu; [|apply nth_error_None in Eu; lia]. cbn [obind]. pose proof (HR _ u (le_n _) Eu) as Hlu. destruct (seqb l (fst u)) eqn:Es.
          * apply seqb_spec in Es. exists (r + 1). split; [reflexivity|]. intros i t Hi. rewrite <- (Hgen (fun w => slt w (fst t)) i t Hi). split.
            -- intros G. rewrite Es. apply (nth_lt _ (proj1 HV) (Z.to_nat r) i u t); [lia|exact Eu|exact Hi].
            -- intros G. destruct (Nat.lt_trichotomy i (Z.to_nat r)) as [G2|[G2|G2]]; [destruct (slt_asym _ _ G (HL i t G2 Hi))|subst i; rewrite Eu in Hi; apply some_inj in Hi; subst t l; destruct (slt_irr _ G)|lia].
          * exists r. split; [reflexivity|]. intros i t Hi. rewrite <- (Hgen (fun w => slt w (fst t)) i t Hi). assert (Hsl : slt l (fst u)) by (apply sle_lteq in Hlu; destruct Hlu as [G|G]; [exact G|rewrite (proj2 (seqb_spec _ _) G) in Es; discriminate]). split.
            -- intros G. destruct (Nat.eq_dec (Z.to_nat r) i) as [E2|E2]; [subst i; rewrite Eu in Hi; apply some_inj in Hi; subst t; exact Hsl|]. apply (slt_trans _ _ _ Hsl). apply (nth_lt _ (proj1 HV) (Z.to_nat r) i u t); [lia|exact Eu|exact Hi].
            -- intros G. destruct (Nat.le_gt_cases (Z.to_nat r) i) as [|G2]; [assumption|]. destruct (slt_asym _ _ G (HL i t G2 Hi)).
        + exists r. split; [reflexivity|]. intros i t Hi. assert (i < length (tv_terms v))%nat by (apply nth_error_Some; congruence). rewrite <- (Hgen (fun w => slt w (fst t)) i t Hi). split; [lia|]. intros G. destruct (slt_asym _ _ G (HL i t ltac:(lia) Hi)). }
    destruct Hj as (j & Ej & Hj). destruct (match Range_Model.r_lower g with Some l => scan_to v l | None => Some 0 end) as [i|]; [|discriminate]. cbn [obind] in *. rewrite Ej. cbn [obind]. eexists. split; [reflexivity|]. intros r.
    rewrite range_loop_ok by (rewrite <- skipn_map; apply sorted_skipn; exact (proj1 HV)). split.
    - intros (t & ps & p & Hin & Hp & -> & Hb). split; [exact Hf|]. exists t, p. apply In_nth_error in Hin. destruct Hin as (k & Hk). rewrite nth_error_skipn in Hk. splits; [split; [|exact Hb]|exists ps; split; [exact (nth_error_In _ _ Hk)|exact Hp]|reflexivity]. exact (proj1 (Hj _ _ Hk) ltac:(lia)).
    - intros (_ & t & p & (Hl & Hb) & (ps & Hin & Hp) & ->). exists t, ps, p. splits; auto. apply In_nth_error in Hin. destruct Hin as (k & Hk). apply (nth_error_In _ (k - Z.to_nat j)). rewrite nth_error_skipn. pose proof (proj2 (Hj _ _ Hk) Hl). replace (Z.to_nat j + (k - Z.to_nat j))%nat with k by lia. exact Hk.
  Qed.
End TV.
