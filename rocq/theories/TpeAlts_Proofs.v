From Coq Require Import Sorting.Permutation Sorting.Sorted.
From Verif Require Import Util Strcmp Dict_Model Post_Model Post_Spec PQueue_Model PQueue_Spec PQueue_Proofs Multi_Model Mte_Model Mte_Spec Mtde_Model Mtde_Spec Mtde_Proofs Expand_Model Expand_Spec Range_Model Range_Spec Range_Proofs Tsc_Model Tsc_Spec Tsc_Proofs TscMulti_Proofs Tpe_Model Tpe_Spec Tpe_Proofs.
Open Scope Z_scope.
Ltac splits := match goal with |- _ /\ _ => split; [|splits] | _ => idtac end.

Lemma flat_upd (ls : list (list post)) j x t d : Forall pinc ls -> nth_error ls j = Some (x :: t) -> fst x = d -> Permutation (flat_map (places d) ls) (snd x ++ flat_map (places d) (upd ls j t)).
Proof.
  intros Hi E Ed. revert j E. induction ls as [|l ls IH]; intros [|j] E; cbn in E; try discriminate.
  - apply some_inj in E. subst l d. inversion Hi as [|? ? H1 H2]; subst. cbn [upd flat_map]. rewrite places_hd, (places_gt (fst x) t); [apply Permutation_refl|]. apply pinc_tl in H1. tauto.
  - inversion Hi as [|? ? H1 H2]; subst. cbn [upd flat_map]. rewrite (IH H2 j E). rewrite !app_assoc. apply Permutation_app_tail. apply Permutation_app_comm.
Qed.
Lemma pinc_nth Ls j L : Forall pinc Ls -> nth_error Ls j = Some L -> pinc L.
Proof. intros H E. rewrite Forall_forall in H. apply H. eapply nth_error_In. exact E. Qed.
Lemma pinc_map_from k Ls : Forall pinc Ls -> Forall pinc (map (from k) Ls).
Proof. intros H. rewrite Forall_forall in *. intros l Hl. apply in_map_iff in Hl. destruct Hl as (l0 & <- & Hl). apply pinc_from. auto. Qed.

Section ALTS.
  Variables (i : pidx) (r : prdr) (y : idx) (del : Z -> bool).
  Hypothesis HD : dicts i r y.
  Notation LV := (LV i r y del).
  Definition stand (s : penum * Z) (d : Z) (L : list post) : Prop := exists ps l, L = (d, ps) :: l /\ snd s = Z.of_nat (length ps) /\ LV (fst s) l ps.
  Definition ainq (ss : list (penum * Z)) (Ls : list (list post)) (m : list (Z * nat)) : Prop :=
    length ss = length Ls /\ Forall pinc Ls /\ NoDup (map snd m) /\ (forall d j, In (d, j) m -> exists s L, nth_error ss j = Some s /\ nth_error Ls j = Some L /\ stand s d L) /\
    (forall j L, nth_error Ls j = Some L -> ~ In j (map snd m) -> L = []).
  Lemma ainq_perm ss Ls m m' : Permutation m m' -> ainq ss Ls m -> ainq ss Ls m'.
  Proof.
    intros P (H1 & H2 & H3 & H4 & H5). split; [exact H1|]. split; [exact H2|]. pose proof (Permutation_map snd P) as P2. split; [eapply Permutation_NoDup; eauto|]. split.
    - intros d j Hj. apply H4. eapply Permutation_in; [apply Permutation_sym; exact P|exact Hj].
    - intros j L HL Hn. apply (H5 j L HL). intros G. apply Hn. eapply Permutation_in; eauto.
  Qed.
  Lemma ainq_move ss Ls d j m s L s' L' : ainq ss Ls ((d, j) :: m) -> nth_error ss j = Some s -> nth_error Ls j = Some L -> pinc L' ->
    (forall d', stand s' d' L' -> ainq (upd ss j s') (upd Ls j L') ((d', j) :: m)) /\ (L' = [] -> ainq (upd ss j s') (upd Ls j L') m).
  Proof.
    intros (H1 & H2 & H3 & H4 & H5) Hw HL Hi. cbn [map snd] in H3. inversion H3 as [|? ? N1 N2]; subst.
    assert (A : length (upd ss j s') = length (upd Ls j L')) by (rewrite !upd_length; exact H1).
    assert (B : Forall pinc (upd Ls j L')) by (apply Mtde_Proofs.Forall_upd1; auto).
    assert (C : forall d0 j0, In (d0, j0) m -> exists w0 L0, nth_error (upd ss j s') j0 = Some w0 /\ nth_error (upd Ls j L') j0 = Some L0 /\ stand w0 d0 L0).
    { intros d0 j0 H. assert (j0 <> j) by (intros ->; apply N1; apply (in_map snd) in H; exact H). rewrite !nth_upd. destruct (Nat.eqb_spec j0 j); [contradiction|]. apply H4. right. exact H. }
    split.
    - intros d' Hs. split; [exact A|]. split; [exact B|]. split; [exact H3|]. split.
      + intros d0 j0 [E|H]; [|apply C; exact H]. injection E as <- <-. exists s', L'. rewrite !nth_upd, Nat.eqb_refl, Hw, HL. auto.
      + intros j0 L0 H Hn. rewrite nth_upd in H. cbn [map snd In] in Hn. destruct (Nat.eqb_spec j0 j) as [->|]; [tauto|]. apply (H5 j0 L0 H). cbn [map snd In]. intuition.
    - intros ->. split; [exact A|]. split; [exact B|]. split; [exact N2|]. split; [exact C|]. intros j0 L0 H Hn. rewrite nth_upd in H. destruct (Nat.eqb_spec j0 j) as [->|]; [rewrite HL in H; apply some_inj in H; auto|]. apply (H5 j0 L0 H). cbn [map snd In]. intuition.
  Qed.
  Lemma ainq_live ss Ls d j m : ainq ss Ls ((d, j) :: m) -> exists s L, nth_error ss j = Some s /\ nth_error Ls j = Some L /\ stand s d L.
  Proof. intros (_ & _ & _ & H & _). apply H. left. reflexivity. Qed.
  Lemma ainq_len ss Ls m : ainq ss Ls m -> (length m <= length ss)%nat.
  Proof.
    intros (_ & _ & ND & H4 & _). assert (Hs : incl (map snd m) (seq 0 (length ss))). { intros j Hj. apply in_map_iff in Hj. destruct Hj as ((d & j0) & <- & Hj). cbn. apply in_seq. destruct (H4 d j0 Hj) as (w & L & Hw & _). assert (j0 < length ss)%nat by (apply nth_error_Some; congruence). lia. }
    pose proof (NoDup_incl_length ND Hs) as G. rewrite map_length, seq_length in G. exact G.
  Qed.
  (* all heads are from k on *)
  Lemma ainq_from ss Ls m k : ainq ss Ls m -> (forall x, In x m -> k <= fst x) -> map (from k) Ls = Ls.
  Proof.
    intros (_ & Hi & _ & H4 & H5) G. rewrite <- (map_id Ls) at 2. apply map_ext_in. intros L HL. apply In_nth_error in HL. destruct HL as (j & HL). destruct (in_dec Nat.eq_dec j (map snd m)) as [Hj|Hj].
    - apply in_map_iff in Hj. destruct Hj as ((d0 & j0) & Ej & Hj). cbn in Ej. subst j0. specialize (G _ Hj). cbn in G. destruct (H4 d0 j Hj) as (w & L0 & _ & EL & (ps & l & -> & _)). rewrite HL in EL. apply some_inj in EL. subst L. cbn [from fst]. destruct (Z.ltb_spec d0 k); [lia|reflexivity].
    - rewrite (H5 j L HL Hj). reflexivity.
  Qed.
  Lemma ainq_none ss Ls m d : ainq ss Ls m -> (forall x, In x m -> d < fst x) -> flat_map (places d) Ls = [].
  Proof.
    intros (_ & Hi & _ & H4 & H5) G. assert (E : forall L, In L Ls -> places d L = []).
    { intros L HL. apply In_nth_error in HL. destruct HL as (j & HL). destruct (in_dec Nat.eq_dec j (map snd m)) as [Hj|Hj].
      - apply in_map_iff in Hj. destruct Hj as ((d0 & j0) & Ej & Hj). cbn in Ej. subst j0. specialize (G _ Hj). cbn in G. destruct (H4 d0 j Hj) as (w & L0 & _ & EL & (ps & l & -> & _)). rewrite HL in EL. apply some_inj in EL. subst L. apply places_gt. pose proof (pinc_tl _ _ (pinc_nth _ _ _ Hi HL)) as (_ & Hgt). constructor; [exact G|]. eapply Forall_impl; [|exact Hgt]. cbn. intros. lia.
      - rewrite (H5 j L HL Hj). reflexivity. }
    clear -E. induction Ls as [|l Ls IH]; [reflexivity|]. cbn [flat_map]. rewrite (E l), IH; auto; [intros L HL; apply E; right; exact HL|left; reflexivity].
  Qed.
  (* an enumerator moves on to L' *)
  Lemma moved capa q m' ss Ls d j s ps l L' z de d0 q2 : ainq ss Ls ((d, j) :: m') -> nth_error ss j = Some s -> nth_error Ls j = Some ((d, ps) :: l) -> pinc L' -> met i r y del L' z de -> (forall x, In x L' -> d0 <= fst x) -> 
    (forall e, exists q', pq_replace_top _ tdew_lt q e = Some q' /\ PI capa q' (e :: m')) -> pq_pop _ tdew_lt q = Some (Some (d, j), q2) -> PI capa q2 m' ->
    exists q' m2, match z with Some c => pq_replace_top _ tdew_lt q (fst c, j) | None => do z <- pq_pop _ tdew_lt q; Some (snd z) end = Some q' /\ PI capa q' m2 /\
      ainq (upd ss j (de, match z with Some c => snd c | None => snd s end)) (upd Ls j L') m2 /\ (m2 = m' \/ exists d2, d0 <= d2 /\ m2 = (d2, j) :: m').
  Proof.
    intros HQ Hw HL Hi HM Hge Hrep Epop HP2. destruct (ainq_move ss Ls d j m' s _ (de, match z with Some c => snd c | None => snd s end) L' HQ Hw HL Hi) as (M1 & M2). destruct L' as [|p t]; cbn [met] in HM; destruct HM as (-> & HM).
    - rewrite Epop. cbn [obind snd]. exists q2, m'. splits; auto.
    - cbn [fst snd]. destruct (Hrep (fst p, j)) as (q' & E & HP'). exists q', ((fst p, j) :: m'). splits; auto.
      + apply M1. exists (snd p), t. destruct p as (d2 & ps2). cbn [fst snd] in *. splits; auto.
      + right. exists (fst p). split; [apply Hge; left; reflexivity|reflexivity].
  Qed.
  Lemma gather_ok d : forall fuel ss Ls q acc capa m, PI capa q m -> ainq ss Ls m -> Forall (fun x => d <= fst x) m -> (key_in d m < fuel)%nat ->
    exists ss' q' c m', gather r del fuel d ss q acc = Some (ss', q', acc ++ c) /\ Permutation (flat_map (places d) Ls) c /\ PI capa q' m' /\ ainq ss' (map (from (d + 1)) Ls) m'.
  Proof.
    induction fuel as [|fuel IH]; intros ss Ls q acc capa m HP HQ Hd Hf; [lia|]. cbn [gather].
    destruct (top_cases capa q m HP) as [(-> & E)|((d0 & j) & m' & E & Pm & Hle & Hrep & q2 & Epop & HP2)]; rewrite E; cbn [obind].
    - exists ss, q, [], []. rewrite app_nil_r, (ainq_none _ _ _ d HQ ltac:(intros x [])), (ainq_from _ _ _ _ HQ ltac:(intros x [])). splits; auto.
    - destruct (Z.eqb_spec d0 d) as [->|Hne].
      + pose proof (ainq_perm _ _ _ _ Pm HQ) as HQ'. destruct (ainq_live _ _ _ _ _ HQ') as (s & L & Hw & HL & (ps & l & -> & Es & HV)). pose proof HQ' as (_ & Hi & _). pose proof (pinc_tl _ _ (pinc_nth _ _ _ Hi HL)) as (Hil & Hgt).
        rewrite Hw. cbn [obind]. rewrite Es, Nat2Z.id. destruct (lv_take i r y del HD ps _ _ HV) as (e1 & E1 & HV1). rewrite E1. cbn [obind fst snd]. destruct (lv_next i r y del HD _ _ _ HV1) as (z & e2 & E2 & HM). rewrite E2. cbn [obind fst snd].
        assert (Hge : forall x, In x l -> d + 1 <= fst x) by (intros x Hx; rewrite Forall_forall in Hgt; specialize (Hgt x Hx); cbn in Hgt; lia).
        destruct (moved capa q m' ss Ls d j s ps l l z e2 (d + 1) q2 HQ' Hw HL Hil HM Hge Hrep Epop HP2) as (q' & mm & Eq & HPq & HQq & Hmm). rewrite Es in HQq. rewrite Eq. cbn [obind].
        assert (Hm' : Forall (fun x => d <= fst x) m') by (assert (G : Forall (fun x => d <= fst x) ((d, j) :: m')) by (eapply Permutation_Forall; eauto); inversion G; auto).
        assert (Hk : (key_in d m = S (key_in d m'))%nat) by (unfold key_in; rewrite (Permutation_length (filter_perm _ _ _ Pm)); cbn [filter fst]; rewrite Z.eqb_refl; reflexivity).
        assert (HH : Forall (fun x => d <= fst x) mm /\ key_in d mm = key_in d m').
        { destruct Hmm as [->|(d2 & Hd2 & ->)]; [auto|]. split; [constructor; [cbn; lia|exact Hm']|]. unfold key_in. cbn [filter fst]. destruct (Z.eqb_spec d2 d); [lia|reflexivity]. }
        destruct HH as (HH1 & HH2). destruct (IH _ _ q' (acc ++ ps) capa mm HPq HQq HH1 ltac:(lia)) as (ss' & q3 & c & m3 & Ec & Pc & HP3 & HQ3). exists ss', q3, (ps ++ c), m3. rewrite Ec. split; [rewrite <- app_assoc; reflexivity|]. split; [|split; [exact HP3|]].
        * rewrite (flat_upd Ls j (d, ps) l d Hi HL eq_refl). cbn [snd]. apply Permutation_app_head. exact Pc.
        * rewrite map_upd in HQ3. assert (Ea : from (d + 1) l = from (d + 1) ((d, ps) :: l)) by (cbn [from fst]; destruct (Z.ltb_spec d (d + 1)); [reflexivity|lia]). rewrite Ea in HQ3. rewrite upd_self in HQ3 by (rewrite nth_error_map, HL; reflexivity). exact HQ3.
      + assert (G : forall x, In x m -> d < fst x) by (intros x Hx; specialize (Hle x Hx); cbn in Hle; assert (In (d0, j) m) as H by (eapply Permutation_in; [apply Permutation_sym; exact Pm|left; reflexivity]); rewrite Forall_forall in Hd; specialize (Hd _ H); cbn in Hd; lia).
        exists ss, q, [], m. rewrite app_nil_r, (ainq_none _ _ _ d HQ G), (ainq_from _ _ _ (d + 1) HQ ltac:(intros x Hx; specialize (G x Hx); lia)). splits; auto.
  Qed.
  Lemma alts_skip_ok k : forall fuel ss Ls q capa m, PI capa q m -> ainq ss Ls m -> (key_lt k m < fuel)%nat ->
    exists ss' q' m', alts_skip r del fuel k ss q = Some (ss', q') /\ PI capa q' m' /\ ainq ss' (map (from k) Ls) m'.
  Proof.
    induction fuel as [|fuel IH]; intros ss Ls q capa m HP HQ Hf; [lia|]. cbn [alts_skip].
    destruct (top_cases capa q m HP) as [(-> & E)|((d & j) & m' & E & Pm & Hle & Hrep & q2 & Epop & HP2)]; rewrite E; cbn [obind].
    - exists ss, q, []. rewrite (ainq_from _ _ _ _ HQ ltac:(intros x [])). splits; auto.
    - destruct (Z.ltb_spec d k) as [Hlt|Hge].
      + pose proof (ainq_perm _ _ _ _ Pm HQ) as HQ'. destruct (ainq_live _ _ _ _ _ HQ') as (s & L & Hw & HL & (ps & l & -> & Es & HV)). pose proof HQ' as (_ & Hi & _). pose proof (pinc_tl _ _ (pinc_nth _ _ _ Hi HL)) as (Hil & Hgt).
        rewrite Hw. cbn [obind]. destruct (lv_skip i r y del HD k _ _ _ HV) as (z & e2 & E2 & HM). rewrite E2. cbn [obind fst snd].
        assert (Hge : forall x, In x (from k l) -> k <= fst x) by (intros x Hx; apply pfrom_in in Hx; tauto).
        destruct (moved capa q m' ss Ls d j s ps l (from k l) z e2 k q2 HQ' Hw HL (pinc_from k l Hil) HM Hge Hrep Epop HP2) as (q' & mm & Eq & HPq & HQq & Hmm). rewrite Eq. cbn [obind].
        assert (Hk : (key_lt k m = S (key_lt k m'))%nat) by (unfold key_lt; rewrite (Permutation_length (filter_perm _ _ _ Pm)); cbn [filter fst]; destruct (Z.ltb_spec d k); [reflexivity|lia]).
        assert (HH : key_lt k mm = key_lt k m') by (destruct Hmm as [->|(d2 & Hd2 & ->)]; [reflexivity|]; unfold key_lt; cbn [filter fst]; destruct (Z.ltb_spec d2 k); [lia|reflexivity]).
        destruct (IH _ _ q' capa mm HPq HQq ltac:(lia)) as (ss' & q3 & m3 & Ec & HP3 & HQ3). exists ss', q3, m3. split; [exact Ec|]. split; [exact HP3|].
        rewrite map_upd in HQ3. assert (Ef : from k (from k l) = from k ((d, ps) :: l)).
        { cbn [from fst]. destruct (Z.ltb_spec d k); [|lia]. clear. induction l as [|x l IH]; [reflexivity|]. cbn [from]. destruct (fst x <? k) eqn:E; [exact IH|]. cbn [from]. rewrite E. reflexivity. }
        rewrite Ef in HQ3. rewrite upd_self in HQ3 by (rewrite nth_error_map, HL; reflexivity). exact HQ3.
      + exists ss, q, m. rewrite (ainq_from _ _ _ k HQ); [splits; auto|]. intros x Hx. specialize (Hle x Hx). cbn in Hle. lia.
  Qed.
  Definition AI (a : mtp) (L : list post) (rem : list Z) : Prop := exists capa m Ls, PI capa (a_pq a) m /\ ainq (a_subs a) Ls m /\ alts_of Ls L /\ a_queue a = rem.
  Definition amet (L : list post) (z : option (Z * Z)) (a : mtp) : Prop := match L with [] => z = None | p :: t => z = Some (fst p, freq p) /\ AI a t (snd p) end.
  Lemma ai_next a L rem : AI a L rem -> exists z a', mtdpe_next r del a = Some (z, a') /\ amet L z a'.
  Proof.
    intros (capa & m & Ls & HP & HQ & HA & _). unfold mtdpe_next. pose proof HQ as (Hlen & Hi & ND & H4 & H5).
    destruct (top_cases capa (a_pq a) m HP) as [(-> & E)|((d0 & j) & m' & E & Pm & Hle & _)]; rewrite E; cbn [obind].
    - assert (L = []) as ->. { destruct L as [|p L]; [reflexivity|]. destruct (alts_cons Ls p L Hi HA) as (_ & _ & _ & (x & t & HL & _) & _). apply In_nth_error in HL. destruct HL as (j & HL). specialize (H5 j _ HL ltac:(intros [])). discriminate. }
      eexists _, _. split; reflexivity.
    - pose proof (ainq_perm _ _ _ _ Pm HQ) as HQ'. destruct (ainq_live _ _ _ _ _ HQ') as (s & L0 & Hw & HL & (ps & l & -> & _)).
      destruct L as [|p L]; [apply alts_nil in HA; rewrite Forall_forall in HA; specialize (HA _ (nth_error_In _ _ HL)); discriminate|]. destruct (alts_cons Ls p L Hi HA) as (P1 & P2 & HF & (x2 & t2 & HL2 & Ex2) & HA').
      assert (d0 = fst p).
      { rewrite Forall_forall in HF. pose proof (HF _ (nth_error_In _ _ HL)) as G. cbn in G. apply In_nth_error in HL2. destruct HL2 as (j2 & HL2). destruct (in_dec Nat.eq_dec j2 (map snd m)) as [Hj|Hj]; [|specialize (H5 _ _ HL2 Hj); discriminate].
        apply in_map_iff in Hj. destruct Hj as ((d3 & j3) & Ej & Hj). cbn in Ej. subst j3. destruct (H4 d3 j2 Hj) as (w3 & L3 & _ & EL3 & (ps3 & l3 & -> & _)). rewrite HL2 in EL3. apply some_inj in EL3. injection EL3 as -> _. cbn in Ex2. specialize (Hle _ Hj). cbn in Hle. lia. }
      subst d0. destruct (gather_ok (fst p) (S (length (a_subs a))) _ Ls (a_pq a) [] capa m HP HQ) as (ss' & q' & c & m2 & Ec & Pc & HP2 & HQ2).
      { apply Forall_forall. intros z Hz. exact (Hle z Hz). }
      { unfold key_in. pose proof (filter_len (fun x0 : Z * nat => fst x0 =? fst p) m). pose proof (ainq_len _ _ _ HQ). lia. }
      rewrite Ec. cbn [obind fst snd app]. eexists _, _. split; [reflexivity|]. assert (EP : Permutation c (snd p)) by (rewrite <- Pc; exact P1). cbn [amet]. split.
      + unfold freq. rewrite (Permutation_length EP). reflexivity.
      + exists capa, m2, (map (from (fst p + 1)) Ls). cbn [a_pq a_subs a_queue]. splits; auto. apply sorted_unique; [apply zsort_sorted|exact P2|]. rewrite <- zsort_perm. exact EP.
  Qed.
  Lemma ai_skip k a L rem : AI a L rem -> exists z a', mtdpe_skip r del k a = Some (z, a') /\ amet (from k L) z a'.
  Proof.
    intros (capa & m & Ls & HP & HQ & HA & Er). unfold mtdpe_skip. destruct (alts_skip_ok k (S (length (a_subs a))) _ _ _ capa m HP HQ) as (ss' & q' & m' & E & HP' & HQ').
    { unfold key_lt. pose proof (filter_len (fun x : Z * nat => fst x <? k) m). pose proof (ainq_len _ _ _ HQ). lia. }
    rewrite E. cbn [obind fst snd]. apply (ai_next _ _ rem). exists capa, m', (map (from k) Ls). cbn [a_pq a_subs a_queue]. splits; auto. apply alts_from; [|exact HA]. apply HQ.
  Qed.
  Lemma ai_pos a L x rem : AI a L (x :: rem) -> exists a', mtdpe_next_position a = Some (x, a') /\ AI a' L rem.
  Proof. intros (capa & m & Ls & HP & HQ & HA & Er). unfold mtdpe_next_position. rewrite Er. eexists. split; [reflexivity|]. exists capa, m, Ls. cbn [a_pq a_subs a_queue]. auto. Qed.
  (* opening: the terms without a document are left out *)
  Lemma ainq_new ss Ls m s L d : ainq ss Ls m -> pinc L -> stand s d L -> ainq (ss ++ [s]) (Ls ++ [L]) ((d, length ss) :: m).
  Proof.
    intros (H1 & H2 & H3 & H4 & H5) Hi Hs. assert (HB : forall j, In j (map snd m) -> (j < length ss)%nat) by (intros j Hj; apply in_map_iff in Hj; destruct Hj as ((d0 & j0) & <- & Hj); destruct (H4 d0 j0 Hj) as (w & L0 & Hw & _); apply nth_error_Some; cbn; congruence).
    split; [rewrite !app_length, H1; reflexivity|]. split; [apply Forall_app; auto|]. cbn [map snd]. split; [constructor; [intros G; apply HB in G; lia|exact H3]|]. split.
    - intros d0 j0 [E|H]; [injection E as <- <-; exists s, L; split; [rewrite nth_error_app2, Nat.sub_diag by lia; reflexivity|]; split; [rewrite H1, nth_error_app2, Nat.sub_diag by lia; reflexivity|exact Hs]|].
      destruct (H4 d0 j0 H) as (w & L0 & Hw & HL & HS). exists w, L0. split; [rewrite nth_error_app1; [exact Hw|apply nth_error_Some; congruence]|]. split; [rewrite nth_error_app1; [exact HL|apply nth_error_Some; congruence]|exact HS].
    - intros j L0 HL Hn. destruct (Nat.lt_ge_cases j (length Ls)); [rewrite nth_error_app1 in HL by assumption; apply (H5 j L0 HL); intros G; apply Hn; right; exact G|]. exfalso. assert (j < length (Ls ++ [L]))%nat as B by (apply nth_error_Some; congruence). rewrite app_length in B. cbn in B. apply Hn. left. lia.
  Qed.
  Lemma alts_open_ok f : pidx_field i f -> (forall t, pinc (plook i f t)) -> forall ts t ss q Ls capa m, tir_used r t -> PI capa q m -> ainq ss Ls m ->
    exists ss' q' t' m' Ls', alts_open r del t f ts ss q = Some (ss', q', t') /\ tir_used r t' /\ PI capa q' m' /\ ainq ss' Ls' m' /\ Ls' = Ls ++ filter (fun l => match l with [] => false | _ => true end) (map (fun x => alive del (plook i f x)) ts).
  Proof.
    intros Hf Hinc. induction ts as [|x ts IH]; intros t ss q Ls capa m U HP HQ; cbn [alts_open map filter]; [eexists _, _, _, m, Ls; split; [reflexivity|]; rewrite app_nil_r; splits; auto|].
    destruct (lv_open i r y del HD t f x U Hf) as (e & t1 & E1 & U1 & HV). rewrite E1. cbn [obind fst snd]. destruct (lv_next i r y del HD _ _ _ HV) as (z & e2 & E2 & HM). rewrite E2. cbn [obind fst snd]. pose proof (pinc_alive del _ (Hinc x)) as Hp. destruct (alive del (plook i f x)) as [|p l]; cbn [met] in HM; destruct HM as (-> & HM).
    - apply (IH t1 ss q Ls capa m); auto.
    - cbn [fst snd]. destruct (push_ok _ _ tdew_pre capa q m (fst p, length ss) HP) as (q1 & Eq & HP1). rewrite Eq. cbn [obind]. destruct (IH t1 (ss ++ [(e2, freq p)]) q1 (Ls ++ [p :: l]) capa ((fst p, length ss) :: m) U1 HP1) as (ss' & q' & t' & m' & Ls' & E & G1 & G2 & G3 & G4).
      { apply ainq_new; auto. exists (snd p), l. destruct p as (d & ps). cbn [fst snd]. splits; auto. }
      exists ss', q', t', m', Ls'. splits; auto. rewrite G4, <- app_assoc. reflexivity.
  Qed.
  Lemma alts_filter Ls L : alts_of (filter (fun l : list post => match l with [] => false | _ => true end) Ls) L <-> alts_of Ls L.
  Proof.
    assert (E : forall d, flat_map (places d) (filter (fun l : list post => match l with [] => false | _ => true end) Ls) = flat_map (places d) Ls).
    { intros d. induction Ls as [|l Ls IH]; [reflexivity|]. cbn [filter flat_map]. destruct l; [rewrite IH; reflexivity|]. cbn [flat_map]. rewrite IH. reflexivity. }
    unfold alts_of. split; intros (H1 & H2 & H3); (split; [exact H1|]); (split; [|eapply Forall_impl; [|exact H3]; intros p; cbn beta; rewrite E; auto]); intros d; rewrite H2; split; intros (l & Hl & Hd); exists l; (split; [|exact Hd]).
    - apply filter_In in Hl. tauto.
    - apply filter_In. split; [exact Hl|]. destruct l; [destruct Hd|reflexivity].
    - apply filter_In. split; [exact Hl|]. destruct l; [destruct Hd|reflexivity].
    - apply filter_In in Hl. tauto.
  Qed.
  Lemma ai_new t f ts L : tir_used r t -> pidx_field i f -> (forall t, pinc (plook i f t)) -> alts_of (map (fun x => alive del (plook i f x)) ts) L ->
    exists a t', mtdpe_new r del t f ts = Some (a, t') /\ tir_used r t' /\ AI a L [].
  Proof.
    intros U Hf Hinc HA. unfold mtdpe_new. destruct (alts_open_ok f Hf Hinc ts t [] (pq_new _ (length ts)) [] (length ts) [] U (new_ok _ _ (length ts))) as (ss & q & t' & m & Ls & E & U' & HP & HQ & EL).
    { split; [reflexivity|]. split; [constructor|]. split; [constructor|]. split; [intros d j []|]. intros [|j] L0; discriminate. }
    rewrite E. cbn [obind fst snd]. eexists _, t'. split; [reflexivity|]. split; [exact U'|]. exists (length ts), m, Ls. cbn [a_pq a_subs a_queue]. splits; auto. rewrite EL. cbn [app]. apply alts_filter. exact HA.
  Qed.

  (* ---------- the enumerator of a position *)
  Definition TP (e : tpe) (L : list post) (rem : list Z) : Prop := match e with TOne d => LV d L rem | TAlts a => AI a L rem end.
  Definition tmet (L : list post) (z : option (Z * Z)) (e : tpe) : Prop := match L with [] => z = None | p :: t => z = Some (fst p, freq p) /\ TP e t (snd p) end.
  Lemma tp_next_ok e L rem : TP e L rem -> exists z e', tpe_next r del e = Some (z, e') /\ tmet L z e'.
  Proof.
    destruct e as [d|a]; cbn [TP tpe_next]; intros H.
    - destruct (lv_next i r y del HD _ _ _ H) as (z & d' & E & HM). rewrite E. cbn [obind fst snd]. eexists _, _. split; [reflexivity|]. unfold met in HM. unfold tmet. destruct L; tauto.
    - destruct (ai_next _ _ _ H) as (z & a' & E & HM). rewrite E. cbn [obind fst snd]. eexists _, _. split; [reflexivity|]. exact HM.
  Qed.
  Lemma tp_skip_ok k e L rem : TP e L rem -> exists z e', tpe_skip r del k e = Some (z, e') /\ tmet (from k L) z e'.
  Proof.
    destruct e as [d|a]; cbn [TP tpe_skip]; intros H.
    - destruct (lv_skip i r y del HD k _ _ _ H) as (z & d' & E & HM). rewrite E. cbn [obind fst snd]. eexists _, _. split; [reflexivity|]. unfold met in HM. unfold tmet. destruct (from k L); tauto.
    - destruct (ai_skip k _ _ _ H) as (z & a' & E & HM). rewrite E. cbn [obind fst snd]. eexists _, _. split; [reflexivity|]. exact HM.
  Qed.
  Lemma tp_pos_ok e L x rem : TP e L (x :: rem) -> exists e', tpe_pos r e = Some (x, e') /\ TP e' L rem.
  Proof.
    destruct e as [d|a]; cbn [TP tpe_pos]; intros H.
    - destruct (lv_pos i r y del HD _ _ _ _ H) as (d' & E & HM). rewrite E. cbn [obind fst snd]. eexists. split; [reflexivity|]. exact HM.
    - destruct (ai_pos _ _ _ _ H) as (a' & E & HM). rewrite E. cbn [obind fst snd]. eexists. split; [reflexivity|]. exact HM.
  Qed.
  (* the documents of a position *)
  Definition pos_list (f : Z) (ts : list (list Z)) (L : list post) : Prop := match ts with [t] => L = alive del (plook i f t) | _ => alts_of (map (fun x => alive del (plook i f x)) ts) L end.
  Lemma tp_open_ok t f ts : tir_used r t -> pidx_field i f -> (forall t, pinc (plook i f t)) -> exists L e t', pos_list f ts L /\ tpe_open r del t f ts = Some (e, t') /\ tir_used r t' /\ TP e L [].
  Proof.
    intros U Hf Hinc. assert (G : forall L, alts_of (map (fun x => alive del (plook i f x)) ts) L -> exists e t', (do a <- mtdpe_new r del t f ts; Some (TAlts (fst a), snd a)) = Some (e, t') /\ tir_used r t' /\ TP e L []).
    { intros L HA. destruct (ai_new t f ts L U Hf Hinc HA) as (a & t' & E & U' & HI). rewrite E. cbn [obind fst snd]. eexists _, _. split; [reflexivity|]. auto. }
    destruct (alts_exists (map (fun x => alive del (plook i f x)) ts)) as (L & HL). destruct ts as [|x [|x2 ts]]; cbn [tpe_open pos_list].
    - destruct (G L HL) as (e & t' & E). exists L, e, t'. auto.
    - destruct (lv_open i r y del HD t f x U Hf) as (e & t1 & E1 & U1 & HV). rewrite E1. cbn [obind fst snd]. eexists _, _, _. split; [reflexivity|]. split; [reflexivity|]. auto.
    - destruct (G L HL) as (e & t' & E). exists L, e, t'. auto.
  Qed.
End ALTS.
