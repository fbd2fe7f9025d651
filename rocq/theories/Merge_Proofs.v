(* Merging: the postings of one term. *)
From Coq Require Import Sorting.Permutation.
From Verif Require Import Util Codec_Model Codec_Spec Codec_Proofs Seg_Model Seg_Spec SegCodec_Proofs Strcmp Dict_Model Dict_Spec DictCodec_Proofs Dict_Proofs DictCursor_Proofs Post_Model Post_Spec Post_Proofs PostRun_Proofs PQueue_Model Mte_Spec Merge_Model Merge_Spec.
Open Scope Z_scope.

(* ---------- numbering *)
Lemma rank_S del n : rank del (S n) = (rank del n + (if del (Z.of_nat n) then 0 else 1))%nat.
Proof. unfold rank. rewrite seq_S, filter_app, app_length. cbn [Nat.add filter]. destruct (del (Z.of_nat n)); reflexivity. Qed.
Lemma rank_mono del a b : (a <= b)%nat -> (rank del a <= rank del b)%nat.
Proof. induction 1 as [|b H IH]; auto. rewrite rank_S. lia. Qed.
Lemma rank_le del n : (rank del n <= n)%nat.
Proof. induction n as [|n IH]; [auto|]. rewrite rank_S. destruct (del (Z.of_nat n)); lia. Qed.
Lemma rank_lt del a b : (a < b)%nat -> del (Z.of_nat a) = false -> (rank del a < rank del b)%nat.
Proof. intros H E. pose proof (rank_mono del (S a) b H). rewrite rank_S, E in H0. lia. Qed.
Lemma rank_none n : rank (fun _ => false) n = n.
Proof. induction n as [|n IH]; [reflexivity|]. rewrite rank_S, IH. lia. Qed.
Lemma load_map_ok del : forall n i, let r := load_map del n (Z.of_nat i) (Z.of_nat (rank del i)) in
  snd r = Z.of_nat (rank del (i + n)) /\ length (fst r) = n /\ forall d, (d < n)%nat -> del (Z.of_nat (i + d)) = false -> nth_error (fst r) d = Some (Z.of_nat (rank del (i + d))).
Proof.
  induction n as [|n IH]; intros i; cbn [load_map].
  - cbn [fst snd length]. rewrite Nat.add_0_r. repeat split; auto. intros; lia.
  - specialize (IH (S i)). rewrite rank_S in IH. replace (Z.of_nat (S i)) with (Z.of_nat i + 1) in IH by lia. destruct (del (Z.of_nat i)) eqn:E.
    + rewrite Nat.add_0_r in IH. cbn zeta in IH. destruct IH as (H1 & H2 & H3). cbn [fst snd length]. rewrite H1, H2. split; [do 2 f_equal; lia|]. split; auto. intros [|d] Hd Ed; cbn [nth_error]; [rewrite Nat.add_0_r in Ed; congruence|].
      replace (i + S d)%nat with (S i + d)%nat in * by lia. rewrite H3; auto; lia.
    + replace (Z.of_nat (rank del i + 1)) with (Z.of_nat (rank del i) + 1) in IH by lia. cbn zeta in IH. destruct IH as (H1 & H2 & H3). cbn [fst snd length]. rewrite H1, H2. split; [do 2 f_equal; lia|]. split; auto. intros [|d] Hd Ed; cbn [nth_error]; [rewrite Nat.add_0_r; reflexivity|].
      replace (i + S d)%nat with (S i + d)%nat in * by lia. rewrite H3; auto; lia.
Qed.
Lemma smi_new_ok base x : let m := smi_new base x in
  m_in m = x /\ m_base m = base /\ m_cnt m = Z.of_nat (rank (dels x) (i_max x)) /\
  forall d, 0 <= d < Z.of_nat (i_max x) -> dels x d = false -> new_doc m d = Some (Z.of_nat (rank (dels x) (Z.to_nat d)) + base).
Proof.
  unfold smi_new, new_doc. unfold dels. destruct (i_del x) as [del|] eqn:E; cbn zeta.
  - destruct (load_map_ok del (i_max x) O) as (H1 & H2 & H3). cbn [Nat.add] in *. change (rank del 0) with 0%nat in *. change (Z.of_nat 0) with 0 in *.
    cbn [m_in m_base m_cnt m_map]. rewrite H1. repeat split; auto. intros d Hd Ed. destruct (Z.ltb_spec d 0); [lia|]. rewrite H3; [reflexivity|lia|]. rewrite Z2Nat.id by lia. auto.
  - cbn [m_in m_base m_cnt m_map]. repeat split; auto; [rewrite rank_none; reflexivity|]. intros d Hd _. cbn [obind]. rewrite rank_none. f_equal. lia.
Qed.

(* ---------- copying *)
Lemma copy_one_enc fuel : forall num b rest, 0 <= num -> enc_v fuel num = Some b -> copy_one (b ++ rest) = Some (b, rest).
Proof.
  induction fuel as [|fuel IH]; intros num b rest Hn E; [discriminate|]. cbn [enc_v] in E. destruct (Z.gtb_spec num 127) as [H|H].
  - destruct (enc_v fuel (Z.shiftr num 7)) as [t|] eqn:Et; cbn [obind] in E; [|discriminate]. apply some_inj in E. subst b. cbn [app copy_one].
    rewrite cont_byte, land128_high by (apply Z.mod_pos_bound; lia). cbn [Z.eqb]. rewrite (IH (Z.shiftr num 7) t rest); [reflexivity|rewrite shiftr7; apply Z.div_pos; lia|exact Et].
  - apply some_inj in E. subst b. cbn [app copy_one]. unfold uchar. rewrite Z.mod_small by lia. rewrite land128_low by lia. reflexivity.
Qed.
Lemma copy_eint z rest : copy_one (eint z ++ rest) = Some (eint z, rest).
Proof. pose proof (eint_some z) as E. unfold enc_int in E. eapply copy_one_enc; [|exact E]. apply Z.mod_pos_bound. lia. Qed.
Lemma copy_epos ps : forall d rest, copy_vints (length ps) (epos d ps ++ rest) = Some (epos d ps, rest).
Proof. induction ps as [|x t IH]; intros d rest; [reflexivity|]. cbn [length copy_vints epos]. rewrite <- app_assoc, copy_eint. cbn [obind fst snd]. rewrite IH. reflexivity. Qed.

Lemma sm_doc_eq k w doc ps rest : doc = 0 \/ w_last w < doc -> sm_doc k w doc (Z.of_nat (length ps)) (epos 0 ps ++ rest) = do w' <- pw_add k w (doc, ps); Some (w', rest).
Proof.
  intros H. unfold sm_doc, pw_add. assert ((doc =? 0) || (w_last w <? doc) = true) as ->. { apply orb_true_iff. destruct H as [->|H]; [left; reflexivity|right; apply Z.ltb_lt; auto]. }
  destruct (if (w_df w + 1) mod k =? 0 then skip_buf_add w (w_last w) else Some w) as [w1|]; cbn [obind]; auto.
  change (enc_doc_freq (w_last w1) doc (Z.of_nat (length ps))) with (enc_doc (w_last w1) (doc, ps)). destruct (enc_doc (w_last w1) (doc, ps)) as [a|]; cbn [obind]; auto.
  rewrite Nat2Z.id, copy_epos. cbn [obind fst snd]. rewrite enc_pos_eq. reflexivity.
Qed.
Lemma pw_add_total k w p : exists w', pw_add k w p = Some w' /\ w_last w' = fst p.
Proof.
  unfold pw_add. assert (E : exists w1, (if (w_df w + 1) mod k =? 0 then skip_buf_add w (w_last w) else Some w) = Some w1).
  { destruct ((w_df w + 1) mod k =? 0); [|eauto]. unfold skip_buf_add. rewrite !eint_some. cbn [obind]. eauto. }
  destruct E as (w1 & ->). cbn [obind]. rewrite enc_doc_eq. cbn [obind]. rewrite enc_pos_eq. cbn [obind]. eexists. split; reflexivity.
Qed.
Lemma pw_adds_app k a : forall w b, pw_adds k w (a ++ b) = do w' <- pw_adds k w a; pw_adds k w' b.
Proof. induction a as [|p a IH]; intros w b; [reflexivity|]. cbn [app pw_adds]. destruct (pw_add k w p); cbn [obind]; auto. Qed.
Lemma last_cons {A} (l : list A) : forall x d, last (x :: l) d = last l x.
Proof. induction l as [|y l IH]; intros x d; [reflexivity|]. change (last (x :: y :: l) d) with (last (y :: l) d). rewrite !IH. reflexivity. Qed.
Lemma pw_adds_total k l : forall w, exists w', pw_adds k w l = Some w' /\ w_last w' = last (map fst l) (w_last w).
Proof.
  induction l as [|p l IH]; intros w; [exists w; split; reflexivity|]. cbn [pw_adds map]. destruct (pw_add_total k w p) as (w1 & E & Hl). rewrite E. cbn [obind].
  destruct (IH w1) as (w' & E' & Hl'). exists w'. split; auto. rewrite Hl', Hl, last_cons. reflexivity.
Qed.
(* the assertion of the loop *)
Fixpoint rising (d : Z) (l : list post) : Prop := match l with [] => True | p :: t => (fst p = 0 \/ d < fst p) /\ rising (fst p) t end.
Lemma rising_app a : forall d b, rising d (a ++ b) -> rising d a /\ rising (last (map fst a) d) b.
Proof.
  induction a as [|p a IH]; intros d b H; [split; auto; exact Logic.I|]. cbn [app rising] in H. destruct H as (H1 & H2). destruct (IH _ _ H2) as (H3 & H4). split; [split; auto|].
  cbn [map]. rewrite last_cons. exact H4.
Qed.
Lemma rising_sorted l : Forall (fun p => 0 <= fst p) l -> StronglySorted (fun a b => fst a < fst b) l -> forall d, (match l with p :: _ => fst p = 0 \/ d < fst p | [] => True end) -> rising d l.
Proof.
  intros HF HS. induction HS as [|p l HS IH Hp]; intros d Hd; [exact Logic.I|]. split; auto. apply IH; [inversion HF; auto|]. destruct l as [|q l]; auto. right. inversion Hp; auto.
Qed.

(* ---------- the documents of one segment *)
Section SEG.
  Variable kn : nat.
  Hypothesis Hkn : (1 <= kn)%nat.
  Variable P : list post.
  Hypothesis HP : plist_ok P.
  Variables pre tl ppre ptl : list Z.
  Variable m : smi.
  Variable base : nat.
  Notation del := (dels (m_in m)).
  Hypothesis Hmap : forall p, In p P -> del (fst p) = false -> new_doc m (fst p) = Some (Z.of_nat (base + rank del (Z.to_nat (fst p)))).
  Notation live := (live kn P true pre tl ppre ptl).

  Lemma first_ok_skip c p t : first_ok (fun d => negb (del d)) (skipn c P) = Some (p, t) -> In p P /\ del (fst p) = false /\ renum base del (skipn c P) = (Z.of_nat (base + rank del (Z.to_nat (fst p))), snd p) :: renum base del t.
  Proof.
    assert (Hin : forall q, In q (skipn c P) -> In q P). { intros q Hq. rewrite <- (firstn_skipn c P). apply in_or_app. auto. }
    revert Hin. generalize (skipn c P) as l. induction l as [|q l IH]; intros Hin E; [discriminate|]. cbn [first_ok] in E. unfold renum in *. cbn [filter]. destruct (del (fst q)) eqn:Ed; cbn [negb] in *.
    - apply IH; auto. intros q' Hq. apply Hin. right. auto.
    - apply some_inj in E. injection E as -> ->. split; [apply Hin; left; auto|]. split; auto.
  Qed.
  Lemma first_ok_none l : first_ok (fun d => negb (del d)) l = None -> renum base del l = [].
  Proof. unfold renum. induction l as [|q l IH]; intros E; [reflexivity|]. cbn [first_ok filter] in *. destruct (del (fst q)); cbn [negb] in *; [auto|discriminate]. Qed.
  Lemma append_docs_ok k : forall fuel c s e w, (length P - c < fuel)%nat -> live e c s (pby (skipn c P)) -> rising (w_last w) (renum base del (skipn c P)) ->
    exists w' e', append_docs fuel k m w e = Some (w', e') /\ pw_adds k w (renum base del (skipn c P)) = Some w'.
  Proof.
    induction fuel as [|fuel IH]; intros c s e w Hf L HR; [lia|]. cbn [append_docs]. unfold stde_next. pose proof (l_c _ _ _ _ _ _ _ _ _ _ _ L) as Hc.
    destruct (next_loop_ok kn Hkn P HP true pre tl ppre ptl del (Z.to_nat (p_df e - p_count e)) e c s) as (b & e1 & E & _ & _ & HM).
    { rewrite (l_df _ _ _ _ _ _ _ _ _ _ _ L), (l_count _ _ _ _ _ _ _ _ _ _ _ L). lia. } { exact L. }
    rewrite E. cbn [obind fst snd]. destruct (first_ok (fun d => negb (del d)) (skipn c P)) as [[p t]|] eqn:EF.
    - destruct HM as (-> & H1 & H2 & c' & H3 & H4 & H5). destruct (first_ok_skip c p t EF) as (Hin & Hd & HE). rewrite HE in *. cbn [rising] in HR. destruct HR as (HR1 & HR2). cbn [fst] in HR1, HR2.
      rewrite H1, (Hmap p Hin Hd). cbn [obind]. rewrite H2, (l_prx _ _ _ _ _ _ _ _ _ _ _ H5 eq_refl). unfold freq. rewrite <- app_assoc, sm_doc_eq by exact HR1.
      destruct (pw_add_total k w (Z.of_nat (base + rank del (Z.to_nat (fst p))), snd p)) as (w1 & Ew & Hl). rewrite Ew. cbn [obind fst snd pw_adds]. rewrite Ew. cbn [obind]. rewrite <- H4. apply (IH c' s).
      + pose proof (l_c _ _ _ _ _ _ _ _ _ _ _ H5). lia.
      + eapply live_set; [exact H5|]. intros _. rewrite H4. reflexivity.
      + rewrite Hl, H4. exact HR2.
    - destruct HM as (-> & _). exists w, e1. split; auto. rewrite (first_ok_none _ EF). reflexivity.
  Qed.
  Lemma seek_live k' e j : k' = Z.of_nat kn -> same_ti (Z.of_nat kn) j (mkTi (Z.of_nat (length P)) (Z.of_nat (length pre)) (Z.of_nat (length ppre)) (Z.of_nat (length (fby 0 P)))) ->
    live (stpe_seek_ti (frqf kn P pre tl) (prxf P ppre ptl) k' e (Some j)) 0 0 (pby (skipn 0 P)).
  Proof.
    intros -> (S1 & S2 & S3 & S4). cbn [ti_df ti_frq ti_prx ti_skip] in *.
    assert (Hq : Z.quot (Z.of_nat (length P)) (Z.of_nat kn) = Z.of_nat (length P / kn)) by (rewrite Z.quot_div_nonneg by lia; rewrite Nat2Z.inj_div; reflexivity).
    assert (H0 : pt kn 0 = 0%nat) by reflexivity.
    assert (HF : seek (frqf kn P pre tl) (ti_frq j) = fby (D P 0) (skipn 0 P) ++ sby kn P 0 (length P / kn) ++ tl) by (rewrite S2; unfold frqf; apply seek_app; reflexivity).
    assert (HX : seek (prxf P ppre ptl) (ti_prx j) = pby P ++ ptl) by (rewrite S3; unfold prxf; apply seek_app; reflexivity).
    assert (HF0 : F P 0 = 0%nat) by reflexivity. assert (HX0 : X P 0 = 0%nat) by reflexivity. assert (HD0 : D P 0 = 0) by reflexivity.
    constructor; unfold stpe_seek_ti, stde_seek_ti; cbn [set_prx p_frq p_prx p_skip p_count p_df p_doc p_freq p_sdoc p_scount p_num p_fptr p_pptr p_sptr p_have p_pcnt p_posn];
      rewrite ?H0, ?HF0, ?HX0, ?HD0, ?S1; auto; try lia; try apply Nat.le_0_l; try (intros Hk; rewrite S4 by lia; lia).
  Qed.
  Lemma append_seg_ok k k' e j w : k' = Z.of_nat kn -> same_ti (Z.of_nat kn) j (mkTi (Z.of_nat (length P)) (Z.of_nat (length pre)) (Z.of_nat (length ppre)) (Z.of_nat (length (fby 0 P)))) ->
    rising (w_last w) (renum base del P) ->
    let e1 := stpe_seek_ti (frqf kn P pre tl) (prxf P ppre ptl) k' e (Some j) in
    exists w' e', append_docs (S (Z.to_nat (p_df e1))) k m w e1 = Some (w', e') /\ pw_adds k w (renum base del P) = Some w'.
  Proof.
    intros Hk Hj HR e1. pose proof (seek_live k' e j Hk Hj) as L. fold e1 in L. apply (append_docs_ok k _ 0%nat 0%nat e1 w); auto. rewrite (l_df _ _ _ _ _ _ _ _ _ _ _ L). lia.
  Qed.
End SEG.
