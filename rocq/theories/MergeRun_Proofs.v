(* Merging segments: what is read from the merged one. *)
From Coq Require Import Sorting.Permutation.
From Verif Require Import Util Codec_Model Codec_Spec Codec_Proofs Seg_Model Seg_Spec SegCodec_Proofs Strcmp Dict_Model Dict_Spec DictCodec_Proofs Dict_Proofs DictCursor_Proofs Post_Model Post_Spec Post_Proofs PostRun_Proofs PQueue_Model PQueue_Spec PQueue_Proofs Multi_Model Mte_Model Mte_Spec Mte_Proofs Merge_Model Merge_Spec Merge_Proofs MergeBuf_Proofs MergeTerms_Proofs.
Open Scope Z_scope.

Lemma lays_cok s x : mseg_ok s -> lays s x -> exists c, cok c /\ c_s c = s /\ c_x c = x.
Proof.
  intros Hs ((I & kn & H1 & H2 & H3 & H4 & E1) & E2 & E3 & E4). pose proof Hs as (Hi & _). unfold dw_flush in E1. destruct (write_fields_ok kn H3 (s_fs s) [] []) as (frq & prx & ds & Ew & Hl). rewrite Ew in E1. cbn [obind fst snd] in E1.
  destruct (write_dict (Z.of_nat I) (Z.of_nat kn) ds) as [d|] eqn:Ed; cbn [obind] in E1; [|discriminate]. apply some_inj in E1.
  pose proof (dict_ok_of kn H3 _ _ _ _ Hi Hl) as Hd. exists (mkC s x I kn ds). split; [|split; reflexivity]. unfold cok. cbn [c_k c_s c_x c_ds c_I]. rewrite <- E1 in *. cbn [g_frq g_prx g_dict] in *. splits; auto.
  apply opened_ok; [split; [exact H1|split; [exact H2|split; [cbn [g_skip]; lia|exact Hd]]]|split; auto].
Qed.
Lemma lays_all ss xs : Forall mseg_ok ss -> Forall2 lays ss xs -> exists cs, Forall cok cs /\ map c_s cs = ss /\ map c_x cs = xs.
Proof.
  intros HF H. revert HF. induction H as [|s x ss xs H1 H2 IH]; intros HF; [exists []; splits; constructor|]. inversion HF as [|? ? HF1 HF2]; subst. destruct (IH HF2) as (cs & C1 & C2 & C3). destruct (lays_cok s x HF1 H1) as (c & D1 & D2 & D3).
  exists (c :: cs). cbn [map]. splits; [constructor; auto|congruence|congruence].
Qed.

(* ---------- the documents of the merged segment *)
Lemma postings_seg s n t : inv_ok (s_fs s) -> plist_ok (postings (s_fs s) n t).
Proof.
  intros (HF & _). unfold postings. assert (Hn : plist_ok []) by (split; [constructor|split; [constructor|cbn; lia]]). destruct (find _ (s_fs s)) as [[m l]|] eqn:E; auto. apply find_some in E. destruct E as (Hin & _). rewrite Forall_forall in HF. destruct (HF _ Hin) as (_ & H & _). cbn [snd] in H.
  destruct (find (fun x => seqb (fst x) t) l) as [[t1 P]|] eqn:E1; auto. apply find_some in E1. destruct E1 as (Hi & _). rewrite Forall_forall in H. apply (H _ Hi).
Qed.
Lemma postings_max s n t : mseg_ok s -> Forall (fun p => 0 <= fst p < Z.of_nat (s_max s)) (postings (s_fs s) n t).
Proof.
  intros (Hi & HM). pose proof (postings_seg s n t Hi) as (HP & _). rewrite Forall_forall in *. intros p Hp. pose proof (HP p Hp) as (H0 & _). split; [lia|]. clear HP H0. unfold postings in Hp. destruct (find _ (s_fs s)) as [[m l]|] eqn:E; [|destruct Hp]. apply find_some in E. destruct E as (Hin & _). specialize (HM _ Hin). cbn [snd] in HM.
  destruct (find (fun x => seqb (fst x) t) l) as [[t1 P]|] eqn:E1; [|destruct Hp]. apply find_some in E1. destruct E1 as (Hi1 & _). rewrite Forall_forall in HM. specialize (HM _ Hi1). cbn [snd] in HM. rewrite Forall_forall in HM. auto.
Qed.
Lemma renum_range b s n t : mseg_ok s -> Forall (fun p => Z.of_nat b <= fst p < Z.of_nat (b + live_docs s)) (renum b (dead s) (postings (s_fs s) n t)).
Proof.
  intros Hs. pose proof (postings_max s n t Hs) as HP. apply Forall_forall. intros p Hp. unfold renum in Hp. apply in_map_iff in Hp. destruct Hp as (q & <- & Hq). apply filter_In in Hq. destruct Hq as (Hq & Hd). apply negb_true_iff in Hd. rewrite Forall_forall in HP. specialize (HP q Hq). cbn [fst]. unfold live_docs.
  pose proof (rank_lt (dead s) (Z.to_nat (fst q)) (s_max s) ltac:(lia)) as H. rewrite Z2Nat.id in H by lia. specialize (H Hd). lia.
Qed.
Lemma renum_sorted b del l : Forall (fun p => 0 <= fst p) l -> StronglySorted (fun a b : post => fst a < fst b) l -> StronglySorted (fun a b : post => fst a < fst b) (renum b del l).
Proof.
  intros HF HS. unfold renum. apply (sorted_map (fun a b : post => del (fst a) = false /\ 0 <= fst a < fst b)).
  - intros x y _ _ (Hd & H). cbn [fst]. pose proof (rank_lt del (Z.to_nat (fst x)) (Z.to_nat (fst y)) ltac:(lia)) as HR. rewrite Z2Nat.id in HR by lia. specialize (HR Hd). lia.
  - induction HS as [|a l HS IH Ha]; cbn [filter]; [constructor|]. inversion HF as [|? ? H0 HF']; subst. destruct (del (fst a)) eqn:Ed; cbn [negb]; auto. constructor; auto. rewrite Forall_forall in *. intros y Hy. apply filter_In in Hy. destruct Hy as (Hy & _). specialize (Ha y Hy). split; [auto|lia].
Qed.
Lemma sorted_app {A} (R : A -> A -> Prop) a b : StronglySorted R a -> StronglySorted R b -> (forall x y, In x a -> In y b -> R x y) -> StronglySorted R (a ++ b).
Proof. intros Ha Hb H. induction Ha as [|x a Ha IH HF]; auto. cbn [app]. constructor; [apply IH; intros; apply H; auto; right; auto|]. apply Forall_app. split; auto. apply Forall_forall. intros y Hy. apply H; auto. left; auto. Qed.
Lemma gather_ok n t : forall ss b, Forall mseg_ok ss -> Forall (fun p => Z.of_nat b <= fst p < Z.of_nat (b + total ss) /\ Forall (fun x => 0 <= x < 2 ^ 31) (snd p) /\ freq p < 2 ^ 31) (gather b ss n t) /\
  StronglySorted (fun a b : post => fst a < fst b) (gather b ss n t).
Proof.
  induction ss as [|s ss IH]; intros b HF; cbn [gather]; [split; constructor|]. inversion HF as [|? ? H1 H2]; subst. destruct (IH (b + live_docs s)%nat H2) as (I1 & I2). pose proof (renum_range b s n t H1) as HR. cbn [total fold_right]. fold (total ss). split.
  - apply Forall_app. split.
    + rewrite Forall_forall in *. intros p Hp. specialize (HR p Hp). split; [lia|]. unfold renum in Hp. apply in_map_iff in Hp. destruct Hp as (q & <- & Hq). apply filter_In in Hq. destruct Hq as (Hq & _). pose proof (postings_seg s n t (proj1 H1)) as (HP & _). rewrite Forall_forall in HP. destruct (HP q Hq) as (_ & Q1 & Q2). unfold freq in *. cbn [snd]. auto.
    + eapply Forall_impl; [|exact I1]. cbv beta. intros p (Hp & Hq). split; auto. lia.
  - apply sorted_app; auto.
    + apply renum_sorted; [|apply (postings_seg s n t (proj1 H1))]. eapply Forall_impl; [|apply (postings_max s n t H1)]. cbv beta. lia.
    + intros x y Hx Hy. rewrite Forall_forall in *. specialize (HR x Hx). specialize (I1 y Hy). cbv beta in *. lia.
Qed.
Lemma gather_rising n t ss : Forall mseg_ok ss -> rising 0 (gather O ss n t).
Proof.
  intros H. destruct (gather_ok n t ss O H) as (H1 & H2). apply rising_sorted; auto.
  - eapply Forall_impl; [|exact H1]. cbv beta. intros p Hp. lia.
  - destruct (gather 0 ss n t) as [|p l]; auto. inversion H1 as [|? ? Hp _]; subst. lia.
Qed.
Lemma all_terms_in ss n t : In t (all_terms ss n) <-> exists s, In s ss /\ In t (map fst (field_terms (s_fs s) n)).
Proof.
  unfold all_terms. rewrite ins_in, in_map_iff. split.
  - intros (x & <- & Hx). apply in_concat in Hx. destruct Hx as (l & Hl & Hx). apply in_map_iff in Hl. destruct Hl as (s & <- & Hs). exists s. split; auto. apply in_map. auto.
  - intros (s & Hs & Ht). apply in_map_iff in Ht. destruct Ht as (x & <- & Hx). exists x. split; auto. apply in_concat. exists (field_terms (s_fs s) n). split; auto. apply in_map_iff. exists s. auto.
Qed.
Lemma merged_field_ok ss n : Forall mseg_ok ss -> Z.of_nat (total ss) <= 2 ^ 30 -> Forall (fun x => Z.of_nat (weight (snd x)) < 2 ^ 32) (merged_field ss n) ->
  Forall (fun x => term_ok (fst x) /\ plist_ok (snd x)) (merged_field ss n) /\ StronglySorted (fun a b => slt (fst a) (fst b)) (merged_field ss n) /\
  Forall (fun x => Forall (fun p => fst p < Z.of_nat (total ss)) (snd x)) (merged_field ss n).
Proof.
  intros HF HT HW. unfold merged_field in *. splits.
  - rewrite Forall_forall in *. intros x Hx. specialize (HW x Hx). apply filter_In in Hx. destruct Hx as (Hx & _). apply in_map_iff in Hx. destruct Hx as (t & <- & Ht). cbn [fst snd] in *. split.
    + apply all_terms_in in Ht. destruct Ht as (s & Hs & Ht). destruct (HF s Hs) as ((HI & _) & _). unfold field_terms in Ht. destruct (find _ (s_fs s)) as [[m l]|] eqn:E; [|destruct Ht]. apply find_some in E. destruct E as (Hin & _). rewrite Forall_forall in HI. destruct (HI _ Hin) as (_ & H & _). cbn [snd] in H. apply in_map_iff in Ht. destruct Ht as (x & <- & Hx). rewrite Forall_forall in H. apply (H _ Hx).
    + destruct (gather_ok n t ss O ltac:(apply Forall_forall; auto)) as (G1 & G2). split; [|split; auto].
      * eapply Forall_impl; [|exact G1]. cbv beta. intros p (Hp & Hq). split; auto. cbn [Nat.add] in Hp. lia.
      * unfold weight in HW. lia.
  - apply sorted_filter. apply (sorted_map slt); [intros; auto|]. apply ins_sorted.
  - apply Forall_forall. intros x Hx. apply filter_In in Hx. destruct Hx as (Hx & _). apply in_map_iff in Hx. destruct Hx as (t & <- & Ht). cbn [snd]. eapply Forall_impl; [|apply (gather_ok n t ss O HF)]. cbv beta. intros p (Hp & _). cbn [Nat.add] in Hp. lia.
Qed.
Lemma merged_inv nf ss : Forall mseg_ok ss -> fits nf ss -> mseg_ok (mkMseg (merged nf ss) (total ss) None).
Proof.
  intros HF (F1 & F2 & F3 & F4 & F5). assert (HN : map fst (merged nf ss) = map Z.of_nat (seq 0 nf)) by (unfold merged; rewrite map_map; reflexivity).
  assert (HA : forall f, In f (merged nf ss) -> exists m, f = (Z.of_nat m, merged_field ss (Z.of_nat m)) /\ (m < nf)%nat). { intros f Hf. unfold merged in Hf. apply in_map_iff in Hf. destruct Hf as (m & <- & Hm). apply in_seq in Hm. exists m. split; auto. lia. }
  rewrite Forall_forall in F3. unfold mseg_ok. cbn [s_fs s_max]. split.
  - unfold inv_ok. splits; auto.
    + apply Forall_forall. intros f Hf. destruct (F3 f Hf) as (L & W). destruct (HA f Hf) as (m & -> & Hm). cbn [fst snd] in *. destruct (merged_field_ok ss _ HF F1 W) as (M1 & M2 & _). splits; auto; lia.
    + rewrite HN. apply FinFun.Injective_map_NoDup; [intros a b; lia|apply seq_NoDup].
    + unfold merged. rewrite map_length, seq_length. exact F2.
  - apply Forall_forall. intros f Hf. destruct (F3 f Hf) as (_ & W). destruct (HA f Hf) as (m & -> & Hm). cbn [snd] in *. apply (merged_field_ok ss _ HF F1 W).
Qed.
Lemma find_seq (F : Z -> list (list Z * list post)) n : 0 <= n -> forall nf b, Z.of_nat b <= n -> n < Z.of_nat (b + nf) -> find (fun x => fst x =? n) (map (fun i => (Z.of_nat i, F (Z.of_nat i))) (seq b nf)) = Some (n, F n).
Proof. intros H0. induction nf as [|nf IH]; intros b H1 H2; [lia|]. cbn [seq map find fst]. destruct (Z.eqb_spec (Z.of_nat b) n) as [<-|]; auto. apply IH; lia. Qed.
Lemma merged_postings nf ss n t : Forall mseg_ok ss -> 0 <= n < Z.of_nat nf -> postings (merged nf ss) n t = gather O ss n t.
Proof.
  intros HF Hn. unfold postings, merged. rewrite find_seq by lia. unfold merged_field.
  assert (HE : forall L, find (fun x : list Z * list post => seqb (fst x) t) (filter keep (map (fun t => (t, gather O ss n t)) L)) = if existsb (fun y => seqb y t) L && keep (t, gather O ss n t) then Some (t, gather O ss n t) else None).
  { induction L as [|y L IH]; [reflexivity|]. cbn [map filter existsb]. destruct (keep (y, gather 0 ss n y)) eqn:Ek.
    - cbn [find fst]. destruct (seqb y t) eqn:E; cbn [orb]; [|exact IH]. apply seqb_spec in E. subst y. rewrite Ek. reflexivity.
    - destruct (seqb y t) eqn:E; cbn [orb]; [|exact IH]. rewrite IH. apply seqb_spec in E. subst y. rewrite Ek, !andb_false_r. reflexivity. }
  rewrite HE. destruct (existsb (fun y => seqb y t) (all_terms ss n)) eqn:Ex; cbn [andb].
  - destruct (gather 0 ss n t) eqn:Eg; cbn [keep snd]; auto.
  - assert (Hg : forall ss' b, (forall s, In s ss' -> In s ss) -> gather b ss' n t = []); [|rewrite Hg; auto]. induction ss' as [|s ss' IH]; intros b Hi; [reflexivity|]. cbn [gather]. rewrite IH by (intros; apply Hi; right; auto). rewrite app_nil_r.
    assert (postings (s_fs s) n t = []) as ->; [|reflexivity]. unfold postings. destruct (find (fun x : Z * list (list Z * list post) => fst x =? n) (s_fs s)) as [[m l]|] eqn:E; auto. destruct (find (fun x : list Z * list post => seqb (fst x) t) l) as [[t1 P]|] eqn:E1; auto. apply find_some in E1. destruct E1 as (H1 & H2).
    exfalso. assert (existsb (fun y => seqb y t) (all_terms ss n) = true); [|congruence]. apply existsb_exists. exists t1. split; auto. apply all_terms_in. exists s. split; [apply Hi; left; auto|]. unfold field_terms. rewrite E. apply in_map_iff. exists (t1, P). auto.
Qed.

(* ---------- all together *)
Lemma merge_flush I kn buf0 nf ss xs : (1 <= I)%nat -> Z.of_nat I < 2 ^ 31 -> (1 <= kn)%nat -> Z.of_nat kn < 2 ^ 31 -> Forall mseg_ok ss -> Forall2 lays ss xs -> Forall (short I) ss -> fits nf ss -> length buf0 = buf_alloc I ->
  exists x, sm_merge_terms I (Z.of_nat kn) buf0 nf xs = Some (i_seg x) /\ mseg_ok (mkMseg (merged nf ss) (total ss) None) /\ lays (mkMseg (merged nf ss) (total ss) None) x /\
    (forall pos os, Forall (okop kn pos) os -> tde_run pos (i_seg x) (i_sfi x) (tir_open, tde_new (g_frq (i_seg x)) (g_prx (i_seg x))) os = Some (pspec_run (merged nf ss) ([], []) os)) /\
    dw_flush (Z.of_nat I) (Z.of_nat kn) (merged nf ss) = Some (i_seg x) /\
    forall f t, 0 <= f < Z.of_nat nf -> tde_run true (i_seg x) (i_sfi x) (tir_open, tde_new (g_frq (i_seg x)) (g_prx (i_seg x))) (PSeek f t :: walk (gather O ss f t)) = Some (PUnit :: walked (gather O ss f t)).
Proof.
  intros HI HI2 Hk Hk2 HF HL HS Hfit Hb. pose proof (merged_inv nf ss HF Hfit) as Hm. destruct (post_run I kn (merged nf ss) HI HI2 Hk Hk2 (proj1 Hm)) as (g & s & E1 & E2 & E3). destruct (enumeration I kn (merged nf ss) HI HI2 Hk Hk2 (proj1 Hm)) as (g' & s' & E1' & E2' & E4).
  rewrite E1 in E1'. apply some_inj in E1'. subst g'. rewrite E2 in E2'. apply some_inj in E2'. subst s'. exists (mkMin g s (total ss) None). cbn [i_seg i_sfi]. splits; auto.
  - destruct (lays_all ss xs HF HL) as (cs & C1 & C2 & C3). set (B := (((I + 1) * MAX_WORD_SIZE + 1) / (I + 2))%nat).
    assert (HB : ((I + 2) * B <= buf_size I + 1)%nat) by (unfold buf_size, B; apply Nat.mul_div_le; lia).
    subst ss xs. apply (merge_terms_ok I B kn); auto.
    + unfold buf_size in HB. rewrite !Nat.mul_add_distr_r in HB. change MAX_WORD_SIZE with 255%nat in *. nia.
    + intros n c Hc. apply Forall_forall. intros x Hx. rewrite Forall_forall in HS. specialize (HS (c_s c) ltac:(apply in_map; auto)). unfold short in HS. unfold UU, field_terms in Hx. destruct (find _ (s_fs (c_s c))) as [[m l]|] eqn:E; [|destruct Hx]. apply find_some in E. destruct E as (Hin & _). rewrite Forall_forall in HS. specialize (HS _ Hin). cbn [snd] in HS. rewrite Forall_forall in HS. specialize (HS x Hx).
      unfold B. apply Nat.div_le_lower_bound; [lia|]. exact HS.
    + intros n t. apply gather_rising. auto.
  - unfold lays. cbn [i_seg i_sfi i_max i_del s_fs s_max s_del]. splits; auto. exists I, kn. splits; auto.
  - intros f t Hf. rewrite <- (merged_postings nf ss f t HF Hf). apply E4.
Qed.
Lemma gather_in n t p : forall ss b, In p (gather b ss n t) -> exists s q, In s ss /\ In q (postings (s_fs s) n t) /\ dead s (fst q) = false.
Proof.
  induction ss as [|s ss IH]; intros b H; [destruct H|]. cbn [gather] in H. apply in_app_or in H. destruct H as [H|H].
  - unfold renum in H. apply in_map_iff in H. destruct H as (q & _ & Hq). apply filter_In in Hq. destruct Hq as (Hq & Hd). apply negb_true_iff in Hd. exists s, q. splits; auto. left; auto.
  - destruct (IH _ H) as (s' & q & H1 & H2 & H3). exists s', q. splits; auto. right; auto.
Qed.
Lemma gather_some n t s q : forall ss b, In s ss -> In q (postings (s_fs s) n t) -> dead s (fst q) = false -> gather b ss n t <> [].
Proof.
  induction ss as [|s' ss IH]; intros b Hs Hq Hd E; [destruct Hs|]; destruct Hs as [->|Hs]; cbn [gather] in E; apply app_eq_nil in E; destruct E as (E1 & E2).
  - unfold renum in E1. assert (Hi : In q (filter (fun p => negb (dead s (fst p))) (postings (s_fs s) n t))) by (apply filter_In; split; auto; rewrite Hd; auto). destruct (filter _ (postings (s_fs s) n t)); [destruct Hi|discriminate].
  - exact (IH _ Hs Hq Hd E2).
Qed.
Lemma postings_term s n t q : In q (postings (s_fs s) n t) -> In t (map fst (field_terms (s_fs s) n)).
Proof.
  unfold postings, field_terms. destruct (find _ (s_fs s)) as [[m l]|]; [|intros []]. destruct (find (fun x => seqb (fst x) t) l) as [[t1 P]|] eqn:E; [|intros []]. intros _. apply find_some in E. destruct E as (H1 & H2). apply seqb_spec in H2. cbn [fst] in H2. subst t1. apply in_map_iff. exists (t, P). auto.
Qed.
Lemma merged_terms ss n t : In t (map fst (merged_field ss n)) <-> exists s p, In s ss /\ In p (postings (s_fs s) n t) /\ dead s (fst p) = false.
Proof.
  unfold merged_field. rewrite in_map_iff. split.
  - intros ([t' P] & E & H). cbn [fst] in E. subst t'. apply filter_In in H. destruct H as (H & Hk). apply in_map_iff in H. destruct H as (t' & E & _). injection E as -> <-. destruct (gather 0 ss n t) as [|p l] eqn:Eg; [discriminate|]. apply (gather_in n t p ss O). rewrite Eg. left; auto.
  - intros (s & p & H1 & H2 & H3). exists (t, gather O ss n t). split; auto. apply filter_In. split.
    + apply in_map_iff. exists t. split; auto. apply all_terms_in. exists s. split; auto. eapply postings_term; eauto.
    + pose proof (gather_some n t s p ss O H1 H2 H3) as Hg. destruct (gather 0 ss n t); [congruence|reflexivity].
Qed.
Lemma merge_run I kn buf0 nf ss xs : (1 <= I)%nat -> Z.of_nat I < 2 ^ 31 -> (1 <= kn)%nat -> Z.of_nat kn < 2 ^ 31 -> Forall mseg_ok ss -> Forall2 lays ss xs -> Forall (short I) ss -> fits nf ss -> length buf0 = buf_alloc I ->
  exists x, sm_merge_terms I (Z.of_nat kn) buf0 nf xs = Some (i_seg x) /\ mseg_ok (mkMseg (merged nf ss) (total ss) None) /\ lays (mkMseg (merged nf ss) (total ss) None) x /\
    (forall pos os, Forall (okop kn pos) os -> tde_run pos (i_seg x) (i_sfi x) (tir_open, tde_new (g_frq (i_seg x)) (g_prx (i_seg x))) os = Some (pspec_run (merged nf ss) ([], []) os)) /\
    forall f t, 0 <= f < Z.of_nat nf -> tde_run true (i_seg x) (i_sfi x) (tir_open, tde_new (g_frq (i_seg x)) (g_prx (i_seg x))) (PSeek f t :: walk (gather O ss f t)) = Some (PUnit :: walked (gather O ss f t)).
Proof. intros. destruct (merge_flush I kn buf0 nf ss xs) as (x & X1 & X2 & X3 & X4 & _ & X5); auto. exists x. splits; auto. Qed.
