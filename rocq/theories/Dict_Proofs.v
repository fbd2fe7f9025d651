From Verif Require Import Util Codec_Model Codec_Spec Codec_Proofs Seg_Model SegCodec_Proofs Strcmp Dict_Model Dict_Spec DictCodec_Proofs.
Open Scope Z_scope.

(* ---------- lists *)
Lemma last_snoc {A} (l : list A) x d : last (l ++ [x]) d = x.
Proof. induction l as [|a l IH]; [reflexivity|]. destruct l; [reflexivity|]. exact IH. Qed.
Lemma last_nth {A} (l : list A) d : last l d = nth (length l) (d :: l) d.
Proof.
  destruct l as [|a l] using rev_ind; [reflexivity|]. rewrite last_snoc, app_length. cbn [length]. replace (length l + 1)%nat with (S (length l)) by lia.
  cbn [nth]. rewrite app_nth2 by lia. rewrite Nat.sub_diag. reflexivity.
Qed.
Lemma sorted_nth {A} (R : A -> A -> Prop) l d : StronglySorted R l -> forall i j, (i < j)%nat -> (j < length l)%nat -> R (nth i l d) (nth j l d).
Proof.
  induction 1 as [|a l HS IH HF]; intros i j Hij Hj; [cbn in Hj; lia|]. destruct j; [lia|]. destruct i; cbn [nth length] in *.
  - rewrite Forall_forall in HF. apply HF. apply nth_In. lia.
  - apply IH; lia.
Qed.
Lemma seek_app a b n : n = Z.of_nat (length a) -> seek (a ++ b) n = b.
Proof. intros ->. unfold seek. rewrite Nat2Z.id. apply skipn_app_exact. Qed.

Section D.
  Variable I : nat.
  Variable K : Z.
  Hypothesis HI : (1 <= I)%nat.
  Notation blk := (blk K). Notation ent := (ent K).

  Definition T (L : list entry) (p : nat) : entry := nth p (entry0 :: L) entry0.
  Definition off (L : list entry) (p : nat) : nat := length (blk entry0 (firstn p L)).
  Definition nix (n : nat) : nat := ((n + I - 1) / I)%nat.
  Definition ix (base : nat) (L : list entry) : list (entry * nat) :=
    map (fun j => (T L (I * j), base + off L (I * j)))%nat (seq 0 (nix (length L))).
  Definition eint (z : Z) : list Z := match enc_int z with Some b => b | None => [] end.
  Definition venc (z : Z) : list Z := match enc_vint z with Some b => b | None => [] end.
  Fixpoint xblk (prev : entry) (pp : nat) (l : list (entry * nat)) : list Z :=
    match l with [] => [] | (e, p) :: l' => ent prev e ++ venc (Z.of_nat p - Z.of_nat pp) ++ xblk e p l' end.

  Lemma eint_some z : enc_int z = Some (eint z).
  Proof. unfold eint. destruct (enc_int_some z) as (b & ->). reflexivity. Qed.
  Lemma venc_some z : off_nonneg z -> enc_vint z = Some (venc z).
  Proof. intros H. unfold venc. destruct (enc_voff_some z H) as (b & ->). reflexivity. Qed.
  Lemma enc_v_len n : forall z b, enc_v n z = Some b -> (length b <= n)%nat.
  Proof.
    induction n as [|n IH]; intros z b; cbn [enc_v]; [discriminate|]. destruct (z >? 127).
    - destruct (enc_v n _) eqn:E; cbn [obind]; [|discriminate]. intros H. apply some_inj in H. subst b. cbn [length]. apply IH in E. lia.
    - intros H. apply some_inj in H. subst b. cbn. lia.
  Qed.
  Lemma enc_vint_len z b : enc_vint z = Some b -> (length b <= 10)%nat.
  Proof. apply enc_v_len. Qed.
  Lemma venc_len z : (length (venc z) <= 10)%nat.
  Proof. unfold venc. destruct (enc_vint z) eqn:E; [exact (enc_vint_len _ _ E)|cbn; lia]. Qed.
  Lemma ent_len p c : (length (fst c) < 255)%nat -> (length (ent p c) <= 320)%nat.
  Proof.
    intros Hc. unfold DictCodec_Proofs.ent. destruct (enc_entry _ _ _ _ _) eqn:E; [|cbn; lia]. unfold enc_entry in E.
    assert (HE : forall z b, enc_int z = Some b -> (length b <= 10)%nat) by (intros z b; unfold enc_int; apply enc_vint_len).
    odestruct E. rewrite !app_length, skipn_length.
    repeat match goal with H : enc_int _ = Some _ |- _ => apply HE in H | H : enc_vint _ = Some _ |- _ => apply enc_vint_len in H end.
    assert (length a4 <= 10)%nat. { destruct (K <=? ti_df (snd c)); [eapply enc_vint_len; eauto|]. apply some_inj in Ea4. subst. cbn. lia. }
    lia.
  Qed.
  Lemma blk_len l : forall p, Forall entry_ok l -> (length (blk p l) <= 320 * length l)%nat.
  Proof.
    induction l as [|c l IH]; intros p H; [cbn; lia|]. cbn [DictCodec_Proofs.blk length]. rewrite app_length. pose proof (IH c (Forall_inv_tail H)).
    pose proof (ent_len p c (proj2 (proj1 (Forall_inv H)))). lia.
  Qed.
  Lemma xblk_len l : forall p q, Forall (fun x => entry_ok (fst x)) l -> (length (xblk p q l) <= 330 * length l)%nat.
  Proof.
    induction l as [|[c r] l IH]; intros p q H; [cbn; lia|]. cbn [xblk length]. rewrite !app_length. pose proof (IH c r (Forall_inv_tail H)).
    pose proof (ent_len p c (proj2 (proj1 (Forall_inv H)))). pose proof (venc_len (Z.of_nat r - Z.of_nat q)). lia.
  Qed.

  (* ---------- the entries of a field *)
  Lemma entry0_ok : entry_ok entry0.
  Proof. unfold entry_ok, term_ok, ti_ok; cbn; repeat split; auto; lia. Qed.
  Lemma T_ok L p : Forall entry_ok L -> entry_ok (T L p).
  Proof.
    intros H. destruct p as [|p]; cbn; [apply entry0_ok|]. destruct (Nat.lt_ge_cases p (length L)).
    - rewrite Forall_forall in H. apply H. apply nth_In. auto.
    - rewrite nth_overflow by auto. apply entry0_ok.
  Qed.
  Lemma ti_le_refl a : ti_le a a. Proof. split; lia. Qed.
  Lemma T_le L p q : field_ok L -> (p <= q <= length L)%nat -> ti_le (snd (T L p)) (snd (T L q)).
  Proof.
    intros (H1 & H2 & H3 & H4) Hpq. destruct (Nat.eq_dec p q) as [->|Hne]; [apply ti_le_refl|]. destruct q as [|q]; [lia|]. destruct p as [|p].
    - pose proof (T_ok L (S q) H1) as (_ & O). unfold ti_ok in O. change (T L 0) with entry0. unfold ti_le. change (ti_frq (snd entry0)) with 0. change (ti_prx (snd entry0)) with 0. lia.
    - exact (sorted_nth (fun a b => ti_le (snd a) (snd b)) L entry0 H3 p q ltac:(lia) ltac:(lia)).
  Qed.
  Lemma T_slt L p q : field_ok L -> (0 < p < q)%nat -> (q <= length L)%nat -> slt (fst (T L p)) (fst (T L q)).
  Proof.
    intros (H1 & H2 & H3 & H4) Hpq Hq. destruct p as [|p]; [lia|]. destruct q as [|q]; [lia|].
    exact (sorted_nth (fun a b => slt (fst a) (fst b)) L entry0 H2 p q ltac:(lia) ltac:(lia)).
  Qed.
  Lemma T_app L c p : (p <= length L)%nat -> T (L ++ [c]) p = T L p.
  Proof. intros H. unfold T. destruct p as [|p]; [reflexivity|]. cbn [nth]. apply app_nth1. lia. Qed.
  Lemma T_last L : T L (length L) = last L entry0.
  Proof. symmetry. apply last_nth. Qed.
  Lemma T_S L p c : nth_error L p = Some c -> T L (S p) = c.
  Proof. intros H. unfold T. cbn [nth]. apply nth_error_nth with (1 := H). Qed.
  Lemma off_app L c p : (p <= length L)%nat -> off (L ++ [c]) p = off L p.
  Proof. intros H. unfold off. rewrite firstn_app. replace (p - length L)%nat with O by lia. cbn [firstn]. rewrite app_nil_r. reflexivity. Qed.
  Lemma off_all L : off L (length L) = length (blk entry0 L).
  Proof. unfold off. rewrite firstn_all. reflexivity. Qed.
  Lemma blk_split L p : (p <= length L)%nat -> blk entry0 L = blk entry0 (firstn p L) ++ blk (T L p) (skipn p L).
  Proof.
    intros H. rewrite <- (firstn_skipn p L) at 1. rewrite blk_app. f_equal. f_equal. rewrite last_nth. rewrite firstn_length, Nat.min_l by lia.
    unfold T. destruct p; [reflexivity|]. cbn [nth]. clear -H. revert L H. induction p; intros [|a L] H; cbn in *; try lia; [reflexivity|]. apply IHp. lia.
  Qed.

  Lemma nix_S n : nix (S n) = (nix n + if n mod I =? 0 then 1 else 0)%nat.
  Proof.
    unfold nix. pose proof (Nat.div_mod n I ltac:(lia)) as E. pose proof (Nat.mod_upper_bound n I ltac:(lia)) as B.
    set (q := (n / I)%nat) in *. set (r := (n mod I)%nat) in *. destruct (Nat.eqb_spec r 0) as [E0|E0].
    - replace (S n + I - 1)%nat with ((q + 1) * I + 0)%nat by lia. replace (n + I - 1)%nat with (q * I + (I - 1))%nat by lia.
      rewrite !Nat.div_add_l by lia. rewrite (Nat.div_small 0) by lia. rewrite (Nat.div_small (I - 1)) by lia. lia.
    - replace (S n + I - 1)%nat with ((q + 1) * I + r)%nat by lia. replace (n + I - 1)%nat with ((q + 1) * I + (r - 1))%nat by lia.
      rewrite !Nat.div_add_l by lia. rewrite (Nat.div_small r) by lia. rewrite (Nat.div_small (r - 1)) by lia. lia.
  Qed.
  Lemma nix_lt n j : (j < nix n)%nat <-> (I * j < n)%nat.
  Proof.
    unfold nix. split; intros H.
    - assert (Hm : (I * ((n + I - 1) / I) <= n + I - 1)%nat) by (apply Nat.mul_div_le; lia).
      assert (I * S j <= I * ((n + I - 1) / I))%nat by (apply Nat.mul_le_mono_l; lia). lia.
    - apply Nat.div_le_lower_bound; lia.
  Qed.
  Lemma nix_exact n : (n mod I = 0)%nat -> (I * nix n = n)%nat.
  Proof.
    intros H. pose proof (Nat.div_mod n I ltac:(lia)) as E. unfold nix. rewrite H in E.
    replace (n + I - 1)%nat with (n / I * I + (I - 1))%nat by lia. rewrite Nat.div_add_l by lia. rewrite (Nat.div_small (I - 1)) by lia. lia.
  Qed.
  Lemma ix_nil base : ix base [] = [].
  Proof. unfold ix, nix. cbn [length]. rewrite (Nat.div_small (0 + I - 1)) by lia. reflexivity. Qed.
  Lemma ix_snoc base L c : ix base (L ++ [c]) = ix base L ++ (if (length L mod I =? 0)%nat then [(last L entry0, base + length (blk entry0 L))%nat] else []).
  Proof.
    unfold ix. rewrite app_length. cbn [length]. replace (length L + 1)%nat with (S (length L)) by lia. rewrite nix_S.
    assert (E : forall k, (k <= nix (length L))%nat -> map (fun j => (T (L ++ [c]) (I * j), base + off (L ++ [c]) (I * j)))%nat (seq 0 k) = map (fun j => (T L (I * j), base + off L (I * j)))%nat (seq 0 k)).
    { intros k Hk. apply map_ext_in. intros j Hj. apply in_seq in Hj. assert (I * j < length L)%nat by (apply nix_lt; lia).
      rewrite T_app, off_app by lia. reflexivity. }
    destruct (Nat.eqb_spec (length L mod I) 0) as [E0|E0].
    - rewrite seq_app, map_app. cbn [seq map Nat.add]. f_equal; [apply E; lia|]. rewrite (nix_exact _ E0). rewrite T_app, off_app by lia. rewrite T_last, off_all. reflexivity.
    - rewrite Nat.add_0_r, app_nil_r. apply E. lia.
  Qed.
  Lemma xblk_app l1 : forall p q l2, xblk p q (l1 ++ l2) = xblk p q l1 ++ xblk (fst (last l1 (p, q))) (snd (last l1 (p, q))) l2.
  Proof.
    induction l1 as [|[c r] l1 IH]; intros p q l2; [reflexivity|]. cbn [app xblk]. rewrite IH, <- !app_assoc.
    replace (last ((c, r) :: l1) (p, q)) with (last l1 (c, r)); [reflexivity|]. clear. revert c r. induction l1 as [|[c' r'] l1 IH]; intros c r; [reflexivity|].
    change (last ((c, r) :: (c', r') :: l1) (p, q)) with (last ((c', r') :: l1) (p, q)). rewrite <- IH. rewrite IH. destruct l1; [reflexivity|]. cbn [last]. clear. revert p0. induction l1; intros; [reflexivity|]. cbn [last]. apply IHl1.
  Qed.
  Lemma ix_last_ok base L : field_ok L -> exists p, (p <= length L)%nat /\ last (ix base L) (entry0, O) = (T L p, snd (last (ix base L) (entry0, O))) /\ (snd (last (ix base L) (entry0, O)) <= base + off L p)%nat.
  Proof.
    intros HL. unfold ix. destruct (nix (length L)) as [|n] eqn:E.
    - exists O. cbn. repeat split; lia.
    - rewrite seq_S, map_app. cbn [map]. rewrite last_snoc. cbn [snd]. exists (I * n)%nat. cbn [Nat.add]. repeat split; try lia.
      pose proof (proj1 (nix_lt (length L) n)). lia.
  Qed.

  (* ---------- writing a field *)
  Record winv (w : tiw) (tis0 tix0 : list Z) (L : list entry) : Prop := {
    wi_tis : w_tis w = mkTw (tis0 ++ blk entry0 L) (Z.of_nat (length L)) (fst (last L entry0)) (snd (last L entry0));
    wi_tix : w_tix w = mkTw (tix0 ++ xblk entry0 0 (ix (length tis0) L)) (Z.of_nat (length (ix (length tis0) L)))
                            (fst (fst (last (ix (length tis0) L) (entry0, O)))) (snd (fst (last (ix (length tis0) L) (entry0, O))));
    wi_ptr : w_last_ptr w = Z.of_nat (snd (last (ix (length tis0) L) (entry0, O)));
    wi_int : w_interval w = Z.of_nat I;
    wi_skip : w_skip w = K }.
  Lemma field_ok_app L1 L2 : field_ok (L1 ++ L2) -> field_ok L1.
  Proof.
    intros (H1 & H2 & H3 & H4). split; [apply Forall_app in H1; tauto|]. assert (HS : forall R : entry -> entry -> Prop, StronglySorted R (L1 ++ L2) -> StronglySorted R L1).
    { intros R. clear. induction L1 as [|a L1 IH]; intros H; [constructor|]. inversion H; subst. constructor; [apply IH; auto|]. apply Forall_app in H3. tauto. }
    repeat split; [apply HS; auto|apply HS; auto|]. rewrite app_length in H4. lia.
  Qed.
  Lemma off_mono L p q : Forall entry_ok L -> (p <= q)%nat -> (off L p <= off L q)%nat.
  Proof.
    intros H Hpq. unfold off. replace (firstn q L) with (firstn p L ++ skipn p (firstn q L)).
    - rewrite blk_app, app_length. lia.
    - rewrite <- (firstn_skipn p (firstn q L)) at 2. rewrite firstn_firstn, Nat.min_l by lia. reflexivity.
  Qed.
  Lemma tiw_add_inv w tis0 tix0 L c : winv w tis0 tix0 L -> field_ok (L ++ [c]) -> Z.of_nat (length tis0 + length (blk entry0 L)) < 2 ^ 63 ->
    exists w', tiw_add w (fst c) (snd c) = Some w' /\ winv w' tis0 tix0 (L ++ [c]) /\ w_tfx w' = w_tfx w /\ w_fields w' = w_fields w.
  Proof.
    intros [Etis Etix Eptr Eint Eskip] HL HB. pose proof (field_ok_app _ _ HL) as HL0. pose proof HL as (HF & _ & _ & _). pose proof HL0 as (HF0 & _ & _ & _).
    assert (Hc : entry_ok c) by (apply Forall_app in HF; destruct HF as [_ HF]; exact (Forall_inv HF)).
    assert (Hlast : last L entry0 = T L (length L)) by (symmetry; apply T_last).
    assert (Hle : ti_le (snd (last L entry0)) (snd c)).
    { pose proof (T_le (L ++ [c]) (length L) (S (length L)) HL) as G. rewrite app_length in G. cbn [length] in G. specialize (G ltac:(lia)).
      rewrite T_app, T_last in G by lia. replace (T (L ++ [c]) (S (length L))) with c in G; [exact G|]. unfold T. cbn [nth]. rewrite app_nth2 by lia. rewrite Nat.sub_diag. reflexivity. }
    assert (Hp0 : entry_ok (last L entry0)) by (rewrite Hlast; apply T_ok; auto).
    assert (Hsnoc : blk entry0 (L ++ [c]) = blk entry0 L ++ ent (last L entry0) c). { rewrite blk_app. cbn [DictCodec_Proofs.blk]. rewrite app_nil_r. reflexivity. }
    assert (Hent : enc_entry K (fst (last L entry0)) (snd (last L entry0)) (fst c) (snd c) = Some (ent (last L entry0) c)).
    { apply enc_entry_some; auto; destruct Hp0 as (_ & O); unfold ti_ok in O; lia. }
    unfold tiw_add. rewrite Etis, Eint. cbn [tw_cnt tw_term tw_ti tw_out].
    assert (Emod : (Z.of_nat (length L) mod Z.of_nat I =? 0) = (length L mod I =? 0)%nat).
    { rewrite <- Nat2Z.inj_mod. destruct (Nat.eqb_spec (length L mod I) 0) as [->|Hne]; [reflexivity|]. apply Z.eqb_neq. lia. }
    rewrite Emod. pose proof (ix_snoc (length tis0) L c) as Eix. destruct (Nat.eqb_spec (length L mod I) 0) as [E0|E0].
    - destruct (ix_last_ok (length tis0) L HL0) as (p & Hp & Ep & Hoff).
      set (la := last (ix (length tis0) L) (entry0, O)) in *.
      assert (Hpe : entry_ok (fst la)) by (rewrite Ep; cbn [fst]; apply T_ok; auto).
      assert (Hix : enc_entry K (fst (fst la)) (snd (fst la)) (fst (last L entry0)) (snd (last L entry0)) = Some (ent (fst la) (last L entry0))).
      { apply enc_entry_some; auto; try (destruct Hpe as (_ & O); unfold ti_ok in O; lia). rewrite Ep. cbn [fst]. rewrite Hlast. apply T_le; auto. }
      assert (Hd : off_nonneg (Z.of_nat (length (tis0 ++ blk entry0 L)) - Z.of_nat (snd la))).
      { rewrite app_length. unfold off_nonneg. pose proof (off_mono L p (length L) HF0 Hp). rewrite off_all in H. lia. }
      unfold tw_add at 1. rewrite Etix. cbn [tw_term tw_ti tw_out tw_cnt]. rewrite Eskip. rewrite Hix. cbn [obind tw_out tw_cnt tw_term tw_ti]. rewrite Eptr.
      rewrite (venc_some _ Hd). cbn [obind w_tix w_tis w_tfx w_last_ptr w_fields w_interval w_skip]. unfold tw_add. cbn [tw_term tw_ti tw_out tw_cnt]. rewrite Hent. cbn [obind].
      eexists. split; [reflexivity|]. split; [|split; reflexivity]. constructor; cbn [w_tix w_tis w_tfx w_last_ptr w_fields w_interval w_skip]; auto.
      + rewrite Hsnoc, last_snoc, app_length. cbn [length]. rewrite <- app_assoc. f_equal. lia.
      + rewrite Eix, app_length, last_snoc. cbn [length fst snd]. rewrite xblk_app. fold la. cbn [xblk]. rewrite app_nil_r. rewrite <- !app_assoc.
        rewrite app_length. f_equal. cbn [length]. lia.
      + rewrite Eix, last_snoc. cbn [snd]. rewrite app_length. reflexivity.
    - cbn [obind]. unfold tw_add. rewrite Etis. cbn [tw_term tw_ti tw_out tw_cnt]. rewrite Eskip, Hent. cbn [obind].
      eexists. split; [reflexivity|]. split; [|split; reflexivity]. rewrite app_nil_r in Eix. constructor; cbn [w_tix w_tis w_tfx w_last_ptr w_fields w_interval w_skip]; auto; try (rewrite Eix; auto).
      rewrite Hsnoc, last_snoc, app_length. cbn [length]. rewrite <- app_assoc. f_equal. lia.
  Qed.
  Lemma add_terms_inv L2 : forall w tis0 tix0 L1, winv w tis0 tix0 L1 -> field_ok (L1 ++ L2) -> Z.of_nat (length tis0 + length (blk entry0 (L1 ++ L2))) < 2 ^ 63 ->
    exists w', add_terms w L2 = Some w' /\ winv w' tis0 tix0 (L1 ++ L2) /\ w_tfx w' = w_tfx w /\ w_fields w' = w_fields w.
  Proof.
    induction L2 as [|[t i] L2 IH]; intros w tis0 tix0 L1 HW HL HB.
    - exists w. rewrite app_nil_r. auto.
    - cbn [add_terms]. assert (EA : L1 ++ (t, i) :: L2 = (L1 ++ [(t, i)]) ++ L2) by (rewrite <- app_assoc; reflexivity).
      destruct (tiw_add_inv w tis0 tix0 L1 (t, i) HW) as (w1 & E1 & HW1 & F1 & F2).
      { rewrite EA in HL. apply field_ok_app in HL. exact HL. }
      { rewrite blk_app, app_length in HB. lia. }
      cbn [fst snd] in E1. rewrite E1. cbn [obind]. rewrite EA in *. destruct (IH w1 tis0 tix0 _ HW1 HL HB) as (w2 & E2 & HW2 & F3 & F4).
      exists w2. rewrite F3, F4. auto.
  Qed.

  (* ---------- writing all fields *)
  Fixpoint tisb (fs : list (Z * list entry)) : list Z := match fs with [] => [] | (_, L) :: fs' => blk entry0 L ++ tisb fs' end.
  Fixpoint tixb (a : nat) (fs : list (Z * list entry)) : list Z :=
    match fs with [] => [] | (_, L) :: fs' => xblk entry0 0 (ix a L) ++ tixb (a + length (blk entry0 L)) fs' end.
  Fixpoint lay (a b : nat) (fs : list (Z * list entry)) : list (Z * sti) :=
    match fs with
    | [] => []
    | (n, L) :: fs' => (n, mkSti (Z.of_nat b) (Z.of_nat a) (Z.of_nat (length (ix a L))) (Z.of_nat (length L)))
                       :: lay (a + length (blk entry0 L)) (b + length (xblk entry0 0 (ix a L))) fs'
    end.
  Definition enc_sti (x : Z * sti) : list Z :=
    eint (fst x) ++ venc (s_iptr (snd x)) ++ venc (s_ptr (snd x)) ++ eint (s_icnt (snd x)) ++ eint (s_size (snd x)).
  Definition cnts (w : tiw) : list Z := eint (tw_cnt (w_tix w)) ++ eint (tw_cnt (w_tis w)).
  Lemma ix_len base L : length (ix base L) = nix (length L).
  Proof. unfold ix. rewrite map_length, seq_length. reflexivity. Qed.
  Lemma nix_le n : (nix n <= n)%nat.
  Proof. destruct (nix n) as [|k] eqn:E; [lia|]. pose proof (proj1 (nix_lt n k) ltac:(lia)). nia. Qed.
  Lemma ix_ok base L : Forall entry_ok L -> Forall (fun x => entry_ok (fst x)) (ix base L).
  Proof. intros H. unfold ix. apply Forall_forall. intros x Hx. apply in_map_iff in Hx. destruct Hx as (j & <- & _). cbn [fst]. apply T_ok. auto. Qed.
  Lemma xblk_ix_len base L : Forall entry_ok L -> (length (xblk entry0 0 (ix base L)) <= 330 * length L)%nat.
  Proof. intros H. pose proof (xblk_len (ix base L) entry0 0 (ix_ok base L H)). rewrite ix_len in H0. pose proof (nix_le (length L)). nia. Qed.
  Lemma add_fields_inv fs : forall w, w_interval w = Z.of_nat I -> w_skip w = K ->
    Forall (fun f => 0 <= fst f < 2 ^ 31 /\ field_ok (snd f)) fs ->
    Z.of_nat (length (tw_out (w_tis w)) + 320 * length (concat (map snd fs))) < 2 ^ 60 ->
    Z.of_nat (length (tw_out (w_tix w)) + 330 * length (concat (map snd fs))) < 2 ^ 60 ->
    exists w', add_fields w fs = Some w' /\ tw_out (w_tis w') = tw_out (w_tis w) ++ tisb fs /\
      tw_out (w_tix w') = tw_out (w_tix w) ++ tixb (length (tw_out (w_tis w))) fs /\
      w_tfx w' ++ cnts w' = w_tfx w ++ cnts w ++ concat (map enc_sti (lay (length (tw_out (w_tis w))) (length (tw_out (w_tix w))) fs)) /\
      w_fields w' = w_fields w + Z.of_nat (length fs).
  Proof.
    induction fs as [|[n L] fs IH]; intros w Hi Hk HF HB1 HB2.
    - exists w. cbn [add_fields tisb tixb lay map concat length]. rewrite !app_nil_r. repeat split; auto. lia.
    - cbn [add_fields]. destruct (Forall_inv HF) as (Hn & HL). cbn [fst snd] in Hn, HL. cbn [map concat snd] in HB1, HB2. rewrite app_length in HB1, HB2. pose proof HL as (HLF & _).
      unfold tiw_start_field. rewrite !eint_some. cbn [obind]. rewrite !venc_some by (unfold off_nonneg; lia). cbn [obind].
      match goal with |- context [add_terms ?x L] => set (w1 := x) end.
      pose proof (blk_len L entry0 HLF) as BL. pose proof (xblk_ix_len (length (tw_out (w_tis w))) L HLF) as XL.
      destruct (add_terms_inv L w1 (tw_out (w_tis w)) (tw_out (w_tix w)) []) as (w2 & E2 & HW2 & F1 & F2).
      { constructor; rewrite ?ix_nil; cbn [w1 w_tis w_tix w_last_ptr w_interval w_skip xblk DictCodec_Proofs.blk last length fst snd]; rewrite ?app_nil_r; auto. }
      { exact HL. } { cbn [app]. lia. }
      cbn [app] in HW2. rewrite E2. cbn [obind]. destruct HW2 as [Etis Etix Eptr Eint' Eskip].
      destruct (IH w2) as (w3 & E3 & G1 & G2 & G3 & G4); auto.
      { exact (Forall_inv_tail HF). }
      { rewrite Etis. cbn [tw_out]. rewrite app_length. lia. }
      { rewrite Etix. cbn [tw_out]. rewrite app_length. lia. }
      exists w3. rewrite E3. rewrite Etis, Etix in *. cbn [tw_out] in *. rewrite !app_length in *. cbn [tisb tixb lay].
      rewrite G1, G2, G4, F2. repeat split.
      + rewrite <- app_assoc. reflexivity.
      + rewrite <- app_assoc. reflexivity.
      + rewrite G3, F1. cbn [w_tfx w1 map concat]. unfold enc_sti at 2. cbn [fst snd s_iptr s_ptr s_icnt s_size]. unfold cnts at 1 2. rewrite Etis, Etix. cbn [tw_cnt].
        rewrite <- !app_assoc. reflexivity.
      + cbn [w_fields w1 length]. lia.
  Qed.

  (* ---------- reading the field index *)
  Lemma good_sti x : i32 (fst x) -> off_nonneg (s_iptr (snd x)) -> off_nonneg (s_ptr (snd x)) -> i32 (s_icnt (snd x)) -> i32 (s_size (snd x)) ->
    forall {A} (v : A) b (k : Z * sti -> parser A), good b v (k x) never ->
    good (enc_sti x ++ b) v (get field <- dec_int; get iptr <- dec_voff; get ptr <- dec_voff; get icnt <- dec_int; get size <- dec_int; k (field, mkSti iptr ptr icnt size)) never.
  Proof.
    intros H1 H2 H3 H4 H5 A v b k Hk. unfold enc_sti. rewrite <- !app_assoc.
    apply good_bind0 with (fst x); [apply good_int; auto using eint_some|].
    apply good_bind0 with (s_iptr (snd x)); [apply good_voff; auto using venc_some|].
    apply good_bind0 with (s_ptr (snd x)); [apply good_voff; auto using venc_some|].
    apply good_bind0 with (s_icnt (snd x)); [apply good_int; auto using eint_some|].
    apply good_bind0 with (s_size (snd x)); [apply good_int; auto using eint_some|].
    destruct x as [? []]. exact Hk.
  Qed.
  Definition sti_ok (x : Z * sti) : Prop := i32 (fst x) /\ off_nonneg (s_iptr (snd x)) /\ off_nonneg (s_ptr (snd x)) /\ i32 (s_icnt (snd x)) /\ i32 (s_size (snd x)).
  Lemma good_dict l : forall d, Forall sti_ok l -> good (concat (map enc_sti l)) (rev l ++ d) (dec_dict (length l) d) never.
  Proof.
    induction l as [|x l IH]; intros d HF; cbn [map concat length dec_dict rev].
    - apply good_ret.
    - destruct (Forall_inv HF) as (H1 & H2 & H3 & H4 & H5). apply (good_sti x H1 H2 H3 H4 H5 _ _ (fun y => dec_dict (length l) (y :: d))).
      rewrite <- app_assoc. apply IH. exact (Forall_inv_tail HF).
  Qed.
  Lemma lay_ok fs : forall a b, Forall (fun f => 0 <= fst f < 2 ^ 31 /\ field_ok (snd f)) fs ->
    Z.of_nat (a + 320 * length (concat (map snd fs))) < 2 ^ 60 -> Z.of_nat (b + 330 * length (concat (map snd fs))) < 2 ^ 60 -> Forall sti_ok (lay a b fs).
  Proof.
    induction fs as [|[n L] fs IH]; intros a b HF H1 H2; [constructor|]. cbn [lay]. destruct (Forall_inv HF) as (Hn & HL). cbn [fst snd] in Hn, HL.
    cbn [map concat snd] in H1, H2. rewrite app_length in H1, H2. pose proof HL as (HLF & _ & _ & HLn). pose proof (blk_len L entry0 HLF). pose proof (xblk_ix_len a L HLF).
    constructor.
    - unfold sti_ok. cbn [fst snd s_iptr s_ptr s_icnt s_size]. rewrite ix_len. pose proof (nix_le (length L)). unfold i32, off_nonneg. lia.
    - apply IH; [exact (Forall_inv_tail HF)|lia|lia].
  Qed.
  Lemma lay_len fs : forall a b, length (lay a b fs) = length fs.
  Proof. induction fs as [|[n L] fs IH]; intros; cbn [lay length]; auto. Qed.
  Lemma lay_fst fs : forall a b, map fst (lay a b fs) = map fst fs.
  Proof. induction fs as [|[n L] fs IH]; intros; cbn [lay map fst]; auto. f_equal. apply IH. Qed.
  Lemma h_get_app {A} (d1 d2 : list (Z * A)) n : h_get_int (d1 ++ d2) n = match h_get_int d1 n with Some v => Some v | None => h_get_int d2 n end.
  Proof. unfold h_get_int. induction d1 as [|[k v] d1 IH]; [reflexivity|]. cbn [app find fst]. destruct (k =? n); auto. Qed.
  Lemma h_get_none {A} (d : list (Z * A)) n : ~ In n (map fst d) -> h_get_int d n = None.
  Proof.
    unfold h_get_int. induction d as [|[k v] d IH]; intros H; [reflexivity|]. cbn [find fst map] in *. destruct (Z.eqb_spec k n).
    - exfalso. apply H. left. auto.
    - apply IH. intros G. apply H. right. auto.
  Qed.
  Lemma h_get_rev {A} (d : list (Z * A)) n : NoDup (map fst d) -> h_get_int (rev d) n = h_get_int d n.
  Proof.
    induction d as [|[k v] d IH]; intros H; [reflexivity|]. cbn [map fst] in H. inversion H; subst. cbn [rev]. rewrite h_get_app, IH by auto.
    unfold h_get_int at 2 3. cbn [find fst]. destruct (Z.eqb_spec k n) as [->|].
    - rewrite h_get_none by auto. reflexivity.
    - fold (h_get_int d n). destruct (h_get_int d n); reflexivity.
  Qed.

  (* what the files are *)
  Lemma write_read fs : dict_ok fs -> exists f s, write_dict (Z.of_nat I) K fs = Some f /\ (Z.of_nat I < 2 ^ 31 -> i32 K -> sfi_open f = Some s) /\
    f_tis f = tisb fs /\ f_tix f = tixb 0 fs /\ s_interval s = Z.of_nat I /\ s_skip s = K /\ (forall n, h_get_int (s_dict s) n = h_get_int (lay 0 0 fs) n).
  Proof.
    intros (HF & HN & HL & HT). destruct (add_fields_inv fs (tiw_open (Z.of_nat I) K)) as (w & E & G1 & G2 & G3 & G4); auto; try (cbn [tiw_open w_tis w_tix tw_out length]; lia).
    cbn [tiw_open w_tis w_tix tw_out length w_tfx w_fields app] in G1, G2, G3, G4.
    unfold write_dict. rewrite E. cbn [obind]. unfold tiw_close. rewrite !eint_some. cbn [obind].
    exists (mkDf (tw_out (w_tis w)) (tw_out (w_tix w)) (enc_32 (w_fields w) ++ w_tfx w ++ eint (tw_cnt (w_tix w)) ++ eint (tw_cnt (w_tis w)))), (mkSfi (Z.of_nat I) K (rev (lay 0 0 fs) ++ [])).
    split; [reflexivity|]. split; [|cbn [f_tis f_tix s_interval s_skip s_dict]; repeat split; auto; intros n; rewrite app_nil_r; apply h_get_rev; rewrite lay_fst; auto].
    intros HI31 HK. unfold sfi_open. cbn [f_tfx]. fold (cnts w). rewrite G3, G4. cbn [Z.add]. unfold cnts. cbn [tiw_open w_tix w_tis tw_cnt]. rewrite <- app_assoc.
    assert (HG : good (enc_32 (Z.of_nat (length fs)) ++ eint (Z.of_nat I) ++ eint K ++ concat (map enc_sti (lay 0 0 fs))) (mkSfi (Z.of_nat I) K (rev (lay 0 0 fs) ++ []))
      (get n <- lift dec_u32; get i <- dec_int; get k <- dec_int; get d <- dec_dict (Z.to_nat (to_signed 32 n)) []; pret (mkSfi i k d)) never).
    { apply good_bind0 with (Z.of_nat (length fs)); [apply good_u32; unfold u32; lia|].
      apply good_bind0 with (Z.of_nat I); [apply good_int; auto using eint_some; unfold i32; lia|].
      apply good_bind0 with K; [apply good_int; auto using eint_some|].
      replace (Z.to_nat (to_signed 32 (Z.of_nat (length fs)))) with (length (lay 0 0 fs)).
      - apply (good_map _ _ (fun d => mkSfi (Z.of_nat I) K d)). apply good_dict. apply lay_ok; auto; lia.
      - rewrite lay_len. unfold to_signed. change (32 - 1) with 31. destruct (Z.ltb_spec (Z.of_nat (length fs)) (2 ^ 31)); lia. }
    destruct HG as [HG _]. specialize (HG []). rewrite app_nil_r in HG. rewrite HG. reflexivity.
  Qed.

  (* ---------- reading the index of a field *)
  Fixpoint chain (prev : entry) (pp : nat) (l : list (entry * nat)) : Prop :=
    match l with
    | [] => True
    | (e, p) :: l' => entry_ok e /\ ti_le (snd prev) (snd e) /\ (pp <= p)%nat /\ Z.of_nat p < 2 ^ 63 /\ chain e p l'
    end.
  Definition ixrel (x : list Z * ti * Z) (y : entry * nat) : Prop :=
    fst (fst x) = fst (fst y) /\ same_ti K (snd (fst x)) (snd (fst y)) /\ snd x = Z.of_nat (snd y).
  Lemma good_index l : forall prev e pp, entry_ok prev -> ti_frq e = ti_frq (snd prev) -> ti_prx e = ti_prx (snd prev) -> chain prev pp l ->
    exists r, good (xblk prev pp l) r (read_index (length l) K (fst prev) e (Z.of_nat pp)) never /\ Forall2 ixrel r l.
  Proof.
    induction l as [|[c p] l IH]; intros prev e pp Hp E1 E2 HC; cbn [xblk length read_index].
    - exists []. split; [apply good_ret|constructor].
    - cbn [chain] in HC. destruct HC as (Hc & HL & Hpp & Hb & HC). destruct (IH c (got K e (snd c)) p Hc) as (r & Hr & HR); auto.
      exists ((fst c, got K e (snd c), Z.of_nat p) :: r). split.
      + apply good_bind0 with (fst c, got K e (snd c)).
        { destruct Hp as (_ & O). unfold ti_ok in O. apply good_entry; auto; lia. }
        apply good_bind0 with (Z.of_nat p - Z.of_nat pp).
        { apply good_voff; [|apply venc_some]; unfold off_nonneg; lia. }
        replace (Z.of_nat pp + (Z.of_nat p - Z.of_nat pp)) with (Z.of_nat p) by lia. cbn [fst snd].
        apply (good_map _ _ (fun r => (fst c, got K e (snd c), Z.of_nat p) :: r)). exact Hr.
      + constructor; auto. unfold ixrel. cbn [fst snd]. repeat split; auto. intros H. unfold got. cbn. rewrite (proj2 (Z.leb_le _ _) H). reflexivity.
  Qed.
  Lemma chain_ix base L : field_ok L -> Z.of_nat (base + length (blk entry0 L)) < 2 ^ 63 -> chain entry0 0 (ix base L).
  Proof.
    intros HL HB. pose proof HL as (HF & _).
    assert (G : forall n s prev pp, (s + n <= nix (length L))%nat -> (forall j, (s <= j < nix (length L))%nat -> ti_le (snd prev) (snd (T L (I * j))) /\ (pp <= base + off L (I * j))%nat) ->
      chain prev pp (map (fun j => (T L (I * j), base + off L (I * j)))%nat (seq s n))).
    { induction n as [|n IH]; intros s prev pp Hn HH; cbn [seq map chain]; [exact Logic.I|].
      assert (Hs : (I * s < length L)%nat) by (apply nix_lt; lia).
      destruct (HH s ltac:(lia)) as [H1 H2]. split; [apply T_ok; auto|]. split; auto. split; auto. split.
      - pose proof (off_mono L (I * s) (length L) HF ltac:(lia)). rewrite off_all in H. lia.
      - apply IH; [lia|]. intros j Hj. assert (Hj' : (I * j < length L)%nat) by (apply nix_lt; lia). split.
        + apply T_le; auto. nia.
        + pose proof (off_mono L (I * s) (I * j) HF ltac:(nia)). lia. }
    apply G; [lia|]. intros j Hj. assert (Hj' : (I * j < length L)%nat) by (apply nix_lt; lia). split; [|lia].
    apply (T_le L 0 (I * j)); auto. lia.
  Qed.

  (* ---------- the enumerator *)
  Record fld (f : dfiles) (s : sfi) (x : sti) (L : list entry) (base : nat) : Prop := {
    fl_ok : field_ok L;
    fl_size : s_size x = Z.of_nat (length L);
    fl_icnt : s_icnt x = Z.of_nat (nix (length L));
    fl_ptr : s_ptr x = Z.of_nat base;
    fl_int : s_interval s = Z.of_nat I;
    fl_skip : s_skip s = K;
    fl_tis : exists post, forall p, (p <= length L)%nat -> seek (f_tis f) (Z.of_nat (base + off L p)) = blk (T L p) (skipn p L) ++ post;
    fl_idx : exists idx, ensure_index f s x = Some idx /\ Forall2 ixrel idx (ix base L) }.
  Lemma lay_find fs : forall a b n,
    match h_get_int (lay a b fs) n with
    | None => h_get_int fs n = None
    | Some x => exists L pre post xpre xpost, h_get_int fs n = Some L /\ In (n, L) fs /\ tisb fs = pre ++ blk entry0 L ++ post /\ s_ptr x = Z.of_nat (a + length pre) /\
        tixb a fs = xpre ++ xblk entry0 0 (ix (a + length pre) L) ++ xpost /\ s_iptr x = Z.of_nat (b + length xpre) /\ s_icnt x = Z.of_nat (length (ix (a + length pre) L)) /\ s_size x = Z.of_nat (length L)
    end.
  Proof.
    induction fs as [|[m L] fs IH]; intros a b n; [reflexivity|]. cbn [lay]. unfold h_get_int. cbn [find fst]. destruct (Z.eqb_spec m n) as [->|Hne].
    - exists L, [], (tisb fs), [], (tixb (a + length (blk entry0 L)) fs). cbn [app length tisb tixb s_ptr s_iptr s_icnt s_size]. rewrite !Nat.add_0_r. repeat split; auto. left. auto.
    - fold (h_get_int (lay (a + length (blk entry0 L)) (b + length (xblk entry0 0 (ix a L))) fs) n). fold (h_get_int fs n).
      pose proof (IH (a + length (blk entry0 L))%nat (b + length (xblk entry0 0 (ix a L)))%nat n) as G. destruct (h_get_int (lay _ _ fs) n) as [x|]; auto.
      destruct G as (L' & pre & post & xpre & xpost & G0 & Gin & G1 & G2 & G3 & G4 & G5 & G6).
      exists L', (blk entry0 L ++ pre), post, (xblk entry0 0 (ix a L) ++ xpre), xpost. cbn [tisb tixb]. rewrite !app_length, G1, G3. rewrite !Nat.add_assoc in *. rewrite <- !app_assoc. repeat split; auto. right. auto.
  Qed.
  Lemma tisb_len fs : Forall (fun f => 0 <= fst f < 2 ^ 31 /\ field_ok (snd f)) fs -> (length (tisb fs) <= 320 * length (concat (map snd fs)))%nat.
  Proof.
    induction fs as [|[n L] fs IH]; intros H; [cbn; lia|]. cbn [tisb map concat snd]. rewrite !app_length. destruct (Forall_inv H) as (_ & HF & _). cbn [snd] in HF.
    pose proof (blk_len L entry0 HF). specialize (IH (Forall_inv_tail H)). lia.
  Qed.
  Lemma fld_of fs f s n : dict_ok fs -> f_tis f = tisb fs -> f_tix f = tixb 0 fs -> s_interval s = Z.of_nat I -> s_skip s = K -> (forall n, h_get_int (s_dict s) n = h_get_int (lay 0 0 fs) n) ->
    match h_get_int (s_dict s) n with
    | None => terms_of fs n = []
    | Some x => exists base, fld f s x (terms_of fs n) base
    end.
  Proof.
    intros (HF & HN & HL & HT) E1 E2 E3 E4 E5. rewrite E5. pose proof (lay_find fs 0 0 n) as G. unfold terms_of. change (match find (fun x => fst x =? n) fs with Some (_, l) => l | None => [] end) with
      (match find (fun x => fst x =? n) fs with Some (_, l) => l | None => [] end).
    assert (Ht : (match find (fun x => fst x =? n) fs with Some (_, l) => l | None => [] end) = match h_get_int fs n with Some l => l | None => [] end).
    { unfold h_get_int. destruct (find _ fs) as [[? ?]|]; reflexivity. }
    rewrite Ht. clear Ht. destruct (h_get_int (lay 0 0 fs) n) as [x|]; [|rewrite G; reflexivity].
    destruct G as (L & pre & post & xpre & xpost & G0 & Gin & G1 & G2 & G3 & G4 & G5 & G6). rewrite G0. cbn [Nat.add] in *.
    assert (HLok : field_ok L). { rewrite Forall_forall in HF. apply (HF _ Gin). }
    pose proof (tisb_len fs HF) as TL. rewrite G1, !app_length in TL.
    exists (length pre). constructor; auto.
    - rewrite G5, ix_len. reflexivity.
    - exists post. intros p Hp. rewrite E1, G1. rewrite (blk_split L p Hp), <- !app_assoc. rewrite app_assoc. apply seek_app. rewrite app_length. unfold off. lia.
    - unfold ensure_index. rewrite E2, G3, G4. rewrite seek_app by lia. rewrite G5, Nat2Z.id. rewrite E4.
      destruct (good_index (ix (length pre) L) entry0 ti0 0) as (r & (Hr & _) & HR); auto.
      + apply entry0_ok.
      + apply chain_ix; auto. lia.
      + cbn [fst entry0] in Hr. change (Z.of_nat 0) with 0 in Hr. rewrite Hr. exists r. auto.
  Qed.
End D.
