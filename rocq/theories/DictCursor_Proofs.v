From Verif Require Import Util Codec_Model Codec_Spec Codec_Proofs Seg_Model SegCodec_Proofs Strcmp Dict_Model Dict_Spec DictCodec_Proofs Dict_Proofs.
Open Scope Z_scope.

Lemma Forall2_length {A B} (R : A -> B -> Prop) l m : Forall2 R l m -> length l = length m.
Proof. induction 1; cbn [length]; auto. Qed.
Lemma Forall2_nth_error {A B} (R : A -> B -> Prop) l m : Forall2 R l m -> forall j a b, nth_error l j = Some a -> nth_error m j = Some b -> R a b.
Proof. induction 1; intros [|j] a b Ha Hb; cbn [nth_error] in *; try discriminate; [apply some_inj in Ha; apply some_inj in Hb; subst; auto|eauto]. Qed.
(* ---------- first_ge in a sorted list *)
Definition sorted_terms (L : list entry) : Prop := StronglySorted (fun a b : entry => slt (fst a) (fst b)) L.
Lemma first_ge_le L t : (first_ge L t <= length L)%nat.
Proof. unfold first_ge. induction L as [|a L IH]; cbn [filter length]; [lia|]. destruct (sltb (fst a) t); cbn [length]; lia. Qed.
Lemma first_ge_spec L t : sorted_terms L -> forall i c, nth_error L i = Some c -> (sltb (fst c) t = true <-> (i < first_ge L t)%nat).
Proof.
  unfold first_ge, sorted_terms. induction 1 as [|a L HS IH HF]; intros i c Hc; [destruct i; discriminate|]. cbn [filter].
  destruct (sltb (fst a) t) eqn:E.
  - destruct i as [|i]; cbn [nth_error length] in *; [apply some_inj in Hc; subst; split; intros; [lia|auto]|]. rewrite (IH i c Hc). lia.
  - assert (Hall : Forall (fun b => sltb (fst b) t = false) (a :: L)).
    { apply sltb_ge in E. constructor; [apply sltb_ge; auto|]. eapply Forall_impl; [|exact HF]. intros b Hb. apply sltb_ge. apply slt_le. eapply sle_lt_trans; eauto. }
    assert (Hf : filter (fun e : entry => sltb (fst e) t) L = []).
    { apply Forall_inv_tail in Hall. clear -Hall. induction L as [|b L IHL]; [reflexivity|]. cbn [filter]. rewrite (Forall_inv Hall). apply IHL. exact (Forall_inv_tail Hall). }
    rewrite Hf. cbn [length]. rewrite Forall_forall in Hall. rewrite (Hall c (nth_error_In _ _ Hc)). split; [discriminate|lia].
Qed.
Lemma find_first_ge L t : sorted_terms L -> find (fun e : entry => seqb (fst e) t) L =
  match nth_error L (first_ge L t) with Some c => if seqb (fst c) t then Some c else None | None => None end.
Proof.
  unfold first_ge, sorted_terms. induction 1 as [|a L HS IH HF]; [reflexivity|]. cbn [filter find].
  destruct (seqb (fst a) t) eqn:E.
  - apply seqb_spec in E. rewrite (proj2 (sltb_ge (fst a) t)) by (rewrite E; apply sle_refl).
    assert (Hf : filter (fun e : entry => sltb (fst e) t) L = []).
    { clear -HF E. induction L as [|b L IHL]; [reflexivity|]. cbn [filter]. rewrite (proj2 (sltb_ge (fst b) t)); [apply IHL; exact (Forall_inv_tail HF)|]. apply slt_le. rewrite <- E. exact (Forall_inv HF). }
    rewrite Hf. cbn [length nth_error]. rewrite (proj2 (seqb_spec _ _) E). reflexivity.
  - destruct (sltb (fst a) t) eqn:E2; cbn [length nth_error]; [exact IH|].
    assert (Hlt : slt t (fst a)). { apply sltb_ge in E2. apply sle_lteq in E2. destruct E2 as [|E2]; auto. exfalso. rewrite (proj2 (seqb_spec (fst a) t)) in E by auto. discriminate. }
    assert (Hf : filter (fun e : entry => sltb (fst e) t) L = []).
    { clear -HF Hlt. induction L as [|b L IHL]; [reflexivity|]. cbn [filter]. rewrite (proj2 (sltb_ge (fst b) t)); [apply IHL; exact (Forall_inv_tail HF)|]. apply slt_le. eapply slt_trans; [exact Hlt|]. exact (Forall_inv HF). }
    rewrite Hf. cbn [length nth_error]. rewrite E. clear -HF Hlt. induction L as [|b L IHL]; [reflexivity|]. cbn [find].
    destruct (seqb (fst b) t) eqn:E; [|apply IHL; exact (Forall_inv_tail HF)]. apply seqb_spec in E. exfalso. apply (slt_asym _ _ Hlt). rewrite <- E. exact (Forall_inv HF).
Qed.

Section C.
  Variable I : nat.
  Variable K : Z.
  Hypothesis HI : (1 <= I)%nat.
  Notation blk := (blk K). Notation fld := (fld I K). Notation nix := (nix I). Notation ix := (ix I K). Notation off := (off K).

  (* the enumerator e has n terms of L behind it, on field n *)
  Definition at_ (n : Z) (L : list entry) (p : nat) (e : ste) : Prop :=
    e_field e = n /\ e_size e = Z.of_nat (length L) /\
    ( ((p <= length L)%nat /\ e_pos e = Z.of_nat p - 1 /\ e_term e = fst (T L p) /\ same_ti K (e_ti e) (snd (T L p)) /\
       (exists post, e_in e = blk (T L p) (skipn p L) ++ post))
      \/ (p = S (length L) /\ Z.of_nat (length L) <= e_pos e /\ e_term e = []) ).
  Definition place (L : list entry) (i : nat) : nat := match nth_error L i with Some _ => S i | None => S (length L) end.
  Definition lands (n : Z) (L : list entry) (i : nat) (r : option (option (list Z) * ste)) : Prop :=
    exists e', r = Some (option_map fst (nth_error L i), e') /\ at_ n L (place L i) e'.

  Lemma next_at n L p e : field_ok L -> at_ n L p e -> lands n L p (ste_next K e).
  Proof.
    intros HL (E1 & E2 & E3). unfold ste_next, lands, place. destruct E3 as [(Hp & E3 & E4 & E5 & post & E6)|(Hp & E3 & E4)].
    - rewrite E2, E3. replace (Z.of_nat p - 1 + 1) with (Z.of_nat p) by lia. destruct (nth_error L p) as [c|] eqn:Ec.
      + assert (Hlt : (p < length L)%nat) by (apply nth_error_Some; congruence). rewrite (proj2 (Z.leb_gt _ _)) by lia.
        pose proof HL as (HF & _). destruct E5 as (D1 & D2 & D3 & D4).
        pose proof (T_S L p c Ec) as ET. pose proof (T_ok I HI L p HF) as (_ & O). unfold ti_ok in O.
        assert (Hc : entry_ok c). { rewrite Forall_forall in HF. apply HF. eapply nth_error_In; eauto. }
        assert (Hle : ti_le (snd (T L p)) (snd c)). { rewrite <- ET. apply (T_le I HI); auto; lia. }
        destruct (good_entry K (T L p) (e_ti e) c Hc Hle) as [G _]; try lia.
        assert (Esk : skipn p L = c :: skipn (S p) L). { clear -Ec. revert L Ec. induction p; intros [|a L] Ec; try discriminate; cbn in *; [apply some_inj in Ec; subst; reflexivity|]. apply IHp; auto. }
        rewrite E4, E6, Esk. cbn [DictCodec_Proofs.blk]. rewrite <- app_assoc. rewrite G.
        eexists. split; [reflexivity|]. split; [exact E1|]. split; [first [exact E2|reflexivity]|]. left. cbn [e_pos e_term e_ti e_in]. rewrite ET.
        split; [lia|]. split; [lia|]. split; [reflexivity|]. split; [apply got_same|]. exists post. reflexivity.
      + apply nth_error_None in Ec. rewrite (proj2 (Z.leb_le _ _)) by lia. eexists. split; [reflexivity|]. split; [exact E1|]. split; [first [exact E2|reflexivity]|]. right. cbn [e_pos e_term]. split; [reflexivity|]. split; [lia|auto].
    - rewrite E2. rewrite (proj2 (nth_error_None L p)) by lia. rewrite (proj2 (Z.leb_le _ _)) by lia.
      eexists. split; [reflexivity|]. split; [exact E1|]. split; [first [exact E2|reflexivity]|]. right. cbn [e_pos e_term]. split; [reflexivity|]. split; [lia|auto].
  Qed.

  Lemma skip_loop_at t n L : field_ok L -> forall fuel p e, at_ n L p e -> (p <= first_ge L t)%nat -> (length L - p < fuel)%nat -> lands n L (first_ge L t) (skip_loop fuel K e t).
  Proof.
    intros HL. pose proof HL as (_ & HS & _). induction fuel as [|fuel IH]; intros p e He Hp Hf; [lia|]. cbn [skip_loop].
    destruct (next_at n L p e HL He) as (e' & Er & He'). rewrite Er. cbn [obind fst snd]. unfold place in He'. pose proof (first_ge_le L t) as FL.
    destruct (nth_error L p) as [c|] eqn:Ec; cbn [option_map].
    - pose proof (first_ge_spec L t HS p c Ec) as FS. assert (p < length L)%nat by (apply nth_error_Some; congruence). destruct (sltb (fst c) t) eqn:El.
      + apply IH with (S p); auto; [apply FS; auto|lia].
      + assert (first_ge L t = p) as ->. { destruct (Nat.lt_ge_cases p (first_ge L t)) as [Hx|Hx]; [apply FS in Hx; discriminate|lia]. }
        exists e'. unfold place. rewrite Ec. auto.
    - apply nth_error_None in Ec. assert (first_ge L t = length L) as -> by lia. exists e'. unfold place. rewrite (proj2 (nth_error_None L (length L))) by lia. auto.
  Qed.
  Lemma skip_to_at t n L p e : field_ok L -> at_ n L p e -> (p <= length L)%nat -> t <> [] -> sle (fst (T L p)) t -> lands n L (first_ge L t) (te_skip_to K e t).
  Proof.
    intros HL He Hp Ht Hle. pose proof HL as (_ & HS & _). pose proof He as (E1 & E2 & E3). destruct E3 as [(_ & E3 & E4 & _)|(Hx & _)]; [|lia].
    unfold te_skip_to. rewrite E4. destruct (sltb (fst (T L p)) t) eqn:El.
    - apply (skip_loop_at t n L HL) with p; auto; [|rewrite E2; lia]. destruct p as [|p]; [lia|].
      destruct (nth_error L p) as [c|] eqn:Ec; [|apply nth_error_None in Ec; lia]. rewrite (T_S L p c Ec) in El. apply (first_ge_spec L t HS p c Ec) in El. lia.
    - apply sltb_ge in El. pose proof (sle_antisym _ _ Hle El) as Et. destruct p as [|p]; [exfalso; apply Ht; rewrite <- Et; reflexivity|].
      destruct (nth_error L p) as [c|] eqn:Ec; [|apply nth_error_None in Ec; lia]. rewrite (T_S L p c Ec) in *. 
      assert (first_ge L t = p) as ->.
      { assert (G1 : ~ (p < first_ge L t)%nat). { intros G. apply (first_ge_spec L t HS p c Ec) in G. rewrite Et in G. apply sltb_spec in G. exact (slt_irr _ G). }
        destruct (Nat.lt_ge_cases (first_ge L t) p) as [G|G]; [|lia]. exfalso.
        destruct (nth_error L (first_ge L t)) as [d|] eqn:Ed; [|apply nth_error_None in Ed; lia].
        assert (~ (first_ge L t < first_ge L t)%nat) as G2 by lia. apply G2. apply (first_ge_spec L t HS _ d Ed). apply sltb_spec. rewrite <- Et.
        pose proof (T_slt I HI L (S (first_ge L t)) (S p) HL ltac:(lia) Hp) as G3. rewrite (T_S L _ d Ed), (T_S L p c Ec) in G3. exact G3. }
      exists e. unfold place. rewrite Ec. cbn [option_map]. rewrite Et. auto.
  Qed.
  Lemma index_seek_at f s x n L base idx j e : fld f s x L base -> Forall2 (ixrel K) idx (ix base L) -> e_field e = n -> e_size e = Z.of_nat (length L) -> (j < nix (length L))%nat ->
    exists e', ste_index_seek f s e idx (Z.of_nat j) = Some e' /\ at_ n L (I * j) e' /\ (I * j < length L)%nat.
  Proof.
    intros HF Hidx E1 E2 Hj. assert (Hj' : (I * j < length L)%nat) by (apply (nix_lt I HI); auto).
    unfold ste_index_seek. rewrite (proj2 (Z.ltb_ge _ _)) by lia. rewrite Nat2Z.id.
    destruct (nth_error idx j) as [[[m t] q]|] eqn:En.
    - pose proof (Forall2_length _ _ _ Hidx) as HLn. assert (Hx : nth_error (ix base L) j = Some (T L (I * j), base + off L (I * j))%nat).
      { unfold Dict_Proofs.ix. rewrite nth_error_map. rewrite (nth_error_nth' _ O) by (rewrite seq_length; auto). rewrite seq_nth by auto. reflexivity. }
      assert (HR : ixrel K (m, t, q) (T L (I * j), base + off L (I * j))%nat).
      { exact (Forall2_nth_error _ _ _ Hidx _ _ _ En Hx). }
      destruct HR as (R1 & R2 & R3). cbn [fst snd] in R1, R2, R3. eexists. split; [reflexivity|]. split; auto. split; [exact E1|]. split; [first [exact E2|reflexivity]|]. left. cbn [e_pos e_term e_ti e_in].
      split; [lia|]. rewrite (fl_int _ _ _ _ _ _ _ HF). split; [lia|]. split; [exact R1|]. split; [exact R2|]. destruct (fl_tis _ _ _ _ _ _ _ HF) as (post & Hpost). exists post. rewrite R3. apply Hpost. lia.
    - apply nth_error_None in En. rewrite (Forall2_length _ _ _ Hidx), ix_len in En. lia.
  Qed.
  (* binary search: the place it returns holds a term not greater than the one searched *)
  Lemma index_offset_ok (idx : list (list Z * ti * Z)) t : t <> [] -> (forall z, nth_error idx 0 = Some z -> fst (fst z) = []) ->
    forall fuel lo hi, 0 <= lo -> lo <= hi + 1 -> hi < Z.of_nat (length idx) -> hi - lo + 1 < Z.of_nat fuel ->
    (lo = 0 \/ exists z, nth_error idx (Z.to_nat (lo - 1)) = Some z /\ sle (fst (fst z)) t) -> (length idx > 0)%nat -> (lo = 0 -> 0 <= hi) ->
    exists o, index_offset fuel idx t lo hi = Some o /\ 0 <= o < Z.of_nat (length idx) /\ exists z, nth_error idx (Z.to_nat o) = Some z /\ sle (fst (fst z)) t.
  Proof.
    intros Ht H0. induction fuel as [|fuel IH]; intros lo hi Hlo Hlh Hhi Hf Hinv Hpos Hz; [lia|]. cbn [index_offset].
    destruct (Z.leb_spec lo hi) as [Hle|Hgt].
    - pose proof (Z.div_mod (lo + hi) 2 ltac:(lia)). pose proof (Z.mod_pos_bound (lo + hi) 2 ltac:(lia)). set (mid := (lo + hi) / 2) in *.
      destruct (nth_error idx (Z.to_nat mid)) as [[[m u] q]|] eqn:Em; [|apply nth_error_None in Em; lia].
      destruct (scmp t m) eqn:Ec.
      + exists mid. split; [reflexivity|]. split; [lia|]. exists (m, u, q). split; auto. cbn [fst]. apply scmp_eq in Ec. subst. apply sle_refl.
      + apply IH; auto; try lia. intros ->. assert (mid <> 0); [|lia]. intros E0. rewrite E0 in Em. apply H0 in Em. cbn [fst] in Em. subst m. destruct t; [congruence|]. discriminate.
      + apply IH; auto; try lia. right. replace (mid + 1 - 1) with mid by lia. exists (m, u, q). split; auto. cbn [fst]. apply slt_le. apply slt_gt. auto.
    - destruct Hinv as [->|(z & Hz1 & Hz2)]; [lia|]. exists hi. split; [reflexivity|]. split; [lia|]. exists z. replace (Z.to_nat hi) with (Z.to_nat (lo - 1)) by lia. auto.
  Qed.

  Lemma idx_nth idx base L j z : Forall2 (ixrel K) idx (ix base L) -> nth_error idx j = Some z -> (j < nix (length L))%nat /\ fst (fst z) = fst (T L (I * j)).
  Proof.
    intros H E. assert (Hj : (j < nix (length L))%nat). { rewrite <- (ix_len I K base L), <- (Forall2_length _ _ _ H). apply nth_error_Some. congruence. }
    split; auto. assert (Hx : nth_error (ix base L) j = Some (T L (I * j), base + off L (I * j))%nat).
    { unfold Dict_Proofs.ix. rewrite nth_error_map. rewrite (nth_error_nth' _ O) by (rewrite seq_length; auto). rewrite seq_nth by auto. reflexivity. }
    assert (HR : ixrel K z (T L (I * j), base + off L (I * j))%nat).
    { exact (Forall2_nth_error _ _ _ H _ _ _ E Hx). }
    exact (proj1 HR).
  Qed.
  Lemma scan_at f s x n L base p e t : h_get_int (s_dict s) n = Some x -> fld f s x L base -> at_ n L p e -> L <> [] -> lands n L (first_ge L t) (ste_scan_to f s e t).
  Proof.
    intros Hx HF He HLne. pose proof (fl_ok _ _ _ _ _ _ _ HF) as HL. pose proof He as (E1 & E2 & E3).
    assert (Hlen : (0 < length L)%nat) by (destruct L; [congruence|cbn; lia]).
    unfold ste_scan_to. rewrite E1, Hx. rewrite (fl_size _ _ _ _ _ _ _ HF). rewrite (proj2 (Z.ltb_lt _ _)) by lia.
    destruct (fl_idx _ _ _ _ _ _ _ HF) as (idx & Eidx & Hidx). rewrite Eidx. cbn [obind]. rewrite (fl_skip _ _ _ _ _ _ _ HF).
    assert (Hn0 : (0 < nix (length L))%nat) by (apply (nix_lt I HI); lia).
    assert (HLi : length idx = nix (length L)) by (rewrite (Forall2_length _ _ _ Hidx); apply ix_len).
    destruct t as [|a t0].
    - destruct (index_seek_at f s x n L base idx O e HF Hidx E1 E2 Hn0) as (e' & Es & He' & _). change (Z.of_nat 0) with 0 in Es. rewrite Es. cbn [obind].
      rewrite Nat.mul_0_r in He'. replace (first_ge L []) with O; [apply next_at; auto|]. unfold first_ge. clear. induction L as [|b L IH]; [reflexivity|]. cbn [filter].
      rewrite (proj2 (sltb_ge (fst b) [])) by apply sle_nil. exact IH.
    - set (t := a :: t0) in *. assert (Htne : t <> []) by discriminate.
      assert (Hseek : lands n L (first_ge L t) (do o <- index_offset (S (length idx)) idx t 0 (s_icnt x - 1); do e1 <- ste_index_seek f s e idx o; te_skip_to K e1 t)).
      { rewrite (fl_icnt _ _ _ _ _ _ _ HF). destruct (index_offset_ok idx t Htne) with (fuel := S (length idx)) (lo := 0) (hi := Z.of_nat (nix (length L)) - 1) as (o & Eo & Ho & z & Hz1 & Hz2); try lia.
        - intros z Hz. destruct (idx_nth _ _ _ _ _ Hidx Hz) as (_ & G). rewrite Nat.mul_0_r in G. exact G.
        - rewrite Eo. cbn [obind]. destruct (idx_nth _ _ _ _ _ Hidx Hz1) as (Hj & G). rewrite G in Hz2.
          destruct (index_seek_at f s x n L base idx (Z.to_nat o) e HF Hidx E1 E2 Hj) as (e' & Es & He' & Hlt). rewrite Z2Nat.id in Es by lia. rewrite Es. cbn [obind].
          eapply skip_to_at; eauto. lia. }
      destruct ((e_pos e <? e_size e) && sleb (e_term e) t) eqn:Eg; [|exact Hseek].
      apply andb_true_iff in Eg. destruct Eg as [Eg1 Eg2]. apply Z.ltb_lt in Eg1. apply sleb_spec in Eg2.
      destruct E3 as [(Hp & E3 & E4 & _)|(Hp & E3 & _)]; [|lia]. rewrite E4 in Eg2. rewrite (fl_int _ _ _ _ _ _ _ HF).
      assert (Hskip : lands n L (first_ge L t) (te_skip_to K e t)) by (apply skip_to_at with p; auto).
      destruct (s_icnt x =? Z.quot (e_pos e) (Z.of_nat I) + 1) eqn:Ei; [exact Hskip|].
      destruct (nth_error idx (Z.to_nat (Z.quot (e_pos e) (Z.of_nat I) + 1))) as [[[m u] q]|] eqn:En.
      + destruct (sltb t m); [exact Hskip|exact Hseek].
      + exfalso. apply nth_error_None in En. apply Z.eqb_neq in Ei. rewrite (fl_icnt _ _ _ _ _ _ _ HF) in Ei. rewrite HLi in En. rewrite E3 in *.
        assert (Hq : Z.quot (Z.of_nat p - 1) (Z.of_nat I) < Z.of_nat (nix (length L))).
        { destruct p as [|p].
          - change (Z.of_nat 0 - 1) with (-1). destruct (Nat.eq_dec I 1) as [->|]; [change (Z.quot (-1) (Z.of_nat 1)) with (-1); lia|].
            change (-1) with (- (1)). rewrite Z.quot_opp_l by lia. rewrite Z.quot_small by lia. lia.
          - replace (Z.of_nat (S p) - 1) with (Z.of_nat p) by lia. rewrite Z.quot_div_nonneg by lia. rewrite <- Nat2Z.inj_div. apply Nat2Z.inj_lt.
            apply (nix_lt I HI). pose proof (Nat.mul_div_le p I ltac:(lia)). lia. }
        lia.
  Qed.
  Lemma lands_after n L i e (H : nth_error L i <> None) : at_ n L (place L i) e -> at_ n L (S i) e.
  Proof. unfold place. destruct (nth_error L i); [auto|congruence]. Qed.
  Lemma next_until_at n L i c : field_ok L -> nth_error L i = Some c -> forall fuel p e, at_ n L p e -> (p <= S i)%nat -> (S i - p < fuel)%nat ->
    exists e', next_until fuel K e (Z.of_nat i) = Some (Some (fst c), e') /\ at_ n L (S i) e'.
  Proof.
    intros HL Ec. assert (Hi : (i < length L)%nat) by (apply nth_error_Some; congruence).
    induction fuel as [|fuel IH]; intros p e He Hp Hf; [lia|]. cbn [next_until]. pose proof He as (E1 & E2 & E3). destruct E3 as [(Hpl & E3 & E4 & _)|(Hx & _)]; [|lia].
    rewrite E3. destruct (Z.ltb_spec (Z.of_nat p - 1) (Z.of_nat i)).
    - destruct (next_at n L p e HL He) as (e' & Er & He'). rewrite Er. cbn [obind fst snd].
      destruct (nth_error L p) as [d|] eqn:Ed; [|apply nth_error_None in Ed; lia]. cbn [option_map]. apply lands_after in He'; [|congruence]. apply IH with (S p); auto; lia.
    - assert (p = S i) as -> by lia. exists e. rewrite E4. rewrite (T_S L i c Ec). auto.
  Qed.
  Lemma get_term_at f s x n L base p e i : h_get_int (s_dict s) n = Some x -> fld f s x L base -> at_ n L p e ->
    match nth_error L i with
    | Some c => exists e', ste_get_term f s e (Z.of_nat i) = Some (Some (fst c), e') /\ at_ n L (S i) e'
    | None => ste_get_term f s e (Z.of_nat i) = Some (None, e)
    end.
  Proof.
    intros Hx HF He. pose proof (fl_ok _ _ _ _ _ _ _ HF) as HL. pose proof He as (E1 & E2 & E3). unfold ste_get_term. rewrite E2.
    destruct (nth_error L i) as [c|] eqn:Ec.
    - assert (Hi : (i < length L)%nat) by (apply nth_error_Some; congruence). rewrite (proj2 (Z.leb_gt _ _)) by lia.
      destruct (Z.eqb_spec (Z.of_nat i) (e_pos e)) as [Ei|Ei].
      + destruct E3 as [(Hpl & E3 & E4 & _)|(Hp & E3 & E4)]; [|lia]. assert (p = S i) as -> by lia. exists e. rewrite E4, (T_S L i c Ec). auto.
      + rewrite (fl_int _ _ _ _ _ _ _ HF), (fl_skip _ _ _ _ _ _ _ HF).
        match goal with |- context [if ?b then _ else Some e] => destruct b eqn:Eb end.
        * rewrite E1, Hx. destruct (fl_idx _ _ _ _ _ _ _ HF) as (idx & Eidx & Hidx). rewrite Eidx. cbn [obind].
          rewrite Z.quot_div_nonneg by lia. rewrite <- Nat2Z.inj_div. pose proof (Nat.mul_div_le i I ltac:(lia)) as Hm.
          destruct (index_seek_at f s x n L base idx (i / I)%nat e HF Hidx E1 E2) as (e' & Es & He' & Hlt).
          { apply (nix_lt I HI). lia. }
          rewrite Es. cbn [obind]. pose proof He' as (_ & _ & E3'). destruct E3' as [(_ & E3' & _)|(Hx' & _)]; [|lia].
          apply (next_until_at n L i c HL Ec) with (I * (i / I))%nat; auto; lia.
        * cbn [obind]. apply orb_false_iff in Eb. destruct Eb as [Eb _]. apply Z.ltb_ge in Eb. destruct E3 as [(Hpl & E3 & E4 & _)|(Hp & E3 & E4)]; [|lia].
          apply (next_until_at n L i c HL Ec) with p; auto; lia.
    - apply nth_error_None in Ec. rewrite (proj2 (Z.leb_le _ _)) by lia. reflexivity.
  Qed.

  (* ---------- one operation *)
  Definition okfs (fs : list (Z * list entry)) (f : dfiles) (s : sfi) : Prop :=
    s_skip s = K /\ forall n, match h_get_int (s_dict s) n with None => terms_of fs n = [] | Some x => exists base, fld f s x (terms_of fs n) base end.
  Lemma at_empty n p e : at_ n [] p e -> (p <= 1)%nat.
  Proof. intros (_ & _ & [(H & _)|(H & _)]); cbn [length] in H; lia. Qed.
  Lemma step_sim fs f s n p e o : okfs fs f s -> at_ n (terms_of fs n) p e ->
    exists r e', ste_step f s e o = Some (r, e') /\ dres_eq K r (fst (spec_step fs (n, p) o)) /\
      at_ (fst (snd (spec_step fs (n, p) o))) (terms_of fs (fst (snd (spec_step fs (n, p) o)))) (snd (snd (spec_step fs (n, p) o))) e'.
  Proof.
    intros (Hk & Hok) He. pose proof (Hok n) as Hn. pose proof He as (E1 & E2 & E3).
    assert (HLn : field_ok (terms_of fs n)).
    { destruct (h_get_int (s_dict s) n); [destruct Hn as (base & HF); exact (fl_ok _ _ _ _ _ _ _ HF)|]. rewrite Hn. split; [constructor|]. split; [constructor|]. split; [constructor|]. cbn. lia. }
    destruct o as [g| |t|i|t]; cbn [ste_step spec_step].
    - exists DDone, (ste_set_field f s e g). split; [reflexivity|]. split; [reflexivity|]. cbn [fst snd]. unfold ste_set_field. pose proof (Hok g) as Hg.
      destruct (h_get_int (s_dict s) g) as [x|].
      + destruct Hg as (base & HF). split; [reflexivity|]. split; [exact (fl_size _ _ _ _ _ _ _ HF)|]. left. cbn [e_pos e_term e_ti e_in]. split; [lia|]. split; [lia|]. split; [reflexivity|].
        split; [repeat split; auto|]. rewrite (fl_ptr _ _ _ _ _ _ _ HF). destruct (fl_tis _ _ _ _ _ _ _ HF) as (post & Hp). exists post. specialize (Hp O ltac:(lia)). unfold Dict_Proofs.off in Hp. cbn [firstn DictCodec_Proofs.blk length] in Hp. rewrite Nat.add_0_r in Hp. exact Hp.
      + rewrite Hg. split; [reflexivity|]. split; [reflexivity|]. left. cbn [e_pos e_term e_ti e_in length]. split; [lia|]. split; [lia|]. split; [reflexivity|]. split; [repeat split; auto|]. exists (e_in e). reflexivity.
    - rewrite Hk. destruct (next_at n _ p e HLn He) as (e' & Er & He'). rewrite Er. cbn [obind fst snd]. eexists _, e'. split; [reflexivity|]. unfold place in He'.
      destruct (nth_error (terms_of fs n) p); cbn [option_map fst snd]; split; auto; reflexivity.
    - destruct (length (terms_of fs n) =? 0)%nat eqn:El.
      + apply Nat.eqb_eq in El. cbn [fst snd]. exists (DTerm None), e. split; [|split; [reflexivity|auto]]. unfold ste_scan_to. rewrite E1. destruct (h_get_int (s_dict s) n) as [x|]; [|reflexivity].
        destruct Hn as (base & HF). rewrite (fl_size _ _ _ _ _ _ _ HF), El. reflexivity.
      + apply Nat.eqb_neq in El. destruct (h_get_int (s_dict s) n) as [x|] eqn:Ex; [|rewrite Hn in El; cbn in El; lia]. destruct Hn as (base & HF).
        assert (Hne : terms_of fs n <> []) by (intros C; rewrite C in El; cbn in El; lia).
        destruct (scan_at f s x n _ base p e t Ex HF He Hne) as (e' & Er & He'). rewrite Er. cbn [obind fst snd]. eexists _, e'. split; [reflexivity|]. unfold place in He'.
        destruct (nth_error (terms_of fs n) (first_ge (terms_of fs n) t)); cbn [option_map fst snd]; split; auto; reflexivity.
    - destruct (h_get_int (s_dict s) n) as [x|] eqn:Ex.
      + destruct Hn as (base & HF). pose proof (get_term_at f s x n _ base p e i Ex HF He) as G. destruct (nth_error (terms_of fs n) i) as [c|].
        * destruct G as (e' & Eg & He'). rewrite Eg. cbn [obind fst snd]. eexists _, e'. split; [reflexivity|]. split; [reflexivity|auto].
        * rewrite G. cbn [obind fst snd]. eexists _, e. split; [reflexivity|]. split; [reflexivity|auto].
      + rewrite Hn in *. rewrite (proj2 (nth_error_None [] i)) by (cbn; lia). unfold ste_get_term. rewrite E2. cbn [length]. rewrite (proj2 (Z.leb_le _ _)) by lia. cbn [obind fst snd].
        eexists _, e. split; [reflexivity|]. split; [reflexivity|]. cbn [fst snd]. rewrite Hn. auto.
    - pose proof HLn as (_ & HS & _). rewrite (find_first_ge _ t HS). unfold tir_get_ti. destruct (length (terms_of fs n) =? 0)%nat eqn:El.
      + apply Nat.eqb_eq in El. cbn [fst snd]. rewrite (proj2 (nth_error_None _ _)) by lia. exists (DInfo None), e. split; [|split; [reflexivity|auto]]. unfold ste_scan_to. rewrite E1. destruct (h_get_int (s_dict s) n) as [x|]; [|reflexivity].
        destruct Hn as (base & HF). rewrite (fl_size _ _ _ _ _ _ _ HF), El. reflexivity.
      + apply Nat.eqb_neq in El. destruct (h_get_int (s_dict s) n) as [x|] eqn:Ex; [|rewrite Hn in El; cbn in El; lia]. destruct Hn as (base & HF).
        assert (Hne : terms_of fs n <> []) by (intros C; rewrite C in El; cbn in El; lia).
        destruct (scan_at f s x n _ base p e t Ex HF He Hne) as (e' & Er & He'). rewrite Er. cbn [obind fst snd]. eexists _, e'. split; [reflexivity|]. unfold place in He'.
        destruct (nth_error (terms_of fs n) (first_ge (terms_of fs n) t)) as [c|] eqn:Ec; cbn [option_map fst snd]; split; auto; try reflexivity.
        destruct (seqb (fst c) t); [|reflexivity]. cbn [option_map dres_eq]. destruct He' as (_ & _ & [(_ & _ & _ & Hs & _)|(Hx & _)]).
        * rewrite (T_S _ _ _ Ec) in Hs. exact Hs.
        * exfalso. assert (first_ge (terms_of fs n) t < length (terms_of fs n))%nat by (apply nth_error_Some; congruence). lia.
  Qed.
  Lemma run_sim fs f s : okfs fs f s -> forall os n p e, at_ n (terms_of fs n) p e -> exists rs, ste_run f s e os = Some rs /\ Forall2 (dres_eq K) rs (spec_run fs (n, p) os).
  Proof.
    intros Hok. induction os as [|o os IH]; intros n p e He; cbn [ste_run spec_run]; [exists []; split; [reflexivity|constructor]|].
    destruct (step_sim fs f s n p e o Hok He) as (r & e' & Er & Hr & He'). rewrite Er. cbn [obind fst snd]. destruct (spec_step fs (n, p) o) as [r' [n' p']]. cbn [fst snd] in *.
    destruct (IH n' p' e' He') as (rs & Ers & Hrs). rewrite Ers. cbn [obind]. exists (r :: rs). split; [reflexivity|]. constructor; auto.
  Qed.
End C.

(* the enumerator of ste_new before a field is set behaves like one on a field without terms *)
Lemma dict_run I K fs : (1 <= I)%nat -> Z.of_nat I < 2 ^ 31 -> i32 K -> dict_ok fs ->
  exists f s, write_dict (Z.of_nat I) K fs = Some f /\ sfi_open f = Some s /\
    forall os, exists rs, ste_run f s ste_new os = Some rs /\ Forall2 (dres_eq K) rs (spec_run fs (-1, O) os).
Proof.
  intros HI HI2 HK Hok. destruct (write_read I K HI fs Hok) as (f & s & E1 & E2 & E3 & E4 & E5 & E6 & E7). exists f, s. split; [exact E1|]. split; [auto|]. intros os.
  apply (run_sim I K HI); auto.
  - split; auto. intros n. apply (fld_of I K HI); auto.
  - assert (Ht : terms_of fs (-1) = []).
    { unfold terms_of. destruct (find (fun x => fst x =? -1) fs) as [[m l]|] eqn:Ef; auto. apply find_some in Ef. destruct Ef as [Hin Hm]. apply Z.eqb_eq in Hm. cbn [fst] in Hm.
      destruct Hok as (HF & _). rewrite Forall_forall in HF. apply HF in Hin. cbn [fst] in Hin. lia. }
    rewrite Ht. split; [reflexivity|]. split; [reflexivity|]. left. cbn. split; [lia|]. split; [reflexivity|]. split; [reflexivity|]. split; [repeat split; auto|]. exists []. reflexivity.
Qed.

Lemma spec_run_app fs : forall os c os2, exists c', spec_run fs c (os ++ os2) = spec_run fs c os ++ spec_run fs c' os2.
Proof.
  induction os as [|o os IH]; intros c os2; [exists c; reflexivity|]. cbn [app spec_run]. destruct (spec_step fs c o) as [r c1]. destruct (IH c1 os2) as (c' & E). exists c'. rewrite E. reflexivity.
Qed.
Lemma dict_lookup I K fs : (1 <= I)%nat -> Z.of_nat I < 2 ^ 31 -> i32 K -> dict_ok fs ->
  exists f s, write_dict (Z.of_nat I) K fs = Some f /\ sfi_open f = Some s /\
    forall os n t, exists rs r, ste_run f s ste_new (os ++ [DField n; DLookup t]) = Some (rs ++ [DDone; DInfo r]) /\
      (forall i, In (t, i) (terms_of fs n) -> exists j, r = Some j /\ same_ti K j i) /\ (~ In t (map fst (terms_of fs n)) -> r = None).
Proof.
  intros HI HI2 HK Hok. destruct (dict_run I K fs HI HI2 HK Hok) as (f & s & E1 & E2 & H). exists f, s. split; auto. split; auto. intros os n t.
  destruct (H (os ++ [DField n; DLookup t])) as (rs & Er & HR). destruct (spec_run_app fs os (-1, O) [DField n; DLookup t]) as ((n0 & p0) & Es). rewrite Es in HR.
  apply Forall2_app_inv_r in HR. destruct HR as (rs1 & rs2 & HR1 & HR2 & ->). cbn [spec_run spec_step fst snd] in HR2. inversion HR2 as [|a b l m Hd HR3]; subst. inversion HR3 as [|a' b' l' m' Hd' HR4]; subst. inversion HR4; subst.
  destruct a; cbn [dres_eq] in Hd; try discriminate Hd; [|destruct i; discriminate Hd]. 
  assert (HS : sorted_terms (terms_of fs n)).
  { unfold terms_of. destruct (find _ fs) as [[m l]|] eqn:Ef; [|constructor]. apply find_some in Ef. destruct Ef as [Hin _]. destruct Hok as (HF & _). rewrite Forall_forall in HF. destruct (HF _ Hin) as (_ & _ & G & _). exact G. }
  set (found := find (fun e : entry => seqb (fst e) t) (terms_of fs n)) in *.
  assert (Hr : exists r, a' = DInfo r /\ match found with None => r = None | Some c => exists j, r = Some j /\ same_ti K j (snd c) end).
  { destruct found as [c|]; cbn [option_map] in Hd'.
    - destruct a' as [| |[j|]]; cbn [dres_eq] in Hd'; try discriminate Hd'. exists (Some j). split; auto. exists j. auto.
    - exists None. split; auto. destruct a' as [| |[j|]]; cbn [dres_eq] in Hd'; congruence. }
  destruct Hr as (r & -> & Hr). exists rs1, r. split; [exact Er|]. unfold found in *. split.
  - intros i Hi. destruct (find _ (terms_of fs n)) as [c|] eqn:Ef.
    + apply find_some in Ef. destruct Ef as [Hc Ec]. apply seqb_spec in Ec. destruct c as [t' i']. cbn [fst snd] in *. subst t'.
      assert (i' = i) as ->; [|exact Hr]. clear -HS Hi Hc. unfold sorted_terms in HS. induction HS as [|a L HS IH HF]; [destruct Hi|]. rewrite Forall_forall in HF. destruct Hi as [->|Hi], Hc as [Hc|Hc].
      * congruence. * exfalso. exact (slt_irr _ (HF _ Hc)). * subst a. exfalso. exact (slt_irr _ (HF _ Hi)). * auto.
    + exfalso. apply find_none with (x := (t, i)) in Ef; auto. cbn [fst] in Ef. rewrite (proj2 (seqb_spec t t) eq_refl) in Ef. discriminate.
  - intros Hn. destruct (find _ (terms_of fs n)) as [c|] eqn:Ef; auto. apply find_some in Ef. destruct Ef as [Hc Ec]. apply seqb_spec in Ec. exfalso. apply Hn. rewrite <- Ec. apply in_map. auto.
Qed.

(* one thread's lookups through a TermInfosReader *)
Definition ti_res (K : Z) (L : list entry) (t : list Z) (r : option ti) : Prop :=
  (forall i, In (t, i) L -> exists j, r = Some j /\ same_ti K j i) /\ (~ In t (map fst L) -> r = None).
Lemma lookup_res K fs n t r : sorted_terms (terms_of fs n) -> dres_eq K (DInfo r) (DInfo (option_map snd (find (fun e : entry => seqb (fst e) t) (terms_of fs n)))) -> ti_res K (terms_of fs n) t r.
Proof.
  intros HS Hd. unfold ti_res. destruct (find _ (terms_of fs n)) as [c|] eqn:Ef; cbn [option_map] in Hd.
  - destruct r as [j|]; [cbn [dres_eq] in Hd|discriminate Hd]. apply find_some in Ef. destruct Ef as [Hc Ec]. apply seqb_spec in Ec. destruct c as [t' i']. cbn [fst snd] in *. subst t'. split.
    + intros i Hi. exists j. split; auto. assert (i' = i) as ->; [|exact Hd]. clear -HS Hi Hc. unfold sorted_terms in HS. induction HS as [|a L HS IH HF]; [destruct Hi|]. rewrite Forall_forall in HF. destruct Hi as [->|Hi], Hc as [Hc|Hc].
      * congruence. * exfalso. exact (slt_irr _ (HF _ Hc)). * subst a. exfalso. exact (slt_irr _ (HF _ Hi)). * auto.
    + intros Hn. exfalso. apply Hn. apply (in_map fst _ _ Hc).
  - assert (r = None) as -> by (destruct r; cbn [dres_eq] in Hd; congruence). split; auto. intros i Hi. exfalso. apply find_none with (x := (t, i)) in Ef; auto. cbn [fst] in Ef. rewrite (proj2 (seqb_spec t t) eq_refl) in Ef. discriminate.
Qed.
Lemma tir_one_thread I K fs : (1 <= I)%nat -> Z.of_nat I < 2 ^ 31 -> i32 K -> dict_ok fs ->
  exists f s, write_dict (Z.of_nat I) K fs = Some f /\ sfi_open f = Some s /\
    forall ls, exists rs, tir_run f s tir_open (map (fun l => (O, l)) ls) = Some rs /\ Forall2 (fun l r => ti_res K (terms_of fs (fst l)) (snd l) r) ls rs.
Proof.
  intros HI HI2 HK Hok. destruct (write_read I K HI fs Hok) as (f & s & E1 & E2 & E3 & E4 & E5 & E6 & E7). exists f, s. split; [exact E1|]. split; [auto|].
  assert (Hfs : okfs I K fs f s). { split; auto. intros n. apply (fld_of I K HI); auto. }
  assert (Hsort : forall n, sorted_terms (terms_of fs n)).
  { intros n. unfold terms_of. destruct (find _ fs) as [[m l]|] eqn:Ef; [|constructor]. apply find_some in Ef. destruct Ef as [Hin _]. destruct Hok as (HF & _). rewrite Forall_forall in HF. destruct (HF _ Hin) as (_ & _ & G & _). exact G. }
  assert (Hset : forall e g n p, at_ K n (terms_of fs n) p e -> at_ K g (terms_of fs g) O (ste_set_field f s e g)).
  { intros e g n p He. destruct (step_sim I K HI fs f s n p e (DField g) Hfs He) as (r & e' & Er & _ & He'). cbn [ste_step spec_step fst snd] in Er, He'. apply some_inj in Er. injection Er as _ <-. exact He'. }
  assert (Hnew : exists p, at_ K (-1) (terms_of fs (-1)) p (ste_set_field f s ste_new (-1))).
  { exists O. assert (Ht : terms_of fs (-1) = []).
    { unfold terms_of. destruct (find (fun x => fst x =? -1) fs) as [[m l]|] eqn:Ef; auto. apply find_some in Ef. destruct Ef as [Hin Hm]. apply Z.eqb_eq in Hm. cbn [fst] in Hm.
      destruct Hok as (HF & _). rewrite Forall_forall in HF. apply HF in Hin. cbn [fst] in Hin. lia. }
    apply (Hset ste_new (-1) (-1) O). rewrite Ht. split; [reflexivity|]. split; [reflexivity|]. left. cbn. split; [lia|]. split; [reflexivity|]. split; [reflexivity|]. split; [repeat split; auto|]. exists []. reflexivity. }
  assert (G : forall ls t, (exists p, at_ K (t_field t) (terms_of fs (t_field t)) p (tir_enum f s t O)) ->
    exists rs, tir_run f s t (map (fun l => (O, l)) ls) = Some rs /\ Forall2 (fun l r => ti_res K (terms_of fs (fst l)) (snd l) r) ls rs).
  { induction ls as [|[n t] ls IH]; intros T0 (p & Hp); cbn [map tir_run]; [exists []; split; [reflexivity|constructor]|].
    unfold tir_get_ti_field. set (e := if n =? t_field T0 then tir_enum f s T0 0 else ste_set_field f s (tir_enum f s T0 0) n).
    assert (He : exists p', at_ K n (terms_of fs n) p' e).
    { unfold e. destruct (Z.eqb_spec n (t_field T0)) as [->|]; [exists p; exact Hp|]. exists O. eapply Hset; eauto. }
    destruct He as (p' & He). destruct (step_sim I K HI fs f s n p' e (DLookup t) Hfs He) as (r & e' & Er & Hd & He'). cbn [ste_step] in Er.
    destruct (tir_get_ti f s e t) as [[r0 e0]|]; cbn [obind fst snd] in *; [|discriminate Er]. apply some_inj in Er. injection Er as <- <-. cbn [spec_step fst snd] in Hd.
    destruct (IH (mkTir n ((O, e0) :: t_enums T0))) as (rs & Ers & HR).
    { unfold tir_enum. cbn [t_field t_enums find fst Nat.eqb]. cbn [spec_step fst snd] in He'. revert He'.
      destruct (length (terms_of fs n) =? 0)%nat; cbn [fst snd]; [intros; eexists; eauto|]. destruct (nth_error _ _); cbn [fst snd]; intros; eexists; eauto. }
    rewrite Ers. cbn [obind]. exists (r0 :: rs). split; [reflexivity|]. constructor; auto. cbn [fst snd]. apply lookup_res; auto. }
  intros ls. apply G. exact Hnew.
Qed.
