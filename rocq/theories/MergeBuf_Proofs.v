(* Merging: the term buffer.  A text that was written m terms ago is intact as long as (m + 1) further texts of at most B bytes fit. *)
From Verif Require Import Util Codec_Model Seg_Model Strcmp Dict_Model Merge_Model.
Open Scope Z_scope.

Definition holds (buf : list Z) (p : nat) (s : list Z) : Prop := forall i, (i <= length s)%nat -> nth_error buf (p + i) = nth_error (s ++ [0]) i.
Lemma cstr_ok s : Forall (fun b => 0 < b < 256) s -> forall l, (forall i, (i <= length s)%nat -> nth_error l i = nth_error (s ++ [0]) i) -> cstr l = Some s.
Proof.
  induction 1 as [|b s Hb HF IH]; intros l H.
  - specialize (H O ltac:(cbn; lia)). cbn in H. destruct l as [|x l]; [discriminate|]. cbn in H. apply some_inj in H. subst x. reflexivity.
  - pose proof (H O ltac:(cbn; lia)) as H0. cbn in H0. destruct l as [|x l]; [discriminate|]. cbn in H0. apply some_inj in H0. subst x. cbn [cstr]. destruct (Z.eqb_spec b 0); [lia|].
    rewrite (IH l); [reflexivity|]. intros i Hi. specialize (H (S i) ltac:(cbn; lia)). exact H.
Qed.
Lemma deref_holds buf p s : Forall (fun b => 0 < b < 256) s -> holds buf p s -> deref buf (Some p) = Some s.
Proof. intros HF H. cbn [deref]. apply cstr_ok; auto. intros i Hi. rewrite nth_error_skipn. apply H. auto. Qed.

Section BUF.
  Variable I : nat.
  Variable B : nat.
  Hypothesis HI : (1 <= I)%nat.
  Notation size := (buf_size I).
  Hypothesis HB : ((I + 2) * B <= size + 1)%nat.
  Hypothesis HB2 : (B <= MAX_WORD_SIZE)%nat.

  Definition written (buf : list Z) (ptr : nat) (term : list Z) : list Z := firstn ptr buf ++ term ++ 0 :: skipn (ptr + length term + 1) buf.
  Lemma written_len buf ptr term : (ptr + length term + 1 <= length buf)%nat -> length (written buf ptr term) = length buf.
  Proof. intros H. unfold written. rewrite !app_length. cbn [length]. rewrite firstn_length, skipn_length. lia. Qed.
  Lemma written_nth buf ptr term i : (ptr + length term + 1 <= length buf)%nat ->
    nth_error (written buf ptr term) i = if (i <? ptr)%nat then nth_error buf i else if (i <? ptr + length term + 1)%nat then nth_error (term ++ [0]) (i - ptr) else nth_error buf i.
  Proof.
    intros H. unfold written. assert (Hl : length (firstn ptr buf) = ptr) by (rewrite firstn_length; lia). destruct (Nat.ltb_spec i ptr) as [H1|H1].
    - rewrite nth_error_app1 by lia. clear -H1. revert buf i H1. induction ptr as [|q IH]; intros [|x buf] [|i] H1; try lia; try reflexivity. cbn [firstn nth_error]. apply IH. lia.
    - rewrite nth_error_app2 by lia. rewrite Hl. change (term ++ 0 :: skipn (ptr + length term + 1) buf) with (term ++ [0] ++ skipn (ptr + length term + 1) buf). rewrite app_assoc. destruct (Nat.ltb_spec i (ptr + length term + 1)) as [H2|H2].
      + rewrite nth_error_app1; [reflexivity|]. rewrite app_length. cbn [length]. lia.
      + rewrite nth_error_app2 by (rewrite app_length; cbn [length]; lia). rewrite app_length. cbn [length]. rewrite nth_error_skipn. f_equal. lia.
  Qed.
  Lemma cache_ok buf ptr term : length buf = buf_alloc I -> (ptr <= size)%nat -> (length term + 1 <= B)%nat ->
    cache_term I buf ptr term = Some (written buf ptr term, if (size <? ptr + length term + 1)%nat then O else (ptr + length term + 1)%nat).
  Proof. intros H1 H2 H3. unfold cache_term, buf_alloc in *. destruct (Nat.ltb_spec (length buf) (ptr + length term + 1)); [lia|reflexivity]. Qed.
  (* the text s lies at p and was written m terms ago *)
  Definition mark (buf : list Z) (ptr m p : nat) (s : list Z) : Prop :=
    holds buf p s /\ Forall (fun b => 0 < b < 256) s /\ (p <= size)%nat /\
    ((p + length s + 1 <= ptr /\ ptr <= size /\ ptr <= p + (m + 1) * B)%nat \/ (ptr <= p /\ size + 1 - p + ptr <= (m + 1) * B)%nat).
  Definition next_ptr (ptr : nat) (term : list Z) : nat := if (size <? ptr + length term + 1)%nat then O else (ptr + length term + 1)%nat.
  Lemma mark_new buf ptr term : length buf = buf_alloc I -> (ptr <= size)%nat -> (length term + 1 <= B)%nat -> Forall (fun b => 0 < b < 256) term ->
    mark (written buf ptr term) (next_ptr ptr term) 0 ptr term.
  Proof.
    intros H1 H2 H3 HF. unfold buf_alloc in H1. split; [|split; auto; split; auto].
    - intros i Hi. rewrite written_nth by lia. destruct (Nat.ltb_spec (ptr + i) ptr); [lia|]. destruct (Nat.ltb_spec (ptr + i) (ptr + length term + 1)); [|lia]. f_equal. lia.
    - unfold next_ptr. destruct (Nat.ltb_spec size (ptr + length term + 1)); [right|left]; lia.
  Qed.
  Lemma mark_step buf ptr m p s term : length buf = buf_alloc I -> (ptr <= size)%nat -> (length term + 1 <= B)%nat -> (m <= I)%nat -> mark buf ptr m p s ->
    mark (written buf ptr term) (next_ptr ptr term) (S m) p s.
  Proof.
    intros H1 H2 H3 Hm (Hh & HF & Hp & Hd). unfold buf_alloc in H1. assert (HmB : ((m + 2) * B <= size + 1)%nat) by nia.
    assert (Hdis : (p + length s + 1 <= ptr \/ ptr + length term + 1 <= p)%nat) by (destruct Hd as [(D1 & D2 & D3)|(D1 & D2)]; [left; lia|right; nia]).
    split; [|split; [auto|split; [auto|]]].
    - intros i Hi. rewrite written_nth by lia. rewrite <- (Hh i Hi). destruct Hdis as [Hd1|Hd1].
      + destruct (Nat.ltb_spec (p + i) ptr); [reflexivity|lia].
      + destruct (Nat.ltb_spec (p + i) ptr); [lia|]. destruct (Nat.ltb_spec (p + i) (ptr + length term + 1)); [lia|reflexivity].
    - unfold next_ptr. destruct Hd as [(D1 & D2 & D3)|(D1 & D2)]; destruct (Nat.ltb_spec size (ptr + length term + 1)); [right|left|right|right]; nia.
  Qed.

  Definition tis_ok (w : mw) : Prop := (m_tis w = None /\ tw_term (w_tis (m_tiw w)) = []) \/ exists p, m_tis w = Some p /\ mark (m_buf w) (m_ptr w) 0 p (tw_term (w_tis (m_tiw w))).
  Definition tix_ok (w : mw) (c : nat) : Prop := (m_tix w = None /\ tw_term (w_tix (m_tiw w)) = []) \/
    exists p, (1 <= c)%nat /\ m_tix w = Some p /\ mark (m_buf w) (m_ptr w) (S ((c - 1) mod I)) p (tw_term (w_tix (m_tiw w))).
  Definition BInv (w : mw) : Prop :=
    length (m_buf w) = buf_alloc I /\ (m_ptr w <= size)%nat /\ w_interval (m_tiw w) = Z.of_nat I /\
    exists c, tw_cnt (w_tis (m_tiw w)) = Z.of_nat c /\ tis_ok w /\ tix_ok w c.
  Lemma retext_same w : retext w (tw_term w) = w.
  Proof. destruct w; reflexivity. Qed.
  Lemma tiw_add_inv W t i W' : tiw_add W t i = Some W' ->
    w_interval W' = w_interval W /\ tw_cnt (w_tis W') = tw_cnt (w_tis W) + 1 /\ tw_term (w_tis W') = t /\
    tw_term (w_tix W') = (if tw_cnt (w_tis W) mod w_interval W =? 0 then tw_term (w_tis W) else tw_term (w_tix W)).
  Proof.
    unfold tiw_add. destruct (tw_cnt (w_tis W) mod w_interval W =? 0).
    - unfold tw_add at 1. destruct (enc_entry (w_skip W) (tw_term (w_tix W)) (tw_ti (w_tix W)) (tw_term (w_tis W)) (tw_ti (w_tis W))) as [a|]; cbn [obind]; [|discriminate].
      destruct (enc_vint (Z.of_nat (length (tw_out (w_tis W))) - w_last_ptr W)) as [b|]; cbn [obind w_tis w_skip tw_out tw_cnt tw_term tw_ti]; [|discriminate].
      unfold tw_add. destruct (enc_entry (w_skip W) (tw_term (w_tis W)) (tw_ti (w_tis W)) t i) as [c|]; cbn [obind]; [|discriminate]. intros E. apply some_inj in E. subst W'. auto.
    - cbn [obind]. unfold tw_add. destruct (enc_entry (w_skip W) (tw_term (w_tis W)) (tw_ti (w_tis W)) t i) as [c|]; cbn [obind]; [|discriminate]. intros E. apply some_inj in E. subst W'. auto.
  Qed.
  Lemma mod_succ c : (c mod I <> 0)%nat -> ((c - 1) mod I + 1 = c mod I)%nat.
  Proof.
    intros H. pose proof (Nat.div_mod c I ltac:(lia)) as E. pose proof (Nat.mod_upper_bound c I ltac:(lia)) as H2.
    pose proof (Nat.mod_unique (c - 1) I (c / I) (c mod I - 1)) as U. revert E U H H2. generalize (c / I)%nat (c mod I)%nat ((c - 1) mod I)%nat. intros q r x E U H H2.
    generalize dependent (I * q)%nat. intros y E U. specialize (U ltac:(lia) ltac:(lia)). lia.
  Qed.
  Lemma mw_add_ok w t i W' : BInv w -> (length t + 1 <= B)%nat -> Forall (fun b => 0 < b < 256) t -> tiw_add (m_tiw w) t i = Some W' ->
    exists w', mw_add I w t i = Some w' /\ m_tiw w' = W' /\ BInv w'.
  Proof.
    intros (L1 & L2 & L3 & c & L4 & L5 & L6) HL HF E. pose proof (tiw_add_inv _ _ _ _ E) as (E1 & E2 & E3 & E4). unfold mw_add. rewrite (cache_ok _ _ _ L1 L2 HL). cbn [obind fst snd]. fold (next_ptr (m_ptr w) t).
    set (buf' := written (m_buf w) (m_ptr w) t). set (ptr' := next_ptr (m_ptr w) t).
    assert (Hlen : length buf' = buf_alloc I) by (unfold buf'; rewrite written_len; auto; rewrite L1; unfold buf_alloc; lia).
    assert (Hptr : (ptr' <= size)%nat) by (unfold ptr', next_ptr; destruct (Nat.ltb_spec size (m_ptr w + length t + 1)); lia).
    assert (Hmod : (tw_cnt (w_tis (m_tiw w)) mod w_interval (m_tiw w) =? 0) = (c mod I =? 0)%nat).
    { rewrite L3, L4, <- Nat2Z.inj_mod. destruct (Nat.eqb_spec (c mod I) 0); destruct (Z.eqb_spec (Z.of_nat (c mod I)) 0); auto; lia. }
    rewrite Hmod in *.
    assert (Hc1 : ((c - 1) mod I < I)%nat) by (apply Nat.mod_upper_bound; lia).
    assert (Ha : (if (c mod I =? 0)%nat then deref buf' (m_tix w) else Some (tw_term (w_tix (m_tiw w)))) = Some (tw_term (w_tix (m_tiw w)))).
    { destruct (c mod I =? 0)%nat; auto. destruct L6 as [(-> & ->)|(p & _ & -> & M)]; [reflexivity|]. pose proof (mark_step _ _ _ _ _ t L1 L2 HL Hc1 M) as (Hh & HFt & _). apply deref_holds; auto. }
    assert (Hb : deref buf' (m_tis w) = Some (tw_term (w_tis (m_tiw w)))).
    { destruct L5 as [(-> & ->)|(p & -> & M)]; [reflexivity|]. pose proof (mark_step _ _ _ _ _ t L1 L2 HL (Nat.le_0_l I) M) as (Hh & HFt & _). apply deref_holds; auto. }
    rewrite Ha, Hb. cbn [obind]. rewrite !retext_same. replace (mkTiw (w_tix (m_tiw w)) (w_tis (m_tiw w)) (w_tfx (m_tiw w)) (w_last_ptr (m_tiw w)) (w_fields (m_tiw w)) (w_interval (m_tiw w)) (w_skip (m_tiw w))) with (m_tiw w) by (destruct (m_tiw w); reflexivity).
    rewrite E. cbn [obind]. eexists. split; [reflexivity|]. split; [reflexivity|]. cbn [m_tiw].
    unfold BInv. cbn [m_tiw m_buf m_ptr]. split; [exact Hlen|]. split; [exact Hptr|]. split; [congruence|]. exists (S c). split; [rewrite E2, L4; lia|]. split.
    - right. exists (m_ptr w). cbn [m_tis m_buf m_ptr m_tiw]. split; auto. rewrite E3. apply mark_new; auto.
    - unfold tix_ok. cbn [m_tix m_buf m_ptr m_tiw]. rewrite E4. destruct (Nat.eqb_spec (c mod I) 0) as [Hz|Hz].
      + destruct L5 as [(-> & ->)|(p & -> & M)]; [left; auto|]. right. exists p. split; [lia|]. split; auto. replace (S c - 1)%nat with c by lia. rewrite Hz. apply mark_step; auto. lia.
      + destruct L6 as [(-> & ->)|(p & Hc & -> & M)]; [left; auto|]. right. exists p. split; [lia|]. split; auto. replace (S c - 1)%nat with c by lia. rewrite <- (mod_succ c Hz). rewrite Nat.add_1_r. apply mark_step; auto.
  Qed.
  Lemma mw_field_ok w n W' : length (m_buf w) = buf_alloc I -> (m_ptr w <= size)%nat -> w_interval (m_tiw w) = Z.of_nat I -> tiw_start_field (m_tiw w) n = Some W' ->
    exists w', mw_start_field w n = Some w' /\ m_tiw w' = W' /\ BInv w'.
  Proof.
    intros L1 L2 L3 E. unfold mw_start_field. rewrite E. cbn [obind]. eexists. split; [reflexivity|]. split; [reflexivity|].
    unfold tiw_start_field in E. destruct (enc_int (tw_cnt (w_tix (m_tiw w)))) as [a|]; cbn [obind] in E; [|discriminate]. destruct (enc_int (tw_cnt (w_tis (m_tiw w)))) as [b|]; cbn [obind] in E; [|discriminate].
    destruct (enc_int n) as [c|]; cbn [obind] in E; [|discriminate]. destruct (enc_vint (Z.of_nat (length (tw_out (w_tix (m_tiw w)))))) as [d|]; cbn [obind] in E; [|discriminate].
    destruct (enc_vint (Z.of_nat (length (tw_out (w_tis (m_tiw w)))))) as [f|]; cbn [obind] in E; [|discriminate]. apply some_inj in E. subst W'.
    unfold BInv. cbn [m_tiw m_buf m_ptr w_interval w_tis tw_cnt]. split; auto. split; auto. split; auto. exists O. split; [reflexivity|]. split; left; cbn; auto.
  Qed.
End BUF.
