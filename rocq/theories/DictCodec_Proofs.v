From Verif Require Import Util Codec_Model Codec_Spec Codec_Proofs Seg_Model SegCodec_Proofs Strcmp Dict_Model Dict_Spec.
Open Scope Z_scope.

Lemma string_diff_le s : forall t, (string_diff s t <= length s)%nat /\ (string_diff s t <= length t)%nat /\ firstn (string_diff s t) s = firstn (string_diff s t) t.
Proof.
  induction s as [|a s IH]; intros [|b t]; cbn; repeat split; try lia; destruct (Z.eqb_spec a b) as [->|]; cbn; try lia; destruct (IH t) as (H1 & H2 & H3); try lia.
  - rewrite H3. reflexivity.
  - reflexivity.
Qed.
Lemma good_voff v bs : off_nonneg v -> enc_vint v = Some bs -> good bs v dec_voff never.
Proof.
  intros Hv E. assert (Hu : u64 v) by (unfold off_nonneg, u64 in *; lia).
  replace v with (to_signed 64 v). 2:{ unfold to_signed, off_nonneg in *. change (64 - 1) with 63. destruct (Z.ltb_spec v (2 ^ 63)); lia. }
  apply (good_map bs v (to_signed 64) (lift (dec_v 64)) never). eapply good_lift; [apply vll_roundtrips|apply vll_trunc|exact Hu|exact E].
Qed.
Lemma enc_voff_some v : off_nonneg v -> exists bs, enc_vint v = Some bs.
Proof. intros H. eapply (enc_some _ enc_vint); [apply voff_roundtrips|exact H]. Qed.
Lemma good_take b : good b b (take (length b)) never.
Proof.
  split.
  - intros rest. unfold take. rewrite app_length. rewrite (proj2 (Nat.ltb_ge _ _)) by lia. rewrite firstn_app_exact, skipn_app_exact. reflexivity.
  - intros n Hn. unfold take. rewrite firstn_length. rewrite (proj2 (Nat.ltb_lt _ _)) by lia. reflexivity.
Qed.

Section Codec.
  Variable K : Z.
  Definition ent (p c : entry) : list Z := match enc_entry K (fst p) (snd p) (fst c) (snd c) with Some b => b | None => [] end.
  Lemma enc_entry_some p c : entry_ok c -> ti_le (snd p) (snd c) -> 0 <= ti_frq (snd p) -> 0 <= ti_prx (snd p) ->
    enc_entry K (fst p) (snd p) (fst c) (snd c) = Some (ent p c).
  Proof.
    intros (Ht & Hd & Hf & Hp & Hs) (L1 & L2) P1 P2. unfold ent. unfold enc_entry.
    destruct (enc_int_some (Z.of_nat (string_diff (fst p) (fst c)))) as (a & ->). cbn [obind].
    destruct (enc_int_some (Z.of_nat (length (fst c) - string_diff (fst p) (fst c)))) as (b & ->). cbn [obind].
    destruct (enc_int_some (ti_df (snd c))) as (d & ->). cbn [obind].
    destruct (enc_voff_some (ti_frq (snd c) - ti_frq (snd p))) as (e & ->); [unfold off_nonneg; lia|]. cbn [obind].
    destruct (enc_voff_some (ti_prx (snd c) - ti_prx (snd p))) as (f & ->); [unfold off_nonneg; lia|]. cbn [obind].
    destruct (enc_voff_some (ti_skip (snd c))) as (g & ->); [unfold off_nonneg; lia|].
    destruct (K <=? ti_df (snd c)); reflexivity.
  Qed.
  Lemma good_term_read cur t a b : term_ok t ->
    enc_int (Z.of_nat (string_diff cur t)) = Some a -> enc_int (Z.of_nat (length t - string_diff cur t)) = Some b ->
    good (a ++ b ++ skipn (string_diff cur t) t) t (term_read cur) never.
  Proof.
    intros (Hb & Hl) Ea Eb. destruct (string_diff_le cur t) as (L1 & L2 & L3). unfold term_read.
    apply good_bind0 with (Z.of_nat (string_diff cur t)); [apply good_nat; [lia|exact Ea]|].
    apply good_bind0 with (Z.of_nat (length t - string_diff cur t)); [apply good_nat; [lia|exact Eb]|].
    rewrite (proj2 (Z.ltb_ge (Z.of_nat (string_diff cur t)) 0)) by lia. rewrite (proj2 (Z.ltb_ge (Z.of_nat (length t - string_diff cur t)) 0)) by lia.
    rewrite (proj2 (Z.ltb_ge (Z.of_nat (length cur)) _)) by lia. change (Z.of_nat MAX_WORD_SIZE) with 255. rewrite (proj2 (Z.leb_gt 255 _)) by lia. cbn [orb].
    rewrite !Nat2Z.id. rewrite L3.
    pose proof (good_map _ _ (fun b => firstn (string_diff cur t) t ++ b) _ _ (good_take (skipn (string_diff cur t) t))) as G.
    rewrite skipn_length in G. cbv beta in G. rewrite firstn_skipn in G. exact G.
  Qed.
  (* the read back info *)
  Definition got (p : ti) (c : ti) : ti := mkTi (ti_df c) (ti_frq c) (ti_prx c) (if K <=? ti_df c then ti_skip c else ti_skip p).
  Lemma got_same p c : same_ti K (got p c) c.
  Proof. unfold same_ti, got. cbn. repeat split; auto. intros H. rewrite (proj2 (Z.leb_le _ _) H). reflexivity. Qed.
  (* e is the state of the reader: same pointers as the entry before *)
  Lemma good_entry p (e : ti) c : entry_ok c -> ti_le (snd p) (snd c) -> 0 <= ti_frq (snd p) -> 0 <= ti_prx (snd p) ->
    ti_frq e = ti_frq (snd p) -> ti_prx e = ti_prx (snd p) ->
    good (ent p c) (fst c, got e (snd c)) (read_entry K (fst p) e) never.
  Proof.
    intros Hc HL P1 P2 E1 E2. pose proof (enc_entry_some p c Hc HL P1 P2) as E. destruct Hc as (Ht & Hd & Hf & Hp & Hs). destruct HL as [L1 L2].
    unfold enc_entry in E. odestruct E. rewrite <- E. clear E. rename a into b0, a0 into b1, a1 into b2, a2 into b3, a3 into b4, a4 into b5.
    unfold read_entry. replace (b0 ++ b1 ++ skipn (string_diff (fst p) (fst c)) (fst c) ++ b2 ++ b3 ++ b4 ++ b5)
      with ((b0 ++ b1 ++ skipn (string_diff (fst p) (fst c)) (fst c)) ++ b2 ++ b3 ++ b4 ++ b5) by (rewrite <- !app_assoc; reflexivity).
    apply good_bind0 with (fst c); [apply good_term_read; auto|].
    apply good_bind0 with (ti_df (snd c)); [apply good_int; [unfold i32; lia|assumption]|].
    apply good_bind0 with (ti_frq (snd c) - ti_frq (snd p)); [apply good_voff; [unfold off_nonneg; lia|assumption]|].
    apply good_bind0 with (ti_prx (snd c) - ti_prx (snd p)); [apply good_voff; [unfold off_nonneg; lia|assumption]|].
    rewrite E1, E2. replace (ti_frq (snd p) + (ti_frq (snd c) - ti_frq (snd p))) with (ti_frq (snd c)) by lia.
    replace (ti_prx (snd p) + (ti_prx (snd c) - ti_prx (snd p))) with (ti_prx (snd c)) by lia. unfold got.
    destruct (K <=? ti_df (snd c)).
    - apply (good_map b5 (ti_skip (snd c)) (fun s => (fst c, mkTi (ti_df (snd c)) (ti_frq (snd c)) (ti_prx (snd c)) s))).
      apply good_voff; [unfold off_nonneg; lia|assumption].
    - match goal with H : Some [] = Some _ |- _ => apply some_inj in H; subst end. apply good_ret.
  Qed.

  (* the bytes of consecutive entries *)
  Fixpoint blk (p : entry) (l : list entry) : list Z :=
    match l with [] => [] | c :: l' => ent p c ++ blk c l' end.
  Lemma blk_app l1 : forall p l2, blk p (l1 ++ l2) = blk p l1 ++ blk (last l1 p) l2.
  Proof.
    induction l1 as [|c l1 IH]; intros p l2; [reflexivity|]. cbn [app blk]. rewrite IH, <- app_assoc. f_equal. f_equal. f_equal.
    destruct l1 as [|x l1]; [reflexivity|]. cbn [last]. clear. revert x. induction l1 as [|y l1 IH]; intros x; [reflexivity|]. cbn [last]. apply IH.
  Qed.
End Codec.
