(* The DocumentWriter adds one occurrence after the other; the posting lists of a field are those of the occurrences. *)
From Verif Require Import Util Strcmp Seg_Model Dict_Model Dict_Spec Token_Model Post_Model Post_Spec Mte_Spec Mte_Proofs MergeTerms_Proofs Fields_Model Fields_Spec Invert_Model Invert_Spec.
Open Scope Z_scope.

(* ---------- the loops are folds over the occurrences *)
Definition put (so : bool) (doc : Z) (s : inv) (o : occ) : option inv :=
  let s1 := dw_add_posting doc (o_text o) (o_pos o) s in if so then dw_add_offsets (o_pos o) (fst (snd o)) (snd (snd o)) s1 else Some s1.
Fixpoint puts (so : bool) (doc : Z) (s : inv) (os : list occ) : option inv := match os with [] => Some s | o :: r => do s' <- put so doc s o; puts so doc s' r end.
Lemma puts_app so doc a : forall s b, puts so doc s (a ++ b) = (do s' <- puts so doc s a; puts so doc s' b).
Proof. induction a as [|o a IH]; intros s b; [reflexivity|]. cbn [app puts]. destruct (put so doc s o) as [s'|]; [|reflexivity]. cbn [obind]. apply IH. Qed.
Definition incs (l : list (token * Z)) : Z := fold_right (fun x z => t_inc (fst x) + z) 0 l.
Lemma place_app a : forall pos b, place pos (a ++ b) = place pos a ++ place (pos + incs a) b.
Proof.
  induction a as [|(t & st) a IH]; intros pos b; cbn [app place incs fold_right]; [rewrite Z.add_0_r; reflexivity|]. rewrite IH. cbn [fst app]. do 2 f_equal. unfold incs. rewrite Z.add_assoc. reflexivity.
Qed.
Lemma place_length l : forall pos, length (place pos l) = length l.
Proof. induction l as [|(t & st) l IH]; intros pos; cbn [place length]; auto. Qed.
Notation pos_ok := (Forall (fun o => 0 <= o_pos o < 2 ^ 31)).
Lemma inv_tokens_ok max so doc start ts : forall pos num s,
  let k := firstn (Z.to_nat (Z.max 1 (max + 1 - num))) ts in let l := map (fun t => (t, start)) k in
  pos_ok (place pos l) ->
  inv_tokens max so doc start ts pos num s = (do s' <- puts so doc s (place pos l); Some (pos + incs l, num + Z.of_nat (length k), s')).
Proof.
  induction ts as [|t ts IH]; intros pos num s k l H.
  - subst l k. rewrite firstn_nil. cbn [inv_tokens map place puts obind incs fold_right length]. change (Z.of_nat 0) with 0. rewrite !Z.add_0_r. reflexivity.
  - assert (Ek : Z.to_nat (Z.max 1 (max + 1 - num)) = S (Z.to_nat (Z.max 1 (max + 1 - num) - 1))) by lia. subst l k. rewrite Ek in *. cbn [firstn map place] in *.
    inversion H as [|? ? Hp Hr]; subst. cbn [o_pos fst snd] in Hp. unfold o_pos in Hp. cbn [fst snd] in Hp. cbn [inv_tokens]. cbv zeta.
    replace ((2 ^ 31 <=? pos + t_inc t) || (pos + t_inc t <? - 2 ^ 31)) with false by (symmetry; apply Bool.orb_false_iff; split; [apply Z.leb_gt|apply Z.ltb_ge]; lia).
    replace (so && (pos + t_inc t <? 0)) with false by (symmetry; apply Bool.andb_false_iff; right; apply Z.ltb_ge; lia).
    cbn [puts]. unfold put at 1. cbv zeta. unfold o_text, o_pos. cbn [fst snd].
    destruct (if so then dw_add_offsets (pos + t_inc t) (start + Z.of_nat (t_start t)) (start + Z.of_nat (t_end t)) (dw_add_posting doc (t_text t) (pos + t_inc t) s) else Some (dw_add_posting doc (t_text t) (pos + t_inc t) s)) as [s1|] eqn:E1; [|reflexivity].
    cbn [obind]. destruct (max <=? num) eqn:E.
    + apply Z.leb_le in E. replace (Z.to_nat (Z.max 1 (max + 1 - num) - 1)) with O by lia. cbn [firstn map place puts obind incs fold_right length fst]. rewrite Z.add_0_r. reflexivity.
    + apply Z.leb_gt in E. replace (Z.to_nat (Z.max 1 (max + 1 - num) - 1)) with (Z.to_nat (Z.max 1 (max + 1 - (num + 1)))) in * by lia.
      rewrite IH by exact Hr. destruct (puts so doc s1 _) as [s2|]; [|reflexivity]. cbn [obind incs fold_right fst length]. do 3 f_equal; [unfold incs|]; lia.
Qed.
Lemma inv_values_ok ana max so doc name vs : forall start pos num s,
  let ks := kept max num (map (fun v => ana name (ctext v)) vs) in let l := with_start start (combine vs ks) in
  pos_ok (place pos l) ->
  inv_values ana max so doc name vs start pos num s = (do s' <- puts so doc s (place pos l); Some (num + Z.of_nat (length l), s')).
Proof.
  induction vs as [|v vs IH]; intros start pos num s ks l H.
  - subst ks l. cbn [map kept combine with_start place puts obind length inv_values]. change (Z.of_nat 0) with 0. rewrite Z.add_0_r. reflexivity.
  - subst ks l. cbn [map kept combine with_start inv_values] in *. cbv zeta in *. set (k := firstn (Z.to_nat (Z.max 1 (max + 1 - num))) (ana name (ctext v))) in *.
    cbn [combine with_start] in *. rewrite place_app in H |- *. apply Forall_app in H. destruct H as [H1 H2].
    rewrite (inv_tokens_ok max so doc start (ana name (ctext v)) pos num s) by exact H1. fold k. rewrite puts_app.
    destruct (puts so doc s (place pos (map (fun t : token => (t, start)) k))) as [s1|]; [|reflexivity]. cbn [obind].
    rewrite IH by exact H2. destruct (puts so doc s1 _) as [s2|]; [|reflexivity]. cbn [obind]. rewrite app_length, map_length. do 2 f_equal. lia.
Qed.
Lemma inv_raw_ok so doc vs : forall i start s,
  inv_raw so doc vs i start s = (do s' <- puts so doc s (raw_occs i start vs); Some (Z.of_nat (i + length vs), s')).
Proof.
  induction vs as [|v vs IH]; intros i start s; cbn [inv_raw raw_occs puts length].
  - cbn [obind]. rewrite Nat.add_0_r. reflexivity.
  - unfold put. cbv zeta. unfold o_text, o_pos. cbn [fst snd]. destruct (if so then _ else _) as [s1|]; [|reflexivity]. cbn [obind]. rewrite IH.
    destruct (puts so doc s1 _) as [s2|]; [|reflexivity]. cbn [obind]. do 3 f_equal. lia.
Qed.
Lemma raw_length vs : forall i start, length (raw_occs i start vs) = length vs.
Proof. induction vs; intros; cbn; auto. Qed.
Lemma invert_field_ok ana max mbd f doc df s : pos_ok (occs_of ana max f df) ->
  dw_invert_field ana max (fld_inv_new mbd f) doc df s = (do s' <- puts (fi_store_offsets f) doc s (occs_of ana max f df); Some (Z.of_nat (length (occs_of ana max f df)), s')).
Proof.
  unfold dw_invert_field, occs_of, fld_inv_new. cbn [f_tok f_so]. destruct (fi_is_tokenized f); intros H.
  - rewrite inv_values_ok by exact H. rewrite place_length. destruct (puts _ _ _ _); reflexivity.
  - rewrite inv_raw_ok. rewrite raw_length. destruct (puts _ _ _ _); reflexivity.
Qed.

(* ---------- C strings and keys *)
Lemma ctext_ok t : term_ok t -> ctext t = t.
Proof. intros [H _]. induction H as [|b t Hb H IH]; [reflexivity|]. cbn [ctext]. destruct (Z.eqb_spec b 0); [lia|]. rewrite IH. reflexivity. Qed.
Lemma seqb_spec' a b : seqb a b = true <-> a = b.
Proof. unfold seqb. rewrite <- scmp_eq. destruct (scmp a b); split; congruence. Qed.
Lemma find_key_some key l : forall k n, find_key key l k = Some n -> (k <= n)%nat /\ nth_error l (n - k) = Some key.
Proof.
  induction l as [|x l IH]; intros k n; cbn [find_key]; [discriminate|]. destruct (seqb x key) eqn:E; intros H.
  - apply some_inj in H. subst. rewrite Nat.sub_diag. apply seqb_spec' in E. subst. auto.
  - apply IH in H. destruct H as [H1 H2]. split; [lia|]. replace (n - k)%nat with (S (n - S k)) by lia. exact H2.
Qed.
Lemma find_key_none key l : forall k, find_key key l k = None <-> ~ In key l.
Proof.
  induction l as [|x l IH]; intros k; cbn [find_key In]; [tauto|]. destruct (seqb x key) eqn:E.
  - apply seqb_spec' in E. split; [discriminate|tauto].
  - rewrite IH. assert (x <> key) by (intros H; apply seqb_spec' in H; congruence). tauto.
Qed.

(* ---------- the lists of a field: P gives the postings of every term *)
Definition lists_ok (P : list Z -> list post) (pls : list plist) : Prop :=
  NoDup (map fst pls) /\ Forall (fun p : plist => term_ok (fst p) /\ snd p = P (fst p) /\ snd p <> []) pls /\ (forall t, P t <> [] -> In t (map fst pls)).
Definition curr_ok (os : list occ) (pls : list plist) (c : list (list Z * nat)) : Prop :=
  NoDup (map fst c) /\ (forall t, In t (map fst c) <-> In t (map o_text os)) /\ Forall (fun x : list Z * nat => exists ps, nth_error pls (snd x) = Some (fst x, ps)) c.
Definition adds (doc : nat) (P : list Z -> list post) (os : list occ) (t : list Z) : list post := P t ++ post_at doc (at_ t os).
Lemma at_app t a b : at_ t (a ++ b) = at_ t a ++ at_ t b.
Proof. unfold at_. rewrite filter_app, map_app. reflexivity. Qed.
Lemma at_one t o : at_ t [o] = if seqb (o_text o) t then [o_pos o] else [].
Proof. unfold at_. cbn [filter]. destruct (seqb (o_text o) t); reflexivity. Qed.
Lemma at_nil t os : at_ t os = [] <-> ~ In t (map o_text os).
Proof.
  unfold at_. induction os as [|o os IH]; cbn [filter map In]; [tauto|]. destruct (seqb (o_text o) t) eqn:E.
  - apply seqb_spec' in E. split; [discriminate|tauto].
  - rewrite IH. assert (o_text o <> t) by (intros H; apply seqb_spec' in H; congruence). tauto.
Qed.
Lemma seqb_refl' a : seqb a a = true. Proof. apply seqb_spec'. reflexivity. Qed.
Lemma seqb_ne a b : a <> b -> seqb a b = false. Proof. intros H. destruct (seqb a b) eqn:E; auto. apply seqb_spec' in E. congruence. Qed.
Lemma post_at_nil i ps : post_at i ps = [] <-> ps = [].
Proof. destruct ps; cbn; split; congruence. Qed.
Lemma pl_add_occ_app pos l d ps : pl_add_occ pos (l ++ [(d, ps)]) = l ++ [(d, ps ++ [pos])].
Proof. induction l as [|p l IH]; [reflexivity|]. cbn [app]. destruct p as [d0 p0]. cbn [pl_add_occ]. rewrite IH. destruct l; reflexivity. Qed.
Lemma pl_last_app l d ps : pl_last (l ++ [(d, ps)]) = ps.
Proof. induction l as [|p l IH]; [reflexivity|]. cbn [app]. destruct p as [d0 p0]. cbn [pl_last]. rewrite IH. destruct l; reflexivity. Qed.
Lemma on_pl_nth i f l p : nth_error l i = Some p -> on_pl i f l = upd l i (f p).
Proof. unfold on_pl. intros ->. reflexivity. Qed.
Lemma upd_map_fst (l : list plist) i p q : nth_error l i = Some p -> fst q = fst p -> map fst (upd l i q) = map fst l.
Proof. revert i. induction l as [|x l IH]; intros [|i]; cbn; try discriminate; intros H E; [apply some_inj in H; subst; rewrite E; reflexivity|rewrite (IH i); auto]. Qed.
Lemma upd_fst (l : list plist) i t ps qs : nth_error l i = Some (t, ps) -> map fst (upd l i (t, qs)) = map fst l.
Proof. intros H. eapply upd_map_fst; eauto. Qed.
Lemma upd_Forall {A} (Q : A -> Prop) (l : list A) i x : (forall j y, nth_error l j = Some y -> j <> i -> Q y) -> Q x -> Forall Q (upd l i x).
Proof.
  intros H Hx. apply Forall_forall. intros y Hy. apply In_nth_error in Hy. destruct Hy as (j & Hj). rewrite nth_error_upd in Hj.
  destruct (Nat.eqb_spec i j) as [->|Hne]; [|eapply H; [exact Hj|congruence]]. cbn [andb] in Hj. destruct (j <? length l)%nat eqn:E; [apply some_inj in Hj; subst; auto|].
  apply Nat.ltb_ge in E. assert (nth_error l j = None) by (apply nth_error_None; lia). congruence.
Qed.
Lemma nodup_nth_fst (l : list plist) i j p q : NoDup (map fst l) -> nth_error l i = Some p -> nth_error l j = Some q -> fst p = fst q -> i = j.
Proof.
  intros H Hi Hj E. rewrite NoDup_nth_error in H. apply H.
  - rewrite map_length. apply nth_error_Some. congruence.
  - rewrite !nth_error_map, Hi, Hj. cbn. congruence.
Qed.

Lemma add_posting_ok doc P os pls c offs size o : term_ok (o_text o) -> lists_ok (adds doc P os) pls -> curr_ok os pls c ->
  exists pls' c', dw_add_posting (Z.of_nat doc) (o_text o) (o_pos o) (mkInv c pls offs size) = mkInv c' pls' offs size /\
    lists_ok (adds doc P (os ++ [o])) pls' /\ curr_ok (os ++ [o]) pls' c'.
Proof.
  intros Ht (HN & HF & HI) (CN & CI & CF). unfold dw_add_posting. rewrite ctext_ok by auto. cbv zeta. cbn [v_curr v_pls v_offs v_size].
  assert (HP : forall t, t <> o_text o -> adds doc P (os ++ [o]) t = adds doc P os t).
  { intros t Hn. unfold adds. rewrite at_app, at_one, seqb_ne, app_nil_r by congruence. reflexivity. }
  assert (HPo : at_ (o_text o) (os ++ [o]) = at_ (o_text o) os ++ [o_pos o]) by (rewrite at_app, at_one, seqb_refl'; reflexivity).
  destruct (find_key (o_text o) (map fst c) 0) as [j|] eqn:EJ.
  - apply find_key_some in EJ. destruct EJ as [_ EJ]. rewrite Nat.sub_0_r, nth_error_map in EJ. destruct (nth_error c j) as [(k & i)|] eqn:Ec; [|discriminate]. cbn in EJ. apply some_inj in EJ. subst k.
    rewrite Forall_forall in CF. destruct (CF _ (nth_error_In _ _ Ec)) as (ps & Ep). cbn [fst snd] in Ep. rewrite (on_pl_nth _ _ _ _ Ep). cbn [fst snd].
    assert (Ein : In (o_text o) (map o_text os)) by (apply CI; apply (in_map fst) in Ec || (apply in_map_iff; exists (o_text o, i); split; [reflexivity|eapply nth_error_In; eauto])).
    rewrite Forall_forall in HF. destruct (HF _ (nth_error_In _ _ Ep)) as (F1 & F2 & F3). cbn [fst snd] in F1, F2, F3.
    assert (En : at_ (o_text o) os <> []) by (intros E; apply at_nil in E; auto).
    assert (Ea : pl_add_occ (o_pos o) ps = adds doc P (os ++ [o]) (o_text o)).
    { rewrite F2. unfold adds. rewrite HPo. destruct (at_ (o_text o) os) as [|p0 q] eqn:Eq; [congruence|]. cbn [post_at app]. rewrite pl_add_occ_app. reflexivity. }
    eexists. eexists. split; [reflexivity|]. split.
    + split; [rewrite (upd_fst _ _ _ _ _ Ep); exact HN|]. split.
      * apply upd_Forall.
        -- intros j0 y Hj Hne. destruct (HF _ (nth_error_In _ _ Hj)) as (G1 & G2 & G3). split; [exact G1|]. split; [|exact G3]. rewrite HP; [exact G2|]. intros E. apply Hne. eapply nodup_nth_fst; eauto.
        -- cbn [fst snd]. rewrite Ea. split; [exact F1|]. split; [reflexivity|]. unfold adds. rewrite HPo. destruct (at_ (o_text o) os); cbn [app post_at]; intros E; apply app_eq_nil in E; destruct E; discriminate.
      * intros t Ht'. rewrite (upd_fst _ _ _ _ _ Ep). destruct (list_eq_dec Z.eq_dec t (o_text o)) as [->|Hn].
        -- apply (in_map fst) in Ep || (apply in_map_iff; exists (o_text o, ps); split; [reflexivity|eapply nth_error_In; eauto]).
        -- apply HI. rewrite <- HP; auto.
    + split; [exact CN|]. split.
      * intros t. rewrite map_app, in_app_iff, CI. cbn [map In]. split; [auto|]. intros [H|[<-|[]]]; auto.
      * apply Forall_forall. intros x Hx. destruct (CF x Hx) as (qs & Eq). rewrite nth_error_upd. destruct (Nat.eqb_spec i (snd x)) as [E0|]; [|eauto]. rewrite <- E0 in *.
        cbn [andb]. replace (i <? length pls)%nat with true by (symmetry; apply Nat.ltb_lt, nth_error_Some; congruence). rewrite Ep in Eq. apply some_inj in Eq. injection Eq as E1 E2. rewrite E1. eauto.
  - apply find_key_none in EJ. assert (Enot : ~ In (o_text o) (map o_text os)) by (intros H; apply EJ; apply CI; exact H). pose proof (proj2 (at_nil _ _) Enot) as En.
    assert (Ecs : map (fun p : plist => ctext (fst p)) pls = map fst pls) by (apply map_ext_in; intros p Hp; rewrite Forall_forall in HF; apply ctext_ok; apply (HF p Hp)).
    rewrite Ecs. destruct (find_key (o_text o) (map fst pls) 0) as [i|] eqn:EI.
    + apply find_key_some in EI. destruct EI as [_ EI]. rewrite Nat.sub_0_r, nth_error_map in EI. destruct (nth_error pls i) as [(k & ps)|] eqn:Ep; [|discriminate]. cbn in EI. apply some_inj in EI. subst k.
      rewrite (on_pl_nth _ _ _ _ Ep). cbn [fst snd]. rewrite Forall_forall in HF. destruct (HF _ (nth_error_In _ _ Ep)) as (F1 & F2 & F3). cbn [fst snd] in F1, F2, F3.
      assert (Ea : ps ++ [(Z.of_nat doc, [o_pos o])] = adds doc P (os ++ [o]) (o_text o)).
      { rewrite F2. unfold adds. rewrite HPo, En. cbn [post_at app]. rewrite app_nil_r. reflexivity. }
      eexists. eexists. split; [reflexivity|]. split.
      * split; [rewrite (upd_fst _ _ _ _ _ Ep); exact HN|]. split.
        -- apply upd_Forall.
           ++ intros j0 y Hj Hne. destruct (HF _ (nth_error_In _ _ Hj)) as (G1 & G2 & G3). split; [exact G1|]. split; [|exact G3]. rewrite HP; [exact G2|]. intros E. apply Hne. eapply nodup_nth_fst; eauto.
           ++ cbn [fst snd]. split; [exact F1|]. split; [exact Ea|]. intros E. apply app_eq_nil in E. destruct E; discriminate.
        -- intros t Ht'. rewrite (upd_fst _ _ _ _ _ Ep). destruct (list_eq_dec Z.eq_dec t (o_text o)) as [->|Hn].
           ++ apply in_map_iff. exists (o_text o, ps). split; [reflexivity|eapply nth_error_In; eauto].
           ++ apply HI. rewrite <- HP; auto.
      * split.
        -- rewrite map_app. cbn [map fst]. apply (Permutation_NoDup (l := o_text o :: map fst c)); [apply Permutation_cons_append|constructor; auto].
        -- split.
           ++ intros t. rewrite !map_app, !in_app_iff, CI. cbn [map In fst]. tauto.
           ++ apply Forall_app. split.
              ** rewrite Forall_forall in *. intros x Hx. destruct (CF x Hx) as (qs & Eq). rewrite nth_error_upd. destruct (Nat.eqb_spec i (snd x)) as [E0|]; [|eauto]. rewrite <- E0 in *.
                 cbn [andb]. replace (i <? length pls)%nat with true by (symmetry; apply Nat.ltb_lt, nth_error_Some; congruence). rewrite Ep in Eq. apply some_inj in Eq. injection Eq as E1 E2. rewrite E1. eauto.
              ** constructor; [|constructor]. cbn [fst snd]. rewrite nth_error_upd, Nat.eqb_refl. cbn [andb]. replace (i <? length pls)%nat with true by (symmetry; apply Nat.ltb_lt, nth_error_Some; congruence). eauto.
    + apply find_key_none in EI. assert (EP0 : adds doc P os (o_text o) = []). { destruct (adds doc P os (o_text o)) eqn:E; auto. exfalso. apply EI, HI. rewrite E. discriminate. }
      assert (Ea : [(Z.of_nat doc, [o_pos o])] = adds doc P (os ++ [o]) (o_text o)).
      { unfold adds in *. rewrite HPo, En in *. cbn [post_at app] in *. rewrite app_nil_r in EP0. rewrite EP0. reflexivity. }
      eexists. eexists. split; [reflexivity|]. split.
      * split; [rewrite map_app; cbn [map fst]; apply (Permutation_NoDup (l := o_text o :: map fst pls)); [apply Permutation_cons_append|constructor; auto]|]. split.
        -- apply Forall_app. split.
           ++ rewrite Forall_forall in *. intros y Hy. destruct (HF y Hy) as (G1 & G2 & G3). split; [exact G1|]. split; [|exact G3]. rewrite HP; [exact G2|]. intros E. apply EI. rewrite <- E. apply in_map. exact Hy.
           ++ constructor; [|constructor]. cbn [fst snd]. split; [exact Ht|]. split; [exact Ea|discriminate].
        -- intros t Ht'. rewrite map_app, in_app_iff. cbn [map In fst]. destruct (list_eq_dec Z.eq_dec t (o_text o)) as [->|Hn]; [auto|]. left. apply HI. rewrite <- HP; auto.
      * split.
        -- rewrite map_app. cbn [map fst]. apply (Permutation_NoDup (l := o_text o :: map fst c)); [apply Permutation_cons_append|constructor; auto].
        -- split.
           ++ intros t. rewrite !map_app, !in_app_iff, CI. cbn [map In fst]. tauto.
           ++ apply Forall_app. split.
              ** rewrite Forall_forall in *. intros x Hx. destruct (CF x Hx) as (qs & Eq). exists qs. rewrite nth_error_app1; [exact Eq|]. apply nth_error_Some. congruence.
              ** constructor; [|constructor]. cbn [fst snd]. rewrite nth_error_app2 by lia. rewrite Nat.sub_diag. cbn [nth_error]. eauto.
Qed.

(* ---------- offsets *)
Lemma set_off_nth n x : forall l p, nth p (set_off n x l) (0, 0) = if (n =? p)%nat then x else nth p l (0, 0).
Proof.
  induction n as [|n IH]; intros [|y l] [|p]; cbn [set_off nth Nat.eqb]; auto.
  - destruct p; reflexivity.
  - rewrite IH. destruct (n =? p)%nat; auto. destruct p; reflexivity.
Qed.
Lemma set_off_length n x : forall l, length (set_off n x l) = Nat.max (S n) (length l).
Proof. induction n as [|n IH]; intros [|y l]; cbn [set_off length]; rewrite ?IH; cbn [length]; lia. Qed.
Definition lp (os : list occ) : Z := fold_left (fun _ o => o_pos o + 1) os 0.
Lemma lp_app os o : lp (os ++ [o]) = o_pos o + 1. Proof. unfold lp. rewrite fold_left_app. reflexivity. Qed.
Lemma off_at_app os o p : off_at (os ++ [o]) p = if o_pos o =? p then snd o else off_at os p.
Proof. unfold off_at. rewrite fold_left_app. reflexivity. Qed.
Definition offs_ok (so : bool) (os : list occ) (offs : list (Z * Z)) (size : nat) : Prop :=
  (forall p, nth p offs (0, 0) = if so then off_at os (Z.of_nat p) else (0, 0)) /\ size = (if so then Z.to_nat (lp os) else O) /\ (size <= length offs)%nat.
Definition one_ok (so : bool) (o : occ) : Prop := term_ok (o_text o) /\ 0 <= o_pos o < (if so then 2 ^ 30 else 2 ^ 31).
Definition inv_now (so : bool) (doc : nat) (P : list Z -> list post) (os : list occ) (s : inv) : Prop :=
  lists_ok (adds doc P os) (v_pls s) /\ curr_ok os (v_pls s) (v_curr s) /\ offs_ok so os (v_offs s) (v_size s).
Lemma put_ok so doc P os s o : one_ok so o -> inv_now so doc P os s -> exists s', put so (Z.of_nat doc) s o = Some s' /\ inv_now so doc P (os ++ [o]) s'.
Proof.
  intros (Ht & Hp) (H1 & H2 & H3). destruct s as [c pls offs size]. cbn [v_pls v_curr v_offs v_size] in *.
  destruct (add_posting_ok doc P os pls c offs size o Ht H1 H2) as (pls' & c' & E & G1 & G2). unfold put. rewrite E. cbv zeta. destruct so.
  - unfold dw_add_offsets. replace (2 ^ 30 <=? o_pos o) with false by (symmetry; apply Z.leb_gt; lia). cbn [v_pls v_curr v_offs v_size]. eexists. split; [reflexivity|]. split; [exact G1|]. split; [exact G2|]. cbn [v_offs v_size].
    destruct H3 as (O1 & O2 & O3). split; [|split].
    + intros p. rewrite set_off_nth, off_at_app, O1. rewrite <- surjective_pairing. destruct (Nat.eqb_spec (Z.to_nat (o_pos o)) p), (Z.eqb_spec (o_pos o) (Z.of_nat p)); auto; lia.
    + rewrite lp_app. lia.
    + rewrite set_off_length. lia.
  - eexists. split; [reflexivity|]. split; [exact G1|]. split; [exact G2|]. exact H3.
Qed.
Lemma puts_ok so doc P l : forall os s, Forall (one_ok so) l -> inv_now so doc P os s -> exists s', puts so (Z.of_nat doc) s l = Some s' /\ inv_now so doc P (os ++ l) s'.
Proof.
  induction l as [|o l IH]; intros os s Hl H; cbn [puts].
  - exists s. rewrite app_nil_r. auto.
  - inversion Hl; subst. destruct (put_ok so doc P os s o) as (s1 & E & H'); auto. rewrite E. cbn [obind]. destruct (IH (os ++ [o]) s1) as (s2 & E2 & H2'); auto. exists s2. split; auto. rewrite <- app_assoc in H2'. exact H2'.
Qed.
Definition zeros (offs : list (Z * Z)) : Prop := forall p, nth p offs (0, 0) = (0, 0).
Lemma puts_start so doc P os pls offs : occs_ok so os -> lists_ok P pls -> zeros offs ->
  exists s', puts so (Z.of_nat doc) (mkInv [] pls offs O) os = Some s' /\ inv_now so doc P os s'.
Proof.
  intros (H1 & _) H2 H3. apply (puts_ok so doc P os [] (mkInv [] pls offs O)); [exact H1|].
  assert (E : forall t, adds doc P [] t = P t) by (intros t; unfold adds; cbn; apply app_nil_r).
  split; [|split]; cbn [v_pls v_curr v_offs v_size].
  - destruct H2 as (A & B & C). split; [exact A|]. split; [|intros t Ht; rewrite E in Ht; auto]. eapply Forall_impl; [|exact B]. cbv beta. intros p. rewrite E. auto.
  - split; [constructor|]. split; [intros t; cbn; tauto|constructor].
  - split; [|split; [destruct so; reflexivity|lia]]. intros p. rewrite H3. destruct so; reflexivity.
Qed.
Lemma off_at_none os p : Forall (fun o => o_pos o <> p) os -> off_at os p = (0, 0).
Proof.
  unfold off_at. generalize (0, 0). induction os as [|o os IH]; intros z H; cbn [fold_left]; auto. inversion H; subst. destruct (Z.eqb_spec (o_pos o) p); [congruence|]. auto.
Qed.
Lemma lp_max os : StronglySorted (fun a b => o_pos a <= o_pos b) os -> Forall (fun o => 0 <= o_pos o) os -> Forall (fun o => o_pos o < lp os) os /\ 0 <= lp os.
Proof.
  intros HS HP. induction os as [|o os IH] using rev_ind; [split; [constructor|unfold lp; cbn; lia]|]. rewrite lp_app. apply Forall_app in HP. destruct HP as [HP1 HP2]. inversion HP2; subst. split; [|lia].
  apply Forall_app. split; [|constructor; [lia|constructor]]. clear IH. apply Forall_forall. intros x Hx.
  assert (o_pos x <= o_pos o). { clear -HS Hx. induction os as [|y os IH]; [destruct Hx|]. cbn [app] in HS. inversion HS; subst. destruct Hx as [->|Hx]; auto. rewrite Forall_forall in H2. apply H2. apply in_app_iff. right. left. auto. } lia.
Qed.
Lemma offs_final so doc P os s : occs_ok so os -> inv_now so doc P os s ->
  firstn (v_size s) (v_offs s) = (if so then offs_of os else []) /\ zeros (repeat (0, 0) (v_size s) ++ skipn (v_size s) (v_offs s)).
Proof.
  intros (H1 & HS) (_ & _ & O1 & O2 & O3). split.
  - destruct so; [|rewrite O2; reflexivity]. apply list_ext. intros p. unfold offs_of. fold (lp os). rewrite nth_error_map. rewrite nth_error_firstn. destruct (Nat.ltb_spec p (v_size s)).
    + rewrite (nth_error_nth' _ (0, 0)) by lia. rewrite O1. rewrite (nth_error_nth' (seq 0 (Z.to_nat (lp os))) O) by (rewrite seq_length; lia). rewrite seq_nth by lia. reflexivity.
    + rewrite (proj2 (nth_error_None (seq 0 _) p)) by (rewrite seq_length; lia). reflexivity.
  - intros p. destruct (Nat.ltb_spec p (v_size s)).
    + rewrite app_nth1 by (rewrite repeat_length; auto). destruct (nth_in_or_default p (repeat (0, 0) (v_size s)) (0, 0)) as [Hi|]; auto. apply repeat_spec in Hi. auto.
    + rewrite app_nth2 by (rewrite repeat_length; lia). rewrite repeat_length. rewrite <- (firstn_skipn (v_size s) (v_offs s)) in O1. specialize (O1 p). rewrite app_nth2 in O1 by (rewrite firstn_length; lia).
      rewrite firstn_length, Nat.min_l in O1 by lia. rewrite O1. destruct so; auto. apply off_at_none. destruct (lp_max os) as [Hm H0]; [auto|eapply Forall_impl; [|exact H1]; cbv beta; intros; lia|]. eapply Forall_impl; [|exact Hm]. cbv beta. intros. lia.
Qed.

(* ---------- sorting *)
Lemma ins_pl_in p l x : In x (ins_pl p l) <-> x = p \/ In x l.
Proof. induction l as [|q l IH]; cbn [ins_pl In]; [intuition|]. destruct (sleb _ _); cbn [In]; [intuition|]. rewrite IH. intuition. Qed.
Lemma sort_pls_in l x : In x (sort_pls l) <-> In x l.
Proof. unfold sort_pls. induction l as [|q l IH]; cbn [fold_right In]; [tauto|]. rewrite ins_pl_in, IH. intuition. Qed.
Notation psorted := (StronglySorted (fun a b : plist => slt (fst a) (fst b))).
Lemma ins_pl_sorted p l : term_ok (fst p) -> Forall (fun q : plist => term_ok (fst q)) l -> ~ In (fst p) (map fst l) -> psorted l -> psorted (ins_pl p l).
Proof.
  intros Hp Hl Hn HS. induction HS as [|q l HS IH HF]; cbn [ins_pl]; [repeat constructor|]. inversion Hl; subst. rewrite !ctext_ok by auto. cbn [map In] in Hn. destruct (sleb (fst p) (fst q)) eqn:E.
  - assert (Hlt : slt (fst p) (fst q)). { unfold sleb in E. destruct (scmp (fst p) (fst q)) eqn:E2; try discriminate; [|exact E2]. apply scmp_eq in E2. exfalso. apply Hn. auto. }
    constructor; [constructor; auto|]. constructor; [exact Hlt|]. eapply Forall_impl; [|exact HF]. cbv beta. intros. eapply slt_trans; eauto.
  - assert (Hlt : slt (fst q) (fst p)) by (apply slt_gt; unfold sleb in E; destruct (scmp (fst p) (fst q)); congruence).
    constructor; [apply IH; auto|]. apply Forall_forall. intros x Hx. apply ins_pl_in in Hx. rewrite Forall_forall in HF. destruct Hx as [->|]; auto.
Qed.
Lemma sort_pls_sorted l : Forall (fun q : plist => term_ok (fst q)) l -> NoDup (map fst l) -> psorted (sort_pls l).
Proof.
  unfold sort_pls. induction l as [|p l IH]; cbn [fold_right map]; intros Hl HN; [constructor|]. inversion Hl as [|? ? Hp Hq]; inversion HN as [|? ? Hn Hm]; subst. apply ins_pl_sorted; [exact Hp| | |apply IH; auto].
  - apply Forall_forall. intros x Hx. apply (proj1 (sort_pls_in l x)) in Hx. rewrite Forall_forall in Hq. apply Hq. exact Hx.
  - intros Hx. apply in_map_iff in Hx. destruct Hx as (y & Ey & Hy). apply (proj1 (sort_pls_in l y)) in Hy. apply Hn. rewrite <- Ey. apply in_map. exact Hy.
Qed.
Lemma distinct_in l x : In x (distinct l) <-> In x l.
Proof. unfold distinct. induction l as [|y l IH]; cbn [fold_right In]; [tauto|]. rewrite insert_in, IH. intuition. Qed.
Lemma distinct_sorted l : StronglySorted slt (distinct l).
Proof. unfold distinct. induction l; cbn [fold_right]; [constructor|apply insert_sorted; auto]. Qed.
Lemma keyed_sorted {B} (f : list Z -> B) l : StronglySorted (fun a b => slt (fst a) (fst b)) (map (fun t => (t, f t)) (distinct l)).
Proof. apply (sorted_map slt); [auto|apply distinct_sorted]. Qed.
Lemma keyed_same {B} (l1 l2 : list (list Z * B)) : StronglySorted (fun a b => slt (fst a) (fst b)) l1 -> StronglySorted (fun a b => slt (fst a) (fst b)) l2 -> (forall x, In x l1 <-> In x l2) -> l1 = l2.
Proof. apply sorted_same; [intros a; apply slt_irr|intros a b c; apply slt_trans]. Qed.
(* all the lists of a field in order *)
Lemma sorted_lists P pls ts : lists_ok P pls -> (forall t, P t <> [] <-> In t ts) -> sort_pls pls = map (fun t => (t, P t)) (distinct ts).
Proof.
  intros (HN & HF & HI) Hts. apply keyed_same.
  - apply sort_pls_sorted; auto. eapply Forall_impl; [|exact HF]. cbv beta. tauto.
  - apply keyed_sorted.
  - intros (t & ps). rewrite sort_pls_in, in_map_iff. rewrite Forall_forall in HF. split.
    + intros H. destruct (HF _ H) as (A & B & C). cbn [fst snd] in *. exists t. subst ps. split; auto. apply distinct_in, Hts. exact C.
    + intros (t' & E & H). injection E as -> <-. apply (proj1 (distinct_in _ _)), Hts in H. pose proof (HI _ H) as Hi. apply in_map_iff in Hi. destruct Hi as ((t' & qs) & E & Hi). cbn in E. subst t'. destruct (HF _ Hi) as (A & B & C). cbn [fst snd] in *. subst qs. exact Hi.
Qed.
Lemma pick_spec pls c : Forall (fun x : list Z * nat => exists ps, nth_error pls (snd x) = Some (fst x, ps)) c -> map fst (pick pls c) = map fst c /\ (forall x, In x (pick pls c) -> In x pls).
Proof.
  unfold pick. induction 1 as [|(k & i) c (ps & E) H (IH1 & IH2)]; cbn [flat_map map In]; [tauto|]. cbn [fst snd] in *. rewrite E. cbn [app map fst]. split; [f_equal; exact IH1|]. intros x [<-|Hx]; auto. eapply nth_error_In; eauto.
Qed.
Lemma tv_terms_ok so doc P os s : inv_now so doc P os s -> tv_terms s = map (fun t => (t, at_ t os)) (distinct (map o_text os)).
Proof.
  intros ((HN & HF & HI) & (CN & CI & CF) & _). destruct (pick_spec _ _ CF) as [E1 E2]. unfold tv_terms. rewrite Forall_forall in HF.
  assert (HL : forall t ps, In (t, ps) (pick (v_pls s) (v_curr s)) -> In t (map o_text os) /\ pl_last ps = at_ t os).
  { intros t ps H. assert (Hc : In t (map o_text os)) by (apply CI; rewrite <- E1; apply (in_map fst) in H; exact H). split; auto. destruct (HF _ (E2 _ H)) as (A & B & C). cbn [fst snd] in B. rewrite B. unfold adds.
    destruct (at_ t os) eqn:E; [apply at_nil in E; contradiction|]. apply pl_last_app. }
  apply keyed_same.
  - apply (sorted_map (fun a b : plist => slt (fst a) (fst b))); [auto|]. apply sort_pls_sorted.
    + apply Forall_forall. intros x Hx. apply E2 in Hx. apply (HF x Hx).
    + rewrite E1. exact CN.
  - apply keyed_sorted.
  - intros (t & ps). rewrite !in_map_iff. split.
    + intros ((t' & qs) & E & H). cbn [fst snd] in E. injection E as -> <-. apply (proj1 (sort_pls_in _ _)) in H. apply HL in H. destruct H as [H ->]. exists t. split; auto. apply distinct_in. exact H.
    + intros (t' & E & H). injection E as -> <-. apply (proj1 (distinct_in _ _)) in H. pose proof (proj2 (CI t) H) as Hc. rewrite <- E1 in Hc. apply in_map_iff in Hc. destruct Hc as ((t' & qs) & E & Hc). cbn in E. subst t'. exists (t, qs). cbn [fst snd]. split; [|apply (proj2 (sort_pls_in _ _)); exact Hc]. apply HL in Hc. destruct Hc as [_ ->]. reflexivity.
Qed.
