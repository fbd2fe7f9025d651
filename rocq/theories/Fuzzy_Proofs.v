(* Fuzzy queries: the table computes the edit distance. *)
From Coq Require Import Sorting.Permutation Sorting.Sorted.
From Verif Require Import Util Strcmp Dict_Model Dict_Spec PQueue_Model PQueue_Spec PQueue_Proofs Multi_Model Mte_Model Mte_Spec Mte_Proofs Expand_Model Expand_Spec Expand_Proofs Fuzzy_Model Fuzzy_Spec.
Open Scope Z_scope.

(* ---------- alignments *)
Inductive ali : list Z -> list Z -> nat -> Prop :=
| A_nil : ali [] [] 0
| A_eq x a b k : ali a b k -> ali (x :: a) (x :: b) k
| A_sub x y a b k : ali a b k -> ali (x :: a) (y :: b) (S k)
| A_ins y a b k : ali a b k -> ali a (y :: b) (S k)
| A_del x a b k : ali a b k -> ali (x :: a) b (S k).
Lemma ali_refl a : ali a a 0.
Proof. induction a; constructor; assumption. Qed.
Lemma ali_app a b k a' b' k' : ali a b k -> ali a' b' k' -> ali (a ++ a') (b ++ b') (k + k').
Proof. induction 1; intros G; cbn [app plus]; [exact G| | | |]; constructor; auto. Qed.
Lemma ali_split u v : forall a k, ali a (u ++ v) k -> exists a1 a2 k1 k2, a = a1 ++ a2 /\ k = (k1 + k2)%nat /\ ali a1 u k1 /\ ali a2 v k2.
Proof.
  intros a k H. remember (u ++ v) as b eqn:Eb. revert u Eb. induction H as [|x a b k H IH|x y a b k H IH|y a b k H IH|x a b k H IH]; intros u Eb.
  - symmetry in Eb. apply app_eq_nil in Eb. destruct Eb as (-> & ->). exists [], [], 0%nat, 0%nat. repeat split; constructor.
  - destruct u as [|z u]; cbn [app] in Eb; [exists [], (x :: a), 0%nat, k; subst; repeat split; repeat constructor; assumption|]. inversion Eb; subst. destruct (IH u eq_refl) as (a1 & a2 & k1 & k2 & -> & -> & G1 & G2). exists (z :: a1), a2, k1, k2. repeat split; auto. constructor. exact G1.
  - destruct u as [|z u]; cbn [app] in Eb; [exists [], (x :: a), 0%nat, (S k); subst; repeat split; repeat constructor; assumption|]. inversion Eb; subst. destruct (IH u eq_refl) as (a1 & a2 & k1 & k2 & -> & -> & G1 & G2). exists (x :: a1), a2, (S k1), k2. repeat split; auto. constructor. exact G1.
  - destruct u as [|z u]; cbn [app] in Eb; [exists [], a, 0%nat, (S k); subst; repeat split; repeat constructor; assumption|]. inversion Eb; subst. destruct (IH u eq_refl) as (a1 & a2 & k1 & k2 & -> & -> & G1 & G2). exists a1, a2, (S k1), k2. repeat split; auto. constructor. exact G1.
  - destruct (IH u Eb) as (a1 & a2 & k1 & k2 & -> & -> & G1 & G2). exists (x :: a1), a2, (S k1), k2. repeat split; auto. constructor. exact G1.
Qed.
Lemma ali_drop x v : forall a k, ali a (x :: v) k -> exists k', (k' <= S k)%nat /\ ali a v k'.
Proof.
  intros a k H. remember (x :: v) as b eqn:Eb. revert Eb. induction H as [|z a b k H IH|z y a b k H IH|y a b k H IH|z a b k H IH]; intros Eb.
  - discriminate.
  - inversion Eb; subst. exists (S k). split; [lia|constructor; exact H].
  - inversion Eb; subst. exists (S k). split; [lia|apply A_del; exact H].
  - inversion Eb; subst. exists k. split; [lia|exact H].
  - destruct (IH Eb) as (k' & G1 & G2). exists (S k'). split; [lia|apply A_del; exact G2].
Qed.
Lemma ali_swap x y v : forall a k, ali a (x :: v) k -> exists k', (k' <= S k)%nat /\ ali a (y :: v) k'.
Proof.
  intros a k H. remember (x :: v) as b eqn:Eb. revert Eb. induction H as [|z a b k H IH|z w a b k H IH|w a b k H IH|z a b k H IH]; intros Eb.
  - discriminate.
  - inversion Eb; subst. exists (S k). split; [lia|apply A_sub; exact H].
  - inversion Eb; subst. exists (S k). split; [lia|apply A_sub; exact H].
  - inversion Eb; subst. exists (S k). split; [lia|apply A_ins; exact H].
  - destruct (IH Eb) as (k' & G1 & G2). exists (S k'). split; [lia|apply A_del; exact G2].
Qed.
Lemma ali_edit a b c k : ali a b k -> edit1 b c -> exists k', (k' <= S k)%nat /\ ali a c k'.
Proof.
  intros H E. destruct E as [u x v|u x v|u x y v]; apply ali_split in H; destruct H as (a1 & a2 & k1 & k2 & -> & -> & G1 & G2).
  - exists (k1 + S k2)%nat. split; [lia|]. apply ali_app; [exact G1|apply A_ins; exact G2].
  - apply ali_drop in G2. destruct G2 as (k' & L & G2). exists (k1 + k')%nat. split; [lia|]. apply ali_app; assumption.
  - apply (ali_swap x y) in G2. destruct G2 as (k' & L & G2). exists (k1 + k')%nat. split; [lia|]. apply ali_app; assumption.
Qed.
Lemma edits_ali n a b : edits n a b -> exists k, (k <= n)%nat /\ ali a b k.
Proof. induction 1 as [a|n a b c H (k & L & G) E]; [exists 0%nat; split; [lia|apply ali_refl]|]. destruct (ali_edit _ _ _ _ G E) as (k' & L' & G'). exists k'. split; [lia|exact G']. Qed.
Lemma edits_cat n a b m c : edits n a b -> edits m b c -> edits (n + m) a c.
Proof. intros H G. revert n a H. induction G as [b|m b c d G IH E]; intros n a H; [rewrite Nat.add_0_r; exact H|]. rewrite <- plus_n_Sm. eapply E_more; [apply IH; exact H|exact E]. Qed.
Lemma edit1_cons x b c : edit1 b c -> edit1 (x :: b) (x :: c).
Proof. intros [u y v|u y v|u y z v]; [apply (E_insert (x :: u))|apply (E_remove (x :: u))|apply (E_replace (x :: u))]. Qed.
Lemma edits_cons x n a b : edits n a b -> edits n (x :: a) (x :: b).
Proof. induction 1; [constructor|]. econstructor; [eassumption|apply edit1_cons; assumption]. Qed.
Lemma ali_edits a b k : ali a b k -> edits k a b.
Proof.
  induction 1 as [|x a b k H IH|x y a b k H IH|y a b k H IH|x a b k H IH].
  - constructor.
  - apply edits_cons. exact IH.
  - eapply E_more; [apply edits_cons; exact IH|apply (E_replace [] x y b)].
  - eapply E_more; [exact IH|apply (E_insert [] y b)].
  - change (S k) with (1 + k)%nat. eapply edits_cat; [|exact IH]. eapply E_more; [constructor|apply (E_remove [] x a)].
Qed.
(* ---------- the least alignment *)
Fixpoint lv (a b : list Z) {struct a} : nat :=
  match a with
  | [] => length b
  | x :: a' => (fix go (b : list Z) : nat := match b with [] => S (length a') | y :: b' => Nat.min (Nat.min (S (lv a' b)) (S (go b'))) ((if x =? y then 0 else 1) + lv a' b') end) b
  end.
Lemma lv_nil_r a : lv a [] = length a.
Proof. destruct a; reflexivity. Qed.
Lemma lv_cons x a y b : lv (x :: a) (y :: b) = Nat.min (Nat.min (S (lv a (y :: b))) (S (lv (x :: a) b))) ((if x =? y then 0 else 1) + lv a b).
Proof. reflexivity. Qed.
Lemma ali_ins_all a b : ali [] b (length b) /\ ali a [] (length a).
Proof. split; [induction b; constructor; assumption|induction a; constructor; assumption]. Qed.
Lemma lv_ali : forall a b, ali a b (lv a b).
Proof.
  induction a as [|x a IHa]; [intros b; apply (ali_ins_all [] b)|]. induction b as [|y b IHb]; [rewrite lv_nil_r; apply (ali_ins_all _ [])|]. rewrite lv_cons.
  destruct (Nat.min_dec (Nat.min (S (lv a (y :: b))) (S (lv (x :: a) b))) ((if x =? y then 0 else 1) + lv a b)) as [-> | ->].
  - destruct (Nat.min_dec (S (lv a (y :: b))) (S (lv (x :: a) b))) as [-> | ->]; [apply A_del, IHa|apply A_ins, IHb].
  - destruct (Z.eqb_spec x y) as [->|]; cbn [plus]; [apply A_eq, IHa|apply A_sub, IHa].
Qed.
Lemma lv_least a b k : ali a b k -> (lv a b <= k)%nat.
Proof.
  induction 1 as [|x a b k H IH|x y a b k H IH|y a b k H IH|x a b k H IH].
  - reflexivity.
  - rewrite lv_cons, Z.eqb_refl. lia.
  - rewrite lv_cons. destruct (x =? y); lia.
  - destruct a as [|x a]; [cbn [lv length] in *; lia|]. rewrite lv_cons. lia.
  - destruct b as [|y b]; [rewrite !lv_nil_r in *; cbn [length]; lia|]. rewrite lv_cons. lia.
Qed.
Lemma lv_distance a b : distance a b (lv a b).
Proof. split; [apply ali_edits, lv_ali|]. intros j Hj. apply edits_ali in Hj. destruct Hj as (k & L & G). apply lv_least in G. lia. Qed.
Lemma ali_rev a b k : ali a b k -> ali (rev a) (rev b) k.
Proof.
  induction 1 as [|x a b k H IH|x y a b k H IH|y a b k H IH|x a b k H IH]; cbn [rev]; [constructor| | | |].
  - replace k with (k + 0)%nat by lia. apply ali_app; [exact IH|apply ali_refl].
  - replace (S k) with (k + 1)%nat by lia. apply ali_app; [exact IH|repeat constructor].
  - replace (S k) with (k + 1)%nat by lia. rewrite <- (app_nil_r (rev a)). apply ali_app; [exact IH|repeat constructor].
  - replace (S k) with (k + 1)%nat by lia. rewrite <- (app_nil_r (rev b)). apply ali_app; [exact IH|repeat constructor].
Qed.
Lemma lv_rev a b : lv (rev a) (rev b) = lv a b.
Proof. assert (H : forall a b, (lv (rev a) (rev b) <= lv a b)%nat) by (intros; apply lv_least, ali_rev, lv_ali). pose proof (H a b). pose proof (H (rev a) (rev b)) as G. rewrite !rev_involutive in G. lia. Qed.
Lemma ali_sym a b k : ali a b k -> ali b a k.
Proof. induction 1; [constructor|apply A_eq|apply A_sub|apply A_del|apply A_ins]; assumption. Qed.
Lemma lv_sym a b : lv a b = lv b a.
Proof. assert (H : forall a b, (lv a b <= lv b a)%nat) by (intros; apply lv_least, ali_sym, lv_ali). pose proof (H a b). pose proof (H b a). lia. Qed.
Lemma lv_prefix p a b : lv (p ++ a) (p ++ b) = lv a b.
Proof.
  induction p as [|x p IH]; [reflexivity|]. cbn [app]. rewrite lv_cons, Z.eqb_refl, IH. destruct (ali_drop x (p ++ b) (p ++ a) _ (lv_ali _ _)) as (k1 & L1 & G1). apply lv_least in G1. rewrite IH in G1.
  assert (G2 : (lv a b <= S (lv (x :: p ++ a) (p ++ b)))%nat). { rewrite lv_sym. destruct (ali_drop x (p ++ a) (p ++ b) _ (ali_sym _ _ _ (lv_ali (x :: p ++ a) (p ++ b)))) as (k2 & L2 & G2). apply lv_least in G2. rewrite lv_sym, IH, lv_sym in G2. lia. }
  lia.
Qed.
Lemma lv_len a b : (length a <= length b + lv a b)%nat /\ (length b <= length a + lv a b)%nat.
Proof. pose proof (lv_ali a b) as H. induction H; cbn [length]; lia. Qed.
(* ---------- the rows of the table: t the bytes of the target read, in reverse *)
Lemma min3_min a b c : min3 a b c = Z.min (Z.min a b) c.
Proof. unfold min3. destruct (Z.ltb_spec a b), (Z.ltb_spec a c), (Z.ltb_spec b c); lia. Qed.
(* the entries for all extensions of the prefix u (reversed) by text *)
Fixpoint entries (t u text : list Z) : list Z := Z.of_nat (lv t u) :: match text with [] => [] | x :: text' => entries t (x :: u) text' end.
Lemma row_ok c t : forall text u, row c text (tl (entries t u text)) (Z.of_nat (lv t u)) (Z.of_nat (lv (c :: t) u)) = tl (entries (c :: t) u text).
Proof.
  induction text as [|x text IH]; intros u; cbn [entries tl]; [reflexivity|].
  assert (E : exists es, entries t (x :: u) text = Z.of_nat (lv t (x :: u)) :: es /\ tl (entries t (x :: u) text) = es) by (destruct text; cbn [entries tl]; eauto). destruct E as (es & E1 & E2).
  assert (E3 : exists es', entries (c :: t) (x :: u) text = Z.of_nat (lv (c :: t) (x :: u)) :: es' /\ tl (entries (c :: t) (x :: u) text) = es') by (destruct text; cbn [entries tl]; eauto). destruct E3 as (es' & E3 & E4).
  specialize (IH (x :: u)). rewrite E2, E4 in IH. rewrite E1, E3. cbn [row]. assert (Hv : (if c =? x then min3 (Z.of_nat (lv t (x :: u)) + 1) (Z.of_nat (lv (c :: t) u) + 1) (Z.of_nat (lv t u)) else min3 (Z.of_nat (lv t (x :: u))) (Z.of_nat (lv (c :: t) u)) (Z.of_nat (lv t u)) + 1) = Z.of_nat (lv (c :: t) (x :: u))).
  { rewrite lv_cons, !min3_min. destruct (c =? x); cbn [plus]; lia. }
  rewrite Hv. f_equal. exact IH.
Qed.
Lemma entries_hd t u text : exists es, entries t u text = Z.of_nat (lv t u) :: es /\ tl (entries t u text) = es.
Proof. destruct text; cbn [entries tl]; eauto. Qed.
Lemma entries_nth t : forall text u, nth_error (entries t u text) (length text) = Some (Z.of_nat (lv t (rev text ++ u))).
Proof. induction text as [|x text IH]; intros u; cbn [entries length nth_error]; [reflexivity|]. rewrite IH. cbn [rev]. rewrite <- app_assoc. reflexivity. Qed.
(* if a row is above the limit, so is the next *)
Lemma above_row M c t : forall text u, Forall (fun v => M < v) (entries t u text) -> M < Z.of_nat (lv (c :: t) u) -> Forall (fun v => M < v) (entries (c :: t) u text).
Proof.
  induction text as [|x text IH]; intros u H Hl; cbn [entries] in *; [constructor; [exact Hl|constructor]|]. inversion H as [|? ? H1 H2]; subst. constructor; [exact Hl|]. apply IH; [exact H2|]. destruct (entries_hd t (x :: u) text) as (es & E & _). rewrite E in H2. apply Forall_inv in H2. rewrite lv_cons. destruct (c =? x); cbn [plus]; lia.
Qed.
Lemma above_rows M text : forall s t, Forall (fun v => M < v) (entries t [] text) -> Forall (fun v => M < v) (entries (s ++ t) [] text).
Proof.
  induction s as [|c s IH]; intros t H; [exact H|]. cbn [app]. specialize (IH t H). apply above_row; [exact IH|]. destruct (entries_hd (s ++ t) [] text) as (es & E & _). rewrite E in IH. apply Forall_inv in IH. rewrite lv_nil_r in *. cbn [length]. lia.
Qed.
Lemma rows_ok M text : forall target t, match rows M text target (Z.of_nat (length t)) (entries t [] text) with
  | Some d => d = entries (rev target ++ t) [] text
  | None => M < Z.of_nat (lv (rev target ++ t) (rev text))
  end.
Proof.
  induction target as [|c target IH]; intros t; cbn [rows]; [reflexivity|]. destruct (entries_hd t [] text) as (es & E1 & E2). destruct (entries_hd (c :: t) [] text) as (es' & E3 & E4). rewrite E1.
  assert (Er : (Z.of_nat (length t) + 1) :: row c text es (Z.of_nat (lv t [])) (Z.of_nat (length t) + 1) = entries (c :: t) [] text).
  { pose proof (row_ok c t text []) as H. rewrite E2, E4 in H. rewrite !lv_nil_r in *. cbn [length] in *. replace (Z.of_nat (length t) + 1) with (Z.of_nat (S (length t))) by lia. rewrite H, E3. reflexivity. }
  rewrite Er. cbn [rev]. rewrite <- app_assoc. cbn [app]. destruct (forallb (fun v => M <? v) (entries (c :: t) [] text)) eqn:Ef.
  - assert (HF : Forall (fun v => M < v) (entries (c :: t) [] text)) by (apply Forall_forall; intros v Hv; rewrite forallb_forall in Ef; specialize (Ef v Hv); apply Z.ltb_lt; exact Ef). apply (above_rows M text (rev target)) in HF. rewrite Forall_forall in HF. apply HF. apply nth_error_In with (length text). rewrite entries_nth, app_nil_r. reflexivity.
  - replace (Z.of_nat (length t) + 1) with (Z.of_nat (length (c :: t))) by (cbn [length]; lia). apply IH.
Qed.
Lemma entries_first : forall text u, entries [] u text = map Z.of_nat (seq (length u) (S (length text))).
Proof. induction text as [|x text IH]; intros u; cbn [entries lv length seq map]; [reflexivity|]. f_equal. rewrite IH. reflexivity. Qed.
Section SCORE.
  Variable calc : Z -> Z.
  Lemma get_max_ok text pre m : get_max calc (fuzq_new calc text pre) m = Some (calc (Z.min (Z.of_nat (length text)) (Z.of_nat m) + pre)).
  Proof.
    unfold get_max, fuzq_new. cbn [z_max z_text z_pre]. destruct (Nat.ltb_spec m LONGEST) as [H|H]; [|reflexivity]. rewrite nth_error_map, (nth_error_nth' _ 0%nat) by (rewrite seq_length; exact H). rewrite seq_nth by exact H. reflexivity.
  Qed.
  Lemma score_ok pre text target : exists s, fuzq_score calc (fuzq_new calc text (Z.of_nat (length pre))) target = Some s /\ verdict calc (pre ++ text) (pre ++ target) s.
  Proof.
    assert (HD : distance (pre ++ text) (pre ++ target) (lv text target)) by (rewrite <- (lv_prefix pre); apply lv_distance).
    assert (HL : Z.min (Z.of_nat (length (pre ++ text))) (Z.of_nat (length (pre ++ target))) = Z.of_nat (length pre) + Z.min (Z.of_nat (length text)) (Z.of_nat (length target))) by (rewrite !app_length; lia).
    unfold fuzq_score. cbn [z_text z_pre fuzq_new]. destruct ((Z.of_nat (length target) =? 0) || (Z.of_nat (length text) =? 0)) eqn:E0.
    - apply orb_true_iff in E0. rewrite !Z.eqb_eq in E0. assert (Hlv : lv text target = (length target + length text)%nat) by (destruct E0 as [E0|E0]; [destruct target; [rewrite lv_nil_r; reflexivity|cbn [length] in E0; lia]|destruct text; [cbn [lv length]; lia|cbn [length] in E0; lia]]).
      destruct (Z.eqb_spec (Z.of_nat (length pre)) 0) as [Ep|Ep].
      + eexists. split; [reflexivity|]. left. rewrite !app_length. lia.
      + eexists. split; [reflexivity|]. cbn [verdict]. split; [replace (Z.to_nat _) with (lv text target) by lia; exact HD|]. split; [lia|]. rewrite HL. lia.
    - unfold score_mn. rewrite get_max_ok. cbn [obind z_text z_pre fuzq_new]. set (M := calc _). assert (HM : calc (Z.min (Z.of_nat (length (pre ++ text))) (Z.of_nat (length (pre ++ target)))) = M) by (unfold M; f_equal; rewrite HL; lia).
      destruct (Z.ltb_spec M (Z.abs (Z.of_nat (length target) - Z.of_nat (length text)))) as [H1|H1].
      + eexists. split; [reflexivity|]. right. exists (lv text target). split; [exact HD|]. rewrite HM. pose proof (lv_len text target). lia.
      + pose proof (rows_ok M text target []) as HR. rewrite app_nil_r in HR. rewrite entries_first in HR. cbn [length] in HR. change (Z.of_nat 0) with 0 in HR. cbn [length]. destruct (rows M text target 0 (map Z.of_nat (seq 0 (S (length text))))) as [d|].
        * subst d. rewrite entries_nth. cbn [obind]. rewrite app_nil_r, lv_rev, lv_sym. eexists. split; [reflexivity|]. cbn [verdict]. rewrite Nat2Z.id. split; [exact HD|]. split; [lia|]. rewrite HL. reflexivity.
        * eexists. split; [reflexivity|]. right. exists (lv text target). split; [exact HD|]. rewrite HM. rewrite lv_rev, lv_sym in HR. exact HR.
  Qed.
End SCORE.
(* ---------- the query *)
Lemma bt_le a b : le _ bt_lt a b -> snd a <= snd b.
Proof. unfold le, bt_lt. destruct (Z.eqb_spec (snd b) (snd a)) as [E|E]; [lia|]. intros H. apply Z.ltb_ge in H. exact H. Qed.
Section B.
  Variables (max : nat) (min : Z).
  Hypothesis Hmax : (1 <= max)%nat.
  Definition QB (q : mtq) (done : list (list Z * Z)) : Prop := b_boost q = one /\ exists m, PInv _ bt_lt max (b_terms q) m /\ best max m done /\ (forall x, In x m -> min < snd x) /\
    ((length m < max)%nat /\ b_min q = min \/ length m = max /\ min <= b_min q /\ exists x, In x m /\ snd x = b_min q /\ forall y, In y m -> snd x <= snd y).
  Lemma QB_new : QB (mtq_new max min) [].
  Proof. split; [reflexivity|]. exists []. split; [apply new_ok|]. split; [exists []; repeat split; try constructor; cbn; [lia|congruence|intros ? ? []]|]. split; [intros ? []|]. left. cbn [length]. split; [lia|reflexivity]. Qed.
  Lemma addb_ok q done t b : QB q done -> exists q', add_term_boost q t b = Some q' /\ QB q' (done ++ if nonempty t && (min <? b) then [(t, b)] else []).
  Proof.
    intros HQ. pose proof HQ as (Hb & m & HI & HB & HF & HM). unfold add_term_boost. replace (match t with [] => false | _ => true end) with (nonempty t) by (destruct t; reflexivity). rewrite (andb_comm (b_min q <? b)). destruct (nonempty t); cbn [andb]; [|exists q; rewrite app_nil_r; auto].
    destruct HB as (out & B1 & B2 & B3 & B4). destruct (Z.ltb_spec (b_min q) b) as [Hlt|Hge].
    - assert (Hmb : (min <? b) = true) by (apply Z.ltb_lt; destruct HM as [(_ & HM)|(_ & HM & _)]; lia). rewrite Hmb.
      destruct (insert_ok _ bt_lt bt_pre max _ m (t, b) HI) as (i & h & m' & E & Hstep & HI'). rewrite E. cbn [obind snd].
      assert (Hm' : best max m' (done ++ [(t, b)]) /\ (length m' = S (length m) \/ length m' = max) /\ forall x, In x m' -> min < snd x \/ In x m).
      { inversion Hstep as [|? L|? x m2 L HP HL Hltx|? L HD| | | | | |]; subst.
        - split; [|split; [left; reflexivity|intros x [<-|G]; [left; cbn [snd]; apply Z.ltb_lt; exact Hmb|right; exact G]]]. assert (out = []) as -> by (destruct out; [reflexivity|rewrite B3 in L by discriminate; lia]). exists []. rewrite app_nil_r in *. repeat split; cbn [length]; try lia; [|congruence|intros ? ? ? []]. rewrite B1. apply Permutation_cons_append.
        - pose proof (Permutation_length HP) as Hlp. cbn [length] in Hlp. split; [|split; [right; cbn [length]; lia|intros y [<-|G]; [left; cbn [snd]; apply Z.ltb_lt; exact Hmb|right; apply (Permutation_in _ (Permutation_sym HP)); right; exact G]]].
          assert (Hx : snd x <= b_min q) by (destruct HM as [(L2 & _)|(_ & _ & z & G1 & G2 & G3)]; [lia|]; destruct HL as (_ & HL); specialize (HL z G1); apply bt_le in HL; lia).
          exists (x :: out). repeat split; cbn [length]; try lia.
          + cbn [app]. rewrite <- Permutation_middle, <- B1. rewrite HP. cbn [app]. rewrite <- Permutation_cons_append. apply perm_swap.
          + intros u v [<-|Hu] [<-|Hv]; cbn [snd].
            * lia.
            * assert (snd v <= snd x) by (apply B4; [exact (proj1 HL)|exact Hv]). lia.
            * apply bt_le. apply (proj2 HL). apply (Permutation_in _ (Permutation_sym HP)). right. exact Hu.
            * apply B4; [apply (Permutation_in _ (Permutation_sym HP)); right; exact Hu|exact Hv].
        - exfalso. destruct HM as [(L2 & _)|(_ & _ & z & G1 & G2 & G3)]; [lia|]. specialize (HD z G1). apply bt_le in HD. cbn [snd] in HD. lia. }
      destruct Hm' as (HB' & Hlen & Hin). assert (HF' : forall x, In x m' -> min < snd x) by (intros x Hx; destruct (Hin x Hx) as [G|G]; auto). pose proof HI' as [P1 P2 P3 P4 P5]. rewrite P5, P3. destruct (Nat.eqb_spec (length m') max) as [He|He].
      + destruct (top_elt _ bt_lt max h _ HI' ltac:(lia)) as (x & m2 & Hx & Hm2). pose proof (PInv_least _ bt_lt bt_pre max h m' x HI' Hx ltac:(lia)) as HL. unfold pq_top. rewrite (proj2 (Nat.ltb_lt 0 (pq_size h))) by lia.
        apply elt_some in Hx. rewrite Hx. cbn [obind]. eexists. split; [reflexivity|]. split; [exact Hb|]. cbn [b_terms b_min]. exists m'. split; [exact HI'|]. split; [exact HB'|]. split; [exact HF'|]. right. split; [exact He|]. split.
        * specialize (HF' x (proj1 HL)). lia.
        * exists x. split; [exact (proj1 HL)|]. split; [reflexivity|]. intros y Hy. apply bt_le. apply (proj2 HL). exact Hy.
      + eexists. split; [reflexivity|]. split; [exact Hb|]. cbn [b_terms b_min]. exists m'. split; [exact HI'|]. split; [exact HB'|]. split; [exact HF'|]. left. destruct HB' as (? & _ & L & _). split; [lia|]. destruct HM as [(_ & G)|(G & _)]; [exact G|]. exfalso. lia.
    - destruct HM as [(L & HM)|(L & HM & x & G1 & G2 & G3)].
      + rewrite (proj2 (Z.ltb_ge min b)) by lia. exists q. rewrite app_nil_r. auto.
      + exists q. split; [reflexivity|]. destruct (min <? b); [|rewrite app_nil_r; exact HQ]. split; [exact Hb|]. exists m. split; [exact HI|]. split; [|split; [exact HF|right; eauto 10]]. exists ((t, b) :: out). repeat split; auto; [rewrite <- Permutation_middle, B1; apply Permutation_cons_append|].
        intros u v Hu [<-|Hv]; [cbn [snd]; specialize (G3 u Hu); lia|apply B4; assumption].
  Qed.
End B.
Section RUN.
  Variables (calc : Z -> Z) (sim : fscore -> Z) (r : rdr) (max : nat) (min : Z) (pre text : list Z).
  Hypothesis Hmax : (1 <= max)%nat.
  Definition sc (t : list Z) : fscore := match fuzq_score calc (fuzq_new calc text (Z.of_nat (length pre))) (skipn (length pre) t) with Some s => s | None => Zero end.
  Lemma sc_some t : fuzq_score calc (fuzq_new calc text (Z.of_nat (length pre))) (skipn (length pre) t) = Some (sc t).
  Proof. unfold sc. destruct (score_ok calc pre text (skipn (length pre) t)) as (s & -> & _). reflexivity. Qed.
  Lemma sc_ok u : verdict calc (pre ++ text) (pre ++ u) (sc (pre ++ u)).
  Proof. pose proof (sc_some (pre ++ u)) as H. rewrite skipn_app, skipn_all, Nat.sub_diag in H. cbn [app skipn] in H. destruct (score_ok calc pre text u) as (s & E & G). rewrite E in H. apply some_inj in H. subst s. exact G. Qed.
  Definition pair (t : list Z) : list Z * Z := (t, sim (sc t)).
  Lemma fz_loop_ok : forall rest c e q done fuel, yields r e rest -> QB max min q done -> (length rest < fuel)%nat ->
    exists q', fz_loop calc sim fuel r pre (fuzq_new calc text (Z.of_nat (length pre))) c e q = Some q' /\ QB max min q' (done ++ map pair (pick pre (fun t => min <? sim (sc t)) (c :: rest))).
  Proof.
    induction rest as [|d rest IH]; intros c e q done fuel HY HQ Hf; (destruct fuel as [|fuel]; [lia|]); cbn [fz_loop]; unfold pick; cbn [stretch]; (destruct (starts_with pre c); [|exists q; split; [reflexivity|cbn [filter map]; rewrite app_nil_r; exact HQ]]); rewrite sc_some; cbn [obind]; destruct (addb_ok max min Hmax q done c (sim (sc c)) HQ) as (q1 & E1 & HQ1); rewrite E1; cbn [obind].
    - inversion HY as [? e' En|]; subst. rewrite En. cbn [obind fst snd]. exists q1. split; [reflexivity|]. cbn [filter]. destruct (nonempty c && _); exact HQ1.
    - inversion HY as [|? ? e' ? En HY']; subst. rewrite En. cbn [obind fst snd]. destruct (IH d e' q1 _ fuel HY' HQ1 ltac:(cbn [length] in Hf; lia)) as (q2 & E2 & HQ2). exists q2. split; [exact E2|]. cbn [filter]. unfold pick in HQ2. cbn [stretch] in HQ2. rewrite <- app_assoc in HQ2. destruct (nonempty c && _); exact HQ2.
  Qed.
End RUN.
(* all terms of a field: the current term of the new enumerator is empty *)
Lemma all_yields i r f : src_of i r -> idx_field i f -> exists e, all_terms r f = Some ([], e) /\ yields r e (idx_terms i f).
Proof.
  destruct i as [x|mp xs], r as [s|mp' srcs]; cbn [src_of idx_field idx_terms]; try tauto.
  - intros Hs _. pose proof (set_at x s ste_new f Hs) as Hat. cbn [all_terms]. exists (EOne (ste_set_field (fst s) (snd s) ste_new f)). split; [|refine (one_yields x s f Hs (S (length (terms_of (g_fs x) f))) 0 (ste_set_field (fst s) (snd s) ste_new f) _ Hat); lia]. f_equal. f_equal. destruct Hat as (_ & _ & [(_ & _ & H & _)|(H & _)]); [exact H|discriminate].
  - intros (-> & Hs) Hf. rewrite (n_xs _ _ Hs) in Hf. destruct (new_ok_none mp xs srcs Hs f Hf) as (m & E & HV). cbn [all_terms]. rewrite E. cbn [obind snd]. exists (EMany m). split.
    + f_equal. f_equal. unfold mte_new in E. destruct (each _ _ _ _ _) as [[a b]|]; cbn [obind fst snd] in E; [|discriminate]. apply some_inj in E. injection E as <-. reflexivity.
    + apply (many_yields mp xs srcs f Hs Hf (length srcs) (S (length (union (lists mp f O xs)))) 0 m); [lia|exact HV].
Qed.
Lemma pick_all M P : StronglySorted slt M -> StronglySorted slt (pick [] P ([] :: M)) /\ forall t, In t (pick [] P ([] :: M)) <-> In t M /\ t <> [] /\ starts_with [] t = true /\ P t = true.
Proof.
  intros HM. assert (E : pick [] P ([] :: M) = filter (fun t => nonempty t && P t) M) by (unfold pick; assert (Es : forall l, stretch [] l = l) by (induction l as [|a l IH]; cbn [stretch starts_with]; [reflexivity|rewrite IH; reflexivity]); rewrite Es; reflexivity). rewrite E. split; [apply filter_sorted; exact HM|].
  intros t. rewrite filter_In, andb_true_iff. cbn [starts_with]. destruct t; cbn [nonempty]; intuition (discriminate || congruence).
Qed.
Lemma QB_pairs max min q done : QB max min q done -> best max (boosts_in_query q) done /\ b_boost q = one.
Proof.
  intros (Hb & m & [P1 P2 P3 P4 P5] & (out & B1 & B2 & B3 & B4) & _). split; [|exact Hb]. pose proof (concat_some m _ P1) as HP. change (Permutation (boosts_in_query q) m) in HP. exists out. split; [rewrite HP; exact B1|]. rewrite (Permutation_length HP). repeat split; auto. intros x y Hx. apply B4. apply (Permutation_in _ HP). exact Hx.
Qed.
Lemma fuzzy_src calc sim i r f term pre_len min max fuel : (1 <= max)%nat -> Expand_Proofs.src_of i r -> idx_field i f -> (pre_len < length term)%nat -> (length (idx_terms i f) < fuel)%nat ->
  exists m sel score, fuzq_rewrite calc sim fuel r (Some f) term pre_len min max = Some (QMultiQ m) /\ StronglySorted slt sel /\
    (forall t, In t sel <-> In t (idx_terms i f) /\ t <> [] /\ firstn pre_len t = firstn pre_len term /\ min < sim (score t)) /\
    (forall t, firstn pre_len t = firstn pre_len term -> verdict calc term t (score t)) /\
    QB max min m (map (fun t => (t, sim (score t))) sel).
Proof.
  intros Hmax Ho Hf Hp Hfu. unfold fuzq_rewrite. rewrite (proj2 (Nat.leb_gt _ _)) by exact Hp. set (pre := firstn pre_len term). set (text := skipn pre_len term).
  assert (Hl : length pre = pre_len) by (unfold pre; rewrite firstn_length; lia). assert (Ht : pre ++ text = term) by apply firstn_skipn.
  assert (Hsw : forall t, starts_with pre t = true <-> firstn pre_len t = pre).
  { intros t. rewrite starts_with_ok. rewrite <- Hl. split; [intros (u & ->); rewrite firstn_app, Nat.sub_diag, firstn_all; cbn [firstn]; apply app_nil_r|]. intros H. exists (skipn (length pre) t). rewrite <- H at 1. symmetry. apply firstn_skipn. }
  set (P := fun t => min <? sim (sc calc pre text t)).
  assert (HE : exists c e rest, (if (0 <? pre_len)%nat then terms_from r f pre else all_terms r f) = Some (c, e) /\ yields r e rest /\ (length rest < fuel)%nat /\ StronglySorted slt (pick pre P (c :: rest)) /\ forall t, In t (pick pre P (c :: rest)) <-> In t (idx_terms i f) /\ t <> [] /\ starts_with pre t = true /\ P t = true).
  { pose proof (idx_sorted i r f Ho) as HS. destruct (Nat.ltb_spec 0 pre_len) as [H0|H0].
    - assert (Hne : pre <> []) by (intros E; rewrite E in Hl; cbn [length] in Hl; lia). destruct (from_yields i r f pre Ho Hf) as (c & rest & e & E & HY & EC); [destruct i; cbn [from_ok]; auto|]. exists c, e, rest. split; [exact E|]. split; [exact HY|]. pose proof (from_rest i f pre c rest EC). split; [lia|]. rewrite EC. apply pick_ok. exact HS.
    - assert (Ep : pre = []) by (destruct pre; [reflexivity|cbn [length] in Hl; lia]). destruct (all_yields i r f Ho Hf) as (e & E & HY). exists [], e, (idx_terms i f). split; [exact E|]. split; [exact HY|]. split; [exact Hfu|]. rewrite Ep. apply pick_all. exact HS. }
  destruct HE as (c & e & rest & E & HY & Hr & S1 & S2). rewrite E. cbn [obind fst snd]. destruct (fz_loop_ok calc sim r max min pre text Hmax rest c e _ [] fuel HY (QB_new max min Hmax) Hr) as (q & Eq & HQ). rewrite Hl in Eq. rewrite Eq. cbn [obind].
  exists q, (pick pre P (c :: rest)), (sc calc pre text). split; [reflexivity|]. split; [exact S1|]. split; [intros t; rewrite S2, Hsw; unfold P; rewrite Z.ltb_lt; reflexivity|]. split; [|exact HQ].
  intros t Hpt. rewrite <- Ht. apply Hsw in Hpt. apply starts_with_ok in Hpt. destruct Hpt as (u & ->). apply sc_ok.
Qed.
Lemma fuzzy_ok calc sim i r f term pre_len min max fuel : (1 <= max)%nat -> idx_open i r -> idx_field i f -> (pre_len < length term)%nat -> (length (idx_terms i f) < fuel)%nat ->
  exists m sel score, fuzq_rewrite calc sim fuel r (Some f) term pre_len min max = Some (QMultiQ m) /\ StronglySorted slt sel /\
    (forall t, In t sel <-> In t (idx_terms i f) /\ t <> [] /\ firstn pre_len t = firstn pre_len term /\ min < sim (score t)) /\
    (forall t, firstn pre_len t = firstn pre_len term -> verdict calc term t (score t)) /\
    best max (boosts_in_query m) (map (fun t => (t, sim (score t))) sel).
Proof.
  intros Hmax Ho Hf Hp Hfu. destruct (fuzzy_src calc sim i r f term pre_len min max fuel Hmax (idx_src i r Ho) Hf Hp Hfu) as (m & sel & score & H1 & H2 & H3 & H4 & H5). exists m, sel, score. split; [exact H1|]. split; [exact H2|]. split; [exact H3|]. split; [exact H4|]. exact (proj1 (QB_pairs _ _ _ _ H5)).
Qed.
