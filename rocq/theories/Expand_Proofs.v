From Coq Require Import Sorting.Permutation Sorting.Sorted.
From Verif Require Import Util Strcmp Dict_Model Dict_Spec Dict_Proofs DictCursor_Proofs PQueue_Model PQueue_Spec PQueue_Proofs Multi_Model Mte_Model Mte_Spec Mte_Proofs Expand_Model Expand_Spec.
Open Scope Z_scope.

(* ---------- patterns *)
Lemma tails_in {A} (l : list A) u : In u (tails l) <-> exists s, l = s ++ u.
Proof.
  revert u. induction l as [|a l IH]; intros u; cbn [tails].
  - split; [intros [<-|[]]; exists []; reflexivity|intros (s & H); left; symmetry in H; apply app_eq_nil in H; symmetry; apply H].
  - split.
    + intros [<-|H]; [exists []; reflexivity|]. apply IH in H. destruct H as (s & ->). exists (a :: s). reflexivity.
    + intros ([|b s] & H); [left; exact H|]. right. cbn in H. injection H as <- ->. apply IH. exists s. reflexivity.
Qed.
Lemma glob_stars p : forallb (fun x => x =? WILD_STRING) p = true <-> glob p [].
Proof.
  induction p as [|x p IH]; cbn [forallb]; [split; auto; constructor|]. rewrite andb_true_iff, Z.eqb_eq, IH. split.
  - intros (-> & H). exact (G_star [] p [] H).
  - intros H. inversion H as [| |s q t H1 E1 E2|]; subst. apply app_eq_nil in E2. destruct E2 as (-> & ->). auto.
Qed.
Lemma wc_match_ok p : forall t, wc_match p t = true <-> glob p t.
Proof.
  induction p as [|x p IH]; intros t; destruct t as [|c t]; try (cbn [wc_match]; apply glob_stars).
  - cbn [wc_match]. split; [discriminate|intros H; inversion H].
  - cbn [wc_match]. destruct (x =? WILD_CHAR) eqn:E1; [|destruct (x =? WILD_STRING) eqn:E2].
    + apply Z.eqb_eq in E1. subst x. rewrite IH. split; [apply G_any|]. intros H. inversion H; subst; auto; discriminate.
    + apply Z.eqb_eq in E2. subst x. rewrite existsb_exists. split.
      * intros (u & Hu & H). apply in_rev, tails_in in Hu. destruct Hu as (s & ->). apply G_star, IH, H.
      * intros H. inversion H as [| |s q u H1 E3 E4|]; subst; [|congruence]. exists u. split; [apply in_rev; rewrite rev_involutive; apply tails_in; eauto|apply IH; auto].
    + apply Z.eqb_neq in E1, E2. destruct (x =? c) eqn:E3.
      * apply Z.eqb_eq in E3. subst c. rewrite IH. split; [apply G_lit; auto|]. intros H. inversion H; subst; auto; congruence.
      * apply Z.eqb_neq in E3. split; [discriminate|]. intros H. inversion H; subst; congruence.
Qed.
Definition lit (x : Z) : Prop := x <> WILD_CHAR /\ x <> WILD_STRING.
Lemma glob_pre pre pat : Forall lit pre -> forall t, glob (pre ++ pat) t <-> exists u, t = pre ++ u /\ glob pat u.
Proof.
  induction 1 as [|x pre [H1 H2] _ IH]; intros t; cbn [app].
  - split; [eauto|intros (u & -> & H); exact H].
  - split.
    + intros H. inversion H; subst; try congruence. apply IH in H7. destruct H7 as (u & -> & Hu). exists u. auto.
    + intros (u & -> & Hu). apply G_lit; auto. apply IH. eauto.
Qed.
Lemma split_wild_ok p : let '(a, b) := split_wild p in p = a ++ b /\ Forall lit a /\ match b with [] => True | x :: _ => x = WILD_CHAR \/ x = WILD_STRING end.
Proof.
  induction p as [|x p IH]; cbn [split_wild]; [repeat constructor|]. destruct ((x =? WILD_CHAR) || (x =? WILD_STRING)) eqn:E.
  - split; [reflexivity|]. split; [constructor|]. apply orb_true_iff in E. rewrite !Z.eqb_eq in E. exact E.
  - destruct (split_wild p) as [a b]. destruct IH as (-> & H1 & H2). split; [reflexivity|]. split; [|exact H2]. constructor; auto. apply orb_false_iff in E. rewrite !Z.eqb_neq in E. exact E.
Qed.
Lemma starts_with_ok p : forall t, starts_with p t = true <-> exists u, t = p ++ u.
Proof.
  induction p as [|x p IH]; intros t; cbn [starts_with].
  - split; [intros _; exists t; reflexivity|auto].
  - destruct t as [|y t]; [split; [discriminate|intros (u & H); discriminate]|]. rewrite andb_true_iff, Z.eqb_eq, IH. split.
    + intros (-> & u & ->). exists u. reflexivity.
    + intros (u & H). cbn in H. injection H as -> ->. eauto.
Qed.

(* ---------- a prefix is a range of terms *)
Lemma prefix_le p t : starts_with p t = true -> sle p t.
Proof.
  revert t. induction p as [|x p IH]; intros t H; [apply sle_nil|]. destruct t as [|y t]; [discriminate|]. cbn [starts_with] in H. apply andb_true_iff in H. destruct H as [H1 H2]. apply Z.eqb_eq in H1. subst y. unfold sle in *. cbn [scmp]. rewrite Z.compare_refl. apply IH, H2.
Qed.
Lemma past p : forall t u, sle p t -> starts_with p t = false -> sle t u -> starts_with p u = false.
Proof.
  induction p as [|x p IH]; intros t u H1 H2 H3; [discriminate|]. destruct u as [|z u]; [reflexivity|]. destruct t as [|y t]; [exfalso; apply H1; reflexivity|].
  cbn [starts_with] in *. unfold sle in H1, H3. cbn [scmp] in H1, H3. destruct (Z.eqb_spec x z) as [->|]; [|reflexivity]. cbn [andb]. destruct (Z.compare_spec z y) as [->|Hlt|]; [|rewrite (proj2 (Z.compare_gt_iff _ _)) in H3 by exact Hlt; congruence|congruence].
  rewrite Z.compare_refl in H3. rewrite Z.eqb_refl in H2. cbn [andb] in H2. exact (IH t u H1 H2 H3).
Qed.

(* ---------- enumerators *)
Inductive yields (r : rdr) : tenum -> list (list Z) -> Prop :=
| Y_nil : forall e e', te_next r e = Some (None, e') -> yields r e []
| Y_cons : forall e t e' l, te_next r e = Some (Some t, e') -> yields r e' l -> yields r e (t :: l).
Definition src_of (i : idx) (r : rdr) : Prop :=
  match i, r with IOne x, ROne s => src_ok x s | IMany mp xs, RMany mp' srcs => mp' = mp /\ Forall2 src_ok xs srcs | _, _ => False end.
Lemma idx_src i r : idx_open i r -> src_of i r.
Proof. destruct i, r; cbn; try tauto; [intros (H1 & H2); apply opened_ok; auto|intros (-> & H1 & H2); split; auto; apply srcs_ok; auto]. Qed.
Lemma skipn_nth {A} (l : list A) p : skipn p l = match nth_error l p with Some x => x :: skipn (S p) l | None => [] end.
Proof.
  revert l. induction p as [|p IH]; intros [|a l]; cbn [skipn nth_error]; auto. rewrite IH. destruct (nth_error l p); reflexivity.
Qed.
Lemma one_yields x s n : src_ok x s -> forall k p e, (length (terms_of (g_fs x) n) - p < k)%nat -> at_ (g_skip x) n (terms_of (g_fs x) n) p e -> yields (ROne s) (EOne e) (skipn p (map fst (terms_of (g_fs x) n))).
Proof.
  intros Hs. set (L := terms_of (g_fs x) n). induction k as [|k IH]; intros p e Hk He; [lia|]. destruct (next_ok x s n p e Hs He) as (e' & E & He'). fold L in E, He'.
  rewrite skipn_nth, nth_error_map. destruct (nth_error L p) as [c|] eqn:Ec; cbn [option_map] in *.
  - assert (p < length L)%nat by (apply nth_error_Some; congruence). rewrite place_cnt in He' by lia. eapply Y_cons; [cbn [te_next]; rewrite E; reflexivity|]. apply IH; [lia|exact He'].
  - eapply Y_nil. cbn [te_next]. rewrite E. reflexivity.
Qed.
Lemma many_yields mp xs srcs f (Hsrc : Forall2 src_ok xs srcs) (Hf : field_in mp (length srcs) f) capa : let M := union (lists mp f O xs) in
  forall k p m, (length M - p < k)%nat -> inv mp xs srcs f capa (nth_error M p) m -> yields (RMany mp srcs) (EMany m) (skipn p M).
Proof.
  intros M. induction k as [|k IH]; intros p m Hk Hm; [lia|]. pose proof (next_inv mp xs srcs Hsrc f Hf capa p m Hm) as HN. fold M in HN. rewrite skipn_nth. destruct (nth_error M p) as [t|] eqn:Et.
  - assert (p < length M)%nat by (apply nth_error_Some; congruence). destruct HN as (m' & E & HV & _). eapply Y_cons; [cbn [te_next]; rewrite E; reflexivity|]. apply IH; [lia|exact HV].
  - destruct HN as (m' & E & _). eapply Y_nil. cbn [te_next]. rewrite E. reflexivity.
Qed.
Definition shown (R : list (list Z)) : list (list Z) := match R with [] => [[]] | _ => R end.
Lemma below_first L t : below (map fst L) t = first_ge L t.
Proof. unfold below, first_ge. induction L as [|x L IH]; cbn [map filter]; [reflexivity|]. destruct (sltb (fst x) t); cbn [length]; rewrite IH; reflexivity. Qed.
Lemma from_yields i r f t : src_of i r -> idx_field i f -> from_ok i f t -> exists c rest e, terms_from r f t = Some (c, e) /\ yields r e rest /\ c :: rest = shown (skipn (below (idx_terms i f) t) (idx_terms i f)).
Proof.
  destruct i as [x|mp xs], r as [s|mp' srcs]; cbn [src_of idx_field from_ok idx_terms]; try tauto.
  - intros Hs _ _. set (L := terms_of (g_fs x) f). destruct (scan_ok x s f _ _ t Hs (set_at x s ste_new f Hs)) as (e' & p' & E & Hat & Hp1 & Hp2). fold L in E, Hat, Hp1, Hp2.
    cbn [terms_from]. rewrite E. cbn [obind snd]. rewrite below_first. eexists _, _, _. split; [reflexivity|]. split; [apply (one_yields x s f Hs (S (length L)) p' e'); [fold L; lia|exact Hat]|]. fold L.
    rewrite (skipn_nth (map fst L) (first_ge L t)), nth_error_map. destruct L as [|y L'] eqn:EL.
    + destruct (Hp2 eq_refl) as (Hp & ->). pose proof (set_at x s ste_new f Hs) as (_ & _ & [(_ & _ & H & _)|(_ & _ & H)]); rewrite H; cbn [map]; rewrite skipn_nil; destruct (first_ge [] t); cbn; try reflexivity; destruct (nth_error [] _); reflexivity.
    + rewrite <- EL in *. specialize (Hp1 ltac:(rewrite EL; discriminate)). subst p'. destruct (nth_error L (first_ge L t)) as [c|] eqn:Ec; cbn [option_map shown].
      * assert (Hlt : (first_ge L t < length L)%nat) by (apply nth_error_Some; congruence). destruct Hat as (_ & _ & [(_ & _ & H & _)|(H & _)]); [|exfalso; lia]. rewrite (T_S _ _ _ Ec) in H. rewrite H. reflexivity.
      * apply nth_error_None in Ec. destruct Hat as (_ & _ & [(H & _)|(_ & _ & H)]); [exfalso; lia|]. rewrite H, skipn_all2 by (rewrite map_length; lia). reflexivity.
  - intros (-> & Hs) Hf Ht. rewrite (n_xs _ _ Hs) in Hf. destruct (new_ok_from mp xs srcs Hs f Hf t Ht) as (m & E & HV & _ & Htm). cbn [terms_from]. rewrite E. cbn [obind snd]. set (M := union (lists mp f O xs)) in *.
    eexists _, _, _. split; [reflexivity|]. split; [apply (many_yields mp xs srcs f Hs Hf (length srcs) (S (length M)) (S (below M t)) m); [fold M; lia|exact HV]|]. fold M. rewrite Htm, (skipn_nth M (below M t)).
    destruct (nth_error M (below M t)) as [u|] eqn:Eu; cbn [shown]; [rewrite (nth_error_nth _ _ _ Eu); reflexivity|]. apply nth_error_None in Eu. rewrite nth_overflow, skipn_all2 by lia. reflexivity.
Qed.
Lemma idx_sorted i r f : src_of i r -> StronglySorted slt (idx_terms i f).
Proof.
  destruct i as [x|mp xs], r as [s|mp' srcs]; cbn [src_of idx_terms]; try tauto; [|intros _; apply union_sorted].
  intros (_ & _ & H). destruct (H f) as (_ & HS & _). revert HS. generalize (terms_of (g_fs x) f). intros L HS. induction HS as [|a l Hl IH HF]; cbn [map]; constructor; auto. rewrite Forall_map. exact HF.
Qed.

(* ---------- the query *)
Lemma bt_pre : preorder _ bt_lt.
Proof.
  assert (H : forall a b, bt_lt a b = true <-> snd a < snd b \/ (snd a = snd b /\ slt (fst a) (fst b))).
  { intros a b. unfold bt_lt. destruct (Z.eqb_spec (snd a) (snd b)); [rewrite sltb_spec|rewrite Z.ltb_lt]; intuition lia. }
  assert (Hn : forall a b, bt_lt a b = false <-> snd b < snd a \/ (snd b = snd a /\ sle (fst b) (fst a))).
  { intros a b. rewrite <- not_true_iff_false, H, sle_not. destruct (Z.lt_trichotomy (snd a) (snd b)) as [|[|]]; intuition lia. }
  split; unfold le.
  - intros a b. rewrite !Hn. destruct (Z.lt_trichotomy (snd a) (snd b)) as [|[|]]; auto. destruct (slt_total (fst a) (fst b)) as [G|[G|G]]; [left|left|right]; right; split; auto; try (apply slt_le; exact G). rewrite G. apply sle_refl.
  - intros a b c. rewrite !Hn. intros [H1|[H1 H2]] [H3|[H3 H4]]; try (left; lia). right. split; [lia|]. exact (sle_trans _ _ _ H2 H4).
Qed.
Notation w1 := (map (fun t : list Z => (t, one))).
Definition Q (max : nat) (bo : Z) (q : mtq) (done : list (list Z)) : Prop :=
  b_boost q = bo /\ b_min q = (if (max <=? length done)%nat then one else 0) /\ exists m, PInv _ bt_lt max (b_terms q) m /\ Permutation m (w1 (firstn max done)).
Lemma add_ok max bo q done t : (1 <= max)%nat -> Q max bo q done -> exists q', add_term q t = Some q' /\ Q max bo q' (match t with [] => done | _ => done ++ [t] end).
Proof.
  intros Hmax HQ. pose proof HQ as (Hb & Hmin & m & HI & HP). unfold add_term, add_term_boost. destruct t as [|c t']; [rewrite andb_false_r; eauto|]. set (t := c :: t'). rewrite andb_true_r, Hmin. destruct (Nat.leb_spec max (length done)) as [Hl|Hl].
  - rewrite Z.ltb_irrefl. eexists. split; [reflexivity|]. split; [exact Hb|]. rewrite app_length. cbn [length]. rewrite (proj2 (Nat.leb_le max (length done + 1))) by lia. split; [exact Hmin|]. exists m. split; [exact HI|]. rewrite firstn_app. replace (max - length done)%nat with O by lia. cbn [firstn]. rewrite app_nil_r. exact HP.
  - change (0 <? one) with true. cbv iota. assert (Hlm : length m = length done) by (rewrite (Permutation_length HP), map_length, firstn_length; lia).
    destruct (insert_ok _ bt_lt bt_pre max _ m (t, one) HI) as (i & h & m' & E & Hstep & HI'). rewrite E. cbn [obind snd]. assert (Em : m' = (t, one) :: m) by (inversion Hstep; subst; auto; exfalso; lia). subst m'.
    assert (HP' : Permutation ((t, one) :: m) (w1 (firstn max (done ++ [t])))).
    { rewrite (firstn_all2 (n := max) (done ++ [t])) by (rewrite app_length; cbn [length]; lia). rewrite (firstn_all2 (n := max) done) in HP by lia. rewrite map_app. cbn [map]. etransitivity; [apply Permutation_cons_append|]. apply Permutation_app_tail. exact HP. }
    pose proof HI' as [P1 P2 P3 P4 P5]. rewrite P5, P3. cbn [length]. rewrite Hlm. destruct (Nat.eqb_spec (S (length done)) max) as [He|He].
    + destruct (top_elt _ bt_lt max h _ HI' ltac:(rewrite P3; cbn [length]; lia)) as (x & m2 & Hx & Hm2). unfold pq_top. rewrite (proj2 (Nat.ltb_lt 0 (pq_size h))) by (rewrite P3; cbn [length]; lia).
      apply elt_some in Hx. rewrite Hx. cbn [obind]. eexists. split; [reflexivity|]. split; [exact Hb|]. cbn [b_min b_terms]. rewrite app_length. cbn [length]. rewrite (proj2 (Nat.leb_le max (length done + 1))) by lia. split; [|eexists; split; [exact HI'|exact HP']].
      assert (Hin : In x ((t, one) :: m)) by (eapply Permutation_in; [symmetry; exact Hm2|left; reflexivity]). apply (Permutation_in x HP') in Hin. apply in_map_iff in Hin. destruct Hin as (u & <- & _). reflexivity.
    + eexists. split; [reflexivity|]. split; [exact Hb|]. cbn [b_min b_terms]. rewrite app_length. cbn [length]. rewrite (proj2 (Nat.leb_gt max (length done + 1))) by lia. split; [reflexivity|]. eexists; split; [exact HI'|exact HP'].
Qed.
Lemma Q_new max : (1 <= max)%nat -> forall bo, Q max bo (mkMtq (b_terms (mtq_new max 0)) 0 bo) [].
Proof. intros H bo. split; [reflexivity|]. split; [cbn [length b_min]; destruct max; [lia|reflexivity]|]. exists []. split; [apply new_ok|]. rewrite firstn_nil. constructor. Qed.
Lemma concat_some {A} (m : list A) h : Permutation h (map Some m) -> Permutation (concat (map (fun c => match c with Some x => [x] | None => [] end) h)) m.
Proof.
  intros H. rewrite <- flat_map_concat_map. etransitivity; [exact (Permutation_flat_map (fun c : option A => match c with Some x => [x] | None => [] end) H)|]. clear H. induction m as [|a m IH]; cbn; constructor. exact IH.
Qed.
Lemma Q_terms max bo q done : Q max bo q done -> Permutation (terms_in_query q) (firstn max done).
Proof.
  intros (_ & _ & m & [P1 P2 P3 P4 P5] & HP). unfold terms_in_query. etransitivity; [apply Permutation_map, concat_some; exact P1|]. etransitivity; [apply Permutation_map, HP|]. rewrite map_map. cbn [fst]. rewrite map_id. reflexivity.
Qed.

(* ---------- the loops *)
Section L.
  Variables (r : rdr) (max : nat) (bo : Z) (pre : list Z).
  Hypothesis Hmax : (1 <= max)%nat.
  Fixpoint stretch (l : list (list Z)) : list (list Z) := match l with [] => [] | t :: k => if starts_with pre t then t :: stretch k else [] end.
  Definition nonempty (t : list Z) : bool := match t with [] => false | _ => true end.
  Definition pick (P : list Z -> bool) (l : list (list Z)) : list (list Z) := filter (fun t => nonempty t && P t) (stretch l).
  Lemma pr_loop_ok : forall rest c e q done fuel, yields r e rest -> Q max bo q done -> (length rest < fuel)%nat -> exists q', pr_loop fuel r pre c e q = Some q' /\ Q max bo q' (done ++ pick (fun _ => true) (c :: rest)).
  Proof.
    induction rest as [|d rest IH]; intros c e q done fuel HY HQ Hf; (destruct fuel as [|fuel]; [lia|]); cbn [pr_loop]; unfold pick; cbn [stretch].
    - destruct (starts_with pre c); [|exists q; split; [reflexivity|cbn [filter]; rewrite app_nil_r; exact HQ]]. destruct (add_ok max bo q done c Hmax HQ) as (q1 & E1 & HQ1). rewrite E1. cbn [obind]. inversion HY as [? e' En|]; subst. rewrite En. cbn [obind fst snd].
      exists q1. split; [reflexivity|]. cbn [filter]. destruct c; cbn [nonempty andb]; [rewrite app_nil_r|]; exact HQ1.
    - destruct (starts_with pre c); [|exists q; split; [reflexivity|cbn [filter]; rewrite app_nil_r; exact HQ]]. destruct (add_ok max bo q done c Hmax HQ) as (q1 & E1 & HQ1). rewrite E1. cbn [obind]. inversion HY as [|? ? e' ? En HY']; subst. rewrite En. cbn [obind fst snd].
      destruct (IH d e' q1 _ fuel HY' HQ1 ltac:(cbn [length] in Hf; lia)) as (q2 & E2 & HQ2). exists q2. split; [exact E2|]. cbn [filter]. change (starts_with pre d) with (starts_with pre d) in HQ2. unfold pick in HQ2. cbn [stretch] in HQ2. destruct c; cbn [nonempty andb]; [exact HQ2|]. rewrite <- app_assoc in HQ2. exact HQ2.
  Qed.
  Lemma wc_loop_ok pat : forall rest c e q done fuel, yields r e rest -> Q max bo q done -> (length rest < fuel)%nat -> exists q', wc_loop fuel r pre pat c e q = Some q' /\ Q max bo q' (done ++ pick (fun t => wc_match pat (skipn (length pre) t)) (c :: rest)).
  Proof.
    assert (HB : forall c, (match pre with [] => false | _ => true end) && negb (starts_with pre c) = negb (starts_with pre c)) by (intros c; destruct pre; reflexivity).
    assert (HA : forall q done c, Q max bo q done -> exists q1, (if wc_match pat (skipn (length pre) c) then add_term q c else Some q) = Some q1 /\ Q max bo q1 (done ++ (if nonempty c && wc_match pat (skipn (length pre) c) then [c] else []))).
    { intros q done c HQ. destruct (wc_match _ _); [|exists q; rewrite andb_false_r, app_nil_r; auto]. destruct (add_ok max bo q done c Hmax HQ) as (q1 & E1 & HQ1). exists q1. split; [exact E1|]. destruct c; cbn [nonempty andb]; [rewrite app_nil_r|]; exact HQ1. }
    induction rest as [|d rest IH]; intros c e q done fuel HY HQ Hf; (destruct fuel as [|fuel]; [lia|]); cbn [wc_loop]; unfold pick; cbn [stretch]; rewrite HB; (destruct (starts_with pre c); cbn [negb]; [|exists q; split; [reflexivity|cbn [filter]; rewrite app_nil_r; exact HQ]]); destruct (HA q done c HQ) as (q1 & E1 & HQ1); rewrite E1; cbn [obind].
    - inversion HY as [? e' En|]; subst. rewrite En. cbn [obind fst snd]. exists q1. split; [reflexivity|]. cbn [filter]. exact HQ1.
    - inversion HY as [|? ? e' ? En HY']; subst. rewrite En. cbn [obind fst snd]. destruct (IH d e' q1 _ fuel HY' HQ1 ltac:(cbn [length] in Hf; lia)) as (q2 & E2 & HQ2). exists q2. split; [exact E2|]. cbn [filter]. unfold pick in HQ2. cbn [stretch] in HQ2. rewrite <- app_assoc in HQ2. destruct (nonempty c && _); exact HQ2.
  Qed.
End L.
Section S.
  Variable pre : list Z.
  Notation stretch := (stretch pre). Notation pick := (pick pre).
  (* the stretch is all of the terms with the prefix *)
  Lemma stretch_in l : StronglySorted slt l -> Forall (sle pre) l -> forall t, In t (stretch l) <-> In t l /\ starts_with pre t = true.
  Proof.
    induction 1 as [|a l HS IH HF]; intros Hp t; cbn [stretch]; [cbn; tauto|]. inversion Hp as [|? ? Ha Hl]; subst. destruct (starts_with pre a) eqn:E.
    - cbn [In]. rewrite (IH Hl t). split; [intros [->|[]]; auto|intros [[->|H] H2]; auto].
    - cbn [In]. split; [intros []|]. intros [[->|H] H2]; [congruence|]. rewrite Forall_forall in HF. rewrite (past pre a t Ha E (slt_le _ _ (HF _ H))) in H2. discriminate.
  Qed.
  Lemma stretch_sorted l : StronglySorted slt l -> StronglySorted slt (stretch l).
  Proof.
    induction 1 as [|a l HS IH HF]; cbn [stretch]; [constructor|]. destruct (starts_with pre a); constructor; auto. rewrite Forall_forall in *. intros t Ht. apply HF. clear -Ht. induction l as [|b l IH]; cbn [stretch] in Ht; [destruct Ht|]. destruct (starts_with pre b); [|destruct Ht]. destruct Ht as [->|Ht]; [left; auto|right; auto].
  Qed.
  Lemma filter_sorted {A} (R : A -> A -> Prop) (P : A -> bool) l : StronglySorted R l -> StronglySorted R (filter P l).
  Proof.
    induction 1 as [|a l HS IH HF]; cbn [filter]; [constructor|]. destruct (P a); [|exact IH]. constructor; auto. rewrite Forall_forall in *. intros t Ht. apply filter_In in Ht. apply HF, Ht.
  Qed.
  Lemma skipn_below M : StronglySorted slt M -> StronglySorted slt (skipn (below M pre) M) /\ Forall (sle pre) (skipn (below M pre) M) /\ forall t, sle pre t -> In t M -> In t (skipn (below M pre) M).
  Proof.
    intros HM. rewrite <- (firstn_skipn (below M pre) M) in HM at 1. split; [|split].
    - clear -HM. induction (firstn (below M pre) M); [exact HM|]. inversion HM; subst. auto.
    - rewrite Forall_forall. intros t Ht. apply In_nth_error in Ht. destruct Ht as (j & Hj). rewrite firstn_skipn in HM. rewrite nth_error_skipn in Hj. pose proof (below_nth M _ _ pre HM Hj) as H. rewrite (proj2 (Nat.ltb_ge _ _)) in H by lia. apply sltb_ge in H. exact H.
    - intros t Ht HIn. rewrite firstn_skipn in HM. destruct (in_index M t HIn) as (j & Hj). pose proof (below_nth M _ _ pre HM Hj) as H. rewrite (proj2 (sltb_ge _ _) Ht) in H. symmetry in H. apply Nat.ltb_ge in H. apply nth_error_In with (n := (j - below M pre)%nat). rewrite nth_error_skipn. rewrite <- Hj. f_equal. lia.
  Qed.
  Lemma pick_ok M P : StronglySorted slt M -> let sel := pick P (shown (skipn (below M pre) M)) in
    StronglySorted slt sel /\ forall t, In t sel <-> In t M /\ t <> [] /\ starts_with pre t = true /\ P t = true.
  Proof.
    intros HM sel. destruct (skipn_below M HM) as (H1 & H2 & H3). unfold sel, pick, shown. destruct (skipn (below M pre) M) as [|u R] eqn:E.
    - assert (filter (fun t => nonempty t && P t) (stretch [[]]) = []) as -> by (cbn [stretch]; destruct (starts_with pre []); reflexivity). split; [constructor|]. intros t. split; [intros []|]. intros (G1 & _ & G2 & _). destruct (H3 t (prefix_le _ _ G2) G1).
    - rewrite <- E in *. split; [apply filter_sorted, stretch_sorted; exact H1|]. intros t. rewrite filter_In, stretch_in by auto. rewrite andb_true_iff. split.
      + intros ((G1 & G2) & G3 & G4). split; [rewrite <- (firstn_skipn (below M pre) M); apply in_or_app; right; exact G1|]. split; [destruct t; discriminate|]. auto.
      + intros (G1 & G2 & G3 & G4). split; [split; [apply H3; [apply prefix_le; exact G3|exact G1]|exact G3]|]. split; [destruct t; [congruence|reflexivity]|exact G4].
  Qed.
End S.

(* ---------- rewriting *)
Lemma from_rest i f t c rest : c :: rest = shown (skipn (below (idx_terms i f) t) (idx_terms i f)) -> (length rest <= length (idx_terms i f))%nat.
Proof.
  intros H. unfold shown in H. pose proof (skipn_length (below (idx_terms i f) t) (idx_terms i f)) as Hl. destruct (skipn _ _); injection H as -> ->; cbn [length] in *; lia.
Qed.
Theorem prefix_ok i r f pre max bo fuel : (1 <= max)%nat -> idx_open i r -> idx_field i f -> from_ok i f pre -> (length (idx_terms i f) < fuel)%nat ->
  exists q, prq_rewrite fuel r (Some f) pre max bo = Some q /\ selects q max (idx_terms i f) (fun t => exists u, t = pre ++ u) /\ boost_of q = bo.
Proof.
  intros Hmax Ho Hf Hfr Hfu. apply idx_src in Ho. destruct (from_yields i r f pre Ho Hf Hfr) as (c & rest & e & E & HY & EC). unfold prq_rewrite. rewrite E. cbn [obind fst snd]. pose proof (from_rest i f pre c rest EC) as Hr.
  destruct (pr_loop_ok r max bo pre Hmax rest c e _ [] fuel HY (Q_new max Hmax bo) ltac:(lia)) as (q & Eq & HQ). rewrite Eq. cbn [obind]. eexists. split; [reflexivity|]. cbn [app] in HQ. rewrite EC in HQ.
  pose proof (pick_ok pre _ (fun _ => true) (idx_sorted i r f Ho)) as (H1 & H2). split; [|exact (proj1 HQ)]. cbn [selects]. eexists. split; [exact H1|]. split; [|exact (Q_terms _ _ _ _ HQ)].
  intros t. rewrite H2, starts_with_ok. tauto.
Qed.
Theorem wildcard_ok i r f pat max bo fuel : (1 <= max)%nat -> idx_open i r -> idx_field i f -> from_ok i f (fst (split_wild pat)) -> (length (fst (split_wild pat)) < 255)%nat -> snd (split_wild pat) <> [] -> (length (idx_terms i f) < fuel)%nat ->
  exists q, wcq_rewrite fuel r (Some f) pat max bo = Some q /\ selects q max (idx_terms i f) (glob pat).
Proof.
  intros Hmax Ho Hf Hfr Hlen Hw Hfu. apply idx_src in Ho. unfold wcq_rewrite. pose proof (split_wild_ok pat) as Hsp. destruct (split_wild pat) as [pre pt]. cbn [fst snd] in *. destruct Hsp as (-> & Hlit & _).
  destruct (from_yields i r f pre Ho Hf Hfr) as (c & rest & e & E & HY & EC). pose proof (from_rest i f pre c rest EC) as Hr.
  destruct pt as [|x pt]; [congruence|]. rewrite (proj2 (Nat.ltb_lt _ _) Hlen), E. cbn [obind fst snd].
  destruct (wc_loop_ok r max one pre Hmax (x :: pt) rest c e (mtq_new max 0) [] fuel HY (Q_new max Hmax one) ltac:(lia)) as (q & Eq & HQ). rewrite Eq. cbn [obind]. eexists. split; [reflexivity|]. cbn [app] in HQ. rewrite EC in HQ.
  pose proof (pick_ok pre _ (fun t => wc_match (x :: pt) (skipn (length pre) t)) (idx_sorted i r f Ho)) as (H1 & H2). cbn [selects]. eexists. split; [exact H1|]. split; [|exact (Q_terms _ _ _ _ HQ)].
  intros t. rewrite H2, starts_with_ok, (glob_pre pre (x :: pt) Hlit), wc_match_ok. split; intros (G1 & G2 & G3); split; auto; split; auto.
  - destruct G3 as ((u & ->) & G3). exists u. split; auto. rewrite skipn_app, skipn_all, Nat.sub_diag in G3. exact G3.
  - destruct G3 as (u & -> & G3). split; [eauto|]. rewrite skipn_app, skipn_all, Nat.sub_diag. exact G3.
Qed.
