From Coq Require Import Sorting.Permutation Sorting.Sorted.
From Verif Require Import Util Strcmp PQueue_Model PQueue_Spec PQueue_Proofs Search_Model Search_Spec.
Open Scope Z_scope.

Ltac splits := match goal with |- _ /\ _ => split; [|splits] | _ => idtac end.
(* ---------- rankings *)
Section G.
  Variables (A : Type) (lt : A -> A -> bool).
  Hypothesis Hpre : preorder A lt.
  Definition nw (a b : A) : Prop := lt a b = false.   (* a is not worse than b *)
  Lemma nw_total a b : nw a b \/ nw b a.
  Proof. destruct Hpre as (H & _). destruct (H b a); auto. Qed.
  Lemma nw_trans a b c : nw a b -> nw b c -> nw a c.
  Proof. destruct Hpre as (_ & H). intros H1 H2. exact (H c b a H2 H1). Qed.
  Lemma nw_refl a : nw a a.
  Proof. destruct (nw_total a a); auto. Qed.
  Lemma insert_sorted a : forall R, StronglySorted nw R -> exists R', Permutation (a :: R) R' /\ StronglySorted nw R'.
  Proof.
    induction R as [|b R IH]; intros HS; [exists [a]; split; [auto|repeat constructor]|]. inversion HS as [|? ? HS' HF]; subst. destruct (nw_total a b) as [H|H].
    - exists (a :: b :: R). split; [auto|]. constructor; [exact HS|]. constructor; [exact H|]. rewrite Forall_forall in *. intros x Hx. eapply nw_trans; eauto.
    - destruct (IH HS') as (R' & HP & HS2). exists (b :: R'). split; [rewrite perm_swap; constructor; exact HP|]. constructor; [exact HS2|]. rewrite Forall_forall in *. intros x Hx. apply (Permutation_in _ (Permutation_sym HP)) in Hx. destruct Hx as [<-|Hx]; auto.
  Qed.
  Lemma sort_ex : forall l, exists R, Permutation l R /\ StronglySorted nw R.
  Proof. induction l as [|a l (R & HP & HS)]; [exists []; split; constructor|]. destruct (insert_sorted a R HS) as (R' & HP' & HS'). exists R'. split; [rewrite <- HP'; constructor; exact HP|exact HS']. Qed.
  Definition asym (l : list A) : Prop := forall a b, In a l -> In b l -> nw a b -> nw b a -> a = b.
  Lemma rank_unique : forall l1 l2, asym l1 -> Permutation l1 l2 -> StronglySorted nw l1 -> StronglySorted nw l2 -> l1 = l2.
  Proof.
    induction l1 as [|a l1 IH]; intros l2 Ha HP H1 H2; [apply Permutation_nil in HP; auto|]. destruct l2 as [|b l2]; [apply Permutation_sym, Permutation_nil in HP; discriminate|].
    inversion H1 as [|? ? S1 F1]; subst. inversion H2 as [|? ? S2 F2]; subst. rewrite Forall_forall in F1, F2. assert (a = b).
    { assert (Hb : In b (a :: l1)) by (apply (Permutation_in _ (Permutation_sym HP)); left; reflexivity). assert (Ha2 : In a (b :: l2)) by (apply (Permutation_in _ HP); left; reflexivity). apply Ha; auto; [left; auto| |].
      - destruct Hb as [->|Hb]; [apply nw_refl|auto].
      - destruct Ha2 as [->|Ha2]; [apply nw_refl|auto]. }
    subst b. f_equal. apply IH; auto; [|eapply Permutation_cons_inv; exact HP]. intros x y Hx Hy. apply Ha; right; auto.
  Qed.
  Lemma pop_n_ok capa : forall k q m acc, PInv A lt capa q m -> (k <= length m)%nat ->
    exists r rest, pop_n A lt k q acc = Some (rev r ++ acc) /\ length r = k /\ Permutation m (r ++ rest) /\ StronglySorted (PQueue_Spec.le A lt) r /\ forall x y, In x r -> In y rest -> PQueue_Spec.le A lt x y.
  Proof.
    induction k as [|k IH]; intros q m acc HI Hk; cbn [pop_n].
    - exists [], m. split; [reflexivity|]. split; [reflexivity|]. split; [reflexivity|]. split; [constructor|intros x y []].
    - pose proof HI as [P1 P2 P3 P4 P5]. destruct (pop_ok A lt Hpre capa q m HI ltac:(lia)) as (x & m' & q' & E & Hm & Hl & HI'). rewrite E. cbn [obind fst snd]. pose proof (Permutation_length Hm) as Hlen. cbn [length] in Hlen.
      destruct (IH q' m' (x :: acc) HI' ltac:(lia)) as (r & rest & E2 & Hr & HP & HS & Hle). rewrite E2. exists (x :: r), rest. split; [cbn [rev]; rewrite <- app_assoc; reflexivity|]. split; [cbn [length]; lia|]. split; [cbn [app]; rewrite Hm; constructor; exact HP|].
      assert (Hmin : forall y, In y (r ++ rest) -> PQueue_Spec.le A lt x y) by (intros y Hy; apply Hl; apply (Permutation_in _ (Permutation_sym Hm)); right; apply (Permutation_in _ (Permutation_sym HP)); exact Hy).
      split; [constructor; [exact HS|]; apply Forall_forall; intros y Hy; apply Hmin; apply in_or_app; auto|]. intros y z [<-|Hy] Hz; [apply Hmin; apply in_or_app; auto|auto].
  Qed.
  Lemma sorted_app2 l1 l2 : StronglySorted nw l1 -> StronglySorted nw l2 -> (forall x y, In x l1 -> In y l2 -> nw x y) -> StronglySorted nw (l1 ++ l2).
  Proof.
    intros H1 H2 H. induction l1 as [|a l1 IH]; [exact H2|]. inversion H1 as [|? ? S1 F1]; subst. cbn [app]. constructor; [apply IH; [exact S1|intros x y Hx Hy; apply H; [right|]; auto]|]. rewrite Forall_forall in *. intros x Hx. apply in_app_or in Hx. destruct Hx as [Hx|Hx]; [auto|]. apply H; [left|]; auto.
  Qed.
  Lemma rev_sorted r : StronglySorted (PQueue_Spec.le A lt) r -> StronglySorted nw (rev r).
  Proof.
    induction 1 as [|a r HS IH HF]; cbn [rev]; [constructor|]. apply sorted_app2; [exact IH|repeat constructor|]. intros x y Hx [<-|[]]. apply in_rev in Hx. rewrite Forall_forall in HF. exact (HF x Hx).
  Qed.
  (* inserting into a queue of size mx, then taking what is behind the first ones *)
  Lemma page_ok (l R : list A) (mx first num : Z) q : asym l -> Permutation l R -> StronglySorted nw R -> 0 <= first -> 1 <= num -> (mx = num + first \/ (mx = num /\ Z.of_nat (length l) <= num)) ->
    insert_all A lt (pq_new A (Z.to_nat mx)) l = Some q -> page A lt first num q = Some (slice first num R).
  Proof.
    intros Ha HP HS Hf Hn Hmx E. destruct (insert_all_ok A lt Hpre (Z.to_nat mx) l (pq_new A (Z.to_nat mx)) [] [] [] (new_ok A lt _)) as (q2 & m & d & E2 & HI & HPl & Hle & Hlen); [apply Permutation_refl|intros x y []|cbn; lia|].
    rewrite E in E2. apply some_inj in E2. subst q2. cbn [app] in HPl, Hlen. pose proof HI as [_ _ P3 _ _]. unfold page. rewrite P3. pose proof (Permutation_length HP) as HlR. pose proof (Permutation_length HPl) as Hl2. rewrite app_length in Hl2. unfold slice.
    destruct (Z.ltb_spec first (Z.of_nat (length m))) as [H|H].
    - set (k := Z.to_nat (if Z.of_nat (length m) - first <? num then Z.of_nat (length m) - first else num)).
      assert (Hk : (k <= length m)%nat) by (unfold k; destruct (Z.ltb_spec (Z.of_nat (length m) - first) num); lia).
      destruct (pop_n_ok _ k q m [] HI Hk) as (r & rest & -> & Hr & HPm & HSr & Hle2). f_equal. rewrite app_nil_r.
      destruct (sort_ex rest) as (rest' & HPr & HSr'). destruct (sort_ex d) as (d' & HPd & HSd).
      assert (ER : R = rest' ++ rev r ++ d').
      { apply rank_unique; auto.
        - intros a b Hin1 Hin2. apply Ha; apply (Permutation_in _ (Permutation_sym HP)); assumption.
        - rewrite <- HP, HPl, HPm, <- HPr, <- HPd, <- (Permutation_rev r). rewrite app_assoc. apply Permutation_app_tail. apply Permutation_app_comm.
        - apply sorted_app2; [exact HSr'|apply sorted_app2; [exact (rev_sorted r HSr)|exact HSd|]|].
          + intros x y Hx Hy. apply Hle; [apply (Permutation_in _ (Permutation_sym HPd)); exact Hy|]. apply (Permutation_in _ (Permutation_sym HPm)). apply in_or_app. left. apply in_rev. exact Hx.
          + intros x y Hx Hy. apply (Permutation_in _ (Permutation_sym HPr)) in Hx. apply in_app_or in Hy. destruct Hy as [Hy|Hy].
            * apply Hle2; [apply in_rev; exact Hy|exact Hx].
            * apply Hle; [apply (Permutation_in _ (Permutation_sym HPd)); exact Hy|]. apply (Permutation_in _ (Permutation_sym HPm)). apply in_or_app. right. exact Hx. }
      pose proof (Permutation_length HPm) as Hlm. rewrite app_length in Hlm. pose proof (Permutation_length HPr) as Hlr. pose proof (Permutation_length HPd) as Hld.
      assert (Efirst : length rest' = Z.to_nat first) by (unfold k in *; destruct (Z.ltb_spec (Z.of_nat (length m) - first) num); lia).
      rewrite ER, skipn_app, <- Efirst, skipn_all, Nat.sub_diag. cbn [app skipn]. rewrite firstn_app, rev_length, Hr.
      assert (Hcase : (k = Z.to_nat num \/ (k <= Z.to_nat num /\ d' = []))%nat).
      { unfold k in *. destruct (Z.ltb_spec (Z.of_nat (length m) - first) num) as [Hc|Hc]; [right|left; reflexivity]. split; [lia|]. apply length_zero_iff_nil. rewrite <- Hld. lia. }
      destruct Hcase as [Ek|(Hk2 & ->)].
      + rewrite firstn_all2 by (rewrite rev_length; lia). replace (Z.to_nat num - k)%nat with O by lia. cbn [firstn]. rewrite app_nil_r. reflexivity.
      + rewrite firstn_all2 by (rewrite rev_length; lia). rewrite firstn_nil, app_nil_r. reflexivity.
    - rewrite skipn_all2 by lia. rewrite firstn_nil. reflexivity.
  Qed.
  Lemma insert_all_some capa l : exists q, insert_all A lt (pq_new A capa) l = Some q.
  Proof. destruct (insert_all_ok A lt Hpre capa l (pq_new A capa) [] [] [] (new_ok A lt _)) as (q2 & m & d & E2 & _); [apply Permutation_refl|intros x y []|cbn; lia|eauto]. Qed.
End G.

(* ---------- one searcher *)
Lemma collect_eq lt s : forall ms q total maxs,
  collect lt s ms q total maxs = (let l := flat_map (fun h => match keep s h with Some x => [x] | None => [] end) ms in
    do q' <- insert_all hit lt q l; Some (q', total + Z.of_nat (length l), fold_left (fun m h => if m <? h_score h then h_score h else m) l maxs)).
Proof.
  induction ms as [|h ms IH]; intros q total maxs; cbn [collect flat_map]; [cbn; rewrite Z.add_0_r; reflexivity|]. remember (keep s h) as k eqn:Ek. unfold keep in Ek.
  assert (G : match (match u_post s with Some p => p h | None => Some (h_score h) end) with Some sc => do r <- pq_insert hit lt q (mkHit (h_doc h) sc); collect lt s ms (snd r) (total + 1) (if maxs <? sc then sc else maxs) | None => collect lt s ms q total maxs end =
    (let l := (match match u_post s with Some p => option_map (mkHit (h_doc h)) (p h) | None => Some h end with Some x => [x] | None => [] end) ++ flat_map (fun h => match keep s h with Some x => [x] | None => [] end) ms in
    do q' <- insert_all hit lt q l; Some (q', total + Z.of_nat (length l), fold_left (fun m h => if m <? h_score h then h_score h else m) l maxs))).
  { destruct (u_post s) as [p|]; [destruct (p h) as [sc|]; cbn [option_map]|].
    - cbn [app insert_all length fold_left h_score]. destruct (pq_insert hit lt q (mkHit (h_doc h) sc)) as [r|]; cbn [obind]; [|reflexivity]. rewrite IH. cbn zeta. destruct (insert_all _ _ _ _); cbn [obind]; [|reflexivity]. rewrite Nat2Z.inj_succ. rewrite <- Z.add_assoc, (Z.add_comm 1). reflexivity.
    - cbn [app]. apply IH.
    - destruct h as [d sc]. cbn [app insert_all length fold_left h_score h_doc]. destruct (pq_insert hit lt q (mkHit d sc)) as [r|]; cbn [obind]; [|reflexivity]. rewrite IH. cbn zeta. destruct (insert_all _ _ _ _); cbn [obind]; [|reflexivity]. rewrite Nat2Z.inj_succ. rewrite <- Z.add_assoc, (Z.add_comm 1). reflexivity. }
  destruct (u_bits s) as [b|]; [destruct (b (h_doc h)); cbn [negb]|]; subst k; [exact G|apply IH|exact G].
Qed.
Lemma max_eq l : forall m, fold_left (fun m h => if m <? h_score h then h_score h else m) l m = fold_right (fun h x => Z.max (h_score h) x) m l.
Proof.
  assert (G : forall l a m, fold_right (fun h x => Z.max (h_score h) x) (Z.max a m) l = Z.max a (fold_right (fun h x => Z.max (h_score h) x) m l)) by (clear; induction l as [|h l IH]; intros a m; cbn [fold_right]; [reflexivity|rewrite IH; lia]).
  induction l as [|h l IH]; intros m; cbn [fold_left fold_right]; [reflexivity|]. rewrite IH, <- G. f_equal. destruct (Z.ltb_spec m (h_score h)); lia.
Qed.
(* the comparisons *)
Lemma hit_pre : preorder hit hit_lt.
Proof.
  unfold preorder, PQueue_Spec.le, hit_lt. split; [intros a b|intros a b c]; repeat match goal with |- context [?x =? ?y] => destruct (Z.eqb_spec x y) | |- context [?x <? ?y] => destruct (Z.ltb_spec x y) end; intros; try lia; auto; try discriminate.
Qed.
Lemma hit_nw a b : nw hit hit_lt a b <-> by_score a b.
Proof. unfold nw, hit_lt, by_score. destruct (Z.eqb_spec (h_score a) (h_score b)); [destruct (Z.ltb_spec (h_doc b) (h_doc a))|destruct (Z.ltb_spec (h_score a) (h_score b))]; split; intros; try discriminate; try reflexivity; lia. Qed.
(* comparisons one after the other *)
Section L.
  Variable X : Type.
  Notation cmpf := (X -> X -> Z).
  Definition good (f : cmpf) : Prop := (forall a b, Z.sgn (f a b) = - Z.sgn (f b a)) /\ (forall a b c, f a b <= 0 -> f b c <= 0 -> f a c <= 0).
  Fixpoint lexd (fs : list cmpf) (a b : X) : Z := match fs with [] => 0 | f :: t => if f a b =? 0 then lexd t a b else f a b end.
  Lemma good_sym f a b : good f -> (f a b < 0 <-> 0 < f b a) /\ (f a b = 0 <-> f b a = 0) /\ (f a b <= 0 <-> 0 <= f b a).
  Proof. intros (H & _). specialize (H a b). destruct (f a b), (f b a); cbn in H; try discriminate; lia. Qed.
  Lemma good_lex fs : Forall good fs -> good (lexd fs).
  Proof.
    induction 1 as [|f fs Hf _ IH]; [split; intros; cbn; lia|]. split.
    - intros a b. cbn [lexd]. destruct (good_sym f a b Hf) as (G1 & G2 & _). destruct (Z.eqb_spec (f a b) 0), (Z.eqb_spec (f b a) 0); try tauto; [apply IH|apply Hf].
    - intros a b c. cbn [lexd]. pose proof (proj2 Hf a b c) as T1. pose proof (proj2 Hf b c a) as T2. pose proof (proj2 Hf c a b) as T3. destruct (good_sym f a b Hf) as (G1 & G2 & G3). destruct (good_sym f b c Hf) as (G4 & G5 & G6). destruct (good_sym f a c Hf) as (G7 & G8 & G9).
      destruct (Z.eqb_spec (f a b) 0), (Z.eqb_spec (f b c) 0), (Z.eqb_spec (f a c) 0); intros H1 H2; try lia. eapply (proj2 IH); eauto.
  Qed.
  Lemma lex_pre (lt : X -> X -> bool) fs : Forall good fs -> (forall a b, lt a b = (0 <? lexd fs a b)) -> preorder X lt /\ forall a b, nw X lt a b <-> lexd fs a b <= 0.
  Proof.
    intros HF E. pose proof (good_lex fs HF) as HG. assert (N : forall a b, lt a b = false <-> lexd fs a b <= 0) by (intros a b; rewrite E; apply Z.ltb_ge). split; [|exact N]. split; unfold PQueue_Spec.le; intros; rewrite !N in *.
    - destruct (good_sym _ a b HG). lia.
    - eapply (proj2 HG); eauto.
  Qed.
  Lemma good_cmp3 (g : X -> Z) : good (fun a b => cmp3 (g a) (g b)).
  Proof.
    assert (G : forall x y, cmp3 x y <= 0 <-> x <= y) by (intros x y; unfold cmp3; destruct (Z.ltb_spec y x); [lia|destruct (Z.ltb_spec x y); lia]). split; intros a b; [unfold cmp3; destruct (Z.ltb_spec (g b) (g a)), (Z.ltb_spec (g a) (g b)); try reflexivity; lia|].
    intros c. rewrite !G. lia.
  Qed.
  Lemma good_flip f : good f -> good (fun a b => f b a).
  Proof. intros (H1 & H2). split; intros; [apply H1|eapply H2; eauto]. Qed.
  Lemma good_opp f : good f -> good (fun a b => - f a b).
  Proof.
    intros H. assert (G : forall a b, - f a b <= 0 <-> f b a <= 0) by (intros a b; destruct (good_sym f b a H) as (_ & _ & G); lia). split.
    - intros a b. rewrite !Z.sgn_opp. rewrite (proj1 H a b). lia.
    - intros a b c H1 H2. apply G in H1, H2. apply G. exact (proj2 H c b a H2 H1).
  Qed.
End L.
Section K.
  Variable coll : list Z -> list Z -> Z.
  Hypothesis Hcoll : coll_ok coll.
  Lemma good_str X (g : X -> option (list Z)) : good X (fun a b => str_cmp coll (g a) (g b)).
  Proof.
    destruct Hcoll as (H1 & H2). split; [intros a b; unfold str_cmp; destruct (g a), (g b); try reflexivity; apply H1|]. intros a b c. unfold str_cmp. destruct (g a), (g b), (g c); try lia. apply H2.
  Qed.
  Definition cmpc (c : comp) (a b : hit) : Z := if c_rev c then compare coll c b a else compare coll c a b.
  Definition docf (a b : hit) : Z := cmp3 (h_doc a) (h_doc b).
  Definition fs_of (cs : list comp) : list (hit -> hit -> Z) := map cmpc cs ++ [docf].
  Lemma good_compare c : good hit (compare coll c).
  Proof.
    unfold compare. destruct (c_type c).
    - apply (good_flip hit (fun a b => cmp3 (h_score a) (h_score b))), good_cmp3.
    - apply good_cmp3.
    - apply (good_cmp3 hit (fun a => c_long c (h_doc a))).
    - apply (good_cmp3 hit (fun a => c_long c (h_doc a))).
    - apply (good_cmp3 hit (fun a => c_long c (h_doc a))).
    - apply (good_str hit (fun a => c_str c (h_doc a))).
  Qed.
  Lemma good_fs cs : Forall (good hit) (fs_of cs).
  Proof.
    unfold fs_of. apply Forall_app. split; [|constructor; [apply good_cmp3|constructor]]. apply Forall_forall. intros f Hf. apply in_map_iff in Hf. destruct Hf as (c & <- & _). unfold cmpc. destruct (c_rev c); [apply (good_flip hit (compare coll c))|]; apply good_compare.
  Qed.
  Lemma fshq_lex cs a b : fshq_lt coll cs a b = (0 <? lexd hit (fs_of cs) a b).
  Proof.
    unfold fshq_lt, fs_of. assert (G : forall cs d, cmp_loop coll cs d a b = if d =? 0 then lexd hit (map cmpc cs) a b else d).
    { clear. induction cs as [|c cs IH]; intros d; cbn [cmp_loop map lexd]; [destruct (Z.eqb_spec d 0); auto|]. destruct (Z.eqb_spec d 0); [|reflexivity]. rewrite IH. unfold cmpc. reflexivity. }
    rewrite G. cbn [Z.eqb]. assert (G2 : forall fs f, lexd hit (fs ++ [f]) a b = if lexd hit fs a b =? 0 then f a b else lexd hit fs a b).
    { clear. induction fs as [|g fs IH]; intros f; cbn [app lexd]; [destruct (Z.eqb_spec (f a b) 0); cbn; congruence|]. rewrite IH. destruct (Z.eqb_spec (g a b) 0) as [E|E]; [reflexivity|]. rewrite (proj2 (Z.eqb_neq _ _) E). reflexivity. }
    rewrite G2. destruct (lexd hit (map cmpc cs) a b =? 0); [|reflexivity]. unfold docf, cmp3. destruct (Z.ltb_spec (h_doc b) (h_doc a)); [reflexivity|]. destruct (h_doc a <? h_doc b); reflexivity.
  Qed.
  Lemma cmp3_spec a b : (cmp3 a b < 0 <-> a < b) /\ (cmp3 a b = 0 <-> a = b).
  Proof. unfold cmp3. destruct (Z.ltb_spec b a); [|destruct (Z.ltb_spec a b)]; lia. Qed.
  Lemma compare_spec c a b : (compare coll c a b < 0 <-> key_lt coll c a b) /\ (compare coll c a b = 0 <-> key_eq coll c a b).
  Proof.
    unfold compare, key_lt, key_eq. destruct (c_type c); try apply cmp3_spec.
    - destruct (cmp3_spec (h_score b) (h_score a)) as (G1 & G2). split; [exact G1|]. rewrite G2. split; auto.
    - destruct (c_str c (h_doc a)), (c_str c (h_doc b)); cbn; split; split; intros; try lia; tauto.
  Qed.
  Lemma by_keys_lex cs a b : lexd hit (fs_of cs) a b <= 0 <-> by_keys coll cs a b.
  Proof.
    induction cs as [|c cs IH]; unfold fs_of; cbn [map app lexd by_keys].
    - unfold docf. destruct (cmp3_spec (h_doc a) (h_doc b)) as (G1 & G2). destruct (Z.eqb_spec (cmp3 (h_doc a) (h_doc b)) 0); lia.
    - fold (fs_of cs). rewrite <- IH. unfold cmpc. destruct (compare_spec c a b) as (G1 & G2), (compare_spec c b a) as (G3 & G4). destruct (good_sym hit _ a b (good_compare c)) as (_ & G5 & _). destruct (c_rev c).
      + destruct (Z.eqb_spec (compare coll c b a) 0) as [E|E]; [|split; [intros H; left; apply G3; lia|intros [H|(H & _)]; [apply G3 in H; lia|apply G2 in H; tauto]]]. split; [intros H; right; split; [apply G2; tauto|exact H]|intros [H|(_ & H)]; [apply G3 in H; lia|exact H]].
      + destruct (Z.eqb_spec (compare coll c a b) 0) as [E|E]; [|split; [intros H; left; apply G1; lia|intros [H|(H & _)]; [apply G1 in H; lia|apply G2 in H; tauto]]]. split; [intros H; right; split; [apply G2; tauto|exact H]|intros [H|(_ & H)]; [apply G1 in H; lia|exact H]].
  Qed.
  Lemma fshq_pre cs : preorder hit (fshq_lt coll cs) /\ forall a b, nw hit (fshq_lt coll cs) a b <-> by_keys coll cs a b.
  Proof. destruct (lex_pre hit (fshq_lt coll cs) (fs_of cs) (good_fs cs) (fshq_lex cs)) as (H1 & H2). split; [exact H1|]. intros a b. rewrite H2. apply by_keys_lex. Qed.
End K.
(* ---------- hits of one searcher *)
Lemma NoDup_range (l : list Z) n : 0 <= n -> NoDup l -> Forall (fun d => 0 <= d < n) l -> Z.of_nat (length l) <= n.
Proof.
  intros Hn HN HF. rewrite Forall_forall in HF. assert (HN2 : NoDup (map Z.to_nat l)).
  { clear Hn. induction HN as [|a l Ha HN IH]; cbn [map]; constructor; [|apply IH; intros; apply HF; right; assumption]. intros Hin. apply in_map_iff in Hin. destruct Hin as (b & E & Hb). apply Ha. replace a with b; [exact Hb|]. pose proof (HF a (or_introl eq_refl)). pose proof (HF b (or_intror Hb)). lia. }
  assert (H : (length (map Z.to_nat l) <= length (seq 0 (Z.to_nat n)))%nat).
  { apply NoDup_incl_length; [exact HN2|]. intros x Hx. apply in_map_iff in Hx. destruct Hx as (y & <- & Hy). apply HF in Hy. apply in_seq. lia. }
  rewrite map_length, seq_length in H. lia.
Qed.
Lemma sorted_NoDup l : StronglySorted Z.lt l -> NoDup l.
Proof. induction 1 as [|a l HS IH HF]; constructor; auto. rewrite Forall_forall in HF. intros Hin. specialize (HF _ Hin). lia. Qed.
Lemma keep_doc s h x : keep s h = Some x -> h_doc x = h_doc h.
Proof.
  unfold keep. destruct (u_bits s) as [b|]; [destruct (b (h_doc h)); [|discriminate]|]; (destruct (u_post s) as [p|]; [destruct (p h); cbn [option_map]; [|discriminate]|]); intros E; apply some_inj in E; subst x; reflexivity.
Qed.
Lemma hits_docs s : sub_ok s -> NoDup (map h_doc (hits_of s)) /\ Forall (fun h => 0 <= h_doc h < u_max s) (hits_of s).
Proof.
  unfold sub_ok, hits_of. destruct (u_hits s) as [ms|]; [|intros _; split; constructor]. intros ((H1 & H2 & _) & _). apply sorted_NoDup in H1.
  assert (Hin : forall x ms, In x (flat_map (fun h => match keep s h with Some x => [x] | None => [] end) ms) -> exists h, In h ms /\ h_doc x = h_doc h).
  { intros x l Hx. apply in_flat_map in Hx. destruct Hx as (h & Hh & Hx). exists h. split; [exact Hh|]. destruct (keep s h) eqn:E; [|destruct Hx]. destruct Hx as [<-|[]]. exact (keep_doc _ _ _ E). }
  split.
  - clear H2. induction ms as [|h ms IH]; cbn [flat_map map]; [constructor|]. cbn [map] in H1. inversion H1 as [|? ? Ha HN]; subst. destruct (keep s h) as [x|] eqn:E; [|cbn [app]; auto]. cbn [app map]. constructor; [|auto]. rewrite (keep_doc _ _ _ E). intros Hx. apply in_map_iff in Hx. destruct Hx as (y & Ey & Hy). destruct (Hin _ _ Hy) as (g & Hg & Eg). apply Ha. apply in_map_iff. exists g. split; [congruence|exact Hg].
  - apply Forall_forall. intros x Hx. destruct (Hin _ _ Hx) as (h & Hh & ->). rewrite Forall_forall in H2. auto.
Qed.
Lemma hits_len s : sub_ok s -> Z.of_nat (length (hits_of s)) <= u_max s.
Proof. intros H. destruct (hits_docs s H) as (H1 & H2). rewrite <- (map_length h_doc). apply NoDup_range; [unfold sub_ok in H; lia|exact H1|]. apply Forall_map. exact H2. Qed.
Lemma nodup_eq {A} (f : A -> Z) l a b : NoDup (map f l) -> In a l -> In b l -> f a = f b -> a = b.
Proof.
  induction l as [|x l IH]; [intros _ []|]. cbn [map]. intros HN. inversion HN as [|? ? Hx HN']; subst. intros [<-|Ha] [<-|Hb] E; auto; exfalso; apply Hx; apply in_map_iff; [exists b|exists a]; split; auto.
Qed.
Section O.
  Variable coll : list Z -> list Z -> Z.
  Hypothesis Hcoll : coll_ok coll.
  Definition lts (sort : bool) (cs : list comp) : hit -> hit -> bool := if sort then fshq_lt coll cs else hit_lt.
  Definition order (sort : bool) (cs : list comp) : hit -> hit -> Prop := if sort then by_keys coll cs else by_score.
  Lemma lts_pre sort cs : preorder hit (lts sort cs).
  Proof. destruct sort; [apply (fshq_pre coll Hcoll)|apply hit_pre]. Qed.
  Lemma lts_nw sort cs a b : nw hit (lts sort cs) a b <-> order sort cs a b.
  Proof. destruct sort; [apply (fshq_pre coll Hcoll)|apply hit_nw]. Qed.
  Lemma order_doc sort cs a b : order sort cs a b -> order sort cs b a -> h_doc a = h_doc b.
  Proof.
    destruct sort; cbn [order]; [|unfold by_score; lia]. intros H1 H2. apply (by_keys_lex coll Hcoll) in H1, H2. assert (E : lexd hit (fs_of coll cs) a b = 0) by (destruct (good_sym _ _ a b (good_lex _ _ (good_fs coll Hcoll cs))); lia).
    clear H1 H2. unfold fs_of in E. revert E. induction cs as [|c cs IH]; cbn [map app lexd].
    - unfold docf. destruct (Z.eqb_spec (cmp3 (h_doc a) (h_doc b)) 0) as [E|E]; [intros _; apply cmp3_spec; exact E|intros E2; congruence].
    - destruct (Z.eqb_spec (cmpc coll c a b) 0); [exact IH|congruence].
  Qed.
  Lemma asym_docs sort cs l : NoDup (map h_doc l) -> asym hit (lts sort cs) l.
  Proof. intros HN a b Ha Hb H1 H2. apply lts_nw in H1, H2. apply (nodup_eq h_doc l); auto. eapply order_doc; eauto. Qed.
  Lemma ranking_sorted sort cs l R : ranking (order sort cs) l R <-> Permutation l R /\ StronglySorted (nw hit (lts sort cs)) R.
  Proof.
    assert (G : StronglySorted (order sort cs) R <-> StronglySorted (nw hit (lts sort cs)) R).
    { split; induction 1 as [|a R' HS IH HF]; constructor; auto; eapply Forall_impl; [|exact HF|idtac|exact HF]; intros b Hb; apply lts_nw; exact Hb. }
    unfold ranking. rewrite G. reflexivity.
  Qed.
  Lemma ranking_ex sort cs l : exists R, ranking (order sort cs) l R.
  Proof. destruct (sort_ex hit (lts sort cs) (lts_pre sort cs) l) as (R & H). exists R. apply ranking_sorted. exact H. Qed.
  Lemma isea_ok s first num mx sort R : sub_ok s -> 0 <= first -> 1 <= num -> max_size first num = Some mx -> ranking (order sort (u_comps s)) (hits_of s) R ->
    isea_search_w coll s first num sort = Found (mkTd (Z.of_nat (length (hits_of s))) (slice first num R) (best_score (hits_of s))).
  Proof.
    intros Hs Hf Hn Hmx HR. unfold isea_search_w. rewrite Hmx. destruct (Z.leb_spec num 0); [lia|]. destruct (Z.ltb_spec first 0); [lia|]. cbn [orb]. pose proof (hits_len s Hs) as Hlen. destruct (hits_docs s Hs) as (HN & _). pose proof Hs as (Hs1 & Hs2).
    assert (Hnil : hits_of s = [] -> R = []) by (intros E; destruct HR as (HP & _); rewrite E in HP; apply Permutation_nil in HP; exact HP).
    assert (Hzero : hits_of s = [] -> Found (mkTd 0 [] 0) = Found (mkTd (Z.of_nat (length (hits_of s))) (slice first num R) (best_score (hits_of s)))) by (intros E; rewrite (Hnil E), E; unfold slice; rewrite skipn_nil, firstn_nil; reflexivity).
    destruct (u_hits s) as [ms|] eqn:Eu; [|apply Hzero; unfold hits_of; rewrite Eu; reflexivity]. destruct Hs1 as (_ & _ & Hlive). destruct (Z.eqb_spec (u_live s) 0) as [E|E]; [apply Hzero; unfold hits_of; rewrite Eu, (Hlive E); reflexivity|].
    fold (lts sort (u_comps s)). change (if sort then fshq_lt coll (u_comps s) else hit_lt) with (lts sort (u_comps s)). rewrite collect_eq. cbn zeta. assert (Eh : hits_of s = flat_map (fun h => match keep s h with Some x => [x] | None => [] end) ms) by (unfold hits_of; rewrite Eu; reflexivity). rewrite <- Eh.
    destruct (insert_all_some hit (lts sort (u_comps s)) (lts_pre sort _) (Z.to_nat mx) (hits_of s)) as (q & Eq). rewrite Eq. cbn [obind fst snd]. apply ranking_sorted in HR. destruct HR as (HP & HS).
    rewrite (page_ok hit (lts sort (u_comps s)) (lts_pre sort _) (hits_of s) R mx first num q); auto; [|apply asym_docs; exact HN|].
    - cbn [obind]. rewrite max_eq. reflexivity.
    - unfold max_size in Hmx. destruct (Z.eqb_spec num INT_MAX); [right|left]; [apply some_inj in Hmx; lia|]. destruct (Z.ltb_spec INT_MAX (num + first)); [discriminate|]. apply some_inj in Hmx. lia.
  Qed.
End O.
(* ---------- several searchers: only the first ranks of each count *)
Section T.
  Variables (A : Type) (lt : A -> A -> bool).
  Hypothesis Hpre : preorder A lt.
  Notation nw := (nw A lt).
  Definition ranks (l R : list A) : Prop := Permutation l R /\ StronglySorted nw R.
  Lemma insert_at a : forall R, StronglySorted nw R -> exists p q, R = p ++ q /\ StronglySorted nw (p ++ a :: q) /\ (forall b, In b q -> lt b a = true).
  Proof.
    induction R as [|b R IH]; intros HS; [exists [], []; splits; [reflexivity|repeat constructor|intros b []]|]. inversion HS as [|? ? HS' HF]; subst. destruct (lt b a) eqn:E.
    - exists [], (b :: R). rewrite Forall_forall in HF. assert (Hab : nw a b) by (destruct (nw_total A lt Hpre a b) as [H|H]; [exact H|unfold Search_Proofs.nw in H; congruence]). splits; [reflexivity| |].
      + cbn [app]. constructor; [exact HS|]. constructor; [exact Hab|]. apply Forall_forall. intros x Hx. apply (nw_trans A lt Hpre a b x); auto.
      + intros x [<-|Hx]; [exact E|]. destruct (lt x a) eqn:Ex; [reflexivity|]. pose proof (nw_trans A lt Hpre b x a (HF x Hx) Ex). unfold Search_Proofs.nw in *. congruence.
    - destruct (IH HS') as (p & q & -> & H1 & H2). exists (b :: p), q. splits; [reflexivity| |exact H2]. cbn [app]. constructor; [exact H1|]. rewrite Forall_forall in *. intros x Hx. apply in_app_or in Hx. destruct Hx as [Hx|[<-|Hx]]; [apply HF; apply in_or_app; auto|exact E|apply HF; apply in_or_app; auto].
  Qed.
  Lemma filter_len (f : A -> bool) l l' : Permutation l l' -> length (filter f l) = length (filter f l').
  Proof. induction 1 as [|x l l' _ IH|x y l|l l' l'' _ IH1 _ IH2]; cbn [filter]; [reflexivity|destruct (f x); cbn [length]; congruence|destruct (f x), (f y); reflexivity|congruence]. Qed.
  Lemma asym_perm l l' : Permutation l l' -> asym A lt l -> asym A lt l'.
  Proof. intros HP H a b Ha Hb. apply H; apply (Permutation_in _ (Permutation_sym HP)); assumption. Qed.
  Lemma asym_incl l l' : incl l' l -> asym A lt l -> asym A lt l'.
  Proof. intros HI H a b Ha Hb. apply H; auto. Qed.
  (* elements that k others precede do not matter *)
  Lemma drop_one (k : nat) a A1 B R R' : asym A lt (A1 ++ a :: B) -> (k <= length A1)%nat -> (forall x, In x A1 -> nw x a) -> ranks (A1 ++ B) R' -> ranks (A1 ++ a :: B) R -> firstn k R = firstn k R'.
  Proof.
    intros Ha Hk Hx (HP' & HS') (HP & HS). destruct (insert_at a R' HS') as (p & q & E & HS2 & Hq). assert (ER : R = p ++ a :: q).
    { apply (rank_unique A lt Hpre); auto; [exact (asym_perm _ _ HP Ha)|]. rewrite <- HP, <- Permutation_middle, <- Permutation_middle, <- E. constructor. exact HP'. }
    subst R. rewrite E. pose proof (filter_len (fun b => negb (lt b a)) _ _ HP') as HL. rewrite E, !filter_app, !app_length in HL.
    assert (E1 : filter (fun b => negb (lt b a)) A1 = A1). { clear - Hx. induction A1 as [|x l IH]; cbn [filter]; [reflexivity|]. rewrite (Hx x (or_introl eq_refl)). cbn [negb]. f_equal. apply IH. intros; apply Hx; right; assumption. }
    assert (E2 : filter (fun b => negb (lt b a)) q = []). { clear - Hq. induction q as [|x l IH]; cbn [filter]; [reflexivity|]. rewrite (Hq x (or_introl eq_refl)). cbn [negb]. apply IH. intros; apply Hq; right; assumption. }
    rewrite E1, E2 in HL. cbn [length] in HL. assert (Hp : (length (filter (fun b => negb (lt b a)) p) <= length p)%nat) by (clear; induction p as [|x p IH]; cbn [filter]; [lia|destruct (negb _); cbn [length]; lia]).
    rewrite !firstn_app. replace (k - length p)%nat with O by lia. reflexivity.
  Qed.
  Lemma drop_many (k : nat) A1 : (k <= length A1)%nat -> forall A2 B R R', asym A lt (A1 ++ A2 ++ B) -> (forall x y, In x A1 -> In y A2 -> nw x y) -> ranks (A1 ++ B) R' -> ranks (A1 ++ A2 ++ B) R -> firstn k R = firstn k R'.
  Proof.
    intros Hk. induction A2 as [|a A2 IH]; intros B R R' Ha Hx H' H; cbn [app] in *.
    - destruct H as (HP & HS), H' as (HP' & HS'). f_equal. apply (rank_unique A lt Hpre); auto; [exact (asym_perm _ _ HP Ha)|]. rewrite <- HP. exact HP'.
    - destruct (sort_ex A lt Hpre (A1 ++ A2 ++ B)) as (R1 & H1). rewrite (drop_one k a A1 (A2 ++ B) R R1); auto; [|intros x Hin; apply Hx; [exact Hin|left; reflexivity]]. apply (IH B R1 R'); auto; [|intros x y Hin1 Hin2; apply Hx; [exact Hin1|right; exact Hin2]].
      eapply asym_incl; [|exact Ha]. intros x Hin. apply in_app_or in Hin. apply in_or_app. destruct Hin; [left|right; right]; assumption.
  Qed.
  Lemma sorted_cut R : StronglySorted nw R -> forall k x y, In x (firstn k R) -> In y (skipn k R) -> nw x y.
  Proof.
    induction 1 as [|a R HS IH HF]; intros k x y Hx Hy; destruct k as [|k]; cbn [firstn skipn] in *; try (destruct Hx; fail). destruct Hx as [<-|Hx]; [|eauto]. rewrite Forall_forall in HF. apply HF. rewrite <- (firstn_skipn k R). apply in_or_app. auto.
  Qed.
  Lemma cut_all (k : nat) : forall Ls C R R', Forall (StronglySorted nw) Ls -> asym A lt (C ++ concat Ls) -> ranks (C ++ concat Ls) R -> ranks (C ++ concat (map (firstn k) Ls)) R' -> firstn k R = firstn k R'.
  Proof.
    induction Ls as [|L Ls IH]; intros C R R' HF Ha H H'; cbn [map concat] in *.
    - destruct H as (HP & HS), H' as (HP' & HS'). f_equal. apply (rank_unique A lt Hpre); auto; [exact (asym_perm _ _ HP Ha)|]. rewrite <- HP. exact HP'.
    - inversion HF as [|? ? HL HF']; subst. destruct (sort_ex A lt Hpre ((C ++ firstn k L) ++ concat Ls)) as (R1 & H1).
      assert (Ha1 : asym A lt ((C ++ firstn k L) ++ concat Ls)).
      { eapply asym_incl; [|exact Ha]. intros x Hx. rewrite <- app_assoc in Hx. apply in_app_or in Hx. apply in_or_app. destruct Hx as [Hx|Hx]; [auto|]. right. apply in_app_or in Hx. apply in_or_app. destruct Hx as [Hx|Hx]; [|auto]. left. rewrite <- (firstn_skipn k L). apply in_or_app. auto. }
      rewrite <- (IH (C ++ firstn k L) R1 R' HF' Ha1 H1); [|rewrite <- app_assoc; exact H'].
      destruct (Nat.leb_spec (length L) k) as [Hk|Hk].
      + f_equal. rewrite firstn_all2 in H1, Ha1 by exact Hk. destruct H as (HP & HS), H1 as (HP1 & HS1). apply (rank_unique A lt Hpre); auto; [exact (asym_perm _ _ HP Ha)|]. rewrite <- HP, app_assoc. exact HP1.
      + assert (HPa : Permutation (C ++ L ++ concat Ls) (firstn k L ++ skipn k L ++ C ++ concat Ls)).
        { rewrite (app_assoc (firstn k L)), firstn_skipn, !app_assoc. apply Permutation_app_tail. apply Permutation_app_comm. }
        apply (drop_many k (firstn k L)) with (A2 := skipn k L) (B := C ++ concat Ls); [rewrite firstn_length; lia| |apply sorted_cut; exact HL| |].
        * exact (asym_perm _ _ HPa Ha).
        * destruct H1 as (HP1 & HS1). split; [|exact HS1]. rewrite <- HP1, app_assoc. apply Permutation_app_tail. apply Permutation_app_comm.
        * destruct H as (HP & HS). split; [|exact HS]. rewrite <- HP. symmetry. exact HPa.
  Qed.
End T.
Lemma nodup_app2 {A} (l1 l2 : list A) : NoDup l1 -> NoDup l2 -> (forall x, In x l1 -> In x l2 -> False) -> NoDup (l1 ++ l2).
Proof.
  intros H1 H2 H. induction H1 as [|a l1 Ha H1 IH]; cbn [app]; [exact H2|]. constructor; [|apply IH; intros x Hx; apply H; right; exact Hx]. intros Hin. apply in_app_or in Hin. destruct Hin as [Hin|Hin]; [auto|]. apply (H a); [left; reflexivity|exact Hin].
Qed.
Section F.
  Variable coll : list Z -> list Z -> Z.
  Hypothesis Hcoll : coll_ok coll.
  Notation fdoc := (hit * list cval)%type.
  Definition fdf (k : nat) (t : stype * bool) (a b : fdoc) : Z := let d := fd_cmp coll (fst t) a b (nth k (snd a) (VL 0)) (nth k (snd b) (VL 0)) in if snd t then - d else d.
  Fixpoint fdfs (k : nat) (ts : list (stype * bool)) : list (fdoc -> fdoc -> Z) := match ts with [] => [fun a b => cmp3 (h_doc (fst a)) (h_doc (fst b))] | t :: ts' => fdf k t :: fdfs (S k) ts' end.
  Lemma good_fd ty k : good fdoc (fun a b => fd_cmp coll ty a b (nth k (snd a) (VL 0)) (nth k (snd b) (VL 0))).
  Proof.
    unfold fd_cmp. destruct ty.
    - assert (E : forall x y : Z, (if y <? x then -1 else if x <? y then 1 else 0) = cmp3 y x) by (intros x y; unfold cmp3; destruct (Z.ltb_spec y x), (Z.ltb_spec x y); lia).
      pose proof (good_flip fdoc (fun a b => cmp3 (as_f (nth k (snd a) (VL 0))) (as_f (nth k (snd b) (VL 0)))) (good_cmp3 fdoc (fun a => as_f (nth k (snd a) (VL 0))))) as (G1 & G2). split; [intros a b|intros a b c]; rewrite !E; [apply G1|apply G2].
    - apply (good_cmp3 fdoc (fun a => h_doc (fst a))).
    - apply (good_cmp3 fdoc (fun a => as_l (nth k (snd a) (VL 0)))).
    - apply (good_cmp3 fdoc (fun a => as_l (nth k (snd a) (VL 0)))).
    - apply (good_cmp3 fdoc (fun a => as_f (nth k (snd a) (VL 0)))).
    - apply (good_str coll Hcoll fdoc (fun a => as_s (nth k (snd a) (VL 0)))).
  Qed.
  Lemma good_fdfs ts : forall k, Forall (good fdoc) (fdfs k ts).
  Proof.
    induction ts as [|(ty, rev) ts IH]; intros k; cbn [fdfs]; constructor; auto; [apply (good_cmp3 fdoc (fun a => h_doc (fst a)))|]. unfold fdf. cbn [fst snd]. destruct rev; [apply good_opp|]; apply good_fd.
  Qed.
  Lemma hd_skipn {B} (d : B) l k : hd d (skipn k l) = nth k l d.
  Proof. revert k. induction l as [|x l IH]; intros [|k]; cbn; auto. Qed.
  Lemma tl_skipn {B} (l : list B) k : tl (skipn k l) = skipn (S k) l.
  Proof. revert k. induction l as [|x l IH]; intros [|k]; cbn [skipn tl]; auto. rewrite IH. reflexivity. Qed.
  Lemma fd_pre ts : preorder fdoc (fdshq_lt coll ts).
  Proof.
    apply (lex_pre fdoc (fdshq_lt coll ts) (fdfs 0 ts) (good_fdfs ts 0)). intros a b. unfold fdshq_lt.
    assert (G : forall ts k c, (let r := fd_loop coll ts c a b (skipn k (snd a)) (skipn k (snd b)) in if r =? 0 then h_doc (fst b) <? h_doc (fst a) else 0 <? r) = (if c =? 0 then 0 <? lexd fdoc (fdfs k ts) a b else 0 <? c)).
    { clear. induction ts as [|(ty, rev) ts IH]; intros k c; cbn [fd_loop fdfs lexd]; cbn zeta.
      - destruct (Z.eqb_spec c 0); [|reflexivity]. unfold cmp3. destruct (Z.ltb_spec (h_doc (fst b)) (h_doc (fst a))); [reflexivity|]. destruct (h_doc (fst a) <? h_doc (fst b)); reflexivity.
      - destruct (Z.eqb_spec c 0) as [->|E]; [|rewrite (proj2 (Z.eqb_neq _ _) E); reflexivity]. rewrite !tl_skipn, !hd_skipn. cbn zeta in IH. rewrite IH. unfold fdf. cbn [fst snd]. cbn zeta. reflexivity || (destruct (_ =? 0); reflexivity). }
    specialize (G ts 0%nat 0). cbn [skipn] in G. exact G.
  Qed.
  Lemma fdlt_pre sort ts : preorder fdoc (fd_lt coll sort ts).
  Proof. destruct sort; [apply fd_pre|]. destruct hit_pre as (H1 & H2). split; unfold PQueue_Spec.le, fd_lt in *; [intros a b; apply H1|intros a b c; apply H2]. Qed.
  (* the values of a document *)
  Definition agrees (a : hit) (c : comp) (v : cval) : Prop :=
    match c_type c with TScore => as_f v = h_score a | TDoc => True | TByte | TInteger => as_l v = c_long c (h_doc a) | TFloat => as_f v = c_long c (h_doc a) | TString => as_s v = c_str c (h_doc a) end.
  Definition kinds (cs : list comp) : list (stype * bool) := map (fun c => (c_type c, c_rev c)) cs.
  Lemma fd_eq cs a b x y st : h_doc (fst x) = h_doc a + st -> h_doc (fst y) = h_doc b + st -> Forall2 (agrees a) cs (snd x) -> Forall2 (agrees b) cs (snd y) -> fdshq_lt coll (kinds cs) x y = fshq_lt coll cs a b.
  Proof.
    intros Ex Ey Hx Hy. unfold fdshq_lt, fshq_lt.
    assert (G : forall cs v w c d, Forall2 (agrees a) cs v -> Forall2 (agrees b) cs w -> Z.sgn c = Z.sgn d -> Z.sgn (fd_loop coll (kinds cs) c x y v w) = Z.sgn (cmp_loop coll cs d a b)).
    { clear cs Hx Hy. induction cs as [|k cs IH]; intros v w c d Hv Hw Hs; cbn [kinds map fd_loop cmp_loop]; [exact Hs|]. inversion Hv as [|? v0 ? v' Hv0 Hv']; subst. inversion Hw as [|? w0 ? w' Hw0 Hw']; subst.
      assert (Es : (c =? 0) = (d =? 0)) by (destruct (Z.eqb_spec c 0), (Z.eqb_spec d 0); try reflexivity; subst; [cbn in Hs; lia|exfalso; apply n; apply Z.sgn_null_iff; rewrite Hs; reflexivity]). rewrite Es. destruct (d =? 0); [|exact Hs]. cbn [hd tl]. apply IH; auto.
      assert (Ec : fd_cmp coll (c_type k) x y v0 w0 = compare coll k a b).
      { unfold fd_cmp, compare, agrees in *. destruct (c_type k); try (rewrite Hv0, Hw0; reflexivity).
        - rewrite Hv0, Hw0. unfold cmp3. destruct (Z.ltb_spec (h_score b) (h_score a)), (Z.ltb_spec (h_score a) (h_score b)); lia.
        - rewrite Ex, Ey. unfold cmp3. repeat match goal with |- context [?p <? ?q] => destruct (Z.ltb_spec p q) end; lia. }
      rewrite Ec. destruct (c_rev k); [|reflexivity]. rewrite Z.sgn_opp. rewrite (proj1 (good_compare coll Hcoll k) b a). reflexivity. }
    specialize (G cs (snd x) (snd y) 0 0 Hx Hy eq_refl). revert G. generalize (fd_loop coll (kinds cs) 0 x y (snd x) (snd y)) (cmp_loop coll cs 0 a b). intros c d G. rewrite Ex, Ey.
    destruct c, d; cbn in G; try discriminate; cbn [Z.eqb]; try reflexivity. destruct (Z.ltb_spec (h_doc b + st) (h_doc a + st)), (Z.ltb_spec (h_doc b) (h_doc a)); lia.
  Qed.
  (* all the hits with their values *)
  Fixpoint fds (start : Z) (ss : list sub) (Rs : list (list hit)) : list (list fdoc) :=
    match ss, Rs with s :: t, R :: Rt => map (to_fd (u_comps s) start) R :: fds (start + u_max s) t Rt | _, _ => [] end.
  Definition rank_of (sort : bool) (s : sub) (R : list hit) : Prop := ranking (order coll sort (u_comps s)) (hits_of s) R.
  Lemma fds_hits sort : forall ss Rs start, Forall2 (rank_of sort) ss Rs -> Permutation (all_hits start ss) (map fst (concat (fds start ss Rs))).
  Proof.
    induction ss as [|s ss IH]; intros Rs start H; inversion H as [|? R ? Rt (HP & _) HR]; subst; cbn [all_hits fds concat map]; [constructor|]. rewrite map_app, map_map. unfold to_fd. cbn [fst]. apply Permutation_app; [apply Permutation_map; exact HP|apply IH; exact HR].
  Qed.
  Lemma all_docs : forall ss start, Forall sub_ok ss -> NoDup (map h_doc (all_hits start ss)) /\ Forall (fun h => start <= h_doc h < start + total_docs ss) (all_hits start ss) /\ 0 <= total_docs ss.
  Proof.
    induction ss as [|s ss IH]; intros start HF; cbn [all_hits map total_docs]; [splits; [constructor|constructor|lia]|]. inversion HF as [|? ? Hs HF']; subst. destruct (IH (start + u_max s) HF') as (N2 & F2 & T2). destruct (hits_docs s Hs) as (N1 & F1). pose proof Hs as (_ & Hm). rewrite Forall_forall in F1, F2. splits; [| |lia].
    - rewrite map_app, map_map. cbn [h_doc]. assert (G : forall l, NoDup (map h_doc l) -> NoDup (map (fun h => h_doc h + start) l)).
      { clear. intros l. induction l as [|h l IH]; cbn [map]; intros HN; [constructor|]. inversion HN as [|? ? Hh HN']; subst. constructor; [|auto]. intros Hin. apply in_map_iff in Hin. destruct Hin as (g & E & Hg). apply Hh. apply in_map_iff. exists g. split; [lia|exact Hg]. }
      apply nodup_app2; [apply G; exact N1|exact N2|]. intros x Hx Hy. apply in_map_iff in Hx. destruct Hx as (h & <- & Hh). apply in_map_iff in Hy. destruct Hy as (g & E & Hg). specialize (F1 h Hh). specialize (F2 g Hg). lia.
    - apply Forall_forall. intros x Hx. apply in_app_or in Hx. destruct Hx as [Hx|Hx]; [|specialize (F2 x Hx); lia]. apply in_map_iff in Hx. destruct Hx as (h & <- & Hh). specialize (F1 h Hh). cbn [h_doc]. lia.
  Qed.
  Lemma to_agrees s start c a x : same_key start (u_max s) c x -> 0 <= h_doc a < u_max s -> agrees (mkHit (h_doc a + start) (h_score a)) c (get_val x a).
  Proof.
    intros (H1 & H2 & H3) Ha. specialize (H3 _ Ha). unfold agrees, get_val. rewrite H1. destruct (c_type c); cbn [h_doc h_score as_f as_l as_s]; auto.
  Qed.
  Lemma self_agrees c a : agrees a c (get_val c a).
  Proof. unfold agrees, get_val. destruct (c_type c); cbn [as_f as_l as_s]; auto. Qed.
  Definition glob (cs : list comp) (x : fdoc) : Prop := Forall2 (agrees (fst x)) cs (snd x).
  Lemma fds_glob sort cs : forall ss Rs start, Forall sub_ok ss -> whole_keys start cs ss -> Forall2 (rank_of sort) ss Rs -> Forall (glob cs) (concat (fds start ss Rs)).
  Proof.
    induction ss as [|s ss IH]; intros Rs start HF HW H; inversion H as [|? R ? Rt (HP & _) HR]; subst; cbn [fds concat map]; [constructor|]. inversion HF as [|? ? Hs HF']; subst. destruct HW as (HW1 & HW2). apply Forall_app. split; [|apply IH; auto].
    apply Forall_forall. intros x Hx. apply in_map_iff in Hx. destruct Hx as (h & <- & Hh). apply (Permutation_in _ (Permutation_sym HP)) in Hh. destruct (hits_docs s Hs) as (_ & Fd). rewrite Forall_forall in Fd. specialize (Fd h Hh). unfold glob, to_fd. cbn [fst snd].
    clear - HW1 Fd. induction HW1 as [|c k cs ks Hk _ IH]; cbn [map]; constructor; auto. apply (to_agrees s); auto.
  Qed.
  Lemma glob_lt sort cs x y : glob cs x -> glob cs y -> fd_lt coll sort (kinds cs) x y = lts coll sort cs (fst x) (fst y).
  Proof. intros Hx Hy. destruct sort; cbn [fd_lt lts]; [|reflexivity]. apply (fd_eq cs (fst x) (fst y) x y 0); auto; lia. Qed.
  Lemma local_lt sort s start a b : fd_lt coll sort (kinds (u_comps s)) (to_fd (u_comps s) start a) (to_fd (u_comps s) start b) = lts coll sort (u_comps s) a b.
  Proof.
    destruct sort; cbn [fd_lt lts].
    - apply (fd_eq (u_comps s) a b _ _ start); try reflexivity; unfold to_fd; cbn [snd]; induction (u_comps s) as [|c cs IH]; cbn [map]; constructor; auto using self_agrees.
    - unfold to_fd, hit_lt. cbn [fst h_doc h_score]. destruct (h_score a =? h_score b); [|reflexivity]. destruct (Z.ltb_spec (h_doc b + start) (h_doc a + start)), (Z.ltb_spec (h_doc b) (h_doc a)); lia.
  Qed.
  Lemma kinds_same start mx cs ks : Forall2 (same_key start mx) cs ks -> kinds ks = kinds cs.
  Proof. induction 1 as [|c k cs ks (H1 & H2 & _) _ IH]; cbn [kinds map]; [reflexivity|]. rewrite H1, H2. f_equal. exact IH. Qed.
  Lemma fds_sorted sort cs : forall ss Rs start, whole_keys start cs ss -> Forall2 (rank_of sort) ss Rs -> Forall (StronglySorted (nw fdoc (fd_lt coll sort (kinds cs)))) (fds start ss Rs).
  Proof.
    induction ss as [|s ss IH]; intros Rs start HW H; inversion H as [|? R ? Rt HR0 HR]; subst; cbn [fds]; [constructor|]. destruct HW as (HW1 & HW2). constructor; [|apply IH; auto]. apply (ranking_sorted coll Hcoll) in HR0. destruct HR0 as (_ & HS). rewrite <- (kinds_same _ _ _ _ HW1).
    clear - HS Hcoll. induction HS as [|a R HS IH HF]; cbn [map]; constructor; auto. apply Forall_map. eapply Forall_impl; [|exact HF]. intros b Hb. unfold nw in *. rewrite local_lt. exact Hb.
  Qed.
  Lemma insert_app {A} (lt : A -> A -> bool) l1 : forall l2 q, insert_all A lt q (l1 ++ l2) = do q' <- insert_all A lt q l1; insert_all A lt q' l2.
  Proof. induction l1 as [|a l1 IH]; intros l2 q; cbn [app insert_all]; [reflexivity|]. destruct (pq_insert A lt q a); cbn [obind]; auto. Qed.
  Lemma best_app l1 l2 : best_score (l1 ++ l2) = Z.max (best_score l1) (best_score l2).
  Proof. unfold best_score. induction l1 as [|a l1 IH]; cbn [app fold_right]; [|rewrite IH; lia]. induction l2 as [|a l2 IH]; cbn [fold_right]; lia. Qed.
  Lemma best_shift start l : best_score (map (fun h => mkHit (h_doc h + start) (h_score h)) l) = best_score l.
  Proof. unfold best_score. induction l as [|a l IH]; cbn [map fold_right h_score]; [reflexivity|rewrite IH; reflexivity]. Qed.
  Lemma loop_ok lt mx sort : 1 <= mx <= INT_MAX -> forall ss Rs start q total maxs, 0 <= maxs -> Forall sub_ok ss -> Forall2 (rank_of sort) ss Rs ->
    msea_loop coll lt mx sort start ss q total maxs =
    match insert_all fdoc lt q (concat (map (firstn (Z.to_nat mx)) (fds start ss Rs))) with
    | Some q' => inr (q', total + Z.of_nat (length (all_hits start ss)), Z.max maxs (best_score (all_hits start ss)))
    | None => inl Undefined
    end.
  Proof.
    intros Hmx. induction ss as [|s ss IH]; intros Rs start q total maxs Hmaxs HF H; inversion H as [|? R ? Rt HR0 HR]; subst; cbn [msea_loop fds map concat all_hits].
    - cbn [insert_all length best_score fold_right]. rewrite Z.add_0_r, Z.max_l by exact Hmaxs. reflexivity.
    - inversion HF as [|? ? Hs HF']; subst. rewrite (isea_ok coll Hcoll s 0 mx mx sort R); auto; try lia; [|unfold max_size; destruct (Z.eqb_spec mx INT_MAX); [reflexivity|]; destruct (Z.ltb_spec INT_MAX (mx + 0)); [lia|rewrite Z.add_0_r; reflexivity]].
      cbn [td_hits td_total td_max]. unfold slice. cbn [Z.to_nat skipn]. rewrite <- firstn_map. rewrite insert_app. destruct (insert_all fdoc lt q (firstn (Z.to_nat mx) (map (to_fd (u_comps s) start) R))) as [q'|]; cbn [obind]; [|reflexivity].
      set (m' := match firstn (Z.to_nat mx) R with [] => maxs | _ => if maxs <? best_score (hits_of s) then best_score (hits_of s) else maxs end).
      assert (Em : m' = Z.max maxs (best_score (hits_of s))).
      { unfold m'. destruct (firstn (Z.to_nat mx) R) as [|h t] eqn:E; [|destruct (Z.ltb_spec maxs (best_score (hits_of s))); lia]. destruct R as [|h R]; [|destruct (Z.to_nat mx) eqn:E2; [lia|discriminate]]. destruct HR0 as (HP & _). apply Permutation_sym, Permutation_nil in HP. rewrite HP. cbn. lia. }
      rewrite (IH Rt (start + u_max s) q' _ m' ltac:(lia) HF' HR). rewrite app_length, map_length, best_app, best_shift. destruct (insert_all _ _ _ _) as [q2|]; [|reflexivity]. rewrite Nat2Z.inj_add, Em. do 2 f_equal; [f_equal|]; lia.
  Qed.
  Lemma ranks_ex sort ss : exists Rs, Forall2 (rank_of sort) ss Rs.
  Proof. induction ss as [|s ss (Rs & IH)]; [exists []; constructor|]. destruct (ranking_ex coll Hcoll sort (u_comps s) (hits_of s)) as (R & HR). exists (R :: Rs). constructor; auto. Qed.
  Lemma concat_firstn {A} k (Ls : list (list A)) : (length (concat Ls) <= k)%nat -> concat (map (firstn k) Ls) = concat Ls.
  Proof. induction Ls as [|L Ls IH]; cbn [map concat]; intros H; [reflexivity|]. rewrite app_length in H. rewrite firstn_all2 by lia. rewrite IH by lia. reflexivity. Qed.
  Lemma msea_ok ss cs first num mx sort R : Forall sub_ok ss -> whole_keys 0 cs ss -> total_docs ss <= INT_MAX -> 0 <= first -> 1 <= num -> max_size first num = Some mx -> ranking (order coll sort cs) (all_hits 0 ss) R ->
    msea_search_w coll ss (kinds cs) first num sort = Found (mkTd (Z.of_nat (length (all_hits 0 ss))) (slice first num R) (best_score (all_hits 0 ss))).
  Proof.
    intros HF HW HT Hf Hn Hmx HR. destruct (ranks_ex sort ss) as (Rs & HRs). unfold msea_search_w. rewrite Hmx. destruct (Z.leb_spec num 0); [lia|]. destruct (Z.ltb_spec first 0); [lia|]. cbn [orb].
    assert (Hmx2 : 1 <= mx <= INT_MAX /\ (mx = num + first \/ mx = num /\ num = INT_MAX)).
    { unfold max_size in Hmx. destruct (Z.eqb_spec num INT_MAX); [apply some_inj in Hmx; lia|]. destruct (Z.ltb_spec INT_MAX (num + first)); [discriminate|]. apply some_inj in Hmx. lia. }
    destruct Hmx2 as (Hmx1 & Hcase). rewrite (loop_ok _ mx sort Hmx1 ss Rs 0 _ 0 0 ltac:(lia) HF HRs). set (Ls := fds 0 ss Rs). set (lt := fd_lt coll sort (kinds cs)). pose proof (fdlt_pre sort (kinds cs)) as Hpre. fold lt in Hpre.
    destruct (insert_all_some fdoc lt Hpre (Z.to_nat mx) (concat (map (firstn (Z.to_nat mx)) Ls))) as (q & Eq). rewrite Eq. destruct (all_docs ss 0 HF) as (HN & Hrange & _). pose proof (fds_hits sort ss Rs 0 HRs) as HPh. fold Ls in HPh.
    assert (HN2 : NoDup (map (fun x => h_doc (fst x)) (concat Ls))) by (rewrite <- (map_map fst h_doc); eapply Permutation_NoDup; [|exact HN]; apply Permutation_map; exact HPh).
    assert (Hglob : forall x, In x (concat Ls) -> glob cs x) by (apply Forall_forall; apply (fds_glob sort cs ss Rs 0 HF HW HRs)).
    assert (Ha : asym fdoc lt (concat Ls)).
    { intros x y Hx Hy H1 H2. unfold nw, lt in H1, H2. rewrite glob_lt in H1, H2 by auto. apply (nodup_eq (fun x => h_doc (fst x)) (concat Ls)); auto. eapply (order_doc coll Hcoll sort cs); apply (lts_nw coll Hcoll); assumption. }
    assert (Hincl : incl (concat (map (firstn (Z.to_nat mx)) Ls)) (concat Ls)).
    { intros x Hx. apply in_concat in Hx. destruct Hx as (l & Hl & Hx). apply in_map_iff in Hl. destruct Hl as (L & <- & HL). apply in_concat. exists L. split; [exact HL|]. rewrite <- (firstn_skipn (Z.to_nat mx) L). apply in_or_app. auto. }
    destruct (sort_ex fdoc lt Hpre (concat (map (firstn (Z.to_nat mx)) Ls))) as (R1 & HR1). destruct (sort_ex fdoc lt Hpre (concat Ls)) as (R2 & HR2).
    assert (Elen : length (concat Ls) = length (all_hits 0 ss)) by (rewrite (Permutation_length HPh), map_length; reflexivity).
    assert (Hlen : Z.of_nat (length (all_hits 0 ss)) <= total_docs ss).
    { rewrite <- (map_length h_doc). apply NoDup_range; [destruct (all_docs ss 0 HF) as (_ & _ & ?); lia|exact HN|]. apply Forall_map. exact Hrange. }
    assert (ER : R = map fst R2).
    { apply (ranking_sorted coll Hcoll) in HR. destruct HR as (HP & HS). apply (rank_unique hit (lts coll sort cs) (lts_pre coll Hcoll sort cs)); auto.
      - apply (asym_docs coll Hcoll). eapply Permutation_NoDup; [|exact HN]. apply Permutation_map. exact HP.
      - rewrite <- HP, HPh. apply Permutation_map. apply HR2.
      - destruct HR2 as (HP2 & HS2). assert (Hg2 : Forall (glob cs) R2) by (apply Forall_forall; intros x Hx; apply Hglob; apply (Permutation_in _ (Permutation_sym HP2)); exact Hx). clear - HS2 Hg2 Hcoll. induction HS2 as [|a R2 HS IH HF]; cbn [map]; constructor; inversion Hg2; subst; auto. apply Forall_map. rewrite Forall_forall in *. intros y Hy. specialize (HF y Hy). unfold nw, lt in *. rewrite glob_lt in HF by auto. exact HF. }
    assert (Ef : firstn (Z.to_nat mx) R2 = firstn (Z.to_nat mx) R1).
    { apply (cut_all fdoc lt Hpre (Z.to_nat mx) Ls [] R2 R1); auto. apply fds_sorted; auto. }
    rewrite (page_ok fdoc lt Hpre (concat (map (firstn (Z.to_nat mx)) Ls)) R1 mx first num q); auto; [|eapply asym_incl; [exact Hincl|exact Ha]|apply HR1|apply HR1|].
    - rewrite Z.add_0_l. f_equal. f_equal; [|unfold best_score; generalize (all_hits 0 ss); intros l; induction l; cbn [fold_right]; lia]. rewrite ER. unfold slice. rewrite skipn_map, firstn_map. f_equal.
      assert (Elen2 : length R2 = length (concat Ls)) by (rewrite (Permutation_length (proj1 HR2)); reflexivity). destruct Hcase as [Hc|(Hc1 & Hc2)].
      + rewrite !firstn_skipn_comm. replace (Z.to_nat first + Z.to_nat num)%nat with (Z.to_nat mx) by lia. rewrite Ef. reflexivity.
      + assert (E2 : R1 = R2); [|rewrite E2; reflexivity]. assert (length R1 = length (concat Ls)) by (rewrite <- (Permutation_length (proj1 HR1)), concat_firstn by lia; reflexivity). rewrite !firstn_all2 in Ef by lia. auto.
    - destruct Hcase as [Hc|(Hc1 & Hc2)]; [left; exact Hc|right]. split; [exact Hc1|]. rewrite concat_firstn by lia. lia.
  Qed.
End F.
(* ---------- the theorems *)
Definition flat0 (_ _ : list Z) : Z := 0.
Lemma flat_ok : coll_ok flat0.
Proof. split; intros; unfold flat0; cbn; lia. Qed.
Lemma max_size_some first num : 0 <= first -> 1 <= num -> (num = INT_MAX \/ num + first <= INT_MAX) -> exists mx, max_size first num = Some mx.
Proof. intros H1 H2 H3. unfold max_size. destruct (Z.eqb_spec num INT_MAX); [eauto|]. destruct (Z.ltb_spec INT_MAX (num + first)); [lia|eauto]. Qed.
Lemma best_is l : l <> [] -> Forall (fun h => 0 <= h_score h) l -> is_best l (best_score l).
Proof.
  intros Hne HF. induction HF as [|h l Hh HF IH]; [congruence|]. cbn [best_score fold_right]. fold (best_score l). destruct l as [|g l].
  - cbn. split; [intros x [<-|[]]; lia|exists h; split; [left; reflexivity|lia]].
  - destruct IH as (H1 & x & Hx & Ex); [discriminate|]. split; [intros y [<-|Hy]; [lia|specialize (H1 y Hy); lia]|]. destruct (Z.max_spec (h_score h) (best_score (g :: l))) as [(_ & E)|(_ & E)]; rewrite E; [exists x; split; [right; exact Hx|exact Ex]|exists h; split; [left; reflexivity|reflexivity]].
Qed.
Lemma paged_search coll s first num : sub_ok s -> 0 <= first -> 1 <= num -> (num = INT_MAX \/ num + first <= INT_MAX) ->
  exists R m, ranking by_score (hits_of s) R /\ (forall R', ranking by_score (hits_of s) R' -> R' = R) /\
    isea_search_w coll s first num false = Found (mkTd (Z.of_nat (length (hits_of s))) (slice first num R) m) /\
    (hits_of s <> [] -> Forall (fun h => 0 <= h_score h) (hits_of s) -> is_best (hits_of s) m).
Proof.
  intros Hs Hf Hn Hm. destruct (max_size_some first num Hf Hn Hm) as (mx & Hmx). destruct (ranking_ex flat0 flat_ok false (u_comps s) (hits_of s)) as (R & HR). exists R, (best_score (hits_of s)). splits; [exact HR| |exact (isea_ok flat0 flat_ok s first num mx false R Hs Hf Hn Hmx HR)|apply best_is].
  intros R' HR'. apply (ranking_sorted flat0 flat_ok false (u_comps s)) in HR, HR'. destruct HR as (H1 & H2), HR' as (H3 & H4). apply (rank_unique hit _ (lts_pre flat0 flat_ok false (u_comps s))); auto.
  - apply (asym_docs flat0 flat_ok). eapply Permutation_NoDup; [apply Permutation_map; exact H3|apply (hits_docs s Hs)].
  - rewrite <- H3. exact H1.
Qed.
Lemma sorted_search coll s first num : coll_ok coll -> sub_ok s -> 0 <= first -> 1 <= num -> (num = INT_MAX \/ num + first <= INT_MAX) ->
  exists R m, ranking (by_keys coll (u_comps s)) (hits_of s) R /\ (forall R', ranking (by_keys coll (u_comps s)) (hits_of s) R' -> R' = R) /\
    isea_search_w coll s first num true = Found (mkTd (Z.of_nat (length (hits_of s))) (slice first num R) m).
Proof.
  intros Hc Hs Hf Hn Hm. destruct (max_size_some first num Hf Hn Hm) as (mx & Hmx). destruct (ranking_ex coll Hc true (u_comps s) (hits_of s)) as (R & HR). exists R, (best_score (hits_of s)). splits; [exact HR| |exact (isea_ok coll Hc s first num mx true R Hs Hf Hn Hmx HR)].
  intros R' HR'. apply (ranking_sorted coll Hc true (u_comps s)) in HR, HR'. destruct HR as (H1 & H2), HR' as (H3 & H4). apply (rank_unique hit _ (lts_pre coll Hc true (u_comps s))); auto.
  - apply (asym_docs coll Hc). eapply Permutation_NoDup; [apply Permutation_map; exact H3|apply (hits_docs s Hs)].
  - rewrite <- H3. exact H1.
Qed.
Lemma hits_sorted s : sub_ok s -> StronglySorted Z.lt (map h_doc (hits_of s)).
Proof.
  unfold sub_ok, hits_of. destruct (u_hits s) as [ms|]; [|constructor]. intros ((H1 & _) & _). induction ms as [|h ms IH]; cbn [flat_map map]; [constructor|]. cbn [map] in H1. inversion H1 as [|? ? HS HF]; subst. destruct (keep s h) as [x|] eqn:E; cbn [app map]; [|auto]. constructor; [auto|].
  rewrite (keep_doc _ _ _ E). rewrite Forall_forall in *. intros d Hd. apply in_map_iff in Hd. destruct Hd as (y & <- & Hy). apply in_flat_map in Hy. destruct Hy as (g & Hg & Hy). destruct (keep s g) eqn:Eg; [|destruct Hy]. destruct Hy as [<-|[]]. rewrite (keep_doc _ _ _ Eg). apply HF. apply in_map. exact Hg.
Qed.
Lemma sorted_appz l1 l2 : StronglySorted Z.lt l1 -> StronglySorted Z.lt l2 -> (forall x y, In x l1 -> In y l2 -> x < y) -> StronglySorted Z.lt (l1 ++ l2).
Proof. intros H1 H2 H. induction H1 as [|a l1 HS IH HF]; cbn [app]; [exact H2|]. constructor; [apply IH; intros; apply H; [right|]; assumption|]. rewrite Forall_forall in *. intros x Hx. apply in_app_or in Hx. destruct Hx as [Hx|Hx]; [auto|apply H; [left; reflexivity|exact Hx]]. Qed.
Lemma all_sorted : forall ss start, Forall sub_ok ss -> StronglySorted Z.lt (map h_doc (all_hits start ss)).
Proof.
  induction ss as [|s ss IH]; intros start HF; cbn [all_hits]; [constructor|]. inversion HF as [|? ? Hs HF']; subst. rewrite map_app, map_map. cbn [h_doc]. apply sorted_appz; [|apply IH; exact HF'|].
  - pose proof (hits_sorted s Hs) as H. revert H. generalize (hits_of s). induction l as [|h l IHl]; cbn [map]; intros H; [constructor|]. inversion H as [|? ? HS HFl]; subst. constructor; [auto|]. rewrite Forall_forall in *. intros x Hx. apply in_map_iff in Hx. destruct Hx as (g & <- & Hg). specialize (HFl (h_doc g) (in_map h_doc _ _ Hg)). lia.
  - intros x y Hx Hy. apply in_map_iff in Hx, Hy. destruct Hx as (h & <- & Hh), Hy as (g & <- & Hg). destruct (hits_docs s Hs) as (_ & F1). destruct (all_docs ss (start + u_max s) HF') as (_ & F2 & _). rewrite Forall_forall in F1, F2. specialize (F1 h Hh). specialize (F2 g Hg). lia.
Qed.
Lemma merged_hits ss cs : hits_of (merged ss cs) = all_hits 0 ss.
Proof. unfold hits_of, merged. cbn [u_hits]. unfold keep. cbn [u_bits u_post]. generalize (all_hits 0 ss). induction l as [|h l IH]; cbn [flat_map app]; [reflexivity|rewrite IH; reflexivity]. Qed.
Lemma merged_ok ss cs : Forall sub_ok ss -> total_docs ss <= INT_MAX -> sub_ok (merged ss cs).
Proof.
  intros HF HT. destruct (all_docs ss 0 HF) as (_ & Hr & Ht). unfold sub_ok, merged. cbn [u_hits u_max u_live]. split; [|lia]. splits; [apply all_sorted; exact HF|exact Hr|]. intros E. destruct (all_hits 0 ss); [reflexivity|cbn [length] in E; lia].
Qed.
Lemma multi_search coll ss cs first num sort : coll_ok coll -> Forall sub_ok ss -> whole_keys 0 cs ss -> total_docs ss <= INT_MAX -> 0 <= first -> 1 <= num -> (num = INT_MAX \/ num + first <= INT_MAX) ->
  msea_search_w coll ss (kinds cs) first num sort = isea_search_w coll (merged ss cs) first num sort.
Proof.
  intros Hc HF HW HT Hf Hn Hm. destruct (max_size_some first num Hf Hn Hm) as (mx & Hmx). destruct (ranking_ex coll Hc sort cs (all_hits 0 ss)) as (R & HR).
  rewrite (msea_ok coll Hc ss cs first num mx sort R HF HW HT Hf Hn Hmx HR). rewrite (isea_ok coll Hc (merged ss cs) first num mx sort R (merged_ok ss cs HF HT) Hf Hn Hmx); rewrite merged_hits; [reflexivity|exact HR].
Qed.
