From Verif Require Import Util Hash_Model Hash_Spec Hash_Proofs HashSet_Model HashSet_Spec.
From Coq Require Import Sorting.Permutation.
Open Scope nat_scope.

Section HS.
  Variable K : Type.
  Variable hash : K -> Z.
  Variables eqb same : K -> K -> bool.
  Variable by_ptr : bool.
  Hypothesis hash_range : forall k, (0 <= hash k < 2 ^ 64)%Z.
  Hypothesis eqb_refl : forall k, eqb k k = true.
  Hypothesis eqb_sym : forall a b, eqb a b = eqb b a.
  Hypothesis eqb_trans : forall a b c, eqb a b = true -> eqb b c = true -> eqb a c = true.
  Hypothesis eqb_hash : forall a b, eqb a b = true -> hash a = hash b.
  Hypothesis same_eqb : forall a b, same a b = true -> eqb a b = true.
  Hypothesis ptr_hash : by_ptr = true -> forall a b, hash a = hash b -> eqb a b = true.
  Notation HI := (HInv K nat hash eqb same by_ptr).
  Notation es_t := (list (K * nat)).
  Notation heap := (heap K).
  Notation get := (get K).

  Definition hd_id (l : es_t) : option nat := match l with [] => None | e :: _ => Some (snd e) end.
  Definition last_id (l : es_t) : option nat := hd_id (rev l).
  Definition linked (hp : heap) (es : es_t) : Prop :=
    forall l1 k i l2, es = l1 ++ (k, i) :: l2 -> nth_error hp i = Some (Some (mkNode k (hd_id l2) (last_id l1))).
  Record SInv (s : hset K) (es : es_t) : Prop := {
    si_ht : HI (hs_ht s) es;
    si_linked : linked (hs_heap s) es;
    si_nd : NoDup (map snd es);
    si_first : hs_first s = hd_id es;
    si_last : hs_last s = last_id es;
    si_size : hs_size s = length es }.

  Lemma has_key_ok h m k : HI h m -> exists h', h_has_key K nat hash eqb same by_ptr h k = Some (m_status K nat eqb same k m, h') /\ HI h' m.
  Proof. apply op_has_ok; auto. Qed.
  Lemma get_ok h m k : HI h m -> exists h', h_get K nat hash eqb same by_ptr h k = Some (option_map snd (m_find K nat eqb k m), h') /\ HI h' m.
  Proof. apply op_get_ok; auto. Qed.
  Lemma set_ok h m k v : HI h m -> exists st h', h_set K nat hash eqb same by_ptr h k v = Some (st, h') /\ HI h' (m_set K nat eqb k v m).
  Proof. intros H. eexists. apply op_set_ok; auto. Qed.
  Lemma del_ok' h m k : HI h m -> exists b h', h_del K nat hash eqb same by_ptr h k = Some (b, h') /\ HI h' (m_del K nat eqb k m).
  Proof. intros H. eexists. apply op_del_ok; auto. Qed.

  (* members and map entries *)
  Lemma find_map es k : l_find K eqb k (map fst es) = option_map fst (m_find K nat eqb k es).
  Proof.
    unfold l_find, m_find. induction es as [|[x i] es IH]; cbn; auto. destruct (eqb x k); auto.
  Qed.
  Lemma status_map es k : l_status K eqb same k (map fst es) = m_status K nat eqb same k es.
  Proof. unfold l_status, m_status. rewrite find_map. destruct (m_find K nat eqb k es) as [[x i]|]; reflexivity. Qed.
  Lemma del_map es k : l_del K eqb k (map fst es) = map fst (m_del K nat eqb k es).
  Proof. unfold l_del, m_del. induction es as [|[x i] es IH]; cbn; auto. destruct (eqb x k); cbn; rewrite IH; auto. Qed.
  Lemma m_status_none es k : m_status K nat eqb same k es = DoesNotExist <-> m_find K nat eqb k es = None.
  Proof.
    unfold m_status. destruct (m_find K nat eqb k es) as [[x i]|]; [|tauto]. destruct (same x k); split; discriminate.
  Qed.

  Lemma last_id_app l k i : last_id (l ++ [(k, i)]) = Some i.
  Proof. unfold last_id. rewrite rev_app_distr. reflexivity. Qed.
  Lemma last_id_cons e l : l <> [] -> last_id (e :: l) = last_id l.
  Proof.
    intros H. destruct (exists_last H) as (l' & [k i] & ->). change (e :: l' ++ [(k, i)]) with ((e :: l') ++ [(k, i)]).
    rewrite !last_id_app. reflexivity.
  Qed.
  Lemma hd_id_app l l' : l <> [] -> hd_id (l ++ l') = hd_id l.
  Proof. destruct l; [congruence|reflexivity]. Qed.
  Lemma linked_lt hp es k i : linked hp es -> In (k, i) es -> i < length hp.
  Proof.
    intros HL Hin. apply in_split in Hin. destruct Hin as (l1 & l2 & E). specialize (HL _ _ _ _ E).
    apply nth_error_Some. congruence.
  Qed.
  Lemma get_linked hp l1 k i l2 : linked hp (l1 ++ (k, i) :: l2) -> get hp i = Some (mkNode k (hd_id l2) (last_id l1)).
  Proof. intros HL. unfold HashSet_Model.get. rewrite (HL l1 k i l2 eq_refl). reflexivity. Qed.

  Lemma last_id_app2 l l' : l' <> [] -> last_id (l ++ l') = last_id l'.
  Proof. intros H. destruct (exists_last H) as (l'' & [k i] & ->). rewrite app_assoc, !last_id_app. reflexivity. Qed.
  Lemma nd_neq (a b c : es_t) x y : NoDup (map snd (a ++ x :: b ++ y :: c)) -> snd x <> snd y.
  Proof.
    intros H E. rewrite map_app in H. cbn [map] in H. apply NoDup_remove_2 in H. apply H. apply in_or_app. right.
    rewrite map_app. apply in_or_app. right. left. auto.
  Qed.
  Lemma app_cons_split (l1 l2 a : es_t) x b : l1 ++ l2 = a ++ x :: b ->
    (exists a', a = l1 ++ a' /\ l2 = a' ++ x :: b) \/ (exists b', l1 = a ++ x :: b' /\ b = b' ++ l2).
  Proof.
    revert a. induction l1 as [|y l1 IH]; intros a E.
    - left. exists a. auto.
    - destruct a as [|z a].
      + cbn in E. injection E as -> <-. right. exists l1. auto.
      + cbn in E. injection E as <- E. destruct (IH a E) as [(a' & -> & ->)|(b' & -> & ->)].
        * left. exists a'. auto.
        * right. exists b'. auto.
  Qed.

  Lemma append_ok s es e : SInv s es -> m_find K nat eqb e es = None ->
    exists s', append K hash eqb same by_ptr s e = Some s' /\ SInv s' (es ++ [(e, length (hs_heap s))]).
  Proof.
    intros [Hht HL Hnd Hf Hl Hs] Hfind. unfold append. set (n := length (hs_heap s)).
    destruct (set_ok (hs_ht s) es e n Hht) as (st & h' & E & HI').
    unfold m_set in HI'. rewrite Hfind in HI'.
    assert (Hnew : ~ In n (map snd es)).
    { intros Hin. apply in_map_iff in Hin. destruct Hin as ([k i] & E1 & Hin). cbn in E1. subst i.
      pose proof (linked_lt _ _ _ _ HL Hin). lia. }
    assert (Hnd' : NoDup (map snd (es ++ [(e, n)]))).
    { rewrite map_app. cbn. apply (Permutation_NoDup (Permutation_cons_append (map snd es) n)). constructor; auto. }
    destruct es as [|e0 es'] eqn:Ees.
    - cbn in Hf, Hl. rewrite Hf, Hl. cbn [obind]. rewrite E. cbn [obind snd]. eexists. split; [reflexivity|].
      constructor; cbn [hs_ht hs_heap hs_first hs_last hs_size]; auto.
      + intros l1 k i l2 E1. cbn [app] in E1. destruct l1 as [|x l1]; [|destruct l1; discriminate].
        cbn in E1. injection E1 as <- <- <-. rewrite nth_error_app2 by lia. rewrite Nat.sub_diag. reflexivity.
      + cbn in *. lia.
    - assert (Hne : es <> []) by (subst; discriminate). rewrite <- Ees in *. clear Ees e0 es'.
      destruct (exists_last Hne) as (es0 & [kl il] & Ees).
      assert (Hf' : exists f, hs_first s = Some f) by (rewrite Hf; destruct es; [congruence|eexists; reflexivity]).
      destruct Hf' as (f & Hf'). rewrite Hf'. assert (Hl' : hs_last s = Some il) by (rewrite Hl, Ees; apply last_id_app). rewrite Hl'. cbn [obind].
      assert (Hil : il < n) by (subst n; apply (linked_lt _ _ kl il HL); rewrite Ees; apply in_or_app; right; left; auto).
      pose proof (HL es0 kl il [] Ees) as Hnode.
      unfold set_next, HashSet_Model.get. rewrite nth_error_app1 by auto. rewrite Hnode. cbn [obind n_elem n_prev].
      rewrite E. cbn [obind snd]. eexists. split; [reflexivity|].
      constructor; cbn [hs_ht hs_heap hs_first hs_last hs_size]; auto.
      + intros l1 k i l2 E1. apply app_cons_split in E1. destruct E1 as [(a' & E2 & E3)|(b' & E2 & E3)].
        * destruct a' as [|x a']; [|destruct a'; discriminate]. cbn in E3. injection E3 as <- <- <-. rewrite app_nil_r in E2. subst l1.
          rewrite nth_error_upd. fold n. destruct (Nat.eqb_spec il n); [lia|]. rewrite nth_error_app2 by (subst n; lia). subst n. rewrite Nat.sub_diag. cbn. rewrite <- Hl, Hl'. reflexivity.
        * assert (Hi : i < n) by (subst n; apply (linked_lt _ _ k i HL); rewrite E2; apply in_or_app; right; left; auto).
          destruct b' as [|x b'].
          -- rewrite Ees in E2. apply app_inj_tail in E2. destruct E2 as [-> E2]. injection E2 as -> ->. cbn [app] in E3. subst l2.
             rewrite nth_error_upd. rewrite Nat.eqb_refl, app_length. cbn [length].
             destruct (Nat.ltb_spec i (length (hs_heap s) + 1)); [reflexivity|unfold n in *; lia].
          -- assert (Hneq : i <> il).
             { assert (Hnb : x :: b' <> []) by discriminate. destruct (exists_last Hnb) as (b'' & [kl' il'] & Eb). rewrite Eb in E2.
               pose proof E2 as E2'. rewrite Ees in E2. change ((k, i) :: b'' ++ [(kl', il')]) with (((k, i) :: b'') ++ [(kl', il')]) in E2. rewrite app_assoc in E2.
               apply app_inj_tail in E2. destruct E2 as [_ E2]. injection E2 as -> ->.
               rewrite E2' in Hnd. apply (nd_neq l1 b'' [] (k, i) (kl', il')) in Hnd. exact Hnd. }
             rewrite nth_error_upd. destruct (Nat.eqb_spec il i); [congruence|]. rewrite nth_error_app1 by auto.
             rewrite (HL _ _ _ _ E2). rewrite E3. rewrite hd_id_app by discriminate. reflexivity.
      + rewrite <- Hf', Hf. symmetry. apply hd_id_app. auto.
      + symmetry. apply last_id_app.
      + rewrite app_length. cbn. lia.
  Qed.

  Lemma linked_remove hp hp' l1 k i l2 : linked hp (l1 ++ (k, i) :: l2) -> NoDup (map snd (l1 ++ (k, i) :: l2)) ->
    (forall j, last_id l1 <> Some j -> hd_id l2 <> Some j -> j <> i -> nth_error hp' j = nth_error hp j) ->
    (forall l1' k' j, l1 = l1' ++ [(k', j)] -> nth_error hp' j = Some (Some (mkNode k' (hd_id l2) (last_id l1')))) ->
    (forall k' j l2', l2 = (k', j) :: l2' -> nth_error hp' j = Some (Some (mkNode k' (hd_id l2') (last_id l1)))) ->
    linked hp' (l1 ++ l2).
  Proof.
    intros HL Hnd Hother Hlast Hfirst a k' j b E. apply app_cons_split in E. destruct E as [(a' & -> & ->)|(b' & -> & ->)].
    - destruct a' as [|x a'].
      + rewrite app_nil_r. cbn [app] in *. apply Hfirst. reflexivity.
      + rewrite Hother.
        * rewrite (HL (l1 ++ (k, i) :: x :: a') k' j b); [|rewrite <- app_assoc; reflexivity].
          rewrite (last_id_app2 l1 (x :: a')) by discriminate.
          change (l1 ++ (k, i) :: x :: a') with (l1 ++ [(k, i)] ++ (x :: a')). rewrite app_assoc.
          rewrite (last_id_app2 _ (x :: a')) by discriminate. reflexivity.
        * intros E. destruct l1 as [|y l1] using rev_ind; [discriminate|]. destruct y as [ky iy]. rewrite last_id_app in E. injection E as ->.
          clear - Hnd. change ((k, i) :: (x :: a') ++ (k', j) :: b) with (((k, i) :: (x :: a')) ++ (k', j) :: b) in Hnd.
          rewrite <- app_assoc in Hnd. cbn [app] in Hnd.
          apply (nd_neq l1 ((k, i) :: x :: a') b (ky, j) (k', j)) in Hnd. cbn in Hnd. congruence.
        * intros E. cbn in E. injection E as E. cbn [app] in Hnd.
          replace (l1 ++ (k, i) :: x :: a' ++ (k', j) :: b) with ((l1 ++ [(k, i)]) ++ x :: a' ++ (k', j) :: b) in Hnd by (rewrite <- app_assoc; reflexivity).
          apply nd_neq in Hnd. cbn in Hnd. congruence.
        * intros ->. apply (nd_neq l1 (x :: a') b (k, i) (k', i)) in Hnd. cbn in Hnd. congruence.
    - rewrite <- app_assoc in HL, Hnd. cbn [app] in HL, Hnd. destruct b' as [|x b'].
      + cbn [app]. apply Hlast. reflexivity.
      + rewrite Hother.
        * rewrite (HL a k' j ((x :: b') ++ (k, i) :: l2)); reflexivity.
        * intros E. assert (Hnb : x :: b' <> []) by discriminate. destruct (exists_last Hnb) as (b'' & [kl il] & Eb). rewrite Eb in *.
          change (a ++ (k', j) :: b'' ++ [(kl, il)]) with (a ++ ((k', j) :: b'') ++ [(kl, il)]) in E. rewrite app_assoc, last_id_app in E. injection E as ->.
          rewrite <- app_assoc in Hnd. cbn [app] in Hnd. apply nd_neq in Hnd. cbn in Hnd. congruence.
        * intros E. destruct l2 as [|[k2 i2] l2]; [discriminate|]. cbn in E. injection E as ->.
          apply (nd_neq a ((x :: b') ++ [(k, i)]) l2 (k', j) (k2, j)).
          -- rewrite <- app_assoc. exact Hnd.
          -- reflexivity.
        * intros ->. apply (nd_neq a (x :: b') l2 (k', i) (k, i)) in Hnd. cbn in Hnd. congruence.
  Qed.

  Lemma same_ptr_spec a b : same_ptr a b = true <-> a = b.
  Proof.
    destruct a, b; cbn; split; intros H; try discriminate; auto; try congruence.
    - apply Nat.eqb_eq in H. congruence.
    - injection H as ->. apply Nat.eqb_refl.
  Qed.
  Lemma single es : NoDup (map snd es) -> es <> [] -> hd_id es = last_id es -> length es = 1.
  Proof.
    intros Hnd Hne E. destruct es as [|x t]; [congruence|]. destruct t as [|y t] using rev_ind; [reflexivity|]. exfalso.
    destruct y as [ky iy]. change (x :: t ++ [(ky, iy)]) with ((x :: t) ++ [(ky, iy)]) in E. rewrite last_id_app in E. cbn in E. injection E as E.
    apply (nd_neq [] t [] x (ky, iy)) in Hnd. cbn in Hnd. congruence.
  Qed.
  Lemma m_find_split es e k i : m_find K nat eqb e es = Some (k, i) -> eqb k e = true /\ exists l1 l2, es = l1 ++ (k, i) :: l2.
  Proof.
    unfold m_find. intros E. apply find_some in E. destruct E as [H1 H2]. split; auto. apply in_split; auto.
  Qed.
  Lemma nth_error_upd' {A} (l : list A) p v q : nth_error (upd l p v) q = if p =? q then (if p <? length l then Some v else None) else nth_error l q.
  Proof.
    rewrite nth_error_upd. destruct (Nat.eqb_spec p q) as [->|]; cbn [andb]; [|reflexivity].
    destruct (Nat.ltb_spec q (length l)); [reflexivity|]. apply nth_error_None. lia.
  Qed.

  Lemma rem_ok s es e : SInv s es ->
    exists s', hs_rem K hash eqb same by_ptr s e = Some (option_map fst (m_find K nat eqb e es), s') /\ SInv s' (m_del K nat eqb e es).
  Proof.
    intros [Hht HL Hnd Hf Hl Hs]. unfold hs_rem. destruct (get_ok (hs_ht s) es e Hht) as (h1 & E1 & H1). rewrite E1. cbn [obind fst snd].
    pose proof (HInv_dist K nat hash eqb same by_ptr eqb_sym _ _ Hht) as Hdist.
    destruct (m_find K nat eqb e es) as [[k i]|] eqn:Ef; cbn [option_map snd fst].
    2:{ eexists. split; [reflexivity|]. assert (Hd : m_del K nat eqb e es = es).
        { apply mdel_none. intros k' v' Hin. destruct (eqb k' e) eqn:Ee; auto.
          unfold m_find in Ef. pose proof (find_none _ _ Ef _ Hin) as HN. cbn in HN. congruence. }
        rewrite Hd. constructor; cbn; auto. }
    destruct (m_find_split _ _ _ _ Ef) as (He & l1 & l2 & Ees).
    assert (Hdel : m_del K nat eqb e es = l1 ++ l2).
    { rewrite Ees. apply (mdel_filter K nat eqb eqb_sym eqb_trans l1 l2 e k i); auto. rewrite <- Ees; auto. }
    assert (Hdel2 : m_del K nat eqb k es = l1 ++ l2).
    { rewrite Ees. apply (mdel_filter K nat eqb eqb_sym eqb_trans l1 l2 k k i); auto. rewrite <- Ees; auto. }
    rewrite Hdel. destruct (del_ok' h1 es k H1) as (b & h2 & E2 & H2). rewrite Hdel2 in H2.
    assert (Hi : i < length (hs_heap s)) by (apply (linked_lt _ es k i HL); rewrite Ees; apply in_or_app; right; left; auto).
    assert (Hget : get (hs_heap s) i = Some (mkNode k (hd_id l2) (last_id l1))) by (apply get_linked; rewrite <- Ees; exact HL).
    rewrite Hget. cbn [obind n_next n_prev].
    assert (Hlen : hs_size s - 1 = length (l1 ++ l2)) by (rewrite Hs, Ees, !app_length; cbn; lia).
    assert (Hnd' : NoDup (map snd (l1 ++ l2))).
    { rewrite Ees, map_app in Hnd. cbn in Hnd. apply NoDup_remove_1 in Hnd. rewrite map_app. exact Hnd. }
    assert (Hdist1 : forall k' j, In (k', j) (l1 ++ l2) -> j <> i).
    { intros k' j Hin ->. rewrite Ees, map_app in Hnd. cbn in Hnd. apply NoDup_remove_2 in Hnd. apply Hnd. rewrite <- map_app. apply (in_map snd) in Hin. exact Hin. }
    (* reading a neighbour *)
    rewrite Hf, Hl.
    destruct (same_ptr (hd_id es) (last_id es)) eqn:Ecase1.
    { apply same_ptr_spec in Ecase1. apply single in Ecase1; auto; [|rewrite Ees; destruct l1; discriminate].
      rewrite Ees, app_length in Ecase1. cbn in Ecase1. assert (l1 = []) by (destruct l1; [auto|cbn in Ecase1; lia]).
      assert (l2 = []) by (destruct l2; [auto|cbn in Ecase1; lia]). subst l1 l2.
      cbn [obind]. rewrite Hget. cbn [obind n_elem]. rewrite E2. cbn [obind snd]. eexists. split; [reflexivity|].
      constructor; cbn; auto. intros a ? ? ? E. destruct a; discriminate. }
    destruct (same_ptr (hd_id es) (Some i)) eqn:Ecase2.
    { apply same_ptr_spec in Ecase2. assert (l1 = []).
      { destruct l1 as [|x l1]; auto. exfalso. rewrite Ees in Ecase2. cbn in Ecase2. injection Ecase2 as Ex.
        destruct x as [kx ix]. cbn in Ex. apply (Hdist1 kx ix); auto. left; auto. }
      subst l1. cbn [app] in *. destruct l2 as [|[k2 i2] l2].
      { exfalso. rewrite Ees in Ecase1. cbn in Ecase1. rewrite Nat.eqb_refl in Ecase1. discriminate. }
      cbn [hd_id snd obind]. 
      assert (Hget2 : get (hs_heap s) i2 = Some (mkNode k2 (hd_id l2) (Some i))).
      { rewrite (get_linked _ [(k, i)] k2 i2 l2); [reflexivity|]. cbn [app]. rewrite <- Ees. exact HL. }
      assert (Hi2 : i2 < length (hs_heap s)) by (apply (linked_lt _ es k2 i2 HL); rewrite Ees; right; left; auto).
      assert (Hne2 : i2 <> i) by (apply (Hdist1 k2 i2); left; auto).
      unfold set_prev. rewrite Hget2. cbn [obind n_elem n_next].
      unfold HashSet_Model.get at 1. rewrite nth_error_upd'. destruct (Nat.eqb_spec i2 i); [contradiction|].
      unfold HashSet_Model.get in Hget. rewrite Hget. cbn [obind n_elem]. rewrite E2. cbn [obind snd]. eexists. split; [reflexivity|].
      constructor; cbn [hs_ht hs_heap hs_first hs_last hs_size]; auto.
      - apply (linked_remove (hs_heap s) _ [] k i ((k2, i2) :: l2)); cbn [app].
        + rewrite <- Ees. exact HL.
        + rewrite <- Ees. exact Hnd.
        + intros j J1 J2 J3. cbn in J2. rewrite !nth_error_upd'. destruct (Nat.eqb_spec i j); [congruence|]. destruct (Nat.eqb_spec i2 j); [congruence|reflexivity].
        + intros l1' k' j E. destruct l1'; discriminate.
        + intros k' j l2' E. injection E as <- <- <-. rewrite !nth_error_upd'. destruct (Nat.eqb_spec i i2); [congruence|]. rewrite Nat.eqb_refl.
          destruct (Nat.ltb_spec i2 (length (hs_heap s))); [reflexivity|lia].
      - rewrite Ees. apply last_id_cons. discriminate. }
    destruct (same_ptr (last_id es) (Some i)) eqn:Ecase3.
    { apply same_ptr_spec in Ecase3. assert (l2 = []).
      { destruct l2 as [|x l2] using rev_ind; auto. exfalso. clear IHl2. destruct x as [kx ix].
        rewrite Ees in Ecase3. change ((k, i) :: l2 ++ [(kx, ix)]) with (((k, i) :: l2) ++ [(kx, ix)]) in Ecase3. rewrite app_assoc, last_id_app in Ecase3.
        injection Ecase3 as Ex. apply (Hdist1 kx ix); auto. apply in_or_app; right. apply in_or_app; right. left; auto. }
      subst l2. rewrite app_nil_r in *. destruct l1 as [|[k1 i1] l1] using rev_ind.
      { exfalso. rewrite Ees in Ecase2. cbn in Ecase2. rewrite Nat.eqb_refl in Ecase2. discriminate. }
      clear IHl1. rewrite last_id_app. cbn [obind].
      assert (Ees2 : es = l1 ++ (k1, i1) :: [(k, i)]) by (rewrite Ees, <- app_assoc; reflexivity).
      assert (Hget2 : get (hs_heap s) i1 = Some (mkNode k1 (Some i) (last_id l1))).
      { rewrite (get_linked _ l1 k1 i1 [(k, i)]); [reflexivity|]. rewrite <- Ees2. exact HL. }
      assert (Hi2 : i1 < length (hs_heap s)) by (apply (linked_lt _ es k1 i1 HL); rewrite Ees2; apply in_or_app; right; left; auto).
      assert (Hne2 : i1 <> i) by (apply (Hdist1 k1 i1); apply in_or_app; right; left; auto).
      unfold set_next. rewrite Hget2. cbn [obind n_elem n_prev].
      unfold HashSet_Model.get at 1. rewrite nth_error_upd'. destruct (Nat.eqb_spec i1 i); [contradiction|].
      unfold HashSet_Model.get in Hget. rewrite Hget. cbn [obind n_elem]. rewrite E2. cbn [obind snd]. eexists. split; [reflexivity|].
      constructor; cbn [hs_ht hs_heap hs_first hs_last hs_size]; auto.
      - rewrite <- (app_nil_r (l1 ++ [(k1, i1)])). apply (linked_remove (hs_heap s) _ (l1 ++ [(k1, i1)]) k i []).
        + rewrite <- Ees. exact HL.
        + rewrite <- Ees. exact Hnd.
        + intros j J1 J2 J3. rewrite last_id_app in J1. rewrite !nth_error_upd'. destruct (Nat.eqb_spec i j); [congruence|]. destruct (Nat.eqb_spec i1 j); [congruence|reflexivity].
        + intros l1' k' j E. apply app_inj_tail in E. destruct E as [<- E]. injection E as <- <-. rewrite !nth_error_upd'. destruct (Nat.eqb_spec i i1); [congruence|]. rewrite Nat.eqb_refl.
          destruct (Nat.ltb_spec i1 (length (hs_heap s))); [reflexivity|lia].
        + intros k' j l2' E. discriminate.
      - rewrite Ees. apply hd_id_app. destruct l1; discriminate.
      - rewrite last_id_app. reflexivity. }
    (* middle *)
    destruct l1 as [|[k1 i1] l1] using rev_ind.
    { exfalso. rewrite Ees in Ecase2. cbn in Ecase2. rewrite Nat.eqb_refl in Ecase2. discriminate. }
    clear IHl1. destruct l2 as [|[k2 i2] l2].
    { exfalso. rewrite Ees, last_id_app in Ecase3. cbn in Ecase3. rewrite Nat.eqb_refl in Ecase3. discriminate. }
    rewrite last_id_app. cbn [obind hd_id snd].
    assert (Ees1 : es = l1 ++ (k1, i1) :: (k, i) :: (k2, i2) :: l2) by (rewrite Ees, <- app_assoc; reflexivity).
    assert (Ees2 : es = (l1 ++ [(k1, i1); (k, i)]) ++ (k2, i2) :: l2) by (rewrite Ees, <- !app_assoc; reflexivity).
    assert (Hget1 : get (hs_heap s) i1 = Some (mkNode k1 (Some i) (last_id l1))).
    { rewrite (get_linked _ l1 k1 i1 ((k, i) :: (k2, i2) :: l2)); [reflexivity|]. rewrite <- Ees1. exact HL. }
    assert (Hget2 : get (hs_heap s) i2 = Some (mkNode k2 (hd_id l2) (Some i))).
    { rewrite (get_linked _ (l1 ++ [(k1, i1); (k, i)]) k2 i2 l2); [|rewrite <- Ees2; exact HL].
      change [(k1, i1); (k, i)] with ([(k1, i1)] ++ [(k, i)]). rewrite app_assoc, last_id_app. reflexivity. }
    assert (Hi1 : i1 < length (hs_heap s)) by (apply (linked_lt _ es k1 i1 HL); rewrite Ees1; apply in_or_app; right; left; auto).
    assert (Hi2 : i2 < length (hs_heap s)) by (apply (linked_lt _ es k2 i2 HL); rewrite Ees2; apply in_or_app; right; left; auto).
    assert (Hne1 : i1 <> i) by (apply (Hdist1 k1 i1); apply in_or_app; left; apply in_or_app; right; left; auto).
    assert (Hne2 : i2 <> i) by (apply (Hdist1 k2 i2); apply in_or_app; right; left; auto).
    assert (Hne12 : i1 <> i2).
    { rewrite Ees1 in Hnd. apply (nd_neq l1 [(k, i)] l2 (k1, i1) (k2, i2)) in Hnd. exact Hnd. }
    unfold set_next. rewrite Hget1. cbn [obind n_elem n_prev].
    unfold set_prev. unfold HashSet_Model.get at 1. rewrite nth_error_upd'. destruct (Nat.eqb_spec i1 i2); [contradiction|].
    unfold HashSet_Model.get in Hget2. rewrite Hget2. cbn [obind n_elem n_next].
    unfold HashSet_Model.get at 1. rewrite !nth_error_upd'. destruct (Nat.eqb_spec i2 i); [contradiction|]. destruct (Nat.eqb_spec i1 i); [contradiction|].
    unfold HashSet_Model.get in Hget. rewrite Hget. cbn [obind n_elem]. rewrite E2. cbn [obind snd]. eexists. split; [reflexivity|].
    constructor; cbn [hs_ht hs_heap hs_first hs_last hs_size]; auto.
    - apply (linked_remove (hs_heap s) _ (l1 ++ [(k1, i1)]) k i ((k2, i2) :: l2)).
      + rewrite <- Ees. exact HL.
      + rewrite <- Ees. exact Hnd.
      + intros j J1 J2 J3. rewrite last_id_app in J1. cbn in J2. rewrite !nth_error_upd'. destruct (Nat.eqb_spec i j); [congruence|].
        destruct (Nat.eqb_spec i2 j); [congruence|]. destruct (Nat.eqb_spec i1 j); [congruence|reflexivity].
      + intros l1' k' j E. apply app_inj_tail in E. destruct E as [<- E]. injection E as <- <-. rewrite !nth_error_upd'.
        destruct (Nat.eqb_spec i i1); [congruence|]. destruct (Nat.eqb_spec i2 i1); [congruence|]. rewrite Nat.eqb_refl.
        destruct (Nat.ltb_spec i1 (length (hs_heap s))); [reflexivity|lia].
      + intros k' j l2' E. injection E as <- <- <-. rewrite !nth_error_upd', !upd_length.
        destruct (Nat.eqb_spec i i2); [congruence|]. rewrite Nat.eqb_refl. rewrite last_id_app.
        destruct (Nat.ltb_spec i2 (length (hs_heap s))); [reflexivity|lia].
    - rewrite Ees. destruct l1; reflexivity.
    - rewrite Ees. rewrite !last_id_app2 by discriminate. rewrite last_id_cons by discriminate. reflexivity.
  Qed.

  (* ---------- enumeration *)
  Lemma walk_ok hp es : linked hp es -> forall l1 l2 fuel, es = l1 ++ l2 -> length l2 <= fuel ->
    walk K fuel hp (hd_id l2) = Some (map fst l2).
  Proof.
    intros HL l1 l2. revert l1. induction l2 as [|[k i] l2 IH]; intros l1 fuel E Hf.
    - destruct fuel; reflexivity.
    - cbn [length] in Hf. destruct fuel as [|f]; [lia|]. cbn [hd_id snd walk]. rewrite (get_linked hp l1 k i l2) by (rewrite <- E; exact HL).
      cbn [obind n_next n_elem]. rewrite (IH (l1 ++ [(k, i)]) f); [reflexivity|rewrite E, <- app_assoc; reflexivity|lia].
  Qed.
  Lemma ids_bound hp es : linked hp es -> NoDup (map snd es) -> length es <= length hp.
  Proof.
    intros HL Hnd. rewrite <- (map_length snd). rewrite <- (seq_length (length hp) 0). apply NoDup_incl_length; auto.
    intros i Hi. apply in_map_iff in Hi. destruct Hi as ([k j] & <- & Hin). apply in_seq. pose proof (linked_lt _ _ _ _ HL Hin). cbn. lia.
  Qed.
  Lemma elems_ok s es : SInv s es -> hs_elems K s = Some (map fst es).
  Proof.
    intros [Hht HL Hnd Hf Hl Hs]. unfold hs_elems. rewrite Hf. apply (walk_ok _ es HL [] es); auto.
    pose proof (ids_bound _ _ HL Hnd). lia.
  Qed.
  Lemma free_all_ok es : forall l hp0 hp fuel, linked hp0 es -> NoDup (map snd es) -> (exists l1, es = l1 ++ l) ->
    (forall k i, In (k, i) l -> nth_error hp i = nth_error hp0 i) -> length l <= fuel ->
    exists hp', free_all K fuel hp (hd_id l) = Some hp'.
  Proof.
    induction l as [|[k i] l IH]; intros hp0 hp fuel HL Hnd (l1 & E) Heq Hf.
    - exists hp. destruct fuel; reflexivity.
    - cbn [length] in Hf. destruct fuel as [|f]; [lia|]. cbn [hd_id snd free_all].
      unfold HashSet_Model.get. rewrite (Heq k i) by (left; auto). rewrite (HL l1 k i l E). cbn [obind n_next].
      apply (IH hp0); auto; [|intros k' i' Hin|lia].
      + exists (l1 ++ [(k, i)]). rewrite E, <- app_assoc. reflexivity.
      + rewrite nth_error_upd'. destruct (Nat.eqb_spec i i') as [->|]; [|apply (Heq k' i'); right; auto].
        exfalso. rewrite E in Hnd. apply in_split in Hin. destruct Hin as (a & b & ->). apply (nd_neq l1 a b (k, i') (k', i')) in Hnd. cbn in Hnd. congruence.
  Qed.
  Lemma clear_ok s es : SInv s es -> exists s', hs_clear K s = Some s' /\ SInv s' [].
  Proof.
    intros [Hht HL Hnd Hf Hl Hs]. unfold hs_clear. rewrite Hf.
    destruct (free_all_ok es es (hs_heap s) (hs_heap s) (S (length (hs_heap s))) HL Hnd) as (hp' & E); auto.
    - exists []. reflexivity.
    - pose proof (ids_bound _ _ HL Hnd). lia.
    - rewrite E. cbn [obind]. eexists. split; [reflexivity|]. constructor; cbn; auto.
      + eapply op_clear_ok; eauto.
      + intros a ? ? ? E0. destruct a; discriminate.
      + constructor.
  Qed.

  Lemma with_ht_ok s es h : SInv s es -> HI h es -> SInv (with_ht K s h) es.
  Proof. intros [H1 H2 H3 H4 H5 H6] H. constructor; auto. Qed.

  Lemma add_ok s es e : SInv s es -> exists s' es', hs_add K hash eqb same by_ptr s e = Some (l_status K eqb same e (map fst es), s') /\
    SInv s' es' /\ map fst es' = l_add K eqb e (map fst es).
  Proof.
    intros HS. unfold hs_add. destruct (has_key_ok (hs_ht s) es e (si_ht _ _ HS)) as (h1 & E1 & H1). rewrite E1. cbn [obind fst snd].
    rewrite status_map. unfold l_add. rewrite find_map. pose proof (with_ht_ok s es h1 HS H1) as HS1.
    pose proof (m_status_none es e) as HN.
    destruct (m_find K nat eqb e es) as [[k i]|] eqn:Ef; cbn [option_map].
    - destruct (m_status K nat eqb same e es) eqn:Est.
      + destruct HN as [HN _]. specialize (HN eq_refl). discriminate.
      + eexists _, es. split; [reflexivity|]. auto.
      + eexists _, es. split; [reflexivity|]. auto.
    - rewrite (proj2 HN eq_refl). destruct (append_ok _ _ e HS1 Ef) as (s2 & E2 & HS2). rewrite E2. cbn [obind].
      eexists _, _. split; [reflexivity|]. split; [exact HS2|]. rewrite map_app. reflexivity.
  Qed.
  Lemma add_safe_ok s es e : SInv s es -> exists s' es',
    hs_add_safe K hash eqb same by_ptr s e = Some (match l_status K eqb same e (map fst es) with KeyEqual => false | _ => true end, s') /\
    SInv s' es' /\ map fst es' = l_add K eqb e (map fst es).
  Proof.
    intros HS. unfold hs_add_safe. destruct (has_key_ok (hs_ht s) es e (si_ht _ _ HS)) as (h1 & E1 & H1). rewrite E1. cbn [obind fst snd].
    rewrite status_map. unfold l_add. rewrite find_map. pose proof (with_ht_ok s es h1 HS H1) as HS1.
    pose proof (m_status_none es e) as HN.
    destruct (m_find K nat eqb e es) as [[k i]|] eqn:Ef; cbn [option_map].
    - destruct (m_status K nat eqb same e es) eqn:Est.
      + destruct HN as [HN _]. specialize (HN eq_refl). discriminate.
      + eexists _, es. split; [reflexivity|]. auto.
      + eexists _, es. split; [reflexivity|]. auto.
    - rewrite (proj2 HN eq_refl). destruct (append_ok _ _ e HS1 Ef) as (s2 & E2 & HS2). rewrite E2. cbn [obind].
      eexists _, _. split; [reflexivity|]. split; [exact HS2|]. rewrite map_app. reflexivity.
  Qed.
  Lemma add_all_ok : forall l s es, SInv s es -> exists s' es', add_all K hash eqb same by_ptr s l = Some s' /\ SInv s' es' /\
    map fst es' = fold_left (fun l e => l_add K eqb e l) l (map fst es).
  Proof.
    induction l as [|e l IH]; intros s es HS; cbn [add_all fold_left].
    - exists s, es. auto.
    - destruct (add_ok s es e HS) as (s1 & es1 & E1 & HS1 & Em). rewrite E1. cbn [obind snd]. rewrite <- Em. apply IH. exact HS1.
  Qed.
  Lemma hs_new_inv : SInv (hs_new K) [].
  Proof.
    constructor; cbn; auto.
    - apply new_inv; auto.
    - intros a ? ? ? E. destruct a; discriminate.
    - constructor.
  Qed.

  Lemma s_step_ok s es o : SInv s es -> exists s' es', s_step K eqb same hash by_ptr s o = Some (fst (l_step K eqb same (map fst es) o), s') /\
    SInv s' es' /\ map fst es' = snd (l_step K eqb same (map fst es) o).
  Proof.
    intros HS. destruct o as [e|e|e|e|e|e| | | |l2]; cbn [s_step l_step fst snd].
    - destruct (add_ok s es e HS) as (s1 & es1 & E1 & HS1 & Em). rewrite E1. cbn [obind fst snd]. eauto.
    - destruct (add_safe_ok s es e HS) as (s1 & es1 & E1 & HS1 & Em). rewrite E1. cbn [obind fst snd]. eauto.
    - unfold hs_del. destruct (rem_ok s es e HS) as (s1 & E1 & HS1). rewrite E1. cbn [obind fst snd]. rewrite find_map, del_map.
      eexists _, _. split; [|split; [exact HS1|reflexivity]]. destruct (m_find K nat eqb e es); reflexivity.
    - destruct (rem_ok s es e HS) as (s1 & E1 & HS1). rewrite E1. cbn [obind fst snd]. rewrite find_map, del_map.
      eexists _, _. split; [|split; [exact HS1|reflexivity]]. reflexivity.
    - unfold hs_exists. destruct (has_key_ok (hs_ht s) es e (si_ht _ _ HS)) as (h1 & E1 & H1). rewrite E1. cbn [obind fst snd]. rewrite status_map.
      eexists _, es. split; [reflexivity|]. split; auto. apply with_ht_ok; auto.
    - unfold hs_orig. destruct (get_ok (hs_ht s) es e (si_ht _ _ HS)) as (h1 & E1 & H1). rewrite E1. cbn [obind fst snd]. rewrite find_map.
      pose proof (with_ht_ok s es h1 HS H1) as HS1. destruct (m_find K nat eqb e es) as [[k i]|] eqn:Ef; cbn [option_map fst snd].
      + destruct (m_find_split _ _ _ _ Ef) as (He & l1 & l2 & Ees).
        rewrite (get_linked (hs_heap s) l1 k i l2) by (rewrite <- Ees; apply HS). cbn [obind fst snd n_elem]. eauto.
      + cbn [obind fst snd]. eauto.
    - destruct (clear_ok s es HS) as (s1 & E1 & HS1). rewrite E1. cbn [obind]. exists s1, []. auto.
    - exists s, es. split; [|auto]. rewrite (si_size _ _ HS), map_length. reflexivity.
    - rewrite (elems_ok s es HS). cbn [obind]. exists s, es. auto.
    - destruct (add_all_ok l2 _ _ hs_new_inv) as (s1 & es1 & E1 & HS1 & Em1). rewrite E1. cbn [obind]. unfold hs_merge. rewrite (elems_ok s1 es1 HS1). cbn [obind].
      destruct (add_all_ok (map fst es1) s es HS) as (s2 & es2 & E2 & HS2 & Em2). rewrite E2. cbn [obind]. exists s2, es2. split; auto. split; auto.
      rewrite Em2, Em1. reflexivity.
  Qed.
  Lemma s_run_ok ops : forall s es, SInv s es -> exists s' es',
    s_run K eqb same hash by_ptr s ops = Some (fst (l_run K eqb same (map fst es) ops), s') /\ SInv s' es' /\
    map fst es' = snd (l_run K eqb same (map fst es) ops).
  Proof.
    induction ops as [|o ops IH]; intros s es HS; cbn [s_run l_run].
    - exists s, es. auto.
    - destruct (s_step_ok s es o HS) as (s1 & es1 & E1 & HS1 & Em). rewrite E1. cbn [obind snd fst].
      destruct (l_step K eqb same (map fst es) o) as [r l1]. cbn [fst snd] in *. subst l1.
      destruct (IH s1 es1 HS1) as (s2 & es2 & E2 & HS2 & Em2). rewrite E2. cbn [obind fst snd].
      destruct (l_run K eqb same (map fst es1) ops) as [rs l2]. cbn [fst snd] in *. exists s2, es2. auto.
  Qed.
End HS.

Lemma set_is_list (K : Type) (hash : K -> Z) eqb same by_ptr : key_ok hash eqb same by_ptr ->
  forall ops, exists s, s_run K eqb same hash by_ptr (hs_new K) ops = Some (fst (l_run K eqb same [] ops), s) /\
    hs_elems K s = Some (snd (l_run K eqb same [] ops)) /\ hs_size s = length (snd (l_run K eqb same [] ops)).
Proof.
  intros [H1 H2 H3 H4 H5 H6 H7] ops.
  destruct (s_run_ok K hash eqb same by_ptr H1 H2 H3 H4 H5 H6 H7 ops (hs_new K) [] (hs_new_inv K hash eqb same by_ptr H7)) as (s & es & E & HS & Em).
  exists s. cbn [map] in *. split; auto. rewrite <- Em. split.
  - eapply elems_ok; eauto.
  - rewrite map_length. apply HS.
Qed.
Lemma members_distinct (K : Type) (eqb same : K -> K -> bool) : (forall a b, eqb a b = eqb b a) ->
  forall ops, ForallOrdPairs (fun a b => eqb a b = false) (snd (l_run K eqb same [] ops)).
Proof.
  intros Hsym.
  assert (Hadd : forall e l, ForallOrdPairs (fun a b => eqb a b = false) l -> ForallOrdPairs (fun a b => eqb a b = false) (l_add K eqb e l)).
  { intros e l H. unfold l_add, l_find. destruct (find (fun x => eqb x e) l) eqn:Ef; auto.
    induction H as [|x l HA HB IH]; cbn [app].
    - constructor; constructor.
    - cbn in Ef. destruct (eqb x e) eqn:Ex; [discriminate|]. constructor; auto. apply Forall_app. split; auto. }
  assert (Hfold : forall l2 l, ForallOrdPairs (fun a b => eqb a b = false) l ->
    ForallOrdPairs (fun a b => eqb a b = false) (fold_left (fun l e => l_add K eqb e l) l2 l)).
  { induction l2 as [|e l2 IH]; intros l H; cbn [fold_left]; auto. }
  assert (Hdel : forall e l, ForallOrdPairs (fun a b => eqb a b = false) l -> ForallOrdPairs (fun a b => eqb a b = false) (l_del K eqb e l)).
  { intros e l H. unfold l_del. induction H as [|x l HA HB IH]; cbn [filter]; [constructor|].
    destruct (negb (eqb x e)); auto. constructor; auto. rewrite Forall_forall in *. intros y Hy. apply filter_In in Hy. apply HA, Hy. }
  assert (H : forall ops l, ForallOrdPairs (fun a b => eqb a b = false) l -> ForallOrdPairs (fun a b => eqb a b = false) (snd (l_run K eqb same l ops))).
  { induction ops as [|o ops IH]; intros l H; cbn [l_run]; auto.
    assert (H1 : ForallOrdPairs (fun a b => eqb a b = false) (snd (l_step K eqb same l o))).
    { destruct o; cbn [l_step snd]; auto. constructor. }
    destruct (l_step K eqb same l o) as [r l1]. cbn [snd] in H1. specialize (IH l1 H1). destruct (l_run K eqb same l1 ops). exact IH. }
  intros ops. apply H. constructor.
Qed.
