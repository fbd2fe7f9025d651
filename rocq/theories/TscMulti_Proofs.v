From Verif Require Import Util Strcmp Dict_Model Post_Model Post_Spec PQueue_Model PQueue_Spec PQueue_Proofs Multi_Model Mte_Model Mte_Spec Mtde_Model Mtde_Spec Expand_Model Expand_Spec Range_Model Range_Spec Range_Proofs Tsc_Model Tsc_Spec Tsc_Proofs.
From Coq Require Import Sorting.Permutation.
Open Scope Z_scope.

Lemma tdew_pre : preorder (Z * nat) tdew_lt.
Proof. unfold preorder, le, tdew_lt. split; intros; rewrite ?Z.ltb_ge in *; lia. Qed.
Notation PI := (PInv (Z * nat) tdew_lt).
Lemma top_cases capa q m : PI capa q m -> (m = [] /\ pq_top _ q = Some None) \/
  exists x m', pq_top _ q = Some (Some x) /\ Permutation m (x :: m') /\ (forall z, In z m -> fst x <= fst z) /\
    (forall e, exists q', pq_replace_top _ tdew_lt q e = Some q' /\ PI capa q' (e :: m')) /\ exists q', pq_pop _ tdew_lt q = Some (Some x, q') /\ PI capa q' m'.
Proof.
  intros HP. destruct (Nat.eq_dec (pq_size q) 0) as [E0|E0].
  - left. pose proof (pi_size _ _ _ _ _ HP) as E. rewrite E0 in E. destruct m; [|discriminate]. split; [reflexivity|]. unfold pq_top. rewrite E0. reflexivity.
  - right. destruct (pop_ok _ _ tdew_pre capa q m HP ltac:(lia)) as (x & m' & q' & E & Pm & HL & HP'). exists x, m'.
    assert (Ex : nth_error (pq_heap q) 1 = Some (Some x)).
    { unfold pq_pop in E. destruct (Nat.ltb_spec 0 (pq_size q)); [|lia]. destruct (nth_error (pq_heap q) 1) as [r|]; cbn [obind] in E; [|discriminate]. destruct (nth_error (pq_heap q) (pq_size q)); cbn [obind] in E; [|discriminate]. destruct (pq_down _ _ _); cbn [obind] in E; [|discriminate]. apply some_inj in E. injection E as -> _. reflexivity. }
    split; [unfold pq_top; destruct (Nat.ltb_spec 0 (pq_size q)); [exact Ex|lia]|]. split; [exact Pm|]. split.
    { intros z Hz. destruct HL as (_ & HL). specialize (HL z Hz). unfold le, tdew_lt in HL. apply Z.ltb_ge in HL. exact HL. }
    split; [|eauto]. intros e. apply (replace_top_ok _ _ tdew_pre capa q m x m' e HP); [apply elt_some; exact Ex|exact Pm].
Qed.

(* ---------- lists of lists *)
Definition incr (l : list (Z * Z)) : Prop := StronglySorted (fun x y => fst x < fst y) l /\ Forall (fun x => 0 <= fst x) l.
Lemma incr_tl x l : incr (x :: l) -> incr l /\ Forall (fun z => fst x < fst z) l.
Proof. intros (H1 & H2). inversion H1; inversion H2; subst. split; [split; auto|auto]. Qed.
Lemma incr_from d l : incr l -> incr (from d l).
Proof. induction l as [|x l IH]; intros H; [exact H|]. cbn [from]. destruct (fst x <? d); [apply IH; apply incr_tl in H; tauto|exact H]. Qed.
Lemma from_ge d l : incr l -> Forall (fun x => d <= fst x) (from d l).
Proof.
  induction l as [|x l IH]; intros H; [constructor|]. cbn [from]. pose proof (incr_tl _ _ H) as (H1 & H2). destruct (Z.ltb_spec (fst x) d); [auto|]. constructor; [lia|]. eapply Forall_impl; [|exact H2]. cbn. intros. lia.
Qed.
Lemma find_from d t l : incr l -> t <= d -> find (fun x => fst x =? d) (from t l) = find (fun x : Z * Z => fst x =? d) l.
Proof.
  intros Hi Ht. induction l as [|x l IH]; [reflexivity|]. cbn [from]. pose proof (incr_tl _ _ Hi) as (H1 & _). destruct (Z.ltb_spec (fst x) t); [|reflexivity]. rewrite IH by exact H1. cbn [find]. destruct (Z.eqb_spec (fst x) d); [lia|reflexivity].
Qed.
Lemma find_below d t l : incr l -> d < t -> find (fun x => fst x =? d) (from t l) = None.
Proof. intros Hi Hd. pose proof (from_ge t l Hi) as HF. induction HF as [|x m Hx HF IH]; [reflexivity|]. cbn [find]. destruct (Z.eqb_spec (fst x) d); [lia|exact IH]. Qed.
Lemma find_gt d l : Forall (fun z => d < fst z) l -> find (fun x : Z * Z => fst x =? d) l = None.
Proof. induction 1 as [|z t Hz Ht IHt]; [reflexivity|]. cbn [find]. destruct (Z.eqb_spec (fst z) d); [lia|exact IHt]. Qed.
(* lists without the document d and all before it *)
Definition after (d : Z) (l : list (Z * Z)) : list (Z * Z) := from (d + 1) l.
Lemma parts_ext k ls ls' d : Forall2 (fun l l' => find (fun x => fst x =? d) l = find (fun x : Z * Z => fst x =? d) l') ls ls' -> parts k ls d = parts k ls' d.
Proof. intros H. revert k. induction H as [|l l' ls ls' E H IH]; intros k; [reflexivity|]. cbn [parts]. rewrite E, !IH. reflexivity. Qed.
Lemma parts_none k ls d : Forall (fun l => find (fun x : Z * Z => fst x =? d) l = None) ls -> parts k ls d = [].
Proof. intros H. revert k. induction H as [|l ls E H IH]; intros k; [reflexivity|]. cbn [parts]. rewrite E. auto. Qed.
Lemma parts_in k ls d : parts k ls d <> [] <-> exists l x, In l ls /\ In x l /\ fst x = d.
Proof.
  revert k. induction ls as [|l ls IH]; intros k; cbn [parts]; [split; [congruence|intros (l & x & [] & _)]|]. destruct (find _ l) as [x|] eqn:E.
  - split; [|discriminate]. intros _. apply find_some in E. destruct E as (E1 & E2). exists l, x. split; [left; reflexivity|]. split; [exact E1|]. lia.
  - rewrite IH. split; [intros (l' & x & H1 & H2); exists l', x; split; [right|]; assumption|]. intros (l' & x & [<-|H1] & H2 & H3); [|eauto]. exfalso. pose proof (find_none _ _ E x H2) as G. cbn in G. lia.
Qed.
Lemma merge_from ls m t : Forall incr ls -> merge_of ls m -> merge_of (map (from t) ls) (from t m).
Proof.
  intros Hi (Hs & Hm). assert (HP : forall d, parts O (map (from t) ls) d = if d <? t then [] else parts O ls d).
  { intros d. destruct (Z.ltb_spec d t).
    - apply parts_none. apply Forall_forall. intros l Hl. apply in_map_iff in Hl. destruct Hl as (l' & <- & Hl). rewrite Forall_forall in Hi. apply find_below; auto.
    - apply parts_ext. clear Hm. induction Hi; cbn [map]; constructor; auto. apply find_from; auto. }
  split.
  - clear Hm HP. induction Hs as [|x m Hs IH HF]; cbn [from]; [constructor|]. destruct (fst x <? t); [exact IH|]. constructor; auto.
  - intros d c. rewrite HP. assert (HI : In (d, c) (from t m) <-> In (d, c) m /\ t <= d).
    { clear Hm HP. induction Hs as [|x m Hs IH HF]; cbn [from In]; [tauto|]. destruct (Z.ltb_spec (fst x) t).
      - rewrite IH. split; [tauto|]. intros ([E|G] & Hd); [|tauto]. subst x. cbn in *. lia.
      - cbn [In]. split; [|tauto]. intros [E|G]; [subst x; cbn in *; auto|]. split; [auto|]. rewrite Forall_forall in HF. specialize (HF _ G). cbn in HF. lia. }
    rewrite HI, Hm. destruct (Z.ltb_spec d t); [split; [intros ((_ & _) & ?); lia|intros (-> & G); congruence]|]. tauto.
Qed.
Lemma merge_nil ls : merge_of ls [] -> Forall (fun l => l = []) ls.
Proof.
  intros (_ & H). apply Forall_forall. intros l Hl. destruct l as [|x l]; [reflexivity|]. exfalso. destruct (H (fst x) (parts O ls (fst x))) as (_ & G). apply G. split; [reflexivity|]. apply parts_in. exists (x :: l), x. split; [exact Hl|]. split; [left|]; reflexivity.
Qed.
(* the first document of a merge *)
Lemma merge_cons ls d c m : Forall incr ls -> merge_of ls ((d, c) :: m) ->
  c = parts O ls d /\ Forall (fun l => match l with [] => True | x :: _ => d <= fst x end) ls /\ (exists l x t, In l ls /\ l = x :: t /\ fst x = d) /\ merge_of (map (after d) ls) m.
Proof.
  intros Hi HM. pose proof HM as (Hs & Hm). destruct (proj1 (Hm d c) (or_introl eq_refl)) as (Ec & Hc). inversion Hs as [|? ? Hs' HF]; subst.
  assert (HL : Forall (fun l => match l with [] => True | x :: _ => d <= fst x end) ls).
  { apply Forall_forall. intros l Hl. destruct l as [|x l]; [exact Logic.I|]. destruct (proj2 (Hm (fst x) (parts O ls (fst x)))) as [E|G].
    - split; [reflexivity|]. apply parts_in. exists (x :: l), x. split; [exact Hl|]. split; [left|]; reflexivity.
    - injection E as E _. lia.
    - rewrite Forall_forall in HF. specialize (HF _ G). cbn in HF. lia. }
  split; [reflexivity|]. split; [exact HL|]. split.
  - apply parts_in in Hc. destruct Hc as (l & x & H1 & H2 & H3). rewrite Forall_forall in HL, Hi. specialize (HL l H1). specialize (Hi l H1). destruct l as [|x0 l]; [destruct H2|]. exists (x0 :: l), x0, l. split; [exact H1|]. split; [reflexivity|]. destruct H2 as [->|H2]; [exact H3|]. apply incr_tl in Hi. destruct Hi as (_ & Hi). rewrite Forall_forall in Hi. specialize (Hi x H2). lia.
  - assert (Em : m = from (d + 1) ((d, parts O ls d) :: m)).
    { cbn [from fst]. destruct (Z.ltb_spec d (d + 1)); [|lia]. destruct m as [|z m]; [reflexivity|]. cbn [from]. rewrite Forall_forall in HF. specialize (HF z (or_introl eq_refl)). cbn in HF. destruct (Z.ltb_spec (fst z) (d + 1)); [lia|reflexivity]. }
    rewrite Em. apply merge_from; assumption.
Qed.
Lemma parts_upd ls i x t d : Forall incr ls -> nth_error ls i = Some (x :: t) -> fst x = d -> forall k, Permutation (parts k ls d) (((k + i)%nat, snd x) :: parts k (upd ls i t) d).
Proof.
  intros Hi E Ed. revert i E. induction ls as [|l ls IH]; intros [|i] E k; cbn in E; try discriminate.
  - apply some_inj in E. subst l. cbn [upd parts find]. rewrite (proj2 (Z.eqb_eq _ _) Ed). inversion Hi as [|? ? H1 H2]; subst. assert (find (fun z : Z * Z => fst z =? fst x) t = None) as ->.
    { apply incr_tl in H1. destruct H1 as (_ & H1). clear -H1. induction H1 as [|z t Hz H IH]; [reflexivity|]. cbn [find]. destruct (Z.eqb_spec (fst z) (fst x)); [lia|exact IH]. }
    rewrite Nat.add_0_r. apply Permutation_refl.
  - inversion Hi as [|? ? H1 H2]; subst. cbn [upd parts]. replace (k + S i)%nat with (S k + i)%nat by lia. destruct (find _ l) as [z|].
    + eapply perm_trans; [apply perm_skip; apply (IH H2 i E (S k))|apply perm_swap].
    + apply (IH H2 i E (S k)).
Qed.

(* ---------- the scorer *)
Section MTS.
  Variables (i : pidx) (r : prdr) (y : idx) (del : Z -> bool).
  Hypothesis HD : dicts i r y.
  Notation RB := (RB i r y del TDEW_READ).
  Lemma read16 : (1 <= TDEW_READ)%nat. Proof. unfold TDEW_READ. lia. Qed.
  Definition standing (dead : bool) (w : rbuf) (d : Z) (L : list (Z * Z)) : Prop :=
    (exists x l, L = x :: l /\ fst x = d /\ on w x /\ RB w l) \/ (dead = true /\ d = -1 /\ L = [] /\ RB w []).
  Definition inq (dead : bool) (ws : list rbuf) (Ls : list (list (Z * Z))) (m : list (Z * nat)) : Prop :=
    length ws = length Ls /\ Forall incr Ls /\ NoDup (map snd m) /\ (forall d j, In (d, j) m -> exists w L, nth_error ws j = Some w /\ nth_error Ls j = Some L /\ standing dead w d L) /\
    (forall j L, nth_error Ls j = Some L -> ~ In j (map snd m) -> L = []).
  Definition QI (dead : bool) (ws : list rbuf) (Ls : list (list (Z * Z))) (q : pq (Z * nat)) : Prop := exists capa m, PI capa q m /\ inq dead ws Ls m.
  Lemma nth_upd {A} (l : list A) j k v : nth_error (upd l j v) k = if (k =? j)%nat then (match nth_error l j with Some _ => Some v | None => None end) else nth_error l k.
  Proof.
    revert j k. induction l as [|a l IH]; intros [|j] [|k]; cbn; auto; destruct (k =? j)%nat eqn:E; auto; rewrite IH, E; reflexivity.
  Qed.
  Lemma inq_perm dead ws Ls m m' : Permutation m m' -> inq dead ws Ls m -> inq dead ws Ls m'.
  Proof.
    intros P (H1 & H2 & H3 & H4 & H5). split; [exact H1|]. split; [exact H2|]. pose proof (Permutation_map snd P) as P2. split; [eapply Permutation_NoDup; eauto|]. split.
    - intros d j Hj. apply H4. eapply Permutation_in; [apply Permutation_sym; exact P|exact Hj].
    - intros j L HL Hn. apply (H5 j L HL). intros G. apply Hn. eapply Permutation_in; eauto.
  Qed.
  (* the wrapper j moves *)
  Lemma inq_move dead ws Ls d j m w L w' L' : inq dead ws Ls ((d, j) :: m) -> nth_error ws j = Some w -> nth_error Ls j = Some L -> incr L' ->
    (forall d', standing dead w' d' L' -> inq dead (upd ws j w') (upd Ls j L') ((d', j) :: m)) /\ (L' = [] -> inq dead (upd ws j w') (upd Ls j L') m).
  Proof.
    intros (H1 & H2 & H3 & H4 & H5) Hw HL Hi. cbn [map snd] in H3. inversion H3 as [|? ? N1 N2]; subst.
    assert (A : length (upd ws j w') = length (upd Ls j L')) by (rewrite !upd_length; exact H1).
    assert (B : Forall incr (upd Ls j L')) by (apply Mtde_Proofs.Forall_upd1; auto).
    assert (C : forall d0 j0, In (d0, j0) m -> exists w0 L0, nth_error (upd ws j w') j0 = Some w0 /\ nth_error (upd Ls j L') j0 = Some L0 /\ standing dead w0 d0 L0).
    { intros d0 j0 H. assert (j0 <> j) by (intros ->; apply N1; apply (in_map snd) in H; exact H). rewrite !nth_upd. destruct (Nat.eqb_spec j0 j); [contradiction|]. apply H4. right. exact H. }
    split.
    - intros d' Hs. split; [exact A|]. split; [exact B|]. split; [exact H3|]. split.
      + intros d0 j0 [E|H]; [|apply C; exact H]. injection E as <- <-. exists w', L'. rewrite !nth_upd, Nat.eqb_refl, Hw, HL. auto.
      + intros j0 L0 H Hn. rewrite nth_upd in H. cbn [map snd In] in Hn. destruct (Nat.eqb_spec j0 j) as [->|]; [tauto|]. apply (H5 j0 L0 H). cbn [map snd In]. intuition.
    - intros ->. split; [exact A|]. split; [exact B|]. split; [exact N2|]. split; [exact C|]. intros j0 L0 H Hn. rewrite nth_upd in H. destruct (Nat.eqb_spec j0 j) as [->|]; [rewrite HL in H; apply some_inj in H; auto|]. apply (H5 j0 L0 H). cbn [map snd In]. intuition.
  Qed.
  Lemma inq_live dead ws Ls d j m : inq dead ws Ls ((d, j) :: m) -> exists w L, nth_error ws j = Some w /\ nth_error Ls j = Some L /\ standing dead w d L.
  Proof. intros (_ & _ & _ & H & _). apply H. left. reflexivity. Qed.
  Lemma incr_nth Ls j L : Forall incr Ls -> nth_error Ls j = Some L -> incr L.
  Proof. intros H E. rewrite Forall_forall in H. apply H. eapply nth_error_In. exact E. Qed.
  Definition key_in (d : Z) (m : list (Z * nat)) : nat := length (filter (fun x => fst x =? d) m).
  Lemma filter_perm {A} (f : A -> bool) l l' : Permutation l l' -> Permutation (filter f l) (filter f l').
  Proof. intros P. induction P; cbn [filter]; auto; [destruct (f x); auto| |eapply perm_trans; eauto]. destruct (f x), (f y0); auto. apply perm_swap. Qed.
  Lemma filter_len {A} (f : A -> bool) l : (length (filter f l) <= length l)%nat.
  Proof. induction l as [|a l IH]; cbn [filter length]; [lia|]. destruct (f a); cbn [length]; lia. Qed.
  Lemma map_upd {A B} (g : A -> B) l j v : map g (upd l j v) = upd (map g l) j (g v).
  Proof. revert j. induction l as [|a l IH]; intros [|j]; cbn; auto. rewrite IH. reflexivity. Qed.
  Lemma upd_self {A} (l : list A) j v : nth_error l j = Some v -> upd l j v = l.
  Proof. revert j. induction l as [|a l IH]; intros [|j] H; cbn in *; auto; [congruence|rewrite IH; auto]. Qed.

  Lemma collect_ok d : forall fuel ws Ls q sum capa m, PI capa q m -> inq false ws Ls m -> Forall (fun x => d <= fst x) m -> (key_in d m < fuel)%nat ->
    exists ws' q' c, collect r del fuel d ws q sum = Some (ws', q', sum ++ c) /\ Permutation c (parts O Ls d) /\ length ws' = length ws /\ QI false ws' (map (after d) Ls) q'.
  Proof.
    induction fuel as [|fuel IH]; intros ws Ls q sum capa m HP HQ Hd Hf; [lia|]. cbn [collect].
    assert (END : (forall x, In x m -> d < fst x) -> map (after d) Ls = Ls /\ parts O Ls d = []).
    { intros G. pose proof HQ as (_ & Hi & _ & H4 & H5). assert (E : forall L, In L Ls -> after d L = L /\ find (fun x : Z * Z => fst x =? d) L = None).
      { intros L HL. apply In_nth_error in HL. destruct HL as (j & HL). destruct (in_dec Nat.eq_dec j (map snd m)) as [Hj|Hj].
        - apply in_map_iff in Hj. destruct Hj as ((d0 & j0) & Ej & Hj). cbn in Ej. subst j0. specialize (G _ Hj). cbn in G. destruct (H4 d0 j Hj) as (w & L0 & _ & EL & [(x & l & -> & Ex & _)|(? & _)]); [|discriminate]. rewrite HL in EL. apply some_inj in EL. subst L.
          unfold after. cbn [from find]. destruct (Z.ltb_spec (fst x) (d + 1)); [lia|]. split; [reflexivity|]. destruct (Z.eqb_spec (fst x) d); [lia|]. apply (incr_nth Ls j (x :: l)) in Hi; [|exact HL]. apply incr_tl in Hi. destruct Hi as (_ & Hi). apply find_gt. eapply Forall_impl; [|exact Hi]. cbn. intros. lia.
        - rewrite (H5 j L HL Hj). split; reflexivity. }
      split; [|apply parts_none; apply Forall_forall; intros L HL; apply E; exact HL]. rewrite <- (map_id Ls) at 2. apply map_ext_in. intros L HL. apply E. exact HL. }
    destruct (top_cases capa q m HP) as [(-> & E)|((d0 & j) & m' & E & Pm & Hle & Hrep & q2 & Epop & HP2)]; rewrite E; cbn [obind].
    - destruct (END ltac:(intros x [])) as (E1 & E2). exists ws, q, []. rewrite app_nil_r. split; [reflexivity|]. rewrite E1, E2. split; [constructor|]. split; [reflexivity|]. exists capa, []. auto.
    - destruct (Z.eqb_spec d0 d) as [->|Hne].
      + pose proof (inq_perm _ _ _ _ _ Pm HQ) as HQ'. destruct (inq_live _ _ _ _ _ _ HQ') as (w & L & Hw & HL & [(x & l & -> & Ex & (On1 & On2 & _) & HR)|(? & _)]); [|discriminate].
        rewrite Hw. cbn [obind]. destruct (rb_next_ok i r y del TDEW_READ HD read16 w l HR) as (w' & E2 & HN). rewrite E2. cbn [obind fst snd].
        pose proof HQ' as (_ & Hi & _). pose proof (incr_tl _ _ (incr_nth _ _ _ Hi HL)) as (Hil & Hgt). destruct (inq_move false ws Ls d j m' w (x :: l) w' l HQ' Hw HL Hil) as (M1 & M2).
        assert (Hm' : Forall (fun x => d <= fst x) m') by (assert (G : Forall (fun x => d <= fst x) ((d, j) :: m')) by (eapply Permutation_Forall; eauto); inversion G; auto).
        assert (Hk : (key_in d m = S (key_in d m'))%nat) by (unfold key_in; rewrite (Permutation_length (filter_perm _ _ _ Pm)); cbn [filter fst]; rewrite Z.eqb_refl; reflexivity).
        assert (ST : exists q' m2, (if match l with [] => false | _ => true end then pq_replace_top (Z * nat) tdew_lt q (b_doc w', j) else do y0 <- pq_pop (Z * nat) tdew_lt q; Some (snd y0)) = Some q' /\ PI capa q' m2 /\ inq false (upd ws j w') (upd Ls j l) m2 /\ Forall (fun x => d <= fst x) m2 /\ key_in d m2 = key_in d m').
        { destruct l as [|z l].
          - rewrite Epop. cbn [obind snd]. exists q2, m'. split; [reflexivity|]. split; [exact HP2|]. split; [apply M2; reflexivity|]. auto.
          - destruct HN as (Hon & HR'). destruct (Hrep (b_doc w', j)) as (q' & Er & HPr). exists q', ((b_doc w', j) :: m'). split; [exact Er|]. split; [exact HPr|]. pose proof Hon as (Edoc & _). inversion Hgt; subst. split.
            + apply M1. left. exists z, l. rewrite Edoc. auto.
            + split; [constructor; [cbn [fst]; lia|exact Hm']|]. unfold key_in. cbn [filter fst]. destruct (Z.eqb_spec (b_doc w') (fst x)); [lia|reflexivity]. }
        destruct ST as (q' & m2 & Eq & HPq & HQq & Hdq & Hkq). rewrite Eq. cbn [obind]. destruct (IH (upd ws j w') (upd Ls j l) q' (sum ++ [(j, b_freq w)]) capa m2 HPq HQq Hdq ltac:(lia)) as (ws' & q3 & c & Ec & Pc & Hl & HQ3).
        exists ws', q3, ((j, b_freq w) :: c). rewrite Ec. split; [rewrite <- app_assoc; reflexivity|]. split; [|split; [rewrite Hl; apply upd_length|]].
        * eapply perm_trans; [apply perm_skip; exact Pc|]. rewrite On2. apply Permutation_sym. exact (parts_upd Ls j x l d Hi HL Ex O).
        * rewrite map_upd in HQ3. assert (Ea : after d l = after d (x :: l)) by (unfold after; cbn [from]; destruct (Z.ltb_spec (fst x) (d + 1)); [reflexivity|lia]). rewrite Ea in HQ3. rewrite upd_self in HQ3 by (rewrite nth_error_map, HL; reflexivity). exact HQ3.
      + assert (G : forall x, In x m -> d < fst x) by (intros x Hx; specialize (Hle x Hx); cbn in Hle; assert (In (d0, j) m) by (eapply Permutation_in; [apply Permutation_sym; exact Pm|left; reflexivity]); rewrite Forall_forall in Hd; specialize (Hd _ H); cbn in Hd; lia).
        destruct (END G) as (E1 & E2). exists ws, q, []. rewrite app_nil_r. split; [reflexivity|]. rewrite E1, E2. split; [constructor|]. split; [reflexivity|]. exists capa, m. auto.
  Qed.
  (* with a queue *)
  Lemma go_ok ws Ls q doc sum M : QI false ws Ls q -> merge_of Ls M -> exists s', multi_next r del (mkMts ws (Some q) doc sum) = Some (match M with [] => false | _ => true end, s') /\
    match M with [] => True | x :: _ => m_doc s' = fst x /\ Permutation (m_sum s') (snd x) end /\
    exists ws' q' Ls', m_ws s' = ws' /\ m_pq s' = Some q' /\ length ws' = length ws /\ QI false ws' Ls' q' /\ merge_of Ls' (tl M).
  Proof.
    intros (capa & m & HP & HQ) HM. unfold multi_next. cbn [m_pq m_ws obind fst snd m_doc m_sum]. pose proof HQ as (Hlen & Hi & ND & H4 & H5).
    assert (Hlm : (length m <= length ws)%nat).
    { assert (Hs : incl (map snd m) (seq 0 (length ws))). { intros j Hj. apply in_map_iff in Hj. destruct Hj as ((d & j0) & <- & Hj). cbn. apply in_seq. destruct (H4 d j0 Hj) as (w & L & Hw & _). assert (j0 < length ws)%nat by (apply nth_error_Some; congruence). lia. }
      pose proof (NoDup_incl_length ND Hs) as G. rewrite map_length, seq_length in G. exact G. }
    destruct (top_cases capa q m HP) as [(-> & E)|((d0 & j) & m' & E & Pm & Hle & _)]; rewrite E; cbn [obind].
    - assert (M = []) as ->. { destruct M as [|(d & c) M]; [reflexivity|]. destruct (merge_cons Ls d c M Hi HM) as (_ & _ & (L & x & t & HL & -> & _) & _). apply In_nth_error in HL. destruct HL as (j & HL). specialize (H5 j _ HL ltac:(intros [])). discriminate. }
      eexists. split; [reflexivity|]. split; [exact Logic.I|]. exists ws, q, Ls. cbn [m_ws m_pq tl]. split; [reflexivity|]. split; [reflexivity|]. split; [reflexivity|]. split; [exists capa, []; auto|exact HM].
    - pose proof (inq_perm _ _ _ _ _ Pm HQ) as HQ'. destruct (inq_live _ _ _ _ _ _ HQ') as (w & L & Hw & HL & [(x & l & -> & Ex & _)|(? & _)]); [|discriminate].
      destruct M as [|(d & c) M]; [apply merge_nil in HM; rewrite Forall_forall in HM; specialize (HM _ (nth_error_In _ _ HL)); discriminate|]. destruct (merge_cons Ls d c M Hi HM) as (-> & HF & (L2 & x2 & t2 & HL2 & -> & Ex2) & HM').
      assert (d0 = d).
      { rewrite Forall_forall in HF. pose proof (HF _ (nth_error_In _ _ HL)) as G. cbn in G. apply In_nth_error in HL2. destruct HL2 as (j2 & HL2). destruct (in_dec Nat.eq_dec j2 (map snd m)) as [Hj|Hj]; [|specialize (H5 _ _ HL2 Hj); discriminate].
        apply in_map_iff in Hj. destruct Hj as ((d3 & j3) & Ej & Hj). cbn in Ej. subst j3. destruct (H4 d3 j2 Hj) as (w3 & L3 & _ & EL3 & [(x3 & l3 & -> & Ex3 & _)|(? & _)]); [|discriminate]. rewrite HL2 in EL3. apply some_inj in EL3. injection EL3 as <- <-. specialize (Hle _ Hj). cbn in Hle. lia. }
      clear Ex Ex2. subst d0. destruct (collect_ok d (S (length ws)) ws Ls q [] capa m HP HQ) as (ws' & q' & c & Ec & Pc & Hl & HQ2).
      { apply Forall_forall. intros z Hz. exact (Hle z Hz). }
      { unfold key_in. pose proof (filter_len (fun x0 : Z * nat => fst x0 =? d) m). lia. }
      rewrite Ec. cbn [obind fst snd app]. eexists. split; [reflexivity|]. cbn [m_doc m_sum m_ws m_pq fst snd tl]. split; [split; [reflexivity|exact Pc]|]. exists ws', q', (map (after d) Ls). auto 10.
  Qed.

  (* ---------- before the queue is there: the first c wrappers have not been moved yet *)
  Definition part (dead : bool) (c : nat) (ws : list rbuf) (Ls : list (list (Z * Z))) (m : list (Z * nat)) : Prop :=
    length ws = length Ls /\ Forall incr Ls /\ NoDup (map snd m) /\ (forall j, In j (map snd m) -> (c <= j)%nat) /\
    (forall d j, In (d, j) m -> exists w L, nth_error ws j = Some w /\ nth_error Ls j = Some L /\ standing dead w d L) /\
    (forall j L, nth_error Ls j = Some L -> (c <= j)%nat -> ~ In j (map snd m) -> L = []) /\
    (forall j L, nth_error Ls j = Some L -> (j < c)%nat -> exists w, nth_error ws j = Some w /\ RB w L /\ b_doc w = -1).
  Lemma part_end dead ws Ls m : part dead O ws Ls m -> inq dead ws Ls m.
  Proof. intros (H1 & H2 & H3 & _ & H4 & H5 & _). split; [exact H1|]. split; [exact H2|]. split; [exact H3|]. split; [exact H4|]. intros j L HL. apply (H5 j L HL). lia. Qed.
  Lemma part_move dead c ws Ls m L w' L' : part dead (S c) ws Ls m -> nth_error Ls c = Some L -> incr L' ->
    (forall d', standing dead w' d' L' -> part dead c (upd ws c w') (upd Ls c L') ((d', c) :: m)) /\ (L' = [] -> part dead c (upd ws c w') (upd Ls c L') m).
  Proof.
    intros (H1 & H2 & H3 & Hc & H4 & H5 & H6) HL Hi. assert (Hlt : (c < length ws)%nat) by (rewrite H1; apply nth_error_Some; congruence).
    assert (A : length (upd ws c w') = length (upd Ls c L')) by (rewrite !upd_length; exact H1).
    assert (B : Forall incr (upd Ls c L')) by (apply Mtde_Proofs.Forall_upd1; auto).
    assert (N : ~ In c (map snd m)) by (intros G; apply Hc in G; lia).
    assert (C : forall d0 j0, In (d0, j0) m -> exists w0 L0, nth_error (upd ws c w') j0 = Some w0 /\ nth_error (upd Ls c L') j0 = Some L0 /\ standing dead w0 d0 L0).
    { intros d0 j0 H. assert (j0 <> c) by (intros ->; apply N; apply (in_map snd) in H; exact H). rewrite !nth_upd. destruct (Nat.eqb_spec j0 c); [contradiction|]. apply H4. exact H. }
    assert (D : forall j L0, nth_error (upd Ls c L') j = Some L0 -> (j < c)%nat -> exists w0, nth_error (upd ws c w') j = Some w0 /\ RB w0 L0 /\ b_doc w0 = -1).
    { intros j L0 H Hj. rewrite nth_upd in H. rewrite nth_upd. destruct (Nat.eqb_spec j c); [lia|]. apply H6; [exact H|lia]. }
    split.
    - intros d' Hs. split; [exact A|]. split; [exact B|]. split; [constructor; assumption|]. split; [intros j [<-|Hj]; [cbn; lia|apply Hc in Hj; lia]|]. split.
      + intros d0 j0 [E|H]; [|apply C; exact H]. injection E as <- <-. exists w', L'. rewrite !nth_upd, Nat.eqb_refl, HL. destruct (nth_error ws c) eqn:Ew; [|apply nth_error_None in Ew; lia]. auto.
      + split; [|exact D]. intros j0 L0 H Hj Hn. rewrite nth_upd in H. cbn [map snd In] in Hn. destruct (Nat.eqb_spec j0 c) as [->|]; [tauto|]. apply (H5 j0 L0 H); [lia|tauto].
    - intros ->. split; [exact A|]. split; [exact B|]. split; [exact H3|]. split; [intros j Hj; apply Hc in Hj; lia|]. split; [exact C|]. split; [|exact D]. intros j0 L0 H Hj Hn. rewrite nth_upd in H. destruct (Nat.eqb_spec j0 c) as [->|]; [rewrite HL in H; apply some_inj in H; auto|]. apply (H5 j0 L0 H); [lia|exact Hn].
  Qed.
  Lemma start_next_ok capa : forall c ws Ls q m, (c <= length Ls)%nat -> PI capa q m -> part false c ws Ls m -> exists ws' q', start_next r del c ws q = Some (ws', q') /\ length ws' = length ws /\ QI false ws' Ls q'.
  Proof.
    induction c as [|c IH]; intros ws Ls q m Hl HP HQ; cbn [start_next]; [exists ws, q; split; [reflexivity|]; split; [reflexivity|]; exists capa, m; split; [exact HP|apply part_end; exact HQ]|].
    destruct (nth_error Ls c) as [L|] eqn:EL; [|apply nth_error_None in EL; lia]. pose proof HQ as (H1 & H2 & _ & _ & _ & _ & H6). destruct (H6 c L EL ltac:(lia)) as (w & Hw & HR & _). rewrite Hw. cbn [obind].
    destruct (rb_next_ok i r y del TDEW_READ HD read16 w L HR) as (w' & E2 & HN). rewrite E2. cbn [obind fst snd]. pose proof (incr_nth _ _ _ H2 EL) as HiL. destruct (part_move false c ws Ls m L w' L HQ EL HiL) as (M1 & M2). rewrite (upd_self Ls c L EL) in M1, M2.
    destruct L as [|x l].
    - cbn [obind]. destruct (IH (upd ws c w') Ls q m ltac:(lia) HP (M2 eq_refl)) as (ws' & q' & E & El & HQ'). exists ws', q'. rewrite E. split; [reflexivity|]. split; [rewrite El; apply upd_length|exact HQ'].
    - destruct HN as (Hon & HR'). destruct (push_ok _ _ tdew_pre capa q m (b_doc w', c) HP) as (q1 & E1 & HP1). rewrite E1. cbn [obind].
      destruct (IH (upd ws c w') Ls q1 ((b_doc w', c) :: m) ltac:(lia) HP1) as (ws' & q' & E & El & HQ').
      { apply M1. left. exists x, l. split; [reflexivity|]. split; [symmetry; apply Hon|]. auto. }
      exists ws', q'. rewrite E. split; [reflexivity|]. split; [rewrite El; apply upd_length|exact HQ'].
  Qed.
  Lemma start_skip_ok t capa : forall c ws Ls q m, (c <= length Ls)%nat -> PI capa q m -> part true c ws Ls m ->
    exists ws' q', start_skip r del t c ws q = Some (ws', q') /\ length ws' = length ws /\ (pq_size q' = pq_size q + c)%nat /\ QI true ws' (map (from t) (firstn c Ls) ++ skipn c Ls) q'.
  Proof.
    induction c as [|c IH]; intros ws Ls q m Hl HP HQ; cbn [start_skip]; [exists ws, q; split; [reflexivity|]; split; [reflexivity|]; split; [lia|]; exists capa, m; split; [exact HP|apply part_end; exact HQ]|].
    destruct (nth_error Ls c) as [L|] eqn:EL; [|apply nth_error_None in EL; lia]. pose proof HQ as (H1 & H2 & _ & _ & _ & _ & H6). destruct (H6 c L EL ltac:(lia)) as (w & Hw & HR & Hdoc). rewrite Hw. cbn [obind].
    destruct (rb_skip_ok i r y del TDEW_READ HD read16 t w L HR) as (w' & E2 & HN). rewrite E2. cbn [obind fst snd]. pose proof (incr_nth _ _ _ H2 EL) as HiL. destruct (part_move true c ws Ls m L w' (from t L) HQ EL (incr_from t L HiL)) as (M1 & _).
    destruct (push_ok _ _ tdew_pre capa q m (b_doc w', c) HP) as (q1 & E1 & HP1). rewrite E1. cbn [obind].
    destruct (IH (upd ws c w') (upd Ls c (from t L)) q1 ((b_doc w', c) :: m) ltac:(rewrite upd_length; lia) HP1) as (ws' & q' & E & El & Es & HQ').
    { apply M1. destruct (from t L) as [|x l].
      - right. destruct HN as (HN1 & HN2). rewrite HN2, Hdoc. auto.
      - left. destruct HN as (Hon & HR'). exists x, l. split; [reflexivity|]. split; [symmetry; apply Hon|]. auto. }
    exists ws', q'. rewrite E. split; [reflexivity|]. split; [rewrite El; apply upd_length|]. split.
    - rewrite Es. rewrite (pi_size _ _ _ _ _ HP1), (pi_size _ _ _ _ _ HP). cbn [length]. lia.
    - assert (EQ : map (from t) (firstn c (upd Ls c (from t L))) ++ skipn c (upd Ls c (from t L)) = map (from t) (firstn (S c) Ls) ++ skipn (S c) Ls).
      { clear -EL. revert Ls EL. induction c as [|c IH]; intros [|a Ls] EL; cbn in EL; try discriminate; [apply some_inj in EL; subst; reflexivity|]. cbn [upd firstn skipn map app]. f_equal. apply IH. exact EL. }
      rewrite <- EQ. exact HQ'.
  Qed.
  Definition key_lt (t : Z) (m : list (Z * nat)) : nat := length (filter (fun x => fst x <? t) m).
  Lemma adv_loop_ok t : 0 <= t -> forall fuel ws Ls q capa m, PI capa q m -> inq true ws Ls m -> (key_lt t m < fuel)%nat ->
    exists ws' q', adv_loop r del fuel t ws q = Some (ws', q') /\ length ws' = length ws /\ QI false ws' (map (from t) Ls) q'.
  Proof.
    intros Ht. induction fuel as [|fuel IH]; intros ws Ls q capa m HP HQ Hf; [lia|]. cbn [adv_loop].
    assert (END : (forall x, In x m -> t <= fst x) -> map (from t) Ls = Ls /\ inq false ws Ls m).
    { intros G. pose proof HQ as (H1 & Hi & H3 & H4 & H5). split.
      - rewrite <- (map_id Ls) at 2. apply map_ext_in. intros L HL. apply In_nth_error in HL. destruct HL as (j & HL). destruct (in_dec Nat.eq_dec j (map snd m)) as [Hj|Hj].
        + apply in_map_iff in Hj. destruct Hj as ((d0 & j0) & Ej & Hj). cbn in Ej. subst j0. specialize (G _ Hj). cbn in G. destruct (H4 d0 j Hj) as (w & L0 & _ & EL & [(x & l & -> & Ex & _)|(_ & ? & _)]); [|lia]. rewrite HL in EL. apply some_inj in EL. subst L.
          cbn [from]. destruct (Z.ltb_spec (fst x) t); [lia|reflexivity].
        + rewrite (H5 j L HL Hj). reflexivity.
      - split; [exact H1|]. split; [exact Hi|]. split; [exact H3|]. split; [|exact H5]. intros d j Hj. specialize (G _ Hj). cbn in G. destruct (H4 d j Hj) as (w & L & Hw & HL & [Hs|(_ & ? & _)]); [|lia]. exists w, L. split; [exact Hw|]. split; [exact HL|]. left. exact Hs. }
    destruct (top_cases capa q m HP) as [(-> & E)|((d & j) & m' & E & Pm & Hle & Hrep & q2 & Epop & HP2)]; rewrite E; cbn [obind].
    - destruct (END ltac:(intros x [])) as (E1 & E2). exists ws, q. rewrite E1. split; [reflexivity|]. split; [reflexivity|]. exists capa, []. auto.
    - destruct (Z.ltb_spec d t) as [Hlt|Hge].
      + pose proof (inq_perm _ _ _ _ _ Pm HQ) as HQ'. destruct (inq_live _ _ _ _ _ _ HQ') as (w & L & Hw & HL & Hst). rewrite Hw. cbn [obind].
        assert (ST : exists l, RB w l /\ from t l = from t L).
        { destruct Hst as [(x & l & -> & Ex & _ & HR)|(_ & _ & -> & HR)]; [|exists []; auto]. exists l. split; [exact HR|]. cbn [from]. destruct (Z.ltb_spec (fst x) t); [reflexivity|lia]. }
        destruct ST as (l & HR & Efr). destruct (rb_skip_ok i r y del TDEW_READ HD read16 t w l HR) as (w' & E2 & HN). rewrite Efr in E2, HN. rewrite E2. cbn [obind fst snd].
        pose proof HQ' as (_ & Hi & _). pose proof (incr_from t _ (incr_nth _ _ _ Hi HL)) as Hil. destruct (inq_move true ws Ls d j m' w L w' (from t L) HQ' Hw HL Hil) as (M1 & M2).
        assert (Hk : (key_lt t m = S (key_lt t m'))%nat) by (unfold key_lt; rewrite (Permutation_length (filter_perm _ _ _ Pm)); cbn [filter fst]; destruct (Z.ltb_spec d t); [reflexivity|lia]).
        pose proof (from_ge t L (incr_nth _ _ _ Hi HL)) as Hge.
        assert (NX : exists q' m2, (if match from t L with [] => false | _ => true end then pq_replace_top (Z * nat) tdew_lt q (b_doc w', j) else do y0 <- pq_pop (Z * nat) tdew_lt q; Some (snd y0)) = Some q' /\ PI capa q' m2 /\ inq true (upd ws j w') (upd Ls j (from t L)) m2 /\ key_lt t m2 = key_lt t m').
        { destruct (from t L) as [|z l2].
          - rewrite Epop. cbn [obind snd]. exists q2, m'. split; [reflexivity|]. split; [exact HP2|]. split; [apply M2; reflexivity|reflexivity].
          - destruct HN as (Hon & HR'). destruct (Hrep (b_doc w', j)) as (q' & Er & HPr). exists q', ((b_doc w', j) :: m'). split; [exact Er|]. split; [exact HPr|]. pose proof Hon as (Edoc & _). split.
            + apply M1. left. exists z, l2. rewrite Edoc. auto.
            + unfold key_lt. cbn [filter fst]. inversion Hge; subst. destruct (Z.ltb_spec (b_doc w') t); [lia|reflexivity]. }
        destruct NX as (q' & m2 & Eq & HPq & HQq & Hkq). rewrite Eq. cbn [obind]. destruct (IH (upd ws j w') (upd Ls j (from t L)) q' capa m2 HPq HQq ltac:(lia)) as (ws' & q3 & Ec & Hl & HQ3).
        exists ws', q3. rewrite Ec. split; [reflexivity|]. split; [rewrite Hl; apply upd_length|]. rewrite map_upd in HQ3.
        assert (Eff : from t (from t L) = from t L) by (clear; induction L as [|x L IH]; [reflexivity|]; cbn [from]; destruct (fst x <? t) eqn:E; [exact IH|]; cbn [from]; rewrite E; reflexivity).
        rewrite Eff in HQ3. rewrite upd_self in HQ3 by (rewrite nth_error_map, HL; reflexivity). exact HQ3.
      + destruct (END ltac:(intros x Hx; specialize (Hle x Hx); cbn in Hle; lia)) as (E1 & E2). exists ws, q. rewrite E1. split; [reflexivity|]. split; [reflexivity|]. exists capa, m. auto.
  Qed.

  (* ---------- a history *)
  Definition MS (s : mts) (M : list (Z * list (nat * Z))) : Prop := exists Ls, merge_of Ls M /\
    ((m_pq s = None /\ Forall incr Ls /\ Forall2 (fun w L => RB w L /\ b_doc w = -1) (m_ws s) Ls) \/ exists q, m_pq s = Some q /\ QI false (m_ws s) Ls q).
  Lemma fresh_part dead ws Ls : Forall incr Ls -> Forall2 (fun w L => RB w L /\ b_doc w = -1) ws Ls -> part dead (length ws) ws Ls [].
  Proof.
    intros Hi H. assert (El : length ws = length Ls) by (clear -H; induction H; cbn; auto). split; [exact El|]. split; [exact Hi|]. split; [constructor|]. split; [intros j []|]. split; [intros d j []|]. split.
    - intros j L HL Hj _. assert (j < length Ls)%nat by (apply nth_error_Some; congruence). lia.
    - intros j L HL _. clear -H HL. revert j HL. induction H as [|w L0 ws Ls HW H IH]; intros [|j] HL; cbn in HL; try discriminate; [apply some_inj in HL; subst; exists w; split; [reflexivity|exact HW]|apply IH; exact HL].
  Qed.
  Lemma next_step s M : MS s M -> exists z s', multi_next r del s = Some (z, s') /\ res_eq (if z then Some (m_doc s', m_sum s') else None) (fst (s_take M)) /\ MS s' (snd (s_take M)).
  Proof.
    intros (Ls & HM & HS). assert (EX : exists ws q, (match m_pq s with Some q => Some (m_ws s, q) | None => start_next r del (length (m_ws s)) (m_ws s) (pq_new _ (length (m_ws s))) end) = Some (ws, q) /\ length ws = length (m_ws s) /\ QI false ws Ls q).
    { destruct HS as [(E & Hi & HF)|(q & E & HQ)]; rewrite E; [|eauto].
      pose proof (fresh_part false _ _ Hi HF) as HP. apply (start_next_ok (length (m_ws s)) (length (m_ws s)) _ Ls _ []); [|apply new_ok|exact HP]. destruct HP as (El & _). rewrite El. constructor. }
    destruct EX as (ws & q & E & El & HQ). destruct (go_ok ws Ls q (m_doc s) (m_sum s) M HQ HM) as (s' & E2 & HD2 & (ws' & q' & Ls' & W1 & W2 & W3 & W4 & W5)).
    exists (match M with [] => false | _ => true end), s'. split.
    - unfold multi_next in *. cbn [m_pq m_ws obind fst snd m_doc m_sum] in E2. rewrite E. cbn [obind fst snd]. rewrite <- El. exact E2.
    - destruct M as [|x M]; cbn [s_take fst snd res_eq tl] in *; (split; [try exact HD2; exact Logic.I|]); exists Ls'; split; try exact W5; right; exists q'; rewrite W1, W2; auto.
  Qed.
  Lemma qi_weak ws Ls q : QI false ws Ls q -> QI true ws Ls q.
  Proof. intros (capa & m & HP & H1 & H2 & H3 & H4 & H5). exists capa, m. split; [exact HP|]. split; [exact H1|]. split; [exact H2|]. split; [exact H3|]. split; [|exact H5]. intros d j Hj. destruct (H4 d j Hj) as (w & L & A & B & [C|(C & _)]); [|discriminate]. exists w, L. split; [exact A|]. split; [exact B|]. left. exact C. Qed.
  Lemma empty_top dead ws Ls q M : QI dead ws Ls q -> merge_of Ls M -> pq_top _ q = Some None -> M = [].
  Proof.
    intros (capa & m & HP & HQ) HM E. destruct (top_cases capa q m HP) as [(-> & _)|(x & m' & E' & _)]; [|congruence].
    destruct M as [|(d & c) M]; [reflexivity|]. pose proof HQ as (_ & Hi & _ & _ & H5). destruct (merge_cons Ls d c M Hi HM) as (_ & _ & (L & x & t & HL & -> & _) & _). apply In_nth_error in HL. destruct HL as (j & HL). specialize (H5 j _ HL ltac:(intros [])). discriminate.
  Qed.
  Lemma skip_step t s M : 0 <= t -> MS s M -> exists z s', multi_skip r del t s = Some (z, s') /\ res_eq (if z then Some (m_doc s', m_sum s') else None) (fst (s_take (from t M))) /\ MS s' (snd (s_take (from t M))).
  Proof.
    intros Ht (Ls & HM & HS). unfold multi_skip, advance_to.
    assert (EX : exists ws q Ls1, (match m_pq s with Some q => Some (m_ws s, q) | None => start_skip r del t (length (m_ws s)) (m_ws s) (pq_new _ (length (m_ws s))) end) = Some (ws, q) /\ length ws = length (m_ws s) /\ QI true ws Ls1 q /\ map (from t) Ls1 = map (from t) Ls /\ (pq_size q = O -> QI false ws Ls1 q)).
    { destruct HS as [(E & Hi & HF)|(q & E & HQ)]; rewrite E.
      - pose proof (fresh_part true _ _ Hi HF) as HP. pose proof HP as (El & _).
        destruct (start_skip_ok t (length (m_ws s)) (length (m_ws s)) _ Ls _ [] ltac:(rewrite El; constructor) (new_ok _ _ _) HP) as (ws & q & E1 & E2 & E3 & HQ). rewrite El, firstn_all, skipn_all, app_nil_r in HQ. exists ws, q, (map (from t) Ls). rewrite <- El in HQ || idtac. split; [exact E1|]. split; [exact E2|]. split; [exact HQ|]. split.
        + rewrite map_map. apply map_ext. intros L. clear. induction L as [|x L IH]; [reflexivity|]. cbn [from]. destruct (fst x <? t) eqn:E; [exact IH|]. cbn [from]. rewrite E. reflexivity.
        + intros G. rewrite E3 in G. destruct HQ as (capa & m & HPm & HI). exists capa, m. split; [exact HPm|]. assert (m = []) as -> by (pose proof (pi_size _ _ _ _ _ HPm) as G2; destruct m; [reflexivity|cbn in G2; lia]). destruct HI as (A1 & A2 & A3 & A4 & A5). split; [exact A1|]. split; [exact A2|]. split; [exact A3|]. split; [intros d j []|exact A5].
      - exists (m_ws s), q, Ls. split; [reflexivity|]. split; [reflexivity|]. split; [apply qi_weak; exact HQ|]. auto. }
    destruct EX as (ws & q & Ls1 & E & El & HQ & EF & HZ). rewrite E. cbn [obind fst snd].
    assert (HiL : Forall incr Ls) by (destruct HS as [(_ & Hi & _)|(q0 & _ & (? & ? & _ & _ & Hi & _))]; exact Hi).
    pose proof (merge_from Ls M t HiL HM) as HM'.
    destruct (Nat.eqb_spec (pq_size q) O) as [Z0|Z0].
    - cbn [obind fst snd]. assert (T : pq_top _ q = Some None) by (unfold pq_top; rewrite Z0; reflexivity). specialize (HZ Z0). eexists false, _. split; [reflexivity|].
      assert (A : map (from t) Ls1 = Ls1). { rewrite <- (map_id Ls1) at 2. apply map_ext_in. intros L HL. destruct HZ as (capa & m & HP & (_ & _ & _ & _ & A5)). assert (m = []) as -> by (pose proof (pi_size _ _ _ _ _ HP) as G2; destruct m; [reflexivity|cbn in G2; lia]). apply In_nth_error in HL. destruct HL as (j & HL). rewrite (A5 j L HL ltac:(intros [])). reflexivity. }
      rewrite <- EF, A in HM'. rewrite (empty_top false ws Ls1 q _ HZ HM' T). cbn [s_take fst snd res_eq]. split; [exact Logic.I|]. exists Ls1. rewrite (empty_top false ws Ls1 q _ HZ HM' T) in HM'. split; [exact HM'|]. right. exists q. auto.
    - destruct HQ as (capa & m & HP & HQ). assert (Hlm : (length m <= length ws)%nat).
      { pose proof HQ as (_ & _ & ND & H4 & _). assert (Hs : incl (map snd m) (seq 0 (length ws))). { intros j Hj. apply in_map_iff in Hj. destruct Hj as ((d & j0) & <- & Hj). cbn. apply in_seq. destruct (H4 d j0 Hj) as (w & L & Hw & _). assert (j0 < length ws)%nat by (apply nth_error_Some; congruence). lia. }
        pose proof (NoDup_incl_length ND Hs) as G. rewrite map_length, seq_length in G. exact G. }
      destruct (adv_loop_ok t Ht (S (length (m_ws s))) ws Ls1 q capa m HP HQ) as (ws2 & q2 & E2 & El2 & HQ2); [unfold key_lt; pose proof (filter_len (fun x0 : Z * nat => fst x0 <? t) m); lia|].
      rewrite E2. cbn [obind fst snd]. rewrite EF in HQ2. destruct HQ2 as (capa2 & m2 & HP2 & HI2). assert (HQ2 : QI false ws2 (map (from t) Ls) q2) by (exists capa2, m2; auto).
      destruct (top_cases capa2 q2 m2 HP2) as [(_ & T)|(x & m' & T & _)]; rewrite T; cbn [obind fst snd].
      + eexists false, _. split; [reflexivity|]. pose proof (empty_top _ _ _ _ _ HQ2 HM' T) as EM. rewrite EM in HM'. rewrite EM. cbn [s_take fst snd res_eq]. split; [exact Logic.I|]. exists (map (from t) Ls). split; [exact HM'|]. right. exists q2. auto.
      + apply next_step. exists (map (from t) Ls). split; [exact HM'|]. right. exists q2. auto.
  Qed.
  Lemma multi_run_ok : forall os s M, MS s M -> Forall sop_ok os -> exists res, multi_run r del s os = Some res /\ Forall2 res_eq res (s_run M os).
  Proof.
    induction os as [|o os IH]; intros s M HS HO; cbn [multi_run s_run]; [exists []; split; [reflexivity|constructor]|]. inversion HO; subst.
    assert (EX : exists z s', match o with SNext => multi_next r del s | SSkip d => multi_skip r del d s end = Some (z, s') /\ res_eq (if z then Some (m_doc s', m_sum s') else None) (fst (s_step M o)) /\ MS s' (snd (s_step M o))).
    { destruct o as [|d]; [apply next_step; exact HS|apply skip_step; [assumption|exact HS]]. }
    destruct EX as (z & s' & E & HE & HS'). unfold multi_step. rewrite E. cbn [obind fst snd]. destruct (IH s' _ HS' H2) as (res & Er & HF). rewrite Er. cbn [obind]. eexists. split; [reflexivity|]. constructor; assumption.
  Qed.
End MTS.
