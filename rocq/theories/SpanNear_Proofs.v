From Coq Require Import Sorting.Permutation Sorting.Sorted.
From Verif Require Import Util Ring PQueue_Model Span_Model Span_Spec Span_Proofs.
Open Scope Z_scope.
Notation up := (StronglySorted Z.le).

(* ---------- a SpanNear over clauses of one position each *)
Notation mem := (se * (option key * list key))%type.
Definition ml (m : mem) : list key := here (fst (snd m)) (snd (snd m)).
Definition mdoc (m : mem) : Z := match fst (snd m) with None => -1 | Some x => fst x end.
Definition hk (m : mem) : key := match fst (snd m) with None => (-1, -1) | Some x => x end.
Definition okm (m : mem) : Prop := SB true (match fst (snd m) with None => true | Some _ => false end) (fst m) (fst (snd m)) (snd (snd m)).
Definition placed (D : Z) (m : mem) : Prop := okm m /\ exists x, fst (snd m) = Some x /\ fst x = D.
(* moves left; a clause that has not moved yet counts one more *)
Definition wt (m : mem) : nat := match fst (snd m) with None => S (length (snd (snd m))) | Some _ => length (snd (snd m)) end.
Definition total (ms : list mem) : nat := list_sum (map wt ms).
Lemma total_mid a p b : total (a ++ p :: b) = (total a + wt p + total b)%nat.
Proof. unfold total. rewrite map_app, list_sum_app. cbn [map]. unfold list_sum. cbn [fold_right]. lia. Qed.
Lemma okm_val m : okm m -> exists v, val (fst m) = Some v /\ s_doc v = mdoc m.
Proof. destruct m as (s & cur & l). unfold okm, mdoc. cbn [fst snd]. intros H. destruct (sb_facts _ _ _ _ _ H) as (_ & _ & Hv & _). destruct cur as [x|]; cbn [shows] in Hv; [eexists; split; [exact Hv|reflexivity]|]. destruct (Hv eq_refl) as (v & E & D). eauto. Qed.
Lemma okm_least m y : okm m -> In y (ml m) -> mdoc m <= fst y /\ okk y.
Proof.
  destruct m as (s & cur & l). unfold okm, mdoc, ml. cbn [fst snd]. intros H Hy. destruct (sb_facts _ _ _ _ _ H) as (HK & HO & _ & _). rewrite Forall_forall in HO. pose proof (HO y Hy) as Ho. split; [|exact Ho]. destruct cur as [x|]; cbn [here] in *; [|destruct Ho; lia]. apply KS_inv in HK. destruct Hy as [<-|Hy]; [lia|]. apply kle_doc. apply HK. exact Hy.
Qed.
Lemma placed_val D m : placed D m -> val (fst m) = Some (U (hk m)) /\ fst (hk m) = D /\ okk (hk m) /\ mdoc m = D /\ In (hk m) (ml m) /\ forall y, In y (ml m) -> kle (hk m) y.
Proof.
  destruct m as (s & cur & l). unfold placed, okm, mdoc, hk, ml. cbn [fst snd]. intros (H & x & -> & <-). destruct (sb_facts _ _ _ _ _ H) as (HK & HO & Hv & _). cbn [shows here] in *. apply KS_inv in HK. inversion HO; subst. splits; auto; [left; reflexivity|]. intros y [<-|Hy]; [apply kle_refl|apply HK; exact Hy].
Qed.
(* a move of a clause *)
Lemma okm_move m op : okm m -> match op with None => True | Some d => 0 <= d /\ mdoc m < d end ->
  exists s', ev op (fst m) (nonnil (tgt op (snd (snd m)))) s' /\ forall x t, tgt op (snd (snd m)) = x :: t -> okm (s', (Some x, t)).
Proof.
  destruct m as (s & cur & l). unfold okm, mdoc. cbn [fst snd]. intros H Hop. destruct (sb_facts _ _ _ _ _ H) as (_ & _ & _ & H4). destruct (H4 op) as (s' & E & _ & Hs); [destruct op as [d|]; cbn [allowed]; [destruct cur; splits; tauto|exact I]|]. exists s'. split; [exact E|]. intros x t Ex. apply (sb_weak _ _ _ _ _ (Hs x t Ex)); [auto|discriminate].
Qed.

Section WIN.
  Variables (o : bool) (slop : Z).
  Definition fits (d : Z) (ys : list key) : Prop := exists x, window o slop (map U ys) x /\ s_doc x = d.
  Definition W (d : Z) (ms : list mem) : Prop := exists ys, Forall2 (fun m y => In y (ml m)) ms ys /\ fits d ys.
  Lemma fits_doc d ys y : fits d ys -> In y ys -> fst y = d.
  Proof. intros (x & (H & _) & <-) Hy. rewrite Forall_forall in H. destruct (H (U y) (in_map U _ _ Hy)) as (E & _). exact E. Qed.
  Lemma W_upd d a p p' b : (forall ys1 y ys2, Forall2 (fun m y => In y (ml m)) a ys1 -> In y (ml p) -> Forall2 (fun m y => In y (ml m)) b ys2 -> fits d (ys1 ++ y :: ys2) -> In y (ml p')) ->
    W d (a ++ p :: b) -> W d (a ++ p' :: b).
  Proof.
    intros H (ys & HF & Hf). apply Forall2_app_inv_l in HF. destruct HF as (ys1 & ys2 & H1 & H2 & ->). inversion H2 as [|? y ? ys3 Hy H3]; subst. exists (ys1 ++ y :: ys3). split; [|exact Hf]. apply Forall2_app; [exact H1|]. constructor; [|exact H3]. apply (H ys1 y ys3); auto.
  Qed.
  Lemma W_doc d ms m : Forall okm ms -> W d ms -> In m ms -> mdoc m <= d.
  Proof.
    intros HO (ys & HF & Hf) Hm. apply in_split in Hm. destruct Hm as (a & b & ->). apply Forall2_app_inv_l in HF. destruct HF as (ys1 & ys2 & H1 & H2 & ->). inversion H2 as [|? y ? ys3 Hy H3]; subst. rewrite Forall_forall in HO. destruct (okm_least m y (HO m ltac:(apply in_or_app; right; left; reflexivity)) Hy) as (L & _). rewrite (fits_doc d _ y Hf) in L; [exact L|]. apply in_or_app. right. left. reflexivity.
  Qed.
  Lemma W_none d a p b : ml p = [] -> ~ W d (a ++ p :: b).
  Proof. intros E (ys & HF & _). apply Forall2_app_inv_l in HF. destruct HF as (ys1 & ys2 & H1 & H2 & ->). inversion H2 as [|? y ? ys3 Hy H3]; subst. rewrite E in Hy. destruct Hy. Qed.
  (* what the clauses can become without a match being lost *)
  Definition evo (ms ms' : list mem) : Prop := Forall2 (fun m m' => incl (ml m') (ml m)) ms ms' /\ (total ms' <= total ms)%nat /\ forall d, W d ms -> W d ms'.
  Lemma evo_refl ms : evo ms ms.
  Proof. split; [|split; [lia|auto]]. induction ms; constructor; auto. intros x Hx. exact Hx. Qed.
  Lemma evo_trans a b c : evo a b -> evo b c -> evo a c.
  Proof.
    intros (H1 & H2 & H3) (G1 & G2 & G3). split; [|split; [lia|auto]]. clear - H1 G1. revert c G1. induction H1 as [|x y l l' Hx HF IH]; intros c G1; inversion G1; subst; constructor; auto. intros z Hz. auto.
  Qed.
  Lemma incl_upd a (p p' : mem) b : incl (ml p') (ml p) -> Forall2 (fun m m' : mem => incl (ml m') (ml m)) (a ++ p :: b) (a ++ p' :: b).
  Proof. intros H. apply Forall2_app; [|constructor; [exact H|]]; [induction a|induction b]; constructor; auto; intros x Hx; exact Hx. Qed.
  Lemma map_mid a (p : mem) b : map fst (a ++ p :: b) = map fst a ++ fst p :: map fst b.
  Proof. rewrite map_app. reflexivity. Qed.
  Lemma nth_map_mid a (p : mem) b : nth_error (map fst (a ++ p :: b)) (length a) = Some (fst p).
  Proof. rewrite map_mid, <- (map_length fst a). apply nth_mid. Qed.
  Lemma upd_map_mid a (p : mem) b v : upd (map fst (a ++ p :: b)) (length a) (fst v) = map fst (a ++ v :: b).
  Proof. rewrite !map_mid, <- (map_length fst a). apply upd_mid. Qed.
  Lemma upd_map_mid' a (p : mem) b (s : se) c l : upd (map fst (a ++ p :: b)) (length a) s = map fst (a ++ (s, (c, l)) :: b).
  Proof. exact (upd_map_mid a p b (s, (c, l))). Qed.
  Lemma up_const D (l : list Z) : Forall (eq D) l -> up l.
  Proof. induction 1 as [|x l Hx HF IH]; constructor; auto. subst. rewrite Forall_forall in *. intros y Hy. rewrite (HF y Hy). lia. Qed.

  (* sne_goto_next_doc: in the ring from the clause to move on, documents do not decrease *)
  Lemma goto_ok : forall N a p b prev, (total (a ++ p :: b) <= N)%nat -> Forall okm (a ++ p :: b) -> up (map mdoc (rot a p b)) -> (exists q l, rot a p b = l ++ [q] /\ mdoc q = prev) -> 0 <= prev ->
    (exists c ms' D, Forall (placed D) ms' /\ evo (a ++ p :: b) ms' /\ exists n, forall f g, (n <= f)%nat -> (n <= g)%nat -> goto_loop (run f) g (length a) prev (map fst (a ++ p :: b)) = Some (true, c, map fst ms')) \/
    ((forall d, ~ W d (a ++ p :: b)) /\ exists c l n, forall f g, (n <= f)%nat -> (n <= g)%nat -> goto_loop (run f) g (length a) prev (map fst (a ++ p :: b)) = Some (false, c, l)).
  Proof.
    induction N as [N IH] using lt_wf_ind. intros a p b prev HN HO Hup (q & l & Er & Eq) H0. assert (Hp : okm p) by (rewrite Forall_forall in HO; apply HO, in_or_app; right; left; reflexivity). destruct (okm_val p Hp) as (v & Ev & Dv). destruct (Z.ltb_spec (mdoc p) prev) as [L|L].
    - assert (Hq : In q (a ++ p :: b)) by (apply rot_in; rewrite Er; apply in_or_app; right; left; reflexivity).
      assert (HWd : forall d, W d (a ++ p :: b) -> prev <= d) by (intros d HW; rewrite <- Eq; apply (W_doc d _ q HO HW Hq)).
      destruct (okm_move p (Some prev) Hp (conj H0 L)) as (s' & (n1 & E1) & Hs). cbn [tgt] in *.
      assert (HW : forall p', ml p' = from prev (snd (snd p)) -> forall d, W d (a ++ p :: b) -> W d (a ++ p' :: b)).
      { intros p' Ep' d HW. pose proof (HWd d HW) as Hd. revert HW. apply W_upd. intros ys1 y ys2 _ Hy _ Hf. assert (fst y = d) by (apply (fits_doc d _ y Hf), in_or_app; right; left; reflexivity). rewrite Ep'. unfold from. apply filter_In. split; [|apply Z.leb_le; lia]. unfold ml in Hy. unfold mdoc in L. destruct (fst (snd p)) as [x|]; cbn [here] in Hy; [|exact Hy]. destruct Hy as [<-|Hy]; [lia|exact Hy]. }
      destruct (from prev (snd (snd p))) as [|x t] eqn:Ef.
      + right. split; [intros d HWd0; apply (W_none d a (s', (None, [])) b eq_refl), (HW (s', (None, [])) eq_refl d HWd0)|]. exists (length a), (upd (map fst (a ++ p :: b)) (length a) s'), (S n1). intros f [|g] Hf Hg; [lia|]. cbn [goto_loop]. rewrite nth_map_mid. cbn [obind]. rewrite Ev. cbn [obind]. rewrite Dv. destruct (Z.ltb_spec (mdoc p) prev); [|lia]. rewrite (E1 f) by lia. reflexivity.
      + pose proof (Hs x t eq_refl) as Hm'. set (p' := (s', (Some x, t)) : mem) in *. assert (Ep' : ml p' = x :: t) by reflexivity. destruct (ring_next a p b p') as (a2 & p2 & b2 & E2 & Ei & Er2).
        assert (Hxp : prev <= fst x). { assert (In x (from prev (snd (snd p)))) as Hx by (rewrite Ef; left; reflexivity). unfold from in Hx. apply filter_In in Hx. lia. }
        assert (Hwt : (wt p' < wt p)%nat) by (unfold wt at 1; cbn [fst snd p']; pose proof (filter_len (fun x => prev <=? fst x) (snd (snd p))) as Hle; unfold from in Ef; rewrite Ef in Hle; cbn [length] in Hle; unfold wt; destruct (fst (snd p)); lia). assert (Hinc : incl (ml p') (ml p)). { intros z Hz. rewrite Ep', <- Ef in Hz. unfold from in Hz. apply filter_In in Hz. unfold ml. destruct (fst (snd p)); [right|]; tauto. }
        assert (HO2 : Forall okm (a2 ++ p2 :: b2)). { rewrite <- E2. rewrite Forall_forall in *. intros z Hz. apply in_app_or in Hz. destruct Hz as [Hz|[<-|Hz]]; [apply HO, in_or_app; left; exact Hz|exact Hm'|apply HO, in_or_app; right; right; exact Hz]. }
        assert (Hup2 : up (map mdoc (rot a2 p2 b2))). { rewrite Er2, map_app. unfold rot in Hup. cbn [map] in Hup. apply up_inv in Hup. destruct Hup as (Hup & _). apply up_app; [exact Hup|constructor; constructor|]. intros z w Hz [<-|[]]. unfold mdoc at 1. cbn [fst snd p']. apply (Z.le_trans _ prev); [|exact Hxp].
          assert (HL : forall z, In z (map mdoc (b ++ a)) -> z <= mdoc q). { unfold rot in Er. destruct l as [|l0 l]; [injection Er as _ Er; rewrite Er; intros ? []|]. injection Er as _ Er. rewrite Er in Hup |- *. rewrite map_app in *. apply up_app_inv in Hup. destruct Hup as (_ & _ & Hup). intros z0 Hz0. apply in_app_or in Hz0. destruct Hz0 as [Hz0|[<-|[]]]; [|lia]. apply Hup; [exact Hz0|left; reflexivity]. }
          rewrite <- Eq. apply HL. exact Hz. }
        assert (HV : evo (a ++ p :: b) (a2 ++ p2 :: b2)). { rewrite <- E2. split; [apply incl_upd; exact Hinc|]. split; [rewrite !total_mid; lia|]. apply (HW p' Ep'). }
        destruct (IH (total (a2 ++ p2 :: b2)) ltac:(rewrite <- E2; rewrite !total_mid in *; lia) a2 p2 b2 (fst x) (le_n _) HO2 Hup2 ltac:(exists p', (b ++ a); split; [exact Er2|reflexivity]) ltac:(lia)) as [(c & ms' & D & H1 & H2 & n & En)|(H1 & c & l' & n & En)].
        * left. exists c, ms', D. splits; [exact H1|apply (evo_trans _ _ _ HV H2)|]. exists (S (Nat.max n n1)). intros f [|g] Hf Hg; [lia|]. cbn [goto_loop]. rewrite nth_map_mid. cbn [obind]. rewrite Ev. cbn [obind]. rewrite Dv. destruct (Z.ltb_spec (mdoc p) prev); [|lia]. rewrite (E1 f) by lia. cbn [obind fst snd nonnil]. destruct (okm_val p' Hm') as (v' & Ev' & Dv'). cbn [fst p'] in Ev'. rewrite Ev'. cbn [obind]. rewrite Dv'. unfold ring. rewrite map_length, Ei, (upd_map_mid' a p b s' (Some x) t). fold p'. rewrite E2. apply En; lia.
        * right. split; [intros d HWd0; apply (H1 d); apply HV; exact HWd0|]. exists c, l', (S (Nat.max n n1)). intros f [|g] Hf Hg; [lia|]. cbn [goto_loop]. rewrite nth_map_mid. cbn [obind]. rewrite Ev. cbn [obind]. rewrite Dv. destruct (Z.ltb_spec (mdoc p) prev); [|lia]. rewrite (E1 f) by lia. cbn [obind fst snd nonnil]. destruct (okm_val p' Hm') as (v' & Ev' & Dv'). cbn [fst p'] in Ev'. rewrite Ev'. cbn [obind]. rewrite Dv'. unfold ring. rewrite map_length, Ei, (upd_map_mid' a p b s' (Some x) t). fold p'. rewrite E2. apply En; lia.
    - left. exists (length a), (a ++ p :: b), prev. splits; [|apply evo_refl|exists 1%nat; intros f [|g] Hf Hg; [lia|]; cbn [goto_loop]; rewrite nth_map_mid; cbn [obind]; rewrite Ev; cbn [obind]; rewrite Dv; destruct (Z.ltb_spec (mdoc p) prev); [lia|reflexivity]].
      rewrite Forall_forall in *. intros m Hm. split; [apply HO; exact Hm|]. assert (mdoc m = prev).
      { apply rot_in in Hm. assert (Hall : forall z, In z (rot a p b) -> mdoc p <= mdoc z <= mdoc q). { intros z Hz. split; [unfold rot in Hup, Hz; cbn [map] in Hup; apply up_inv in Hup; destruct Hz as [<-|Hz]; [lia|apply Hup, in_map; exact Hz]|]. rewrite Er in Hup, Hz. rewrite map_app in Hup. apply up_app_inv in Hup. destruct Hup as (_ & _ & Hup). apply in_app_or in Hz. destruct Hz as [Hz|[<-|[]]]; [|lia]. apply Hup; [apply in_map; exact Hz|left; reflexivity]. } specialize (Hall m Hm). lia. }
      unfold mdoc in H. destruct (fst (snd m)) as [x|]; [eauto|lia].
  Qed.
  Lemma goto_next_ok a p b D : Forall okm (a ++ p :: b) -> (forall m, In m (b ++ a) -> mdoc m = D) -> D <= mdoc p -> 0 <= mdoc p ->
    (exists c ms' D', Forall (placed D') ms' /\ evo (a ++ p :: b) ms' /\ exists n, forall f g, (n <= f)%nat -> (n <= g)%nat -> goto_next_doc (run f) g (length a) (map fst (a ++ p :: b)) = Some (true, c, map fst ms')) \/
    ((forall d, ~ W d (a ++ p :: b)) /\ exists c l n, forall f g, (n <= f)%nat -> (n <= g)%nat -> goto_next_doc (run f) g (length a) (map fst (a ++ p :: b)) = Some (false, c, l)).
  Proof.
    intros HO HD HDp H0. destruct (ring_next a p b p) as (a2 & p2 & b2 & E2 & Ei & Er). assert (Hp : okm p) by (rewrite Forall_forall in HO; apply HO, in_or_app; right; left; reflexivity). destruct (okm_val p Hp) as (v & Ev & Dv).
    assert (EQ : forall f g, goto_next_doc (run f) g (length a) (map fst (a ++ p :: b)) = goto_loop (run f) g (length a2) (mdoc p) (map fst (a ++ p :: b))). { intros f g. unfold goto_next_doc, doc_at. rewrite nth_map_mid. cbn [obind]. rewrite Ev. cbn [obind]. unfold ring. rewrite map_length, Ei, Dv. reflexivity. }
    rewrite E2 in *. destruct (goto_ok _ a2 p2 b2 (mdoc p) (le_n _) HO) as [(c & ms' & D' & H1 & H2 & n & En)|(H1 & c & l & n & En)]; auto.
    - rewrite Er, map_app. apply up_app; [apply (up_const D); apply Forall_forall; intros z Hz; apply in_map_iff in Hz; destruct Hz as (m & <- & Hm); symmetry; apply HD; exact Hm|constructor; constructor|]. intros z w Hz [<-|[]]. apply in_map_iff in Hz. destruct Hz as (m & <- & Hm). rewrite (HD m Hm). exact HDp.
    - exists p, (b ++ a). auto.
    - left. exists c, ms', D'. splits; auto. exists n. intros f g Hf Hg. rewrite EQ. apply En; lia.
    - right. split; [exact H1|]. exists c, l, n. intros f g Hf Hg. rewrite EQ. apply En; lia.
  Qed.

  (* a clause moves on from an occurrence that is in no match any more, for the documents in P *)
  Lemma step_ok (P : Z -> Prop) a p b D : Forall (placed D) (a ++ p :: b) ->
    (forall d ys1 y ys2, P d -> Forall2 (fun m y => In y (ml m)) a ys1 -> Forall2 (fun m y => In y (ml m)) b ys2 -> In y (ml p) -> fits d (ys1 ++ y :: ys2) -> y <> hk p) ->
    exists s', (ev None (fst p) false s' /\ forall d, P d -> ~ W d (a ++ p :: b)) \/
      exists x t, let p' := (s', (Some x, t)) : mem in ev None (fst p) true s' /\ Forall okm (a ++ p' :: b) /\ D <= fst x /\ (total (a ++ p' :: b) < total (a ++ p :: b))%nat /\ Forall2 (fun m m' => incl (ml m') (ml m)) (a ++ p :: b) (a ++ p' :: b) /\
        forall d, P d -> W d (a ++ p :: b) -> W d (a ++ p' :: b).
  Proof.
    intros HP Hy. assert (Hp : placed D p) by (rewrite Forall_forall in HP; apply HP, in_or_app; right; left; reflexivity). destruct (okm_move p None (proj1 Hp) I) as (s' & E1 & Hs). cbn [tgt] in *. destruct (placed_val D p Hp) as (_ & HD & _ & _ & _ & Hle). exists s'.
    assert (HW : forall p', ml p' = snd (snd p) -> forall d, P d -> W d (a ++ p :: b) -> W d (a ++ p' :: b)).
    { intros p' Ep d Pd. apply W_upd. intros ys1 y ys2 H1 H2 H3 H4. rewrite Ep. specialize (Hy d ys1 y ys2 Pd H1 H3 H2 H4). unfold ml in H2. unfold hk in Hy. destruct (fst (snd p)) as [x|]; cbn [here] in H2; [destruct H2 as [<-|H2]; [congruence|exact H2]|exact H2]. }
    destruct (snd (snd p)) as [|x t] eqn:Ep.
    - left. split; [exact E1|]. intros d Pd H. apply (W_none d a (s', (None, [])) b eq_refl). apply (HW (s', (None, [])) eq_refl d Pd H).
    - right. exists x, t. cbn zeta. splits; auto.
      + rewrite Forall_forall in *. intros z Hz. apply in_app_or in Hz. destruct Hz as [Hz|[<-|Hz]]; [apply HP, in_or_app; left; exact Hz|apply Hs; reflexivity|apply HP, in_or_app; right; right; exact Hz].
      + rewrite <- HD. apply kle_doc, Hle. unfold ml. rewrite Ep. destruct (fst (snd p)); cbn [here]; [right|]; left; reflexivity.
      + rewrite !total_mid. unfold wt at 1 2. cbn [fst snd]. rewrite Ep. destruct (fst (snd p)); cbn [length]; lia.
      + apply incl_upd. intros z Hz. unfold ml in Hz |- *. cbn [fst snd here] in Hz. rewrite Ep. destruct (fst (snd p)); [right|]; exact Hz.
  Qed.
  Lemma placed_others D a p b : Forall (placed D) (a ++ p :: b) -> forall m, In m (b ++ a) -> mdoc m = D.
  Proof. intros HP m Hm. rewrite Forall_forall in HP. destruct (placed_val D m) as (_ & _ & _ & E & _); [|exact E]. apply HP. apply in_app_or in Hm. apply in_or_app. destruct Hm; [right; right|left]; assumption. Qed.
  Lemma placed_upd D a p b s x t : Forall (placed D) (a ++ p :: b) -> Forall okm (a ++ (s, (Some x, t)) :: b) -> fst x = D -> Forall (placed D) (a ++ (s, (Some x, t)) :: b).
  Proof. intros HP HO Hx. rewrite Forall_forall in *. intros m Hm. pose proof (HO m Hm) as Hm'. apply in_app_or in Hm. destruct Hm as [Hm|[<-|Hm]]; [apply HP, in_or_app; left; exact Hm|split; [exact Hm'|exists x; auto]|apply HP, in_or_app; right; right; exact Hm]. Qed.

  (* what a search for the next match from the clauses ms comes to *)
  Definition found (P : Z -> Prop) (ms : list mem) (res : nat -> nat -> option (bool * se)) : Prop :=
    (exists c ms' D v, Forall (placed D) ms' /\ Forall2 (fun m m' => incl (ml m') (ml m)) ms ms' /\ (total ms' <= total ms)%nat /\ (forall d, P d -> W d ms -> W d ms') /\ (c < length ms')%nat /\ window o slop (map U (map hk ms')) v /\ s_doc v = D /\
       exists n, forall f g, (n <= f)%nat -> (n <= g)%nat -> res f g = Some (true, SNear o slop c D (s_st v) (s_en v) (map fst ms'))) \/
    ((forall d, P d -> ~ W d ms) /\ exists s' n, forall f g, (n <= f)%nat -> (n <= g)%nat -> res f g = Some (false, s')).
  Lemma incl_trans2 (a b c : list mem) : Forall2 (fun m m' => incl (ml m') (ml m)) a b -> Forall2 (fun m m' => incl (ml m') (ml m)) b c -> Forall2 (fun m m' => incl (ml m') (ml m)) a c.
  Proof. intros H1. revert c. induction H1 as [|x y l l' Hx HF IH]; intros c G1; inversion G1; subst; constructor; auto. intros z Hz. auto. Qed.
  Lemma found_via (P : Z -> Prop) ms ms1 res res1 : Forall2 (fun m m' => incl (ml m') (ml m)) ms ms1 -> (total ms1 <= total ms)%nat -> (forall d, P d -> W d ms -> W d ms1) -> found P ms1 res1 ->
    (exists n, forall f g, (n <= f)%nat -> (n <= g)%nat -> res f (S g) = res1 f g) -> found P ms res.
  Proof.
    intros H1 H2 H3 [(c & ms' & D & v & G1 & G2 & G3 & G4 & G5 & G6 & G7 & n1 & G8)|(G1 & s' & n1 & G2)] (n & En).
    - left. exists c, ms', D, v. splits; auto; [apply (incl_trans2 _ _ _ H1 G2)|lia|]. exists (S (Nat.max n n1)). intros f [|g] Hf Hg; [lia|]. rewrite En by lia. apply G8; lia.
    - right. split; [intros d Pd HW; apply (G1 d Pd); auto|]. exists s', (S (Nat.max n n1)). intros f [|g] Hf Hg; [lia|]. rewrite En by lia. apply G2; lia.
  Qed.
  Lemma found_weak (P Q : Z -> Prop) ms res : (forall d, Q d -> P d) -> found P ms res -> found Q ms res.
  Proof. intros H [(c & ms' & D & v & G1 & G2 & G3 & G4 & G5 & G6 & G7 & G8)|(G1 & G2)]; [left; exists c, ms', D, v; splits; auto|right; split; auto]. Qed.

  (* ---------- sne_next_unordered_match *)
  Lemma scan_ok D : forall ms i mx mn at_ sum, Forall (placed D) ms -> exists mx' mn' at', unord_scan i (map fst ms) mx mn at_ sum = Some (mx', mn', at', sum + Z.of_nat (length ms)) /\
    mx <= mx' /\ mn' <= mn /\ (forall m, In m ms -> mn' <= snd (hk m) /\ snd (hk m) + 1 <= mx') /\ (mx' = mx \/ exists m, In m ms /\ mx' = snd (hk m) + 1) /\
    (mn' = mn /\ at' = at_ \/ exists a m b, ms = a ++ m :: b /\ mn' = snd (hk m) /\ at' = Some (i + length a)%nat).
  Proof.
    induction ms as [|m ms IH]; intros i mx mn at_ sum HP.
    - exists mx, mn, at_. cbn [map unord_scan length]. splits; [do 2 f_equal; lia|lia|lia|intros m []|left; reflexivity|left; auto].
    - inversion HP as [|? ? Hm HP']; subst. destruct (placed_val D m Hm) as (Ev & _). cbn [map unord_scan]. rewrite Ev. cbn [obind U s_st s_en].
      destruct (IH (S i) (if mx <? snd (hk m) + 1 then snd (hk m) + 1 else mx) (if snd (hk m) <? mn then snd (hk m) else mn) (if snd (hk m) <? mn then Some i else at_) (sum + (snd (hk m) + 1 - snd (hk m))) HP') as (mx' & mn' & at' & E & H1 & H2 & H3 & H4 & H5).
      exists mx', mn', at'. splits.
      + rewrite E. do 2 f_equal. cbn [length]. lia.
      + destruct (Z.ltb_spec mx (snd (hk m) + 1)); lia.
      + destruct (Z.ltb_spec (snd (hk m)) mn); lia.
      + intros z [<-|Hz]; [|apply H3; exact Hz]. destruct (Z.ltb_spec mx (snd (hk m) + 1)), (Z.ltb_spec (snd (hk m)) mn); lia.
      + destruct H4 as [H4|(z & Hz & H4)]; [|right; exists z; split; [right|]; auto]. destruct (Z.ltb_spec mx (snd (hk m) + 1)); [right; exists m; split; [left; reflexivity|exact H4]|left; exact H4].
      + destruct H5 as [(H5 & H6)|(a & z & b & -> & H5 & H6)].
        * destruct (Z.ltb_spec (snd (hk m)) mn); [right; exists [], m, ms; splits; auto; rewrite H6; f_equal; cbn [length]; lia|left; auto].
        * right. exists (m :: a), z, b. splits; auto. rewrite H6. f_equal. cbn [length]. lia.
  Qed.
  Lemma lengths_U ys : lengths (map U ys) = Z.of_nat (length ys).
  Proof. unfold lengths. induction ys as [|y ys IH]; cbn [map fold_right length]; [reflexivity|]. rewrite IH. unfold len, U. cbn [s_en s_st]. lia. Qed.
  Lemma Forall2_mid {A B} (R : A -> B -> Prop) a p b ys1 y ys2 : Forall2 R a ys1 -> R p y -> Forall2 R b ys2 -> Forall2 R (a ++ p :: b) (ys1 ++ y :: ys2).
  Proof. intros. apply Forall2_app; [assumption|constructor; assumption]. Qed.
  Lemma Forall2_in {A B} (R : A -> B -> Prop) l l' x : Forall2 R l l' -> In x l -> exists y, In y l' /\ R x y.
  Proof. induction 1 as [|a b l l' Hab HF IH]; intros Hx; [destruct Hx|]. destruct Hx as [<-|Hx]; [exists b; split; [left|]; auto|]. destruct (IH Hx) as (y & Hy & HR). exists y. split; [right|]; auto. Qed.
  Lemma Forall2_len {A B} (R : A -> B -> Prop) l l' : Forall2 R l l' -> length l = length l'.
  Proof. induction 1; cbn [length]; lia. Qed.
  Lemma unord_ok doc st en : o = false -> forall N ms cur D, (total ms <= N)%nat -> Forall (placed D) ms -> ms <> [] -> found (fun _ => True) ms (fun f g => unordered (run f) g slop (map fst ms) cur doc st en).
  Proof.
    intros Eo. induction N as [N IH] using lt_wf_ind. intros ms cur D HN HP Hne. destruct (scan_ok D ms 0 0 INT_MAX None 0 HP) as (mx & mn & at_ & Es & H1 & H2 & H3 & H4 & H5).
    assert (HD : forall m, In m ms -> val (fst m) = Some (U (hk m)) /\ fst (hk m) = D /\ okk (hk m)) by (intros m Hm; rewrite Forall_forall in HP; destruct (placed_val D m (HP m Hm)) as (K1 & K2 & K3 & _); auto).
    assert (G : exists a p b, ms = a ++ p :: b /\ mn = snd (hk p) /\ at_ = Some (length a)).
    { destruct H5 as [(E & _)|(a & m & b & E1 & E2 & E3)]; [|exists a, m, b; auto]. destruct ms as [|m ms]; [congruence|]. destruct (H3 m (or_introl eq_refl)) as (L & _). destruct (HD m (or_introl eq_refl)) as (_ & _ & (_ & Hr)). lia. }
    destruct G as (a & p & b & -> & Emn & ->). assert (Hp : In p (a ++ p :: b)) by (apply in_or_app; right; left; reflexivity). destruct (HD p Hp) as (Ev & Dp & Op).
    assert (Emx : exists m, In m (a ++ p :: b) /\ mx = snd (hk m) + 1). { destruct H4 as [->|H4]; [|exact H4]. destruct (H3 p Hp) as (_ & L). destruct Op as (_ & Op). lia. }
    cbn [Z.add] in Es. destruct (Z.leb_spec (mx - mn - Z.of_nat (length (a ++ p :: b))) slop) as [L|L].
    - left. exists (length a), (a ++ p :: b), D, (mkSp D mn mx). splits; auto; [clear; induction (a ++ p :: b); constructor; auto; intros x Hx; exact Hx|rewrite app_length; cbn [length]; lia| |].
      + split; [|split; [rewrite lengths_U, map_length; exact L|congruence]]. rewrite map_map. apply Forall_forall. intros y Hy. apply in_map_iff in Hy. destruct Hy as (m & <- & Hm). cbn [U s_doc s_st s_en]. destruct (HD m Hm) as (_ & E & _). destruct (H3 m Hm). auto.
      + exists 1%nat. intros f [|g] Hf Hg; [lia|]. cbn [unordered]. rewrite Es. cbn [obind]. rewrite nth_map_mid. cbn [obind]. rewrite Ev. cbn [obind]. destruct (Z.leb_spec (mx - mn - Z.of_nat (length (a ++ p :: b))) slop); [|lia]. cbn [U s_doc s_st s_en]. rewrite Dp. rewrite Eo. reflexivity.
    - destruct (step_ok (fun _ => True) a p b D HP) as (s' & [((n1 & E1) & HW)|(x & t & (n1 & E1) & HO & Hx & Ht & Hi & HW)]).
      { intros d ys1 y ys2 _ K1 K2 K3 (w & (F1 & F2 & _) & Dw) Ey. subst y. pose proof (Forall2_mid (fun m y => In y (ml m)) a p b ys1 (hk p) ys2 K1 K3 K2) as HF. rewrite Forall_forall in F1. rewrite lengths_U, <- (Forall2_len _ _ _ HF) in F2.
        assert (Ed : d = D). { destruct (F1 (U (hk p))) as (E & _); [apply in_map, in_or_app; right; left; reflexivity|]. cbn [U s_doc] in E. lia. } subst d.
        destruct Emx as (q & Hq & Eq). destruct (Forall2_in _ _ _ q HF Hq) as (z & Hz & Hzq). destruct (F1 (U z) (in_map U _ _ Hz)) as (Dz & _ & Lz). cbn [U s_doc s_st s_en] in *. rewrite Forall_forall in HP. destruct (placed_val D q (HP q Hq)) as (_ & Dq & _ & _ & _ & Hmin). specialize (Hmin z Hzq). destruct (F1 (U (hk p))) as (_ & Lp & _); [apply in_map, in_or_app; right; left; reflexivity|]. cbn [U s_st] in Lp. unfold kle in Hmin. lia. }
      + right. split; [intros d _; apply HW; exact I|]. exists (SNear false slop (length a) doc st en (upd (map fst (a ++ p :: b)) (length a) s')), (S n1). intros f [|g] Hf Hg; [lia|]. cbn [unordered]. rewrite Es. cbn [obind]. rewrite nth_map_mid. cbn [obind]. rewrite Ev. cbn [obind]. destruct (Z.leb_spec (mx - mn - Z.of_nat (length (a ++ p :: b))) slop); [lia|]. rewrite (E1 f) by lia. reflexivity.
      + set (p' := (s', (Some x, t)) : mem) in *. assert (Hv' : val s' = Some (U x)). { rewrite Forall_forall in HO. pose proof (HO p' ltac:(apply in_or_app; right; left; reflexivity)) as Hp'. destruct (placed_val (fst x) p') as (E & _); [split; [exact Hp'|exists x; auto]|exact E]. }
        assert (STEP : forall f g, (n1 <= f)%nat -> unordered (run f) (S g) slop (map fst (a ++ p :: b)) cur doc st en = if D <? fst x then do g0 <- goto_next_doc (run f) g (length a) (map fst (a ++ p' :: b)); let '(b0, c, l) := g0 in if b0 then unordered (run f) g slop l c doc st en else Some (false, SNear false slop c doc st en l) else unordered (run f) g slop (map fst (a ++ p' :: b)) (length a) doc st en).
        { intros f g Hf. cbn [unordered]. rewrite Es. cbn [obind]. rewrite nth_map_mid. cbn [obind]. rewrite Ev. cbn [obind]. destruct (Z.leb_spec (mx - mn - Z.of_nat (length (a ++ p :: b))) slop); [lia|]. rewrite (E1 f) by lia. cbn [obind fst snd]. rewrite Hv'. cbn [obind U s_doc]. rewrite Dp. rewrite (upd_map_mid' a p b s' (Some x) t). reflexivity. }
        destruct (Z.ltb_spec D (fst x)) as [Lx|Lx].
        * destruct (goto_next_ok a p' b D HO (placed_others D a p b HP)) as [(c & ms' & D' & G1 & (G2 & G2' & G2'') & n & En)|(G1 & c & l & n & En)]; [unfold mdoc; cbn [fst snd p']; lia|unfold mdoc; cbn [fst snd p']; destruct Op as (Op & _); lia| |].
          -- apply (found_via _ _ ms' _ (fun f g => unordered (run f) g slop (map fst ms') c doc st en)); [apply (incl_trans2 _ _ _ Hi G2)|lia|auto| |].
             ++ apply (IH (total ms') ltac:(lia) ms' c D' (le_n _) G1). intros ->. apply Forall2_len in G2. rewrite app_length in G2. cbn [length] in G2. lia.
             ++ exists (Nat.max n n1). intros f g Hf Hg. rewrite STEP by lia. rewrite (En f g) by lia. reflexivity.
          -- right. split; [intros d _ Hd; apply (G1 d); auto|]. exists (SNear false slop c doc st en l), (S (Nat.max n n1)). intros f [|g] Hf Hg; [lia|]. rewrite STEP by lia. rewrite (En f g) by lia. reflexivity.
        * apply (found_via _ _ (a ++ p' :: b) _ (fun f g => unordered (run f) g slop (map fst (a ++ p' :: b)) (length a) doc st en)); [exact Hi|lia|auto| |exists n1; intros f g Hf Hg; apply STEP; lia].
          apply (IH (total (a ++ p' :: b)) ltac:(lia) _ (length a) D (le_n _)); [apply (placed_upd D a p b); auto; lia|destruct a; discriminate].
  Qed.

  (* ---------- sne_next_ordered_match *)
  Lemma in_turn_up ks : in_turn (map U ks) <-> up (map snd ks).
  Proof.
    induction ks as [|k ks IH]; cbn [map in_turn]; [split; [constructor|auto]|]. destruct ks as [|k2 ks]; cbn [map] in *; [split; [intros; constructor; constructor|auto]|]. rewrite IH. cbn [U s_st s_en]. split.
    - intros (H & G). constructor; [exact G|]. apply up_inv in G. destruct G as (_ & G). apply Forall_forall. intros y [<-|Hy]; [lia|]. specialize (G y Hy). lia.
    - intros H. apply up_inv in H. destruct H as (G & H). split; [|exact G]. specialize (H (snd k2) (or_introl eq_refl)). lia.
  Qed.
  Lemma adv_ok k0 : forall N s x t, (length t <= N)%nat -> SB true false s (Some x) t ->
    (exists s' x' t', SB true false s' (Some x') t' /\ incl (x' :: t') (x :: t) /\ (x' = x /\ t' = t \/ (length t' < length t)%nat) /\ (fst x' <> fst k0 \/ snd k0 <= snd x') /\
       (forall y, In y (x :: t) -> In y (x' :: t') \/ fst y = fst k0 /\ snd y < snd k0) /\ exists n, forall f g, (n <= f)%nat -> (n <= g)%nat -> ord_adv (run f) g (U k0) s = Some (true, s')) \/
    ((forall y, In y (x :: t) -> fst y = fst k0 /\ snd y < snd k0) /\ exists s' n, forall f g, (n <= f)%nat -> (n <= g)%nat -> ord_adv (run f) g (U k0) s = Some (false, s')).
  Proof.
    induction N as [N IH] using lt_wf_ind. intros s x t HN HB. destruct (sb_facts _ _ _ _ _ HB) as (_ & _ & Hv & H4). cbn [shows] in Hv. assert (Hc : (fst x =? fst k0) && ((snd x <? snd k0) || ((snd x =? snd k0) && (snd x + 1 <? snd k0 + 1))) = (fst x =? fst k0) && (snd x <? snd k0)) by lia.
    destruct ((fst x =? fst k0) && (snd x <? snd k0)) eqn:EC.
    - destruct (H4 None I) as (s1 & (n1 & E1) & _ & Hs). cbn [tgt] in *. destruct t as [|y t].
      + right. split; [intros y [<-|[]]; lia|]. exists s1, (S n1). intros f [|g] Hf Hg; [lia|]. cbn [ord_adv]. rewrite Hv. cbn [obind U s_doc s_st s_en]. rewrite Hc. rewrite (E1 f) by lia. reflexivity.
      + destruct (IH (length t) ltac:(cbn [length] in HN; lia) s1 y t (le_n _) (Hs y t eq_refl)) as [(s' & x' & t' & K1 & K2 & K3 & K4 & K5 & n & En)|(K1 & s' & n & En)].
        * left. exists s', x', t'. splits; auto; [intros z Hz; right; apply K2; exact Hz|right; destruct K3 as [(_ & ->)|K3]; cbn [length]; lia| |].
          -- intros z [<-|Hz]; [right; lia|]. destruct (K5 z Hz); auto.
          -- exists (S (Nat.max n n1)). intros f [|g] Hf Hg; [lia|]. cbn [ord_adv]. rewrite Hv. cbn [obind U s_doc s_st s_en]. rewrite Hc. rewrite (E1 f) by lia. cbn [obind fst snd nonnil]. change (mkSp (fst k0) (snd k0) (snd k0 + 1)) with (U k0). apply En; lia.
        * right. split; [intros z [<-|Hz]; [lia|apply K1; exact Hz]|]. exists s', (S (Nat.max n n1)). intros f [|g] Hf Hg; [lia|]. cbn [ord_adv]. rewrite Hv. cbn [obind U s_doc s_st s_en]. rewrite Hc. rewrite (E1 f) by lia. cbn [obind fst snd nonnil]. change (mkSp (fst k0) (snd k0) (snd k0 + 1)) with (U k0). apply En; lia.
    - left. exists s, x, t. splits; auto; [intros z Hz; exact Hz|lia|]. exists 1%nat. intros f [|g] Hf Hg; [lia|]. cbn [ord_adv]. rewrite Hv. cbn [obind U s_doc s_st s_en]. rewrite Hc. reflexivity.
  Qed.
  Notation pos m := (snd (hk m)).
  Lemma inner_ok cur D : o = true -> forall b a q sum, Forall (placed D) ((a ++ [q]) ++ b) -> up (map (fun m => pos m) (a ++ [q])) ->
    (exists b' l, (a ++ [q]) ++ b' = l /\ Forall (placed D) l /\ Forall2 (fun m m' => incl (ml m') (ml m)) ((a ++ [q]) ++ b) l /\ (total l <= total ((a ++ [q]) ++ b))%nat /\ (forall d, W d ((a ++ [q]) ++ b) -> W d l) /\ up (map (fun m => pos m) l) /\ exists z, In z l /\ (forall m, In m l -> pos m <= pos z) /\
       exists n, forall f g, (n <= f)%nat -> (n <= g)%nat -> ord_inner (run f) g (length b) (length (a ++ [q])) (U (hk q)) sum (map fst ((a ++ [q]) ++ b)) cur = Some (OEnd (U (hk z)) (sum + Z.of_nat (length b)) (map fst l))) \/
    (exists c ms' D', Forall (placed D') ms' /\ Forall2 (fun m m' => incl (ml m') (ml m)) ((a ++ [q]) ++ b) ms' /\ (total ms' < total ((a ++ [q]) ++ b))%nat /\ (forall d, W d ((a ++ [q]) ++ b) -> W d ms') /\
       exists n, forall f g, (n <= f)%nat -> (n <= g)%nat -> ord_inner (run f) g (length b) (length (a ++ [q])) (U (hk q)) sum (map fst ((a ++ [q]) ++ b)) cur = Some (OAgain c (map fst ms'))) \/
    ((forall d, ~ W d ((a ++ [q]) ++ b)) /\ exists c l n, forall f g, (n <= f)%nat -> (n <= g)%nat -> ord_inner (run f) g (length b) (length (a ++ [q])) (U (hk q)) sum (map fst ((a ++ [q]) ++ b)) cur = Some (OFail c l)).
  Proof.
    intros Eo. induction b as [|m b IH]; intros a q sum HP Hup.
    { left. rewrite app_nil_r in *. exists [], (a ++ [q]). rewrite app_nil_r. splits; auto; [clear; induction (a ++ [q]); constructor; auto; intros x Hx; exact Hx|]. exists q. splits; [apply in_or_app; right; left; reflexivity| |exists O; intros f g _ _; cbn [length ord_inner]; do 2 f_equal; cbn; lia].
      rewrite map_app in Hup. apply up_app_inv in Hup. destruct Hup as (_ & _ & Hup). intros z Hz. apply in_app_or in Hz. destruct Hz as [Hz|[<-|[]]]; [|lia]. apply Hup; [apply (in_map (fun m => pos m)); exact Hz|left; reflexivity]. }
    assert (Hq : placed D q) by (rewrite Forall_forall in HP; apply HP; apply in_or_app; left; apply in_or_app; right; left; reflexivity). assert (Hm : placed D m) by (rewrite Forall_forall in HP; apply HP, in_or_app; right; left; reflexivity).
    destruct (placed_val D q Hq) as (_ & Dq & _ & _ & _ & Minq). destruct m as (s & cm & t). destruct Hm as (Hm & x & Ex & Dx). cbn [fst snd] in Ex. subst cm. unfold okm in Hm. cbn [fst snd] in Hm.
    assert (HW : forall m', (forall y, In y (x :: t) -> In y (ml m') \/ fst y = fst (hk q) /\ snd y < snd (hk q)) -> forall d, W d ((a ++ [q]) ++ (s, (Some x, t)) :: b) -> W d ((a ++ [q]) ++ m' :: b)).
    { intros m' H d. apply W_upd. intros ys1 y ys2 F1 Fy F2 Hf. destruct (H y Fy) as [Hy|(Hy1 & Hy2)]; [exact Hy|exfalso]. apply Forall2_app_inv_l in F1. destruct F1 as (ysa & ysq & _ & Fq & ->). inversion Fq as [|? yq ? ? Hyq Fn]; subst. inversion Fn; subst. pose proof (Minq yq Hyq) as Lq.
      assert (fst yq = d) by (apply (fits_doc d _ yq Hf); apply in_or_app; left; apply in_or_app; right; left; reflexivity). assert (fst y = d) by (apply (fits_doc d _ y Hf); apply in_or_app; right; left; reflexivity). destruct Hf as (w & (_ & _ & Ht) & _). specialize (Ht Eo). apply in_turn_up in Ht. rewrite <- app_assoc in Ht. cbn [app] in Ht. rewrite map_app in Ht. apply up_app_inv in Ht. destruct Ht as (_ & Ht & _). cbn [map] in Ht. apply up_inv in Ht. destruct Ht as (_ & Ht). specialize (Ht (snd y) (or_introl eq_refl)). unfold kle in Lq. lia. }
    set (m := (s, (Some x, t)) : mem) in *. assert (NTH : nth_error (map fst ((a ++ [q]) ++ m :: b)) (length (a ++ [q])) = Some s) by exact (nth_map_mid (a ++ [q]) m b).
    destruct (adv_ok (hk q) (length t) s x t (le_n _) Hm) as [(s' & x' & t' & K1 & K2 & K3 & K4 & K5 & n1 & E1)|(K1 & s' & n1 & E1)].
    - set (m' := (s', (Some x', t')) : mem) in *. pose proof (HW m' K5) as HW'. assert (HO : Forall okm ((a ++ [q]) ++ m' :: b)). { rewrite Forall_forall in *. intros z Hz. apply in_app_or in Hz. destruct Hz as [Hz|[<-|Hz]]; [apply HP, in_or_app; left; exact Hz|exact K1|apply HP, in_or_app; right; right; exact Hz]. }
      assert (Hi : Forall2 (fun m m' => incl (ml m') (ml m)) ((a ++ [q]) ++ m :: b) ((a ++ [q]) ++ m' :: b)) by (apply incl_upd; exact K2). assert (Hv' : val s' = Some (U x')) by (destruct (sb_facts _ _ _ _ _ K1) as (_ & _ & Hv & _); exact Hv).
      assert (Hx' : D <= fst x'). { destruct (sb_facts _ _ _ _ _ Hm) as (HK & _). cbn [here] in HK. apply KS_inv in HK. destruct (K2 x' (or_introl eq_refl)) as [<-|Hx']; [lia|]. pose proof (kle_doc _ _ (proj2 HK x' Hx')). lia. }
      assert (STEP : forall f g, (n1 <= f)%nat -> (n1 <= g)%nat -> ord_inner (run f) g (length (m :: b)) (length (a ++ [q])) (U (hk q)) sum (map fst ((a ++ [q]) ++ m :: b)) cur =
        if fst x' =? D then ord_inner (run f) g (length b) (S (length (a ++ [q]))) (U x') (sum + (snd x' + 1 - snd x')) (map fst ((a ++ [q]) ++ m' :: b)) cur else do g0 <- goto_next_doc (run f) g (length (a ++ [q])) (map fst ((a ++ [q]) ++ m' :: b)); let '(b0, c, l) := g0 in Some (if b0 then OAgain c l else OFail c l)).
      { intros f g Hf Hg. cbn [length ord_inner]. rewrite NTH. cbn [obind]. rewrite (E1 f g) by lia. cbn [obind fst snd]. rewrite Hv'. cbn [obind U s_doc s_st s_en]. rewrite Dq. rewrite (upd_map_mid' (a ++ [q]) m b s' (Some x') t'). reflexivity. }
      destruct (Z.eqb_spec (fst x') D) as [Ed|Ed].
      + assert (HP' : Forall (placed D) ((a ++ [q]) ++ m' :: b)) by (apply (placed_upd D (a ++ [q]) m b); auto). assert (EA : (a ++ [q]) ++ m' :: b = ((a ++ [q]) ++ [m']) ++ b) by (rewrite <- (app_assoc (a ++ [q])); reflexivity).
        assert (Ht : (total ((a ++ [q]) ++ m' :: b) <= total ((a ++ [q]) ++ m :: b))%nat) by (rewrite !total_mid; unfold wt, m, m'; cbn [fst snd]; destruct K3 as [(_ & ->)|K3]; lia).
        assert (Hup' : up (map (fun m => pos m) ((a ++ [q]) ++ [m']))). { rewrite map_app. apply up_app; [exact Hup|constructor; constructor|]. intros z w Hz [<-|[]]. cbn [hk m' fst snd]. assert (snd (hk q) <= snd x') by lia. rewrite map_app in Hup, Hz. apply up_app_inv in Hup. destruct Hup as (_ & _ & Hup). apply in_app_or in Hz. destruct Hz as [Hz|[<-|[]]]; [|lia]. specialize (Hup z _ Hz (or_introl eq_refl)). lia. }
        rewrite EA in *. assert (EL : S (length (a ++ [q])) = length ((a ++ [q]) ++ [m'])) by (rewrite (app_length (a ++ [q])); cbn [length]; lia).
        destruct (IH (a ++ [q]) m' (sum + (snd x' + 1 - snd x')) HP' Hup') as [(b' & l & J0 & J1 & J2 & J3 & J4 & J5 & z & J6 & J7 & n & En)|[(c & ms' & D' & J1 & J2 & J3 & J4 & n & En)|(J1 & c & l & n & En)]].
        * left. exists (m' :: b'), l. splits; auto; [rewrite <- J0, <- (app_assoc (a ++ [q])); reflexivity|apply (incl_trans2 _ _ _ Hi J2)|lia|]. exists z. splits; auto. exists (Nat.max n n1). intros f g Hf Hg. rewrite STEP by lia. rewrite EL. etransitivity; [apply (En f g); lia|]. do 2 f_equal. cbn [length]. lia.
        * right. left. exists c, ms', D'. splits; auto; [apply (incl_trans2 _ _ _ Hi J2)|lia|]. exists (Nat.max n n1). intros f g Hf Hg. rewrite STEP by lia. rewrite EL. apply (En f g); lia.
        * right. right. split; [intros d Hd; apply (J1 d); auto|]. exists c, l, (Nat.max n n1). intros f g Hf Hg. rewrite STEP by lia. rewrite EL. apply (En f g); lia.
      + assert (Ht : (total ((a ++ [q]) ++ m' :: b) < total ((a ++ [q]) ++ m :: b))%nat) by (rewrite !total_mid; unfold wt, m, m'; cbn [fst snd]; destruct K3 as [(-> & _)|K3]; [congruence|lia]).
        destruct (goto_next_ok (a ++ [q]) m' b D HO) as [(c & ms' & D' & G1 & (G2 & G2' & G2'') & n & En)|(G1 & c & l & n & En)].
        * apply (placed_others D (a ++ [q]) m b HP).
        * unfold mdoc; cbn [fst snd m']; lia.
        * destruct (sb_facts _ _ _ _ _ K1) as (_ & HOk & _). cbn [here] in HOk. inversion HOk as [|? ? (Ho1 & _) _]; subst. unfold mdoc. cbn [fst snd m']. lia.
        * right. left. exists c, ms', D'. splits; auto; [apply (incl_trans2 _ _ _ Hi G2)|lia|]. exists (Nat.max n n1). intros f g Hf Hg. rewrite STEP by lia. rewrite (En f g) by lia. reflexivity.
        * right. right. split; [intros d Hd; apply (G1 d); auto|]. exists c, l, (Nat.max n n1). intros f g Hf Hg. rewrite STEP by lia. rewrite (En f g) by lia. reflexivity.
    - right. right. split; [intros d Hd; apply (W_none d (a ++ [q]) (s', (None, [])) b eq_refl), (HW (s', (None, []))); [|exact Hd]; intros y Hy; right; apply K1; exact Hy|]. exists cur, (upd (map fst ((a ++ [q]) ++ m :: b)) (length (a ++ [q])) s'), n1. intros f g Hf Hg. cbn [length ord_inner]. rewrite NTH. cbn [obind]. rewrite (E1 f g) by lia. reflexivity.
  Qed.
  Lemma ord_ok doc en : o = true -> forall N ms cur st D, (total ms <= N)%nat -> Forall (placed D) ms -> ms <> [] -> found (fun _ => True) ms (fun f g => ordered (run f) g slop (map fst ms) cur doc st en).
  Proof.
    intros Eo. induction N as [N IH] using lt_wf_ind. intros ms cur st D HN HP Hne. destruct ms as [|q b]; [congruence|]. assert (Hq : placed D q) by (inversion HP; auto). destruct (placed_val D q Hq) as (Ev & Dq & Oq & _).
    assert (LEN : (length (map fst (q :: b)) - 1 = length b)%nat) by (rewrite map_length; cbn [length]; lia).
    destruct (inner_ok cur D Eo b [] q (snd (hk q) + 1 - snd (hk q)) HP ltac:(constructor; constructor)) as [(b' & l & J0 & J1 & J2 & J3 & J4 & J5 & z & J6 & J7 & n & En)|[(c & ms' & D' & J1 & J2 & J3 & J4 & n & En)|(J1 & c & l & n & En)]]; cbn [app length] in *.
    - subst l. rewrite Forall_forall in J1. destruct (placed_val D z (J1 z J6)) as (_ & Dz & _ & _ & _ & Minz). rewrite <- Forall_forall in J1.
      assert (STEP : forall f g, (n <= f)%nat -> (n <= g)%nat -> ordered (run f) (S g) slop (map fst (q :: b)) cur doc st en =
        if pos z + 1 - pos q - Z.of_nat (length (q :: b)) <=? slop then Some (true, SNear true slop 0 D (pos q) (pos z + 1) (map fst (q :: b')))
        else do x <- run f None (fst q); if fst x then do v' <- val (snd x); if s_doc v' =? D then ordered (run f) g slop (upd (map fst (q :: b')) 0 (snd x)) cur doc (pos q) en
          else do g0 <- goto_next_doc (run f) g 0 (upd (map fst (q :: b')) 0 (snd x)); let '(b0, c, l') := g0 in if b0 then ordered (run f) g slop l' c doc (pos q) en else Some (false, SNear true slop c doc (pos q) en l')
          else Some (false, SNear true slop cur doc (pos q) en (upd (map fst (q :: b')) 0 (snd x)))).
      { intros f g Hf Hg. cbn [ordered]. cbn [map nth_error obind]. rewrite Ev. cbn [obind U s_doc s_st s_en]. change (fst q :: map fst b) with (map fst (q :: b)). rewrite LEN. change (mkSp (fst (hk q)) (snd (hk q)) (snd (hk q) + 1)) with (U (hk q)). rewrite (En f g Hf Hg). cbn [obind U s_doc s_st s_en]. replace (snd (hk q) + 1 - snd (hk q) + Z.of_nat (length b)) with (Z.of_nat (length (q :: b))) by (cbn [length]; lia). rewrite Dz. cbn [map nth_error obind]. reflexivity. }
      assert (Hlb : length b' = length b) by (apply Forall2_len in J2; cbn [length] in J2; lia).
      assert (Hbnd : forall m, In m (q :: b') -> pos q <= pos m <= pos z). { intros m Hm. split; [|apply J7; exact Hm]. cbn [map] in J5. apply up_inv in J5. destruct Hm as [<-|Hm]; [lia|]. apply J5. apply (in_map (fun m => pos m)). exact Hm. }
      destruct (Z.leb_spec (pos z + 1 - pos q - Z.of_nat (length (q :: b))) slop) as [L|L].
      + left. exists O, (q :: b'), D, (mkSp D (pos q) (pos z + 1)). splits; auto; [cbn [length]; lia| |].
        * split; [|split; [rewrite lengths_U, map_length; cbn [length s_en s_st] in *; lia|intros _; apply in_turn_up; rewrite map_map; exact J5]]. rewrite map_map. apply Forall_forall. intros y Hy. apply in_map_iff in Hy. destruct Hy as (m & <- & Hm). cbn [U s_doc s_st s_en]. specialize (Hbnd m Hm). rewrite Forall_forall in J1. destruct (placed_val D m (J1 m Hm)) as (_ & Dm & _). splits; auto; lia.
        * exists (S n). intros f [|g] Hf Hg; [lia|]. rewrite STEP by lia. cbn [s_st s_en]. rewrite Eo. reflexivity.
      + destruct (step_ok (fun _ => True) [] q b' D J1) as (s' & [((n1 & E1) & HW)|(x & t & (n1 & E1) & HO & Hx & Ht & Hi & HW)]).
        { intros d ys1 y ys2 _ K1 K2 K3 (w & (F1 & F2 & _) & Dw) Ey. subst y. inversion K1; subst ys1. cbn [app] in *. pose proof (Forall2_cons (R := fun m y => In y (ml m)) q (hk q) K3 K2) as HF. rewrite Forall_forall in F1. rewrite lengths_U, <- (Forall2_len _ _ _ HF) in F2.
          assert (Ed : d = D). { destruct (F1 (U (hk q))) as (E & _); [left; reflexivity|]. cbn [U s_doc] in E. lia. } subst d.
          destruct (Forall2_in _ _ _ z HF J6) as (y & Hy & Hyz). destruct (F1 (U y) (in_map U _ _ Hy)) as (Dy & _ & Ly). cbn [U s_doc s_st s_en] in *. specialize (Minz y Hyz). destruct (F1 (U (hk q))) as (_ & Lp & _); [left; reflexivity|]. cbn [U s_st length] in *. unfold kle in Minz. lia. }
        * right. cbn [app] in *. split; [intros d _ Hd; apply (HW d I); auto|]. exists (SNear true slop cur doc (pos q) en (upd (map fst (q :: b')) 0 s')), (S (Nat.max n n1)). intros f [|g] Hf Hg; [lia|]. rewrite STEP by lia. destruct (Z.leb_spec (pos z + 1 - pos q - Z.of_nat (length (q :: b))) slop); [lia|]. rewrite (E1 f) by lia. reflexivity.
        * cbn [app] in *. set (p' := (s', (Some x, t)) : mem) in *. assert (Hv' : val s' = Some (U x)). { rewrite Forall_forall in HO. pose proof (HO p' ltac:(left; reflexivity)) as Hp'. destruct (placed_val (fst x) p') as (E & _); [split; [exact Hp'|exists x; auto]|exact E]. }
          assert (STEP2 : forall f g, (Nat.max n n1 <= f)%nat -> (n <= g)%nat -> ordered (run f) (S g) slop (map fst (q :: b)) cur doc st en = if fst x =? D then ordered (run f) g slop (map fst (p' :: b')) cur doc (pos q) en else do g0 <- goto_next_doc (run f) g 0 (map fst (p' :: b')); let '(b0, c, l') := g0 in if b0 then ordered (run f) g slop l' c doc (pos q) en else Some (false, SNear true slop c doc (pos q) en l')).
          { intros f g Hf Hg. rewrite STEP by lia. destruct (Z.leb_spec (pos z + 1 - pos q - Z.of_nat (length (q :: b))) slop); [lia|]. rewrite (E1 f) by lia. cbn [obind fst snd]. rewrite Hv'. reflexivity. }
          destruct (Z.eqb_spec (fst x) D) as [Ed|Ed].
          -- apply (found_via _ _ (p' :: b') _ (fun f g => ordered (run f) g slop (map fst (p' :: b')) cur doc (pos q) en)); [apply (incl_trans2 _ _ _ J2 Hi)|lia|auto| |exists (Nat.max n n1); intros f g Hf Hg; apply STEP2; lia].
             apply (IH (total (p' :: b')) ltac:(lia) _ cur (pos q) D (le_n _)); [apply (placed_upd D [] q b'); auto|discriminate].
          -- destruct (goto_next_ok [] p' b' D HO (placed_others D [] q b' J1)) as [(c & ms' & D' & G1 & (G2 & G2' & G2'') & n2 & En2)|(G1 & c & l & n2 & En2)]; [unfold mdoc; cbn [fst snd p']; lia|unfold mdoc; cbn [fst snd p']; destruct Oq as (Oq & _); lia| |]; cbn [app length] in *.
             ++ apply (found_via _ _ ms' _ (fun f g => ordered (run f) g slop (map fst ms') c doc (pos q) en)); [apply (incl_trans2 _ _ _ J2 (incl_trans2 _ _ _ Hi G2))|lia|auto| |].
                ** apply (IH (total ms') ltac:(lia) ms' c (pos q) D' (le_n _) G1). intros ->. inversion G2.
                ** exists (Nat.max n2 (Nat.max n n1)). intros f g Hf Hg. rewrite STEP2 by lia. rewrite (En2 f g) by lia. reflexivity.
             ++ right. split; [intros d _ Hd; apply (G1 d); auto|]. exists (SNear true slop c doc (pos q) en l), (S (Nat.max n2 (Nat.max n n1))). intros f [|g] Hf Hg; [lia|]. rewrite STEP2 by lia. rewrite (En2 f g) by lia. reflexivity.
    - apply (found_via _ _ ms' _ (fun f g => ordered (run f) g slop (map fst ms') c doc (pos q) en)); [exact J2|lia|auto| |].
      + apply (IH (total ms') ltac:(lia) ms' c (pos q) D' (le_n _) J1). intros ->. inversion J2.
      + exists n. intros f g Hf Hg. cbn [ordered]. cbn [map nth_error obind]. rewrite Ev. cbn [obind U s_doc s_st s_en]. change (fst q :: map fst b) with (map fst (q :: b)). rewrite LEN. change (mkSp (fst (hk q)) (snd (hk q)) (snd (hk q) + 1)) with (U (hk q)). rewrite (En f g Hf Hg). reflexivity.
    - right. split; [intros d _; apply J1|]. exists (SNear true slop c doc (pos q) en l), (S n). intros f [|g] Hf Hg; [lia|]. cbn [ordered]. cbn [map nth_error obind]. rewrite Ev. cbn [obind U s_doc s_st s_en]. change (fst q :: map fst b) with (map fst (q :: b)). rewrite LEN. change (mkSp (fst (hk q)) (snd (hk q)) (snd (hk q) + 1)) with (U (hk q)). rewrite (En f g) by lia. reflexivity.
  Qed.
End WIN.

(* ---------- the enumeration by next alone *)
Inductive NB : se -> list span -> Prop :=
| NB_nil s s' : ev None s false s' -> NB s []
| NB_cons s s' v l : ev None s true s' -> val s' = Some v -> NB s' l -> NB s (v :: l).
Section NEAR.
  Variables (o : bool) (slop : Z).
  Notation W := (W o slop).
  Notation inc := (Forall2 (fun m m' : mem => incl (ml m') (ml m))).
  Notation chosen ms v := (exists ys, Forall2 (fun m y => In y (ml m)) ms ys /\ window o slop (map U ys) v).
  Lemma match_ok ms cur doc st en D : Forall (placed D) ms -> ms <> [] -> found o slop (fun _ => True) ms (fun f g => (if o then ordered (run f) else unordered (run f)) g slop (map fst ms) cur doc st en).
  Proof. intros HP Hne. destruct o eqn:Eo; [apply (ord_ok true slop doc en eq_refl _ ms cur st D (le_n _) HP Hne)|apply (unord_ok false slop doc st en eq_refl _ ms cur D (le_n _) HP Hne)]. Qed.
  Lemma chosen_incl ms ms' v : inc ms ms' -> chosen ms' v -> chosen ms v.
  Proof. intros H (ys & HF & Hw). exists ys. split; [|exact Hw]. clear Hw. revert ys HF. induction H as [|m m' l l' Hm HF IH]; intros ys HF2; inversion HF2; subst; constructor; auto. Qed.
  Lemma heads_in D ms : Forall (placed D) ms -> Forall2 (fun m y => In y (ml m)) ms (map hk ms).
  Proof. induction 1 as [|m ms Hm HF IH]; cbn [map]; constructor; auto. destruct (placed_val D m Hm) as (_ & _ & _ & _ & H & _). exact H. Qed.
  (* from the move of the current clause on *)
  Lemma after_move (P : Z -> Prop) a p b D : Forall okm (a ++ p :: b) -> (forall m, In m (b ++ a) -> mdoc m = D) -> b ++ a <> [] -> D <= mdoc p -> 0 <= mdoc p -> forall doc st en,
    found o slop P (a ++ p :: b) (fun f g => near_match (run f) g o slop (length a) doc st en (map fst (a ++ p :: b))).
  Proof.
    intros HO HD Hne Hle H0 doc st en. apply (found_weak o slop (fun _ => True) P); [auto|]. destruct (ring_next a p b p) as (a2 & p2 & b2 & E2 & Ei & Er). assert (Hp : okm p) by (rewrite Forall_forall in HO; apply HO, in_or_app; right; left; reflexivity). destruct (okm_val p Hp) as (v & Ev & Dv).
    assert (D2 : mdoc p2 = D /\ okm p2). { split; [apply HD; unfold rot in Er; destruct (b ++ a) as [|z zs]; [congruence|]; cbn [app] in Er; injection Er as -> _; left; reflexivity|]. rewrite E2 in HO. rewrite Forall_forall in HO. apply HO, in_or_app. right. left. reflexivity. }
    destruct D2 as (D2 & O2). destruct (okm_val p2 O2) as (v2 & Ev2 & Dv2).
    assert (EQ : forall f g, near_match (run f) g o slop (length a) doc st en (map fst (a ++ p :: b)) = if D <? mdoc p then do g0 <- goto_next_doc (run f) g (length a) (map fst (a ++ p :: b)); let '(b0, c, l) := g0 in if b0 then (if o then ordered (run f) else unordered (run f)) g slop l c doc st en else Some (false, SNear o slop c doc st en l)
       else (if o then ordered (run f) else unordered (run f)) g slop (map fst (a ++ p :: b)) (length a) doc st en).
    { intros f g. unfold near_match, doc_at. rewrite nth_map_mid. cbn [obind]. rewrite Ev. cbn [obind]. unfold ring. rewrite map_length, Ei. rewrite E2 at 1. rewrite nth_map_mid. cbn [obind]. rewrite Ev2. cbn [obind]. rewrite Dv, Dv2, D2. reflexivity. }
    destruct (Z.ltb_spec D (mdoc p)) as [L|L].
    - destruct (goto_next_ok o slop a p b D HO HD Hle H0) as [(c & ms' & D' & G1 & (G2 & G3 & G4) & n & En)|(G1 & c & l & n & En)].
      + destruct (match_ok ms' c doc st en D' G1) as [(c' & ms2 & D2' & v' & K1 & K2 & K3 & K4 & K5 & K6 & K7 & n2 & K8)|(K1 & s' & n2 & K2)]; [intros ->; apply Forall2_len in G2; rewrite app_length in G2; cbn [length] in G2; lia| |].
        * left. exists c', ms2, D2', v'. splits; auto; [apply (incl_trans2 _ _ _ G2 K2)|lia|]. exists (Nat.max n n2). intros f g Hf Hg. rewrite EQ, (En f g) by lia. cbn [obind]. apply K8; lia.
        * right. split; [intros d Pd Hd; apply (K1 d Pd); auto|]. exists s', (Nat.max n n2). intros f g Hf Hg. rewrite EQ, (En f g) by lia. cbn [obind]. apply K2; lia.
      + right. split; [intros d _; apply G1|]. exists (SNear o slop c doc st en l), n. intros f g Hf Hg. rewrite EQ, (En f g) by lia. reflexivity.
    - assert (HP : Forall (placed D) (a ++ p :: b)). { rewrite Forall_forall in *. intros m Hm. split; [apply HO; exact Hm|]. assert (mdoc m = D) as E by (apply in_app_or in Hm; destruct Hm as [Hm|[<-|Hm]]; [apply HD, in_or_app; auto|lia|apply HD, in_or_app; auto]). unfold mdoc in E. destruct (fst (snd m)) as [x|]; [eauto|lia]. }
      destruct (match_ok (a ++ p :: b) (length a) doc st en D HP ltac:(destruct a; discriminate)) as [(c' & ms2 & D2' & v' & K1 & K2 & K3 & K4 & K5 & K6 & K7 & n2 & K8)|(K1 & s' & n2 & K2)].
      + left. exists c', ms2, D2', v'. splits; auto. exists n2. intros f g Hf Hg. rewrite EQ. apply K8; lia.
      + right. split; [exact K1|]. exists s', n2. intros f g Hf Hg. rewrite EQ. apply K2; lia.
  Qed.
  Lemma near_nb : forall N ms cur doc st en D, (total ms <= N)%nat -> Forall (placed D) ms -> (2 <= length ms)%nat -> (cur < length ms)%nat ->
    exists vs, NB (SNear o slop cur doc st en (map fst ms)) vs /\ Forall (fun v => chosen ms v) vs /\ up (D :: map s_doc vs) /\ forall d, D < d -> W d ms -> In d (map s_doc vs).
  Proof.
    induction N as [N IH] using lt_wf_ind. intros ms cur doc st en D HN HP H2 Hc. destruct (nth_error ms cur) as [p|] eqn:En; [|apply nth_error_None in En; lia]. apply nth_error_split in En. destruct En as (a & b & -> & <-).
    destruct (step_ok o slop (fun d => D < d) a p b D HP) as (s' & [((n1 & E1) & HW)|(x & t & (n1 & E1) & HO & Hx & Ht & Hi & HW)]).
    { intros d ys1 y ys2 Hd _ _ _ Hf ->. assert (fst (hk p) = d) by (apply (fits_doc o slop d _ (hk p) Hf), in_or_app; right; left; reflexivity). rewrite Forall_forall in HP. destruct (placed_val D p) as (_ & E & _); [apply HP, in_or_app; right; left; reflexivity|]. lia. }
    - exists []. splits; [|constructor|constructor; constructor|intros d Hd HWd; destruct (HW d Hd HWd)]. apply (NB_nil _ (SNear o slop (length a) doc st en (upd (map fst (a ++ p :: b)) (length a) s'))). exists (S n1). intros [|f] Hf; [lia|]. cbn [run]. unfold near_move. rewrite nth_map_mid. cbn [obind]. rewrite (E1 f) by lia. reflexivity.
    - set (p' := (s', (Some x, t)) : mem) in *. assert (O0 : 0 <= D) by (rewrite Forall_forall in HP; destruct (placed_val D p) as (_ & E & (Hk & _) & _); [apply HP, in_or_app; right; left; reflexivity|lia]).
      assert (Hne : b ++ a <> []) by (intros E; apply app_eq_nil in E; destruct E as (-> & ->); cbn [app length] in H2; lia).
      destruct (after_move (fun d => D < d) a p' b D HO (placed_others D a p b HP) Hne ltac:(exact Hx) ltac:(unfold mdoc; cbn [fst snd p']; lia) doc st en) as [(c & ms' & D' & v & K1 & K2 & K3 & K4 & K5 & K6 & K7 & n2 & K8)|(K1 & s2 & n2 & K2)].
      + assert (HL : length ms' = length (a ++ p :: b)) by (apply Forall2_len in K2; apply Forall2_len in Hi; lia). destruct (IH (total ms') ltac:(lia) ms' c D (s_st v) (s_en v) D' (le_n _) K1 ltac:(lia) K5) as (vs & V1 & V2 & V3 & V4).
        assert (V0 : exists vs, NB (SNear o slop c D' (s_st v) (s_en v) (map fst ms')) vs /\ Forall (fun v => chosen ms' v) vs /\ up (D' :: map s_doc vs) /\ forall d, D' < d -> W d ms' -> In d (map s_doc vs)) by (apply (IH (total ms') ltac:(lia) ms' c D' (s_st v) (s_en v) D' (le_n _) K1 ltac:(lia) K5)).
        clear vs V1 V2 V3 V4. destruct V0 as (vs & V1 & V2 & V3 & V4).
        assert (HDD : D <= D'). { destruct ms' as [|m' ms']; [cbn [length] in K5; lia|]. inversion K1 as [|? ? Km _]; subst. destruct (placed_val _ m' Km) as (_ & Dm & _ & _ & Hin & _). pose proof (incl_trans2 _ _ _ Hi K2) as Hii. inversion Hii as [|m0 ? l0 ? Hm0 _ E0]. rewrite Forall_forall in HP. assert (placed D m0) as Hpm by (apply HP; rewrite <- E0; left; reflexivity). destruct (placed_val D m0 Hpm) as (_ & _ & _ & Dm0 & _ & _). destruct (okm_least m0 (hk m') (proj1 Hpm) (Hm0 _ Hin)) as (L & _). lia. }
        exists (v :: vs). splits.
        * apply (NB_cons _ (SNear o slop c D' (s_st v) (s_en v) (map fst ms'))); [|cbn [val]; rewrite <- K7; destruct v; reflexivity|exact V1]. exists (S (Nat.max n1 n2)). intros [|f] Hf; [lia|]. cbn [run]. unfold near_move. rewrite nth_map_mid. cbn [obind]. rewrite (E1 f) by lia. cbn [obind fst snd]. rewrite (upd_map_mid' a p b s' (Some x) t). apply K8; lia.
        * pose proof (incl_trans2 _ _ _ Hi K2) as Hii. constructor; [apply (chosen_incl _ _ v Hii); exists (map hk ms'); split; [apply (heads_in D'); exact K1|exact K6]|]. rewrite Forall_forall in *. intros w Hw. apply (chosen_incl _ _ w Hii). apply V2. exact Hw.
        * cbn [map]. rewrite K7. constructor; [exact V3|]. constructor; [exact HDD|]. apply up_inv in V3. apply Forall_forall. intros w Hw. pose proof (proj2 V3 w Hw). lia.
        * intros d Hd HWd. pose proof (K4 d Hd (HW d Hd HWd)) as HW'. cbn [map]. assert (D' <= d). { destruct ms' as [|m' ms']; [cbn [length] in K5; lia|]. inversion K1 as [|? ? Km _]; subst. destruct (placed_val _ m' Km) as (_ & _ & _ & Dm & _). rewrite <- Dm. apply (W_doc o slop d (m' :: ms') m'); [|exact HW'|left; reflexivity]. rewrite Forall_forall in *. intros z Hz. apply K1. exact Hz. }
          destruct (Z.eq_dec d D') as [->|]; [left; exact K7|right; apply V4; [lia|exact HW']].
      + exists []. splits; [|constructor|constructor; constructor|intros d Hd HWd; destruct (K1 d Hd (HW d Hd HWd))]. apply (NB_nil _ s2). exists (S (Nat.max n1 n2)). intros [|f] Hf; [lia|]. cbn [run]. unfold near_move. rewrite nth_map_mid. cbn [obind]. rewrite (E1 f) by lia. cbn [obind fst snd]. rewrite (upd_map_mid' a p b s' (Some x) t). apply K2; lia.
  Qed.
  (* from the start *)
  Lemma near_start s0 L0 b doc st en : SB true false s0 None L0 -> Forall okm b -> Forall (fun m => fst (snd m) = None) b -> b <> [] ->
    exists vs, NB (SNear o slop 0 doc st en (s0 :: map fst b)) vs /\ Forall (fun v => chosen ((s0, (None, L0)) :: b) v) vs /\ up (map s_doc vs) /\ forall d, W d ((s0, (None, L0)) :: b) -> In d (map s_doc vs).
  Proof.
    intros HB HO HN Hne. destruct (sb_facts _ _ _ _ _ HB) as (HK & HOK & _ & H4). destruct (H4 None I) as (s' & (n1 & E1) & _ & Hs). cbn [tgt here] in *. destruct L0 as [|x t].
    { exists []. splits; [|constructor|constructor|intros d HWd; destruct (W_none o slop d [] (s0, (None, [])) b eq_refl HWd)]. apply (NB_nil _ (SNear o slop 0 doc st en (s' :: map fst b))). exists (S n1). intros [|f] Hf; [lia|]. cbn [run]. unfold near_move. cbn [nth_error obind]. rewrite (E1 f) by lia. reflexivity. }
    set (p' := (s', (Some x, t)) : mem) in *. pose proof (Hs x t eq_refl) as Hp'. assert (HO' : Forall okm (p' :: b)) by (constructor; [exact Hp'|exact HO]). inversion HOK as [|? ? (Hx & _) _]; subst.
    assert (Hi : inc ((s0, (None, x :: t)) :: b) (p' :: b)) by (constructor; [intros z Hz; exact Hz|]; clear; induction b; constructor; auto; intros z Hz; exact Hz). assert (HW : forall d, W d ((s0, (None, x :: t)) :: b) -> W d (p' :: b)) by (intros d; apply (W_upd o slop d [] (s0, (None, x :: t)) p' b); intros ys1 y ys2 _ Hy _ _; exact Hy).
    assert (HD : forall m, In m (b ++ []) -> mdoc m = -1) by (rewrite app_nil_r; intros m Hm; rewrite Forall_forall in HN; unfold mdoc; rewrite (HN m Hm); reflexivity).
    destruct (after_move (fun _ => True) [] p' b (-1) HO' HD ltac:(rewrite app_nil_r; exact Hne) ltac:(unfold mdoc; cbn [fst snd p']; lia) ltac:(unfold mdoc; cbn [fst snd p']; lia) doc st en) as [(c & ms' & D' & v & K1 & K2 & K3 & K4 & K5 & K6 & K7 & n2 & K8)|(K1 & s2 & n2 & K2)]; cbn [app length] in *.
    - assert (HL : length ms' = S (length b)) by (apply Forall2_len in K2; cbn [length] in K2; lia). assert (length b <> 0)%nat by (destruct b; [congruence|discriminate]). destruct (near_nb (total ms') ms' c D' (s_st v) (s_en v) D' (le_n _) K1 ltac:(lia) K5) as (vs & V1 & V2 & V3 & V4). exists (v :: vs). splits.
      + apply (NB_cons _ (SNear o slop c D' (s_st v) (s_en v) (map fst ms'))); [|cbn [val]; rewrite <- K7; destruct v; reflexivity|exact V1]. exists (S (Nat.max n1 n2)). intros [|f] Hf; [lia|]. cbn [run]. unfold near_move. cbn [nth_error obind]. rewrite (E1 f) by lia. cbn [obind fst snd nonnil upd]. apply K8; lia.
      + pose proof (incl_trans2 _ _ _ Hi K2) as Hii. constructor; [apply (chosen_incl _ _ v Hii); exists (map hk ms'); split; [apply (heads_in D'); exact K1|exact K6]|]. rewrite Forall_forall in *. intros w Hw. apply (chosen_incl _ _ w Hii). apply V2. exact Hw.
      + cbn [map]. rewrite K7. exact V3.
      + intros d HWd. pose proof (K4 d I (HW d HWd)) as HW'. cbn [map]. assert (D' <= d). { destruct ms' as [|m' ms']; [cbn [length] in K5; lia|]. inversion K1 as [|? ? Km _]; subst. destruct (placed_val _ m' Km) as (_ & _ & _ & Dm & _). rewrite <- Dm. apply (W_doc o slop d (m' :: ms') m'); [|exact HW'|left; reflexivity]. rewrite Forall_forall in *. intros z Hz. apply K1. exact Hz. }
        destruct (Z.eq_dec d D') as [->|]; [left; exact K7|right; apply V4; [lia|exact HW']].
    - exists []. splits; [|constructor|constructor|intros d HWd; destruct (K1 d I (HW d HWd))]. apply (NB_nil _ s2). exists (S (Nat.max n1 n2)). intros [|f] Hf; [lia|]. cbn [run]. unfold near_move. cbn [nth_error obind]. rewrite (E1 f) by lia. cbn [obind fst snd nonnil upd]. apply K2; lia.
  Qed.
End NEAR.
