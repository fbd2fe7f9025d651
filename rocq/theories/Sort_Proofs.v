(* What a field index holds: the greatest term of every document. *)
From Verif Require Import Util Strcmp Dict_Model Dict_Spec Dict_Proofs DictCursor_Proofs Post_Model Post_Spec PostRun_Proofs Multi_Model Mte_Model Mte_Spec Mte_Proofs Mtde_Model Mtde_Spec Mtde_Proofs Expand_Model Expand_Spec Expand_Proofs Range_Model Range_Spec Range_Proofs Search_Model Sort_Model Sort_Spec.
Open Scope Z_scope.

Section I.
  Variables (i : pidx) (r : prdr) (y : idx) (f : Z).
  Hypothesis (HD : dicts i r y) (Hf : pidx_field i f).
  Notation M := (idx_terms y f).
  (* an enumerator that is about to give the terms ts *)
  Definition arrives (te : tenum) (ts : list (list Z)) : Prop :=
    match ts with
    | [] => exists te', te_next (rdr_of r) te = Some (None, te')
    | u :: R => exists te', te_next (rdr_of r) te = Some (Some u, te') /\ stands i r y f te' u R
    end.
  Lemma stands_arrives te t R : stands i r y f te t R -> sk i r y f te t /\ arrives te R.
  Proof. intros H. inversion H; subst; (split; [assumption|]); cbn [arrives]; eauto. Qed.
  Lemma first_stands : exists te, terms (rdr_of r) f = Some te /\ arrives te M.
  Proof.
    destruct (shape i r y f HD Hf) as [(v & g & x & Ei & Er & Ey)|(mp & vs & gs & xs & Ei & Er & Ey)].
    - pose proof (y_src i r y f HD Hf) as Hs. rewrite Er, Ey in Hs. cbn [src_of rdr_of] in Hs. set (L := terms_of (g_fs x) f).
      pose proof (set_at x (dict_of g) ste_new f Hs) as Hat. fold L in Hat. destruct (next_ok x (dict_of g) f O _ Hs Hat) as (e' & E & He'). fold L in E, He'.
      exists (EOne (ste_set_field (fst (dict_of g)) (snd (dict_of g)) ste_new f)). split; [rewrite Er; reflexivity|].
      assert (EM : M = map fst L) by (rewrite Ey; reflexivity). rewrite EM. destruct L as [|c L'] eqn:EL; cbn [map arrives nth_error option_map] in *.
      + eexists. rewrite Er. cbn [rdr_of te_next]. rewrite E. reflexivity.
      + eexists. split; [rewrite Er; cbn [rdr_of te_next]; rewrite E; reflexivity|]. assert (HS := one_stands i r y f HD Hf v g x Ei Er Ey (S (length L)) O e' c). fold L in HS. rewrite EL in HS. cbn [nth_error skipn map] in HS. apply HS; [cbn [length]; lia|reflexivity|]. rewrite place_cnt in He' by (cbn [length]; lia). exact He'.
    - pose proof HD as H. pose proof Hf as Hf'. rewrite Ei, Er, Ey in H. rewrite Ei in Hf'. cbn [dicts pidx_field] in H, Hf'. destruct H as (_ & _ & _ & Hl & HF & H0). rewrite Hl in Hf'. pose proof (Hsrc vs gs xs Hl HF) as Hs. assert (Hfs : field_in mp (length (map dict_of gs)) f) by (rewrite map_length; exact Hf').
      assert (EM : M = union (lists mp f O xs)) by (rewrite Ey; reflexivity).
      destruct (new_ok_none mp xs (map dict_of gs) Hs f Hfs) as (m & E & HV). exists (EMany m). split; [rewrite Er; cbn [rdr_of terms]; rewrite E; reflexivity|].
      pose proof (next_inv mp xs (map dict_of gs) Hs f Hfs _ _ _ HV) as HN. rewrite <- EM in HN. destruct M as [|u R] eqn:EM2; cbn [nth_error arrives] in *.
      + destruct HN as (m' & E2 & _). eexists. rewrite Er. cbn [rdr_of te_next]. rewrite E2. reflexivity.
      + destruct HN as (m' & E2 & HV2 & _ & _ & HT). eexists. split; [rewrite Er; cbn [rdr_of te_next]; rewrite E2; reflexivity|].
        assert (HS := many_stands i r y f HD Hf mp vs gs xs Ei Er Ey (length (map dict_of gs)) (S (length M)) O m' u). rewrite EM2 in HS. cbn [nth_error skipn] in HS. apply HS; auto.
  Qed.

  (* ---------- the arrays *)
  Variable del : Z -> bool.
  Definition in_post (t : list Z) (d : Z) : bool := negb (del d) && existsb (fun p : post => fst p =? d) (plook i f t).
  Lemma in_post_spec t d : in_post t d = true <-> del d = false /\ exists p, In p (plook i f t) /\ fst p = d.
  Proof. unfold in_post. rewrite andb_true_iff, existsb_exists, negb_true_iff. split; intros (A & p & B & C); split; auto; exists p; split; auto; apply Z.eqb_eq; auto. Qed.
  Lemma upd_len {A} (l : list A) : forall k v, length (upd l k v) = length l.
  Proof. induction l as [|a l IH]; intros [|k] v; cbn [upd length]; auto. Qed.
  Lemma upd_nth {A} (l : list A) : forall k v j, (k < length l)%nat -> nth_error (upd l k v) j = if (j =? k)%nat then Some v else nth_error l j.
  Proof. induction l as [|a l IH]; intros [|k] v [|j] H; cbn [upd length nth_error Nat.eqb] in *; try lia; auto. apply IH. lia. Qed.
  Lemma put_ok : forall fuel de L v a, DL i r y de L -> (length L < fuel)%nat -> (forall p, In p L -> del (fst p) = false -> 0 <= fst p < Z.of_nat (length a)) ->
    exists a' de', put_docs r del fuel de v a = Some (a', de') /\ (exists L', DL i r y de' L') /\ length a' = length a /\
      forall k, nth_error a' k = if (k <? length a)%nat then (if negb (del (Z.of_nat k)) && existsb (fun p : post => fst p =? Z.of_nat k) L then Some v else nth_error a k) else None.
  Proof.
    induction fuel as [|fuel IH]; intros de L v a HL Hf2 HR; [lia|]. cbn [put_docs]. destruct (docs_next i r y del de L HD HL) as (z & de' & E & HN). rewrite E. cbn [obind fst snd].
    assert (HF : forall l : list post, match first_ok (fun d => negb (del d)) l with
       | Some (p, t) => del (fst p) = false /\ In p l /\ incl t l /\ (length t < length l)%nat /\ forall d, del d = false -> existsb (fun p : post => fst p =? d) l = (fst p =? d) || existsb (fun p : post => fst p =? d) t
       | None => forall d, del d = false -> existsb (fun p : post => fst p =? d) l = false end).
    { induction l as [|q l IHl]; cbn [first_ok existsb]; [reflexivity|]. destruct (del (fst q)) eqn:Eq; cbn [negb].
      - destruct (first_ok _ l) as [[p t]|].
        + destruct IHl as (G1 & G2 & G3 & G4 & G5). split; [exact G1|]. split; [right; exact G2|]. split; [intros q' Hq'; right; auto|]. split; [cbn [length]; lia|]. intros d Hd. rewrite (G5 d Hd). destruct (Z.eqb_spec (fst q) d); [congruence|reflexivity].
        + intros d Hd. rewrite (IHl d Hd). destruct (Z.eqb_spec (fst q) d); [congruence|reflexivity].
      - split; [exact Eq|]. split; [left; reflexivity|]. split; [intros q' Hq'; right; auto|]. split; [cbn [length]; lia|]. reflexivity. }
    specialize (HF L). destruct (first_ok _ L) as [[p t]|].
    - destruct HN as (-> & HD'). destruct HF as (G1 & G2 & G3 & G4 & G5). specialize (HR p G2 G1) as Hp. unfold store. replace ((0 <=? fst p) && (fst p <? Z.of_nat (length a))) with true by (symmetry; apply andb_true_iff; lia). cbn [obind].
      destruct (IH de' t v (upd a (Z.to_nat (fst p)) v) HD' ltac:(lia)) as (a' & de2 & E2 & HL2 & Hlen & Hn). { intros q Hq. rewrite upd_len. auto. }
      rewrite upd_len in Hlen, Hn. exists a', de2. split; [exact E2|]. split; [exact HL2|]. split; [exact Hlen|]. intros k. rewrite Hn. destruct (Nat.ltb_spec k (length a)) as [Hk|Hk]; [|reflexivity]. rewrite upd_nth by lia.
      destruct (del (Z.of_nat k)) eqn:Ek; cbn [negb andb].
      + destruct (Nat.eqb_spec k (Z.to_nat (fst p))) as [->|N]; [|reflexivity]. rewrite Z2Nat.id in Ek by lia. congruence.
      + rewrite (G5 _ Ek). destruct (existsb _ t); [rewrite orb_true_r; reflexivity|]. rewrite orb_false_r. destruct (Nat.eqb_spec k (Z.to_nat (fst p))), (Z.eqb_spec (fst p) (Z.of_nat k)); try reflexivity; lia.
    - destruct HN as (-> & HD'). exists a, de'. split; [reflexivity|]. split; [eauto|]. split; [reflexivity|]. intros k. destruct (Nat.ltb_spec k (length a)) as [Hk|Hk]; [|apply nth_error_None; lia]. destruct (del (Z.of_nat k)) eqn:Ek; cbn [negb andb]; [reflexivity|]. rewrite (HF _ Ek). reflexivity.
  Qed.

  Variables (scan_ld scan_g : list Z -> option Z).
  (* the value of a term: the n-th *)
  Definition val_of (k : klass) (n : Z) (t : list Z) : option Z := match k with KByte | KString => Some n | KInteger => scan_ld t | KFloat => scan_g t end.
  Fixpoint last_val (k : klass) (n : Z) (ts : list (list Z)) (d : Z) (v : option Z) : option Z :=
    match ts with [] => v | t :: R => last_val k (n + 1) R d (if in_post t d then val_of k n t else v) end.
  Variable size : nat.
  Hypothesis HRange : forall t p, In p (plook i f t) -> del (fst p) = false -> 0 <= fst p < Z.of_nat size.
  Lemma handle_ok k fuel x de n t : DL i r y de (plook i f t) -> (length (plook i f t) < fuel)%nat -> length (x_arr x) = size -> (k = KByte \/ k = KString -> x_next x = n) ->
    exists x' de', handle_term scan_ld scan_g r del k fuel x de t = Some (x', de') /\ (exists L', DL i r y de' L') /\ length (x_arr x') = size /\ (k = KByte \/ k = KString -> x_next x' = n + 1) /\
      (x_vals x' = match k with KString => x_vals x ++ [Some t] | _ => x_vals x end) /\
      forall j, (j < size)%nat -> nth_error (x_arr x') j = if in_post t (Z.of_nat j) then Some (val_of k n t) else nth_error (x_arr x) j.
  Proof.
    intros HL Hfu Hl Hn. assert (G : forall v, exists a' de', put_docs r del fuel de v (x_arr x) = Some (a', de') /\ (exists L', DL i r y de' L') /\ length a' = size /\ forall j, (j < size)%nat -> nth_error a' j = if in_post t (Z.of_nat j) then Some v else nth_error (x_arr x) j).
    { intros v. destruct (put_ok fuel de _ v (x_arr x) HL Hfu) as (a' & de' & E & HL' & Hl' & Hj); [rewrite Hl; apply HRange|]. exists a', de'. split; [exact E|]. split; [exact HL'|]. split; [lia|]. intros j Hj2. rewrite Hj. destruct (Nat.ltb_spec j (length (x_arr x))); [reflexivity|lia]. }
    destruct k; cbn [handle_term val_of].
    - destruct (G (Some (x_next x))) as (a' & de' & E & G2 & G3 & G4). rewrite E. cbn [obind fst snd]. eexists _, _. split; [reflexivity|]. cbn [x_arr x_next x_vals]. rewrite <- (Hn (or_introl eq_refl)). repeat (split; [auto|]). exact G4.
    - destruct (G (scan_ld t)) as (a' & de' & E & G2 & G3 & G4). rewrite E. cbn [obind fst snd]. eexists _, _. split; [reflexivity|]. cbn [x_arr x_next x_vals]. repeat (split; [auto|]); [intros [H|H]; discriminate|]. auto.
    - destruct (G (scan_g t)) as (a' & de' & E & G2 & G3 & G4). rewrite E. cbn [obind fst snd]. eexists _, _. split; [reflexivity|]. cbn [x_arr x_next x_vals]. repeat (split; [auto|]); [intros [H|H]; discriminate|]. auto.
    - destruct (G (Some (x_next x))) as (a' & de' & E & G2 & G3 & G4). rewrite E. cbn [obind fst snd]. eexists _, _. split; [reflexivity|]. cbn [x_arr x_next x_vals]. rewrite <- (Hn (or_intror eq_refl)). repeat (split; [auto|]). exact G4.
  Qed.
  Lemma fi_loop_ok k : forall fuel ts te de L x n, arrives te ts -> DL i r y de L -> (forall u, In u ts -> length (plook i f u) + length ts < fuel)%nat -> (length ts < fuel)%nat -> length (x_arr x) = size -> (k = KByte \/ k = KString -> x_next x = n) ->
    exists x', fi_loop scan_ld scan_g r del k fuel te de x = Some x' /\ length (x_arr x') = size /\ x_vals x' = x_vals x ++ (match k with KString => map Some ts | _ => [] end) /\
      forall j v, (j < size)%nat -> nth_error (x_arr x) j = Some v -> nth_error (x_arr x') j = Some (last_val k n ts (Z.of_nat j) v).
  Proof.
    induction fuel as [|fuel IH]; intros ts te de L x n HA HL Hfu Hfu2 Hl Hn; [lia|]. cbn [fi_loop]. destruct ts as [|u R]; cbn [arrives] in HA.
    - destruct HA as (te' & ->). cbn [obind fst]. exists x. split; [reflexivity|]. split; [exact Hl|]. split; [destruct k; cbn [map]; rewrite app_nil_r; reflexivity|]. intros j v Hj Ev. exact Ev.
    - destruct HA as (te' & -> & HS). cbn [obind fst snd]. destruct (stands_arrives te' u R HS) as (Hsk & HA'). destruct (Hsk de L HL) as (de' & -> & HL'). cbn [obind].
      destruct (handle_ok k (S fuel) x de' n u HL') as (x1 & de1 & -> & (L1 & HL1) & Hl1 & Hn1 & Hv1 & Hj1); auto. { specialize (Hfu u (or_introl eq_refl)). lia. } cbn [obind fst snd].
      destruct (IH R te' de1 L1 x1 (n + 1) HA' HL1) as (x2 & E2 & Hl2 & Hv2 & Hj2); auto. { intros v Hv. specialize (Hfu v (or_intror Hv)). cbn [length] in Hfu. lia. } { cbn [length] in Hfu2. lia. }
      exists x2. split; [exact E2|]. split; [exact Hl2|]. split. { rewrite Hv2, Hv1. destruct k; cbn [map]; rewrite ?app_nil_r; auto. rewrite <- app_assoc. reflexivity. }
      intros j v Hj Ev. cbn [last_val]. apply Hj2; [exact Hj|]. rewrite (Hj1 j Hj). destruct (in_post u (Z.of_nat j)); [reflexivity|exact Ev].
  Qed.
  (* the index that is built *)
  Definition holds (k : klass) (x : findex) : Prop :=
    length (x_arr x) = size /\ x_vals x = None :: (match k with KString => map Some M | _ => [] end) /\ forall j, (j < size)%nat -> nth_error (x_arr x) j = Some (last_val k 1 M (Z.of_nat j) (Some 0)).
  Lemma build_ok k fuel : (enough i y f <= fuel)%nat -> exists x, fi_build scan_ld scan_g r del k fuel size f = Some x /\ holds k x.
  Proof.
    intros Hfu. unfold fi_build. destruct (docs_new i r y HD) as (de & -> & HL). cbn [obind]. destruct first_stands as (te & -> & HA). cbn [obind].
    destruct (fi_loop_ok k fuel M te de [] (create_index k size) 1 HA HL) as (x & E & Hl & Hv & Hj); auto.
    - intros u Hu. pose proof (enough_ok unit (fun _ _ => None) i y f del u Hu). lia.
    - unfold enough in Hfu. lia.
    - cbn [create_index x_arr]. apply repeat_length.
    - exists x. split; [exact E|]. split; [exact Hl|]. split; [exact Hv|]. intros j Hj2. apply Hj; [exact Hj2|]. cbn [create_index x_arr]. apply nth_error_repeat. exact Hj2.
  Qed.

  (* ---------- the greatest term *)
  Inductive greatest (d : Z) : option (list Z) -> Prop :=
  | G_none : (forall t, in_post t d = false) -> greatest d None
  | G_some t : in_post t d = true -> (forall u, in_post u d = true -> sle u t) -> greatest d (Some t).
  (* its number *)
  Fixpoint find_num (n : Z) (ts : list (list Z)) (t : list Z) : Z := match ts with [] => 0 | u :: R => if seqb u t then n else find_num (n + 1) R t end.
  Definition val_at (k : klass) (o : option (list Z)) : option Z := match o with None => Some 0 | Some t => val_of k (find_num 1 M t) t end.
  Lemma find_pos : forall ts n t, 0 < n -> In t ts -> n <= find_num n ts t /\ nth_error ts (Z.to_nat (find_num n ts t - n)) = Some t.
  Proof.
    induction ts as [|u R IH]; intros n t Hn Hin; [destruct Hin|]. cbn [find_num]. destruct (seqb u t) eqn:E.
    - apply seqb_spec in E. subst u. split; [lia|]. rewrite Z.sub_diag. reflexivity.
    - destruct Hin as [<-|Hin]; [rewrite (proj2 (seqb_spec _ _) eq_refl) in E; discriminate|]. destruct (IH (n + 1) t ltac:(lia) Hin) as (G1 & G2). split; [lia|]. replace (Z.to_nat (find_num (n + 1) R t - n)) with (S (Z.to_nat (find_num (n + 1) R t - (n + 1)))) by lia. exact G2.
  Qed.
  Lemma last_val_ok k d : forall ts n v, StronglySorted slt ts ->
    (forall t, In t ts -> in_post t d = true -> (forall u, In u ts -> in_post u d = true -> sle u t) -> last_val k n ts d v = val_of k (find_num n ts t) t) /\
    ((forall t, In t ts -> in_post t d = false) -> last_val k n ts d v = v).
  Proof.
    induction ts as [|u R IH]; intros n v HS; [split; [intros t []|reflexivity]|]. apply StronglySorted_inv in HS. destruct HS as (HS & HF). rewrite Forall_forall in HF. cbn [last_val find_num].
    destruct (IH (n + 1) (if in_post u d then val_of k n u else v) HS) as (I1 & I2). split.
    - intros t Hin Ht Hmax. destruct (seqb u t) eqn:E.
      + apply seqb_spec in E. subst t. rewrite I2; [rewrite Ht; reflexivity|]. intros w Hw. destruct (in_post w d) eqn:Ew; [|reflexivity]. pose proof (Hmax w (or_intror Hw) Ew) as G. pose proof (HF w Hw) as G2. exfalso. eapply slt_irr. eapply slt_le_trans; eauto.
      + destruct Hin as [<-|Hin]; [rewrite (proj2 (seqb_spec _ _) eq_refl) in E; discriminate|]. apply I1; auto. intros w Hw Hw2. apply Hmax; auto. right. exact Hw.
    - intros H. rewrite I2; [rewrite (H u (or_introl eq_refl)); reflexivity|]. intros t Ht. apply H. right. exact Ht.
  Qed.
  Lemma in_M t d : in_post t d = true -> In t M.
  Proof. intros H. apply in_post_spec in H. destruct H as (_ & p & Hp & _). destruct (In_dec (list_eq_dec Z.eq_dec) t M) as [G|G]; [exact G|]. rewrite (absent i r y f HD Hf t G) in Hp. destruct Hp. Qed.
  Lemma holds_val k x d o : holds k x -> 0 <= d < Z.of_nat size -> greatest d o -> cell x d = val_at k o.
  Proof.
    intros (H1 & H2 & H3) Hd Hg. unfold cell. replace (d <? 0) with false by (symmetry; apply Z.ltb_ge; lia). rewrite (H3 (Z.to_nat d)) by lia. rewrite Z2Nat.id by lia.
    destruct (last_val_ok k d M 1 (Some 0) (M_sorted i r y f HD Hf)) as (I1 & I2). inversion Hg as [G|t G1 G2]; subst; cbn [val_at].
    - apply I2. auto.
    - apply I1; [exact (in_M t d G1)|exact G1|auto].
  Qed.
  Lemma holds_text x d t : holds KString x -> 0 <= d < Z.of_nat size -> greatest d (Some t) -> nth (Z.to_nat (find_num 1 M t)) (x_vals x) None = Some t.
  Proof.
    intros (_ & H2 & _) Hd Hg. inversion Hg as [|t' G1 G2]; subst. rewrite H2. destruct (find_pos M 1 t ltac:(lia) (in_M t d G1)) as (P1 & P2).
    replace (Z.to_nat (find_num 1 M t)) with (S (Z.to_nat (find_num 1 M t - 1))) by lia. cbn [nth]. apply nth_error_nth. rewrite nth_error_map, P2. reflexivity.
  Qed.
  (* numbers are in the order of the terms *)
  Lemma num_lt t u : In t M -> In u M -> (find_num 1 M t < find_num 1 M u <-> slt t u) /\ (find_num 1 M t = find_num 1 M u <-> t = u) /\ 0 < find_num 1 M t.
  Proof.
    intros Ht Hu. destruct (find_pos M 1 t ltac:(lia) Ht) as (A1 & A2). destruct (find_pos M 1 u ltac:(lia) Hu) as (B1 & B2). pose proof (M_sorted i r y f HD Hf) as HS.
    assert (SN : forall l, StronglySorted slt l -> forall a b p q, nth_error l a = Some p -> nth_error l b = Some q -> (a < b)%nat -> slt p q).
    { clear. induction 1 as [|x l HS IH HF]; intros [|a] [|b] p q Ha Hb Hab; try lia; try discriminate; cbn [nth_error] in *.
      - apply some_inj in Ha. subst x. rewrite Forall_forall in HF. apply HF. eapply nth_error_In; eauto.
      - apply (IH a b p q Ha Hb). lia. }
    assert (E : find_num 1 M t = find_num 1 M u <-> t = u). { split; [|congruence]. intros E. rewrite E in A2. congruence. }
    split; [|split; [exact E|lia]]. split; intros H.
    - apply (SN M HS (Z.to_nat (find_num 1 M t - 1)) (Z.to_nat (find_num 1 M u - 1))); auto. lia.
    - destruct (Z.lt_trichotomy (find_num 1 M t) (find_num 1 M u)) as [G|[G|G]]; [exact G|apply E in G; subst; exfalso; eapply slt_irr; eauto|]. exfalso. apply (slt_irr t). eapply slt_trans; [exact H|]. apply (SN M HS (Z.to_nat (find_num 1 M u - 1)) (Z.to_nat (find_num 1 M t - 1))); auto. lia.
  Qed.
End I.

(* ---------- the values of the documents *)
Lemma top_greatest i f del d o : del d = false -> top_term i f d o -> greatest i f del d o.
Proof.
  intros Hd H. assert (G : forall t, in_post i f del t d = true <-> posted i f t d) by (intros t; rewrite in_post_spec; unfold posted; tauto). destruct o as [t|]; cbn [top_term] in H.
  - destruct H as (A & B). apply G_some; [apply G; exact A|]. intros u Hu. apply B, G, Hu.
  - apply G_none. intros t. destruct (in_post i f del t d) eqn:E; [|reflexivity]. apply G in E. destruct (H t E).
Qed.
Lemma gone_greatest i f del d : del d = true -> greatest i f del d None.
Proof. intros Hd. apply G_none. intros t. unfold in_post. rewrite Hd. reflexivity. Qed.
Theorem index_ok i r f del scan_ld scan_g size : pidx_open i r -> pidx_field i f -> (forall t (p : post), In p (plook i f t) -> del (fst p) = false -> 0 <= fst p < Z.of_nat size) ->
  exists n, forall k fuel, (n <= fuel)%nat -> exists x, fi_build scan_ld scan_g r del k fuel size f = Some x /\
    (forall d o, 0 <= d < Z.of_nat size -> del d = false -> top_term i f d o -> said_of scan_ld scan_g k x d o) /\
    (k = KByte -> forall d e t u v w, 0 <= d < Z.of_nat size -> 0 <= e < Z.of_nat size -> del d = false -> del e = false -> top_term i f d (Some t) -> top_term i f e (Some u) -> cell x d = Some v -> cell x e = Some w -> (v < w <-> slt t u) /\ (v = w <-> t = u)) /\
    (forall d, 0 <= d < Z.of_nat size -> del d = true -> cell x d = Some 0 /\ text_in x d = None).
Proof.
  intros HO Hf HR. destruct (dicts_of i r HO) as (y & HD). exists (enough i y f). intros k fuel Hn. destruct (build_ok i r y f HD Hf del scan_ld scan_g size HR k fuel Hn) as (x & E & HH). exists x. split; [exact E|].
  assert (HM : forall d t, del d = false -> top_term i f d (Some t) -> In t (idx_terms y f)). { intros d t Hd HT. pose proof (top_greatest i f del d _ Hd HT) as G. inversion G as [|t' G1 G2]; subst. exact (in_M i r y f HD Hf del t d G1). }
  split; [|split].
  - intros d o Hb Hd HT. pose proof (top_greatest i f del d o Hd HT) as G. pose proof (holds_val i r y f HD Hf del scan_ld scan_g size HR k x d o HH Hb G) as EV. unfold said_of, text_in. destruct k; rewrite EV; destruct o as [t|]; cbn [val_at val_of]; try reflexivity.
    + eexists. split; [reflexivity|]. apply (num_lt i r y f HD Hf del scan_ld scan_g size HR t t); exact (HM d t Hd HT).
    + eexists. split; reflexivity.
    + exact (holds_text i r y f HD Hf del scan_ld scan_g size HR x d t HH Hb G).
    + destruct HH as (_ & -> & _). reflexivity.
  - intros -> d e t u v w Hb Hb2 Hd He HT HU Ev Ew. pose proof (holds_val i r y f HD Hf del scan_ld scan_g size HR KByte x d _ HH Hb (top_greatest i f del d _ Hd HT)) as E1. pose proof (holds_val i r y f HD Hf del scan_ld scan_g size HR KByte x e _ HH Hb2 (top_greatest i f del e _ He HU)) as E2. cbn [val_at val_of] in E1, E2. rewrite Ev in E1. rewrite Ew in E2. apply some_inj in E1, E2. subst v w.
    destruct (num_lt i r y f HD Hf del scan_ld scan_g size HR t u) as (G1 & G2 & _); [exact (HM d t Hd HT)|exact (HM e u He HU)|]. split; assumption.
  - intros d Hb Hd. pose proof (holds_val i r y f HD Hf del scan_ld scan_g size HR k x d None HH Hb (gone_greatest i f del d Hd)) as E1. cbn [val_at] in E1. split; [exact E1|]. unfold text_in. rewrite E1. destruct HH as (_ & -> & _). destruct k; reflexivity.
Qed.
