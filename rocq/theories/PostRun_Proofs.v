(* The postings of a whole segment: what dw_flush writes, an enumerator reads through the dictionary. *)
From Verif Require Import Util Codec_Model Codec_Spec Codec_Proofs Seg_Model Seg_Spec SegCodec_Proofs Strcmp Dict_Model Dict_Spec DictCodec_Proofs Dict_Proofs DictCursor_Proofs Post_Model Post_Spec Post_Proofs.
Open Scope Z_scope.

Lemma Forall2_impl {A B} (R Q : A -> B -> Prop) l l' : (forall a b, R a b -> Q a b) -> Forall2 R l l' -> Forall2 Q l l'.
Proof. intros H. induction 1; constructor; auto. Qed.
Lemma Forall2_in_r {A B} (R : A -> B -> Prop) l l' b : Forall2 R l l' -> In b l' -> exists a, In a l /\ R a b.
Proof. induction 1 as [|x y l l' Hxy H IH]; [intros []|]. intros [->|Hi]; [exists x; cbn; auto|]. destruct (IH Hi) as (a & Ha & Hr). exists a. cbn; auto. Qed.

Section R.
  Variable kn : nat.
  Hypothesis Hkn : (1 <= kn)%nat.
  Notation k := (Z.of_nat kn).
  Notation tpl := (list Z * list post)%type.

  Definition slot (frq prx : list Z) (x : tpl) (e : entry) : Prop :=
    fst x = fst e /\ exists pre tl ppre ptl, frq = frqf kn (snd x) pre tl /\ prx = prxf (snd x) ppre ptl /\
      snd e = mkTi (Z.of_nat (length (snd x))) (Z.of_nat (length pre)) (Z.of_nat (length ppre)) (Z.of_nat (length (fby 0 (snd x)))).
  Lemma slot_app frq prx a b x e : slot frq prx x e -> slot (frq ++ a) (prx ++ b) x e.
  Proof.
    intros (E & pre & tl & ppre & ptl & -> & -> & E3). split; auto. exists pre, (tl ++ a), ppre, (ptl ++ b).
    unfold frqf, prxf. rewrite <- !app_assoc. auto.
  Qed.
  Lemma sby_len P j m : (length (sby kn P j m) <= 15 * m)%nat.
  Proof.
    unfold sby. revert j; induction m as [|m IH]; intros j; [cbn; lia|]. cbn [seq map concat]. rewrite app_length. specialize (IH (S j)).
    assert (length (sdl kn P j) <= 15)%nat; [|lia]. unfold sdl. rewrite !app_length.
    pose proof (eint_len (D P (pt kn (S j)) - D P (pt kn j))). pose proof (eint_len (Z.of_nat (F P (pt kn (S j))) - Z.of_nat (F P (pt kn j)))).
    pose proof (eint_len (Z.of_nat (X P (pt kn (S j))) - Z.of_nat (X P (pt kn j)))). lia.
  Qed.
  Definition cost (l : list post) : nat := (5 * length (concat (map snd l)) + 40 * length l)%nat.
  Lemma cost_app a b : cost (a ++ b) = (cost a + cost b)%nat.
  Proof. unfold cost. rewrite map_app, concat_app, !app_length. lia. Qed.
  Definition within (frq prx frq2 prx2 : list Z) (e : entry) : Prop :=
    Z.of_nat (length frq) <= ti_frq (snd e) <= Z.of_nat (length frq2) /\ Z.of_nat (length prx) <= ti_prx (snd e) <= Z.of_nat (length prx2).
  Definition laid (frq prx : list Z) (l : list tpl) (frq2 prx2 : list Z) (es : list entry) : Prop :=
    (exists a b, frq2 = frq ++ a /\ prx2 = prx ++ b) /\
    Forall2 (slot frq2 prx2) l es /\ StronglySorted (fun a b => ti_le (snd a) (snd b)) es /\
    Forall (within frq prx frq2 prx2) es /\
    (length frq2 + length prx2 <= length frq + length prx + cost (concat (map snd l)))%nat.
  Lemma write_terms_ok l : forall frq prx, exists frq2 prx2 es, write_terms k frq prx l = Some (frq2, prx2, es) /\ laid frq prx l frq2 prx2 es.
  Proof.
    induction l as [|[t P] l IH]; intros frq prx; cbn [write_terms].
    - exists frq, prx, []. split; [reflexivity|]. split; [exists [], []; rewrite !app_nil_r; auto|]. splits; try constructor. cbn. lia.
    - rewrite write_term_ok by exact Hkn. cbn [obind fst snd].
      destruct (IH (frq ++ fby 0 P ++ sby kn P 0 (length P / kn)) (prx ++ pby P)) as (frq2 & prx2 & es & E & (a & b & Ea & Eb) & H1 & H2 & H3 & H4).
      rewrite E. cbn [obind fst snd]. eexists frq2, prx2, _. split; [reflexivity|].
      assert (Hm : (length P / kn <= length P)%nat) by (apply Nat.div_le_upper_bound; [lia|]; nia).
      pose proof (fby_len P 0). pose proof (pby_len P). pose proof (sby_len P 0 (length P / kn)).
      split; [|splits].
      + exists ((fby 0 P ++ sby kn P 0 (length P / kn)) ++ a), (pby P ++ b). rewrite Ea, Eb, <- !app_assoc. auto.
      + constructor; [|exact H1]. split; [reflexivity|]. exists frq, a, prx, b. cbn [fst snd]. unfold frqf, prxf. rewrite Ea, Eb, <- !app_assoc. auto.
      + constructor; [exact H2|]. eapply Forall_impl; [|exact H3]. intros e [W1 W2]. repeat rewrite app_length in W1; repeat rewrite app_length in W2. unfold ti_le. cbn [snd ti_frq ti_prx]. unfold os_pos. lia.
      + rewrite Ea, Eb in *. constructor.
        * unfold within. cbn [snd ti_frq ti_prx]. unfold os_pos. rewrite !app_length. lia.
        * eapply Forall_impl; [|exact H3]. intros e [W1 W2]. unfold within. repeat rewrite app_length in W1; repeat rewrite app_length in W2; repeat rewrite app_length. lia.
      + cbn [map concat snd]. rewrite cost_app. unfold cost at 1. repeat rewrite app_length in H4. repeat rewrite app_length. lia.
  Qed.
  Definition flaid (frq prx : list Z) (fs : list (Z * list tpl)) (frq2 prx2 : list Z) (ds : list (Z * list entry)) : Prop :=
    (exists a b, frq2 = frq ++ a /\ prx2 = prx ++ b) /\
    Forall2 (fun f d => fst f = fst d /\ Forall2 (slot frq2 prx2) (snd f) (snd d)) fs ds /\
    Forall (fun d => StronglySorted (fun a b => ti_le (snd a) (snd b)) (snd d)) ds /\
    Forall (fun d => Forall (within frq prx frq2 prx2) (snd d)) ds /\
    (length frq2 + length prx2 <= length frq + length prx + cost (concat (map snd (concat (map snd fs)))))%nat.
  Lemma write_fields_ok fs : forall frq prx, exists frq2 prx2 ds, write_fields k frq prx fs = Some (frq2, prx2, ds) /\ flaid frq prx fs frq2 prx2 ds.
  Proof.
    induction fs as [|[m l] fs IH]; intros frq prx; cbn [write_fields].
    - exists frq, prx, []. split; [reflexivity|]. split; [exists [], []; rewrite !app_nil_r; auto|]. splits; try constructor. cbn. lia.
    - destruct (write_terms_ok l frq prx) as (f1 & p1 & es & -> & (a1 & b1 & -> & ->) & T1 & T2 & T3 & T4). cbn [obind fst snd].
      destruct (IH (frq ++ a1) (prx ++ b1)) as (frq2 & prx2 & ds & -> & (a & b & -> & ->) & H1 & H2 & H3 & H4). cbn [obind fst snd].
      eexists _, _, _. split; [reflexivity|]. split; [|splits].
      + exists (a1 ++ a), (b1 ++ b). rewrite <- !app_assoc. auto.
      + constructor; [|exact H1]. cbn [fst snd]. split; [reflexivity|]. eapply Forall2_impl; [|exact T1]. intros x y. apply slot_app.
      + constructor; auto.
      + constructor; [cbn [snd]|].
        * eapply Forall_impl; [|exact T3]. intros e [W1 W2]. unfold within. repeat rewrite app_length in W1; repeat rewrite app_length in W2; repeat rewrite app_length. lia.
        * eapply Forall_impl; [|exact H3]. intros d Hd. eapply Forall_impl; [|exact Hd]. intros e [W1 W2]. unfold within. repeat rewrite app_length in W1; repeat rewrite app_length in W2; repeat rewrite app_length. lia.
      + cbn [map concat snd]. rewrite map_app, concat_app, cost_app. lia.
  Qed.
  Lemma F2_sorted {A B} (R : A -> B -> Prop) (p : A -> A -> Prop) (q : B -> B -> Prop) l : forall l', (forall a a' b b', R a b -> R a' b' -> p a a' -> q b b') -> Forall2 R l l' -> StronglySorted p l -> StronglySorted q l'.
  Proof.
    induction l as [|x l IH]; intros l' H H2 HS; inversion H2; subst; [constructor|]. inversion HS; subst. constructor; [eapply IH; eauto|].
    rewrite Forall_forall in *. intros z Hz. destruct (Forall2_in_r _ _ _ z H5 Hz) as (a & Ha & Hr). eauto.
  Qed.
  Lemma dict_ok_of fs frq2 prx2 ds : inv_ok fs -> flaid [] [] fs frq2 prx2 ds -> dict_ok ds.
  Proof.
    intros (I1 & I2 & I3 & I4 & I5) (_ & H1 & H2 & H3 & H4). unfold dict_ok.
    assert (Hlen : length fs = length ds) by (eapply Forall2_length; eauto).
    assert (Hn : map fst fs = map fst ds) by (clear -H1; induction H1 as [|? ? ? ? [E _] ? IH]; [reflexivity|]; cbn [map]; congruence).
    assert (Hc : length (concat (map snd fs)) = length (concat (map snd ds))).
    { clear -H1. induction H1 as [|f d fs ds [_ E] ? IH]; [reflexivity|]. cbn [map concat]. rewrite !app_length, IH. f_equal. eapply Forall2_length; eauto. }
    rewrite <- Hn, <- Hlen, <- Hc. splits; auto.
    assert (Hbig : Z.of_nat (length frq2) < 2 ^ 62 /\ Z.of_nat (length prx2) < 2 ^ 62).
    { cbv zeta in I5. unfold cost in H4. cbn [length] in H4. lia. }
    rewrite Forall_forall in *. intros d Hd. destruct (Forall2_in_r _ _ _ d H1 Hd) as (f & Hf & Ef & Hs).
    destruct (I1 _ Hf) as (J1 & J2 & J3 & J4). rewrite <- Ef. split; [exact J1|]. specialize (H2 _ Hd). specialize (H3 _ Hd).
    unfold field_ok. splits.
    - rewrite Forall_forall in *. intros e He. destruct (Forall2_in_r _ _ _ e Hs He) as (x & Hx & Ex & pre & tl & ppre & ptl & X1 & X2 & X3).
      destruct (J2 _ Hx) as (K1 & K2 & _ & K3). unfold entry_ok. rewrite <- Ex. split; [exact K1|]. specialize (H3 _ He). destruct H3 as [W1 W2].
      rewrite X3 in *. unfold ti_ok. cbn [ti_df ti_frq ti_prx ti_skip] in *. pose proof (fby_len (snd x) 0). lia.
    - eapply (F2_sorted (slot frq2 prx2)); [|exact Hs|exact J3]. intros a a' b b' (E1 & _) (E2 & _). cbn beta. rewrite E1, E2. auto.
    - exact H2.
    - erewrite <- Forall2_length; eauto.
  Qed.

  (* looking a term up *)
  Definition found (g : seg) (P : list post) (r : option ti) : Prop :=
    match r with
    | None => P = []
    | Some j => plist_ok P /\ exists pre tl ppre ptl, g_frq g = frqf kn P pre tl /\ g_prx g = prxf P ppre ptl /\
                same_ti k j (mkTi (Z.of_nat (length P)) (Z.of_nat (length pre)) (Z.of_nat (length ppre)) (Z.of_nat (length (fby 0 P))))
    end.
  Lemma find_F2 {A B} (R : A -> B -> Prop) f f' l : forall l', (forall a b, R a b -> f a = f' b) -> Forall2 R l l' ->
    match find f l, find f' l' with Some a, Some b => In a l /\ In b l' /\ R a b | None, None => True | _, _ => False end.
  Proof.
    intros l' Hf H2. induction H2 as [|a y l l' H1 H3 IH]; [exact Logic.I|]. cbn [find]. rewrite (Hf _ _ H1). destruct (f' y); [cbn; auto|].
    destruct (find f l), (find f' l'); auto. cbn [In]. tauto.
  Qed.
  Lemma found_ok fs g ds nf t r : inv_ok fs -> flaid [] [] fs (g_frq g) (g_prx g) ds -> ti_res k (terms_of ds nf) t r -> found g (postings fs nf t) r.
  Proof.
    intros (I1 & _) (_ & H1 & _) (R1 & R2). unfold terms_of, postings in *.
    pose proof (find_F2 _ (fun x => fst x =? nf) (fun x => fst x =? nf) fs ds (fun a b Hab => f_equal (fun z => z =? nf) (proj1 Hab)) H1) as HF.
    destruct (find (fun x : Z * list tpl => fst x =? nf) fs) as [[m l]|], (find (fun x : Z * list entry => fst x =? nf) ds) as [[m' l']|]; try contradiction.
    2:{ rewrite R2 by (intros []). reflexivity. }
    destruct HF as (Hin & _ & _ & Hs). cbn [snd] in Hs. rewrite Forall_forall in I1. destruct (I1 _ Hin) as (_ & J2 & _). cbn [snd] in J2.
    pose proof (find_F2 _ (fun x => seqb (fst x) t) (fun x => seqb (fst x) t) l l' (fun a b Hab => f_equal (fun z => seqb z t) (proj1 Hab)) Hs) as HF.
    destruct (find (fun x : tpl => seqb (fst x) t) l) as [[t1 P]|] eqn:Ef1, (find (fun x : entry => seqb (fst x) t) l') as [[t2 i]|] eqn:Ef2; try contradiction.
    - destruct HF as (Ha & Hb & E & pre & tl & ppre & ptl & X1 & X2 & X3). cbn [fst snd] in *. apply find_some in Ef2. destruct Ef2 as [_ Es]. apply seqb_spec in Es. cbn [fst] in Es. subst t2 t1.
      destruct (R1 _ Hb) as (j & -> & Hj). unfold found. rewrite Forall_forall in J2. split; [exact (proj2 (J2 _ Ha))|]. exists pre, tl, ppre, ptl. rewrite X3 in Hj. auto.
    - assert (~ In t (map fst l')) as Hn.
      { intros Hi. apply in_map_iff in Hi. destruct Hi as (x & Ex & Hx). apply find_none with (x := x) in Ef2; auto. rewrite Ex, (proj2 (seqb_spec t t) eq_refl) in Ef2. discriminate. }
      rewrite R2 by exact Hn. reflexivity.
  Qed.

  (* ---------- the enumerator *)
  Variable pos : bool.
  Variable g : seg.
  Definition rel (e : tde) (c : pcur) : Prop :=
    (p_df e = 0 /\ 0 <= p_count e /\ fst c = [] /\ (pos = true -> p_pcnt e <= 0 /\ snd c = [] /\ 0 <= p_posn e < 2 ^ 31)) \/
    (exists P pre tl ppre ptl n s, plist_ok P /\ g_frq g = frqf kn P pre tl /\ g_prx g = prxf P ppre ptl /\
       live kn P pos pre tl ppre ptl e n s (epos (p_posn e) (snd c) ++ pby (fst c)) /\ pend pos e (snd c) /\ (s <= n / kn + 1)%nat /\ fst c = skipn n P).
  Lemma rel_count e c : rel e c -> 0 <= p_count e.
  Proof. intros [(_ & H & _)|(P & pre & tl & ppre & ptl & n & s & _ & _ & _ & L & _)]; auto. rewrite (l_count _ _ _ _ _ _ _ _ _ _ _ L). lia. Qed.

  Lemma rel_posn e c : rel e c -> pos = true -> 0 <= p_posn e < 2 ^ 31.
  Proof. intros [(_ & _ & _ & H)|(P & pre & tl & ppre & ptl & n & s & _ & _ & _ & _ & H & _)] Hp; apply (H Hp). Qed.

  Lemma seek_rel e c P r : rel e c -> found g P r -> rel (tde_seek pos (g_frq g) (g_prx g) k e r) (P, []).
  Proof.
    intros Hr Hf. pose proof (rel_count _ _ Hr) as Hc. pose proof (rel_posn _ _ Hr) as Hn. destruct r as [j|].
    - destruct Hf as (HP & pre & tl & ppre & ptl & E1 & E2 & (S1 & S2 & S3 & S4)). cbn [ti_df ti_frq ti_prx ti_skip] in *. right.
      exists P, pre, tl, ppre, ptl, 0%nat, 0%nat. splits; auto; try lia.
      + assert (Hq : Z.quot (Z.of_nat (length P)) k = Z.of_nat (length P / kn)) by (rewrite Z.quot_div_nonneg by lia; rewrite Nat2Z.inj_div; reflexivity).
        assert (H0 : pt kn 0 = 0%nat) by reflexivity.
        assert (HF : seek (g_frq g) (ti_frq j) = fby (D P 0) (skipn 0 P) ++ sby kn P 0 (length P / kn) ++ tl) by (rewrite S2, E1; unfold frqf; apply seek_app; reflexivity).
        assert (HX : seek (g_prx g) (ti_prx j) = pby P ++ ptl) by (rewrite S3, E2; unfold prxf; apply seek_app; reflexivity).
        assert (HF0 : F P 0 = 0%nat) by reflexivity. assert (HX0 : X P 0 = 0%nat) by reflexivity. assert (HD0 : D P 0 = 0) by reflexivity.
        rewrite HD0 in HF. constructor; unfold tde_seek, stpe_seek_ti, stde_seek_ti; destruct pos eqn:Hpos;
          cbn [set_prx p_frq p_prx p_skip p_count p_df p_doc p_freq p_sdoc p_scount p_num p_fptr p_pptr p_sptr p_have p_pcnt p_posn epos app fst snd];
          rewrite ?H0, ?HF0, ?HX0, ?HD0, ?S1, ?S2, ?S3; auto; try lia; try discriminate; try (rewrite <- S2; exact HF); try (intros _; rewrite <- S3; exact HX); try apply Nat.le_0_l; intros Hk; rewrite S4 by lia; reflexivity.
      + intros Hpos. specialize (Hn Hpos). unfold tde_seek. rewrite Hpos. cbn [stpe_seek_ti stde_seek_ti set_prx p_pcnt p_posn]. splits; auto; try lia; left; reflexivity.
      + apply Nat.le_0_l.
    - cbn in Hf. subst P. left. destruct pos eqn:Hpos; cbn [tde_seek stpe_seek_ti stde_seek_ti set_prx p_df p_count p_pcnt p_posn fst snd]; splits; auto; try discriminate. intros _. specialize (Hn eq_refl). splits; auto; lia.
  Qed.
  Lemma dead_next del e (c : pcur) : p_df e = 0 -> 0 <= p_count e -> (pos = true -> p_pcnt e <= 0 /\ snd c = [] /\ 0 <= p_posn e < 2 ^ 31) ->
    exists e', tde_next pos del e = Some (false, e') /\ rel e' ([], []).
  Proof.
    intros H1 H2 H3. unfold tde_next. destruct pos eqn:Hpos.
    - unfold skipv. replace (Z.to_nat (p_pcnt e)) with 0%nat by (destruct (H3 eq_refl); lia). cbn [skip_vints obind].
      unfold stde_next. cbn [set_prx p_df p_count]. cbn [stde_next_loop]. cbn [set_prx p_df p_count]. rewrite H1. destruct (Z.leb_spec 0 (p_count e)); [|lia]. cbn [obind fst snd].
      eexists. split; [reflexivity|]. left. cbn [set_prx p_df p_count p_pcnt p_posn fst snd]. splits; auto; intros; splits; auto; lia.
    - unfold stde_next. cbn [stde_next_loop]. rewrite H1. destruct (Z.leb_spec 0 (p_count e)); [|lia]. eexists. split; [reflexivity|]. left. splits; auto. congruence.
  Qed.
  Definition okop (o : pop) : Prop := pop_ok pos o /\ match o with PSkip _ _ => (3 <= kn)%nat | _ => True end.
  (* every operation but seek *)
  Lemma move_rel e c o : rel e c -> okop o -> (forall f t, o <> PSeek f t) -> forall fs s t, s_skip s = k ->
    exists e', tde_step pos g s (t, e) o = Some (fst (pspec_step fs c o), (t, e')) /\ rel e' (snd (pspec_step fs c o)).
  Proof.
    intros Hr [Ho Hk] Hns fs s t Hs. destruct o as [f x|del|del target|del m|]; [exfalso; eapply Hns; reflexivity| | | |].
    - (* next *)
      cbn [tde_step pspec_step]. unfold spec_move. destruct Hr as [(R1 & R2 & R3 & R4)|(P & pre & tl & ppre & ptl & n & q & HP & E1 & E2 & L & Hp & Hq & EL)].
      + rewrite R3. destruct (dead_next del e c R1 R2 R4) as (e' & -> & Hd). cbn [first_ok obind fst snd]. exists e'. split; [reflexivity|exact Hd].
      + rewrite EL in L. destruct (tde_next_ok kn Hkn P HP pos pre tl ppre ptl del e n q (snd c) L Hp) as (b & e' & -> & H). cbn [obind]. rewrite EL. exists e'.
        destruct (first_ok _ (skipn n P)) as [[p r]|].
        * destruct H as (-> & A1 & A2 & A3 & c' & C1 & C2 & C3). cbn [fst snd]. split; [unfold doc_of; cbn [fst snd]; rewrite A1, A2; reflexivity|].
          right. exists P, pre, tl, ppre, ptl, c', q. cbn [fst snd]. splits; auto. assert (n / kn <= c' / kn)%nat by (apply Nat.div_le_mono; lia). lia.
        * destruct H as (-> & C3 & A3). cbn [fst snd]. split; [reflexivity|]. right. exists P, pre, tl, ppre, ptl, (length P), q. cbn [fst snd]. splits; auto.
          -- pose proof (l_c _ _ _ _ _ _ _ _ _ _ _ L). assert (n / kn <= length P / kn)%nat by (apply Nat.div_le_mono; lia). lia.
          -- rewrite skipn_all. reflexivity.
    - (* skip_to *)
      cbn [tde_step pspec_step]. rewrite Hs. unfold spec_move. destruct Hr as [(R1 & R2 & R3 & R4)|(P & pre & tl & ppre & ptl & n & q & HP & E1 & E2 & L & Hp & Hq & EL)].
      + unfold tde_skip_to, skip_data. rewrite R1. destruct (Z.leb_spec k 0); [lia|]. cbn [andb obind]. rewrite R1.
        cbn [next_until]. rewrite R3. destruct (dead_next del e c R1 R2 R4) as (e' & -> & Hd). cbn [first_ok obind fst snd]. exists e'. split; [reflexivity|exact Hd].
      + rewrite EL in L. rewrite E1, E2. destruct (skip_ok kn Hkn P HP pos pre tl ppre ptl del target e n q (snd c) Hk L Hp Hq) as (b & e' & -> & H). cbn [obind]. rewrite EL. exists e'.
        destruct (first_ok _ (skipn n P)) as [[p r]|].
        * destruct H as (-> & A1 & A2 & A3 & c' & s' & C1 & C2 & C3 & C4). cbn [fst snd]. split; [unfold doc_of; cbn [fst snd]; rewrite A1, A2; reflexivity|].
          right. exists P, pre, tl, ppre, ptl, c', s'. cbn [fst snd]. splits; auto.
        * destruct H as (-> & s' & C1 & C3 & A3). cbn [fst snd]. split; [reflexivity|]. right. exists P, pre, tl, ppre, ptl, (length P), s'. cbn [fst snd]. splits; auto; try lia.
          -- rewrite skipn_all. reflexivity.
    - (* read *)
      cbn [tde_step pspec_step]. cbn in Ho. destruct Hr as [(R1 & R2 & R3 & R4)|(P & pre & tl & ppre & ptl & n & q & HP & E1 & E2 & L & Hp & Hq & EL)].
      + rewrite R1, R3, take_live_nil. cbn [stde_read]. rewrite R1. destruct (Z.ltb_spec (p_count e) 0); [lia|]. rewrite andb_false_r. cbn [obind fst snd]. exists e. split; [reflexivity|]. left. splits; auto. congruence.
      + rewrite EL in L. pose proof (l_c _ _ _ _ _ _ _ _ _ _ _ L) as Hc.
        assert (Hfu : (length P - n < S (Z.to_nat (p_df e - p_count e)))%nat) by (rewrite (l_df _ _ _ _ _ _ _ _ _ _ _ L), (l_count _ _ _ _ _ _ _ _ _ _ _ L); lia).
        destruct (read_ok kn Hkn P HP pos pre tl ppre ptl del _ e n q _ m Hfu L) as (e' & c' & -> & C1 & C2 & C3).
        cbn [obind fst snd]. rewrite EL. destruct (take_live m del (skipn n P)) as [r u]. cbn [fst snd] in *. exists e'. split; [reflexivity|].
        right. exists P, pre, tl, ppre, ptl, c', q. cbn [fst snd]. splits; auto.
        * destruct C3. constructor; auto. rewrite Ho. discriminate.
        * intros Hpos. congruence.
        * assert (n / kn <= c' / kn)%nat by (apply Nat.div_le_mono; lia). lia.
    - (* positions *)
      cbn [tde_step pspec_step]. cbn in Ho. destruct c as [l rem]. cbn [fst snd].
      destruct Hr as [(R1 & R2 & R3 & R4)|(P & pre & tl & ppre & ptl & n & q & HP & E1 & E2 & L & Hp & Hq & EL)]; cbn [fst snd] in *.
      + destruct (R4 Ho) as (R5 & -> & R6). unfold next_position. destruct (Z.ltb_spec 0 (p_pcnt e)); [lia|]. cbn [obind fst snd]. eexists. split; [reflexivity|]. left. cbn [set_prx p_df p_count p_pcnt p_posn fst snd]. splits; auto; intros; splits; auto; lia.
      + unfold next_position. destruct (Hp Ho) as ([Hc|[Hc ->]] & Hrg & Hn).
        * destruct rem as [|x rem].
          -- cbn [length] in Hc. destruct (Z.ltb_spec 0 (p_pcnt e)); [lia|]. cbn [obind fst snd]. eexists. split; [reflexivity|]. right. exists P, pre, tl, ppre, ptl, n, q. cbn [fst snd]. splits; auto.
             ++ eapply live_eta; eauto.
             ++ intros _. cbn [set_prx p_pcnt p_posn]. splits; auto; try lia. right. split; auto. lia.
          -- cbn [length] in Hc. destruct (Z.ltb_spec 0 (p_pcnt e)); [|lia]. rewrite (l_prx _ _ _ _ _ _ _ _ _ _ _ L Ho). cbn [epos]. rewrite <- !app_assoc.
             pose proof (Forall_inv Hrg) as Hx. pose proof (Forall_inv_tail Hrg) as Hrg'. cbn beta in Hx. assert (Hi : i32 (x - p_posn e)) by (unfold i32; lia). rewrite dec_eint by exact Hi. cbn [obind fst snd]. eexists. split; [f_equal; f_equal; f_equal; lia|].
             right. exists P, pre, tl, ppre, ptl, n, q. cbn [fst snd]. splits; auto.
             ++ eapply live_set; [exact L|]. intros _. cbn [set_prx p_posn]. replace (p_posn e + (x - p_posn e)) with x by lia. rewrite <- !app_assoc. reflexivity.
             ++ intros _. cbn [set_prx p_pcnt p_posn]. splits; auto; try lia.
        * destruct (Z.ltb_spec 0 (p_pcnt e)); [lia|]. cbn [obind fst snd]. eexists. split; [reflexivity|]. right. exists P, pre, tl, ppre, ptl, n, q. cbn [fst snd]. splits; auto.
          -- eapply live_eta; eauto.
          -- intros _. cbn [set_prx p_pcnt p_posn]. splits; auto; try lia. right. split; auto. lia.
  Qed.
  (* one thread's lookups through a TermInfosReader are exact from here on *)
  Definition good_tir (ds : list (Z * list entry)) (s : sfi) (t : tir) : Prop :=
    forall ls, exists rs, tir_run (g_dict g) s t (map (fun l => (O, l)) ls) = Some rs /\ Forall2 (fun l r => ti_res k (terms_of ds (fst l)) (snd l) r) ls rs.
  Lemma good_tir_step ds s t f x : good_tir ds s t -> exists r t', tir_get_ti_field (g_dict g) s t O f x = Some (r, t') /\ ti_res k (terms_of ds f) x r /\ good_tir ds s t'.
  Proof.
    intros H. destruct (H [(f, x)]) as (rs & E & H2). cbn [map tir_run] in E.
    destruct (tir_get_ti_field (g_dict g) s t 0 f x) as [[r t']|] eqn:Eg; cbn [obind] in E; [|discriminate].
    exists r, t'. split; [reflexivity|]. cbn [fst snd] in E. apply some_inj in E. subst rs. inversion H2; subst. cbn [fst snd] in *. split; [assumption|].
    intros ls. destruct (H ((f, x) :: ls)) as (rs & E' & H2'). cbn [map tir_run] in E'. rewrite Eg in E'. cbn [obind fst snd] in E'.
    destruct (tir_run (g_dict g) s t' (map (fun l => (0%nat, l)) ls)) as [q|]; cbn [obind] in E'; [|discriminate]. apply some_inj in E'. subst rs. inversion H2'; subst. exists q. auto.
  Qed.
  Lemma run_rel fs ds s : inv_ok fs -> flaid [] [] fs (g_frq g) (g_prx g) ds -> s_skip s = k -> forall os t e c, good_tir ds s t -> rel e c -> Forall okop os ->
    tde_run pos g s (t, e) os = Some (pspec_run fs c os).
  Proof.
    intros Hi Hl Hs. induction os as [|o os IH]; intros t e c Ht Hr Ho; [reflexivity|]. pose proof (Forall_inv Ho) as Ho1. pose proof (Forall_inv_tail Ho) as Ho2.
    cbn [tde_run pspec_run].
    assert (HS : exists t' e', tde_step pos g s (t, e) o = Some (fst (pspec_step fs c o), (t', e')) /\ rel e' (snd (pspec_step fs c o)) /\ good_tir ds s t').
    { destruct o as [f x|del|del target|del m|].
      - destruct (good_tir_step ds s t f x Ht) as (r & t' & E & H1 & H2). cbn [tde_step pspec_step fst snd]. rewrite E. cbn [obind fst snd]. rewrite Hs. eexists t', _. split; [reflexivity|]. split; [|exact H2].
        eapply seek_rel; eauto. eapply found_ok; eauto.
      - destruct (move_rel e c (PNext del) Hr Ho1 ltac:(discriminate) fs s t Hs) as (e' & E & H). exists t, e'. auto.
      - destruct (move_rel e c (PSkip del target) Hr Ho1 ltac:(discriminate) fs s t Hs) as (e' & E & H). exists t, e'. auto.
      - destruct (move_rel e c (PRead del m) Hr Ho1 ltac:(discriminate) fs s t Hs) as (e' & E & H). exists t, e'. auto.
      - destruct (move_rel e c PPos Hr Ho1 ltac:(discriminate) fs s t Hs) as (e' & E & H). exists t, e'. auto. }
    destruct HS as (t' & e' & E & H1 & H2). rewrite E. cbn [obind fst snd]. rewrite (IH t' e' _ H2 H1 Ho2). cbn [obind].
    destruct (pspec_step fs c o) as [r c']. reflexivity.
  Qed.
End R.

Lemma post_run I kn fs : (1 <= I)%nat -> Z.of_nat I < 2 ^ 31 -> (1 <= kn)%nat -> Z.of_nat kn < 2 ^ 31 -> inv_ok fs ->
  exists g s, dw_flush (Z.of_nat I) (Z.of_nat kn) fs = Some g /\ sfi_open (g_dict g) = Some s /\
    forall pos os, Forall (okop kn pos) os ->
    tde_run pos g s (tir_open, tde_new (g_frq g) (g_prx g)) os = Some (pspec_run fs ([], []) os).
Proof.
  intros HI HI2 Hk Hk2 Hi. unfold dw_flush.
  destruct (write_fields_ok kn Hk fs [] []) as (frq & prx & ds & -> & Hl). cbn [obind fst snd].
  pose proof (dict_ok_of kn Hk fs frq prx ds Hi Hl) as Hd.
  destruct (tir_one_thread I (Z.of_nat kn) ds HI HI2 ltac:(unfold i32; lia) Hd) as (f & s & E1 & E2 & E3).
  destruct (write_read I (Z.of_nat kn) HI ds Hd) as (f' & s' & E1' & E2' & _ & _ & _ & Es & _).
  rewrite E1 in E1'. apply some_inj in E1'. subst f'. specialize (E2' HI2 ltac:(unfold i32; lia)). rewrite E2 in E2'. apply some_inj in E2'. subst s'.
  rewrite E1. cbn [obind]. exists (mkSeg frq prx f), s. split; [reflexivity|]. split; [exact E2|]. intros pos os Ho.
  eapply (run_rel kn Hk pos (mkSeg frq prx f)); eauto.
  - left. cbn. splits; auto; try lia. intros. splits; auto; lia.
Qed.

Lemma walk_spec fs ps : forall c, fst c = ps -> snd c = [] -> pspec_run fs c (walk ps) = walked ps.
Proof.
  unfold walk, walked. induction ps as [|p ps IH]; intros [l r] El Er; cbn [fst snd] in El, Er; subst l r; [reflexivity|].
  cbn [flat_map app]. cbn [pspec_run pspec_step]. unfold spec_move. cbn [fst first_ok negb]. f_equal.
  rewrite <- !app_assoc. generalize (snd p) as xs. induction xs as [|x xs IHx]; [apply IH; reflexivity|].
  cbn [length repeat app map]. cbn [pspec_run pspec_step snd fst]. f_equal. exact IHx.
Qed.
Lemma pspec_run_cons fs c o os : pspec_run fs c (o :: os) = fst (pspec_step fs c o) :: pspec_run fs (snd (pspec_step fs c o)) os.
Proof. cbn [pspec_run]. destruct (pspec_step fs c o). reflexivity. Qed.
Lemma walk_ok kn ps f t : Forall (okop kn true) (PSeek f t :: walk ps).
Proof.
  constructor; [split; exact Logic.I|]. unfold walk. apply Forall_app. split; [|constructor; [split; exact Logic.I|constructor]].
  rewrite Forall_forall. intros o Ho. apply in_flat_map in Ho. destruct Ho as (p & _ & [<-|Hi]); [split; exact Logic.I|]. apply repeat_spec in Hi. subst o. split; [reflexivity|exact Logic.I].
Qed.
Lemma enumeration I kn fs : (1 <= I)%nat -> Z.of_nat I < 2 ^ 31 -> (1 <= kn)%nat -> Z.of_nat kn < 2 ^ 31 -> inv_ok fs ->
  exists g s, dw_flush (Z.of_nat I) (Z.of_nat kn) fs = Some g /\ sfi_open (g_dict g) = Some s /\
    forall f t, tde_run true g s (tir_open, tde_new (g_frq g) (g_prx g)) (PSeek f t :: walk (postings fs f t)) = Some (PUnit :: walked (postings fs f t)).
Proof.
  intros H1 H2 H3 H4 H5. destruct (post_run I kn fs H1 H2 H3 H4 H5) as (g & s & E1 & E2 & H). exists g, s. split; [exact E1|]. split; [exact E2|].
  intros f t. rewrite H by apply walk_ok. f_equal. rewrite pspec_run_cons. cbn [pspec_step fst snd]. f_equal. apply walk_spec; reflexivity.
Qed.

Lemma resolve_ok kept : forall os r dl, d_cur r = kept ->
  (match kept with Some i => nth_error (d_cells r) i = Some (Some dl) | None => dl = [] end) -> ~ In RUndelete os -> (kept = None -> forall d, ~ In (RDelete d) os) ->
  resolve r kept os = Some (spec_resolve dl os).
Proof.
  induction os as [|o os IH]; intros r dl Hc Hd Hu Hn; [reflexivity|]. destruct o as [d| |o]; cbn [resolve spec_resolve].
  - destruct kept as [i|]; [|exfalso; apply (Hn eq_refl d); left; reflexivity]. unfold sr_delete. rewrite Hc, Hd. cbn [obind]. apply IH; auto.
    + cbn [d_cells]. unfold set_cell. assert (Hi : (i < length (d_cells r))%nat) by (apply nth_error_Some; congruence).
      rewrite nth_error_app2; rewrite firstn_length; [|lia]. replace (i - Nat.min i (length (d_cells r)))%nat with 0%nat by lia. reflexivity.
    + intros Hi. apply Hu. right. exact Hi.
    + discriminate.
  - exfalso. apply Hu. left. reflexivity.
  - assert (Ek : kept_del r kept = Some (fun d => existsb (Z.eqb d) dl)).
    { unfold kept_del. destruct kept as [i|]; [rewrite Hd; reflexivity|]. subst dl. reflexivity. }
    rewrite Ek. cbn [obind]. rewrite (IH r dl Hc Hd); [reflexivity| |].
    + intros Hi. apply Hu. right. exact Hi.
    + intros E d Hi. apply (Hn E d). right. exact Hi.
Qed.
Lemma deletions I kn fs : (1 <= I)%nat -> Z.of_nat I < 2 ^ 31 -> (3 <= kn)%nat -> Z.of_nat kn < 2 ^ 31 -> inv_ok fs ->
  exists g s, dw_flush (Z.of_nat I) (Z.of_nat kn) fs = Some g /\ sfi_open (g_dict g) = Some s /\
    forall pos r dl os,
      (match d_cur r with Some i => nth_error (d_cells r) i = Some (Some dl) | None => dl = [] end) ->
      ~ In RUndelete os -> (d_cur r = None -> forall d, ~ In (RDelete d) os) ->
      Forall (pop_ok pos) (spec_resolve dl os) ->
      exists ps, resolve r (d_cur r) os = Some ps /\
        tde_run pos g s (tir_open, tde_new (g_frq g) (g_prx g)) ps = Some (pspec_run fs ([], []) (spec_resolve dl os)).
Proof.
  intros H1 H2 H3 H4 H5. destruct (post_run I kn fs H1 H2 ltac:(lia) H4 H5) as (g & s & E1 & E2 & H). exists g, s. split; [exact E1|]. split; [exact E2|].
  intros pos r dl os Hd Hu Hn Hp. exists (spec_resolve dl os). split; [apply resolve_ok; auto|]. apply H.
  eapply Forall_impl; [|exact Hp]. intros o Ho. split; [exact Ho|]. destruct o; auto.
Qed.
Lemma skips I kn fs : (1 <= I)%nat -> Z.of_nat I < 2 ^ 31 -> (3 <= kn)%nat -> Z.of_nat kn < 2 ^ 31 -> inv_ok fs ->
  exists g s, dw_flush (Z.of_nat I) (Z.of_nat kn) fs = Some g /\ sfi_open (g_dict g) = Some s /\
    forall pos os, Forall (pop_ok pos) os -> tde_run pos g s (tir_open, tde_new (g_frq g) (g_prx g)) os = Some (pspec_run fs ([], []) os).
Proof.
  intros H1 H2 H3 H4 H5. destruct (post_run I kn fs H1 H2 ltac:(lia) H4 H5) as (g & s & E1 & E2 & H). exists g, s. split; [exact E1|]. split; [exact E2|].
  intros pos os Hp. apply H. eapply Forall_impl; [|exact Hp]. intros o Ho. split; [exact Ho|]. destruct o; auto.
Qed.
Lemma undelete_frees r (dl : list Z) i o : d_cur r = Some i -> nth_error (d_cells r) i = Some (Some dl) -> resolve r (d_cur r) [RUndelete; ROp o] = None.
Proof.
  intros Hc Hd. cbn [resolve]. unfold sr_undelete_all. rewrite Hc. cbn [kept_del d_cells]. unfold kept_del. cbn [d_cells].
  assert (Hi : (i < length (d_cells r))%nat) by (apply nth_error_Some; congruence).
  unfold set_cell. rewrite nth_error_app2; rewrite firstn_length; [|lia]. replace (i - Nat.min i (length (d_cells r)))%nat with 0%nat by lia. reflexivity.
Qed.
Lemma pspec_run_app fs os : forall c os', exists c', pspec_run fs c (os ++ os') = pspec_run fs c os ++ pspec_run fs c' os' /\ length (pspec_run fs c os) = length os.
Proof.
  induction os as [|o os IH]; intros c os'; [exists c; auto|]. cbn [app]. rewrite !pspec_run_cons. destruct (IH (snd (pspec_step fs c o)) os') as (c' & E & L).
  exists c'. rewrite E. cbn [app length]. auto.
Qed.
Lemma reseek I kn fs : (1 <= I)%nat -> Z.of_nat I < 2 ^ 31 -> (3 <= kn)%nat -> Z.of_nat kn < 2 ^ 31 -> inv_ok fs ->
  exists g s, dw_flush (Z.of_nat I) (Z.of_nat kn) fs = Some g /\ sfi_open (g_dict g) = Some s /\
    forall os f t, Forall (pop_ok true) os -> exists rs,
      tde_run true g s (tir_open, tde_new (g_frq g) (g_prx g)) (os ++ PSeek f t :: walk (postings fs f t)) = Some (rs ++ PUnit :: walked (postings fs f t)) /\ length rs = length os.
Proof.
  intros H1 H2 H3 H4 H5. destruct (skips I kn fs H1 H2 H3 H4 H5) as (g & s & E1 & E2 & H). exists g, s. split; [exact E1|]. split; [exact E2|].
  intros os f t Ho. exists (pspec_run fs ([], []) os). destruct (pspec_run_app fs os ([], []) (PSeek f t :: walk (postings fs f t))) as (c' & E & L).
  rewrite H.
  - rewrite E. rewrite pspec_run_cons. cbn [pspec_step fst snd]. rewrite walk_spec by reflexivity. auto.
  - apply Forall_app. split; [exact Ho|]. eapply Forall_impl; [|exact (walk_ok kn (postings fs f t) f t)]. intros o []; auto.
Qed.
