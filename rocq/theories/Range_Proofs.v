From Verif Require Import Util Strcmp Dict_Model Dict_Spec Dict_Proofs DictCursor_Proofs Post_Model Post_Spec PostRun_Proofs Multi_Model Mte_Model Mte_Spec Mte_Proofs Mtde_Model Mtde_Spec Mtde_Proofs Expand_Model Expand_Spec Expand_Proofs Range_Model Range_Spec.
Open Scope Z_scope.

(* the dictionaries of an index *)
Definition dicts (i : pidx) (r : prdr) (y : idx) : Prop :=
  match i, r, y with
  | PIOne v, POne g, IOne x => segrel v g x
  | PIMany mp vs, PMany mp' gs starts, IMany mp2 xs => mp' = mp /\ mp2 = mp /\ starts = pstarts 0 vs /\ length vs = length gs /\ Forall2 (fun vg x => segrel (fst vg) (snd vg) x) (combine vs gs) xs /\ field_in mp (length gs) 0
  | _, _, _ => False end.
Lemma dicts_of i r : pidx_open i r -> exists y, dicts i r y.
Proof.
  destruct i as [v|mp vs], r as [g|mp' gs st]; cbn [pidx_open]; try tauto.
  - intros (H1 & H2). destruct (segrel_of v g H1 H2) as (x & Hx). exists (IOne x). exact Hx.
  - intros (-> & -> & H1 & H2 & H3). destruct (Forall3_of vs gs H1 H2) as (xs & Hxs & Hl). exists (IMany mp xs). cbn. rewrite <- Hl. auto 10.
Qed.

(* posting enumerators with L to come *)
Definition DL (i : pidx) (r : prdr) (y : idx) (de : penum) (L : list post) : Prop :=
  match i, r, y, de with
  | PIOne v, POne g, IOne x, DOne e => exists rem, rel (v_kn v) false (fst g) e (L, rem)
  | PIMany mp vs, PMany _ gs _, IMany _ xs, DMany m => exists C rem, RI mp vs gs xs false m C L rem
  | _, _, _, _ => False end.
Lemma docs_new i r y : dicts i r y -> exists de, term_docs r = Some de /\ DL i r y de [].
Proof.
  destruct i as [v|mp vs], r as [g|mp' gs st], y as [x|mp2 xs]; cbn [dicts]; try tauto.
  - intros H. eexists. split; [reflexivity|]. exists []. apply (rel_new [] [] false eq_refl).
  - intros (-> & -> & -> & Hl & HF & H0). destruct (new_ok3 mp vs gs xs false Hl HF H0) as (m & E & HR & _). cbn [term_docs]. rewrite E. eexists. split; [reflexivity|]. cbn [DL]. eauto.
Qed.
Lemma docs_next i r y del de L : dicts i r y -> DL i r y de L -> exists z de', pe_next r del de = Some (z, de') /\
  match first_ok (fun d => negb (del d)) L with Some (p, t) => z = Some (fst p) /\ DL i r y de' t | None => z = None /\ DL i r y de' [] end.
Proof.
  destruct i as [v|mp vs], r as [g|mp' gs st], y as [x|mp2 xs], de as [e|m]; cbn [dicts DL]; try tauto.
  - intros H (rem & HR). pose proof (z_ok _ _ _ H) as (_ & _ & Hk & _). destruct (sub_next (v_kn v) false (fst g) (snd g) Hk (z_skip _ _ _ H) del e (L, rem) HR) as (b & e' & E & HN). cbn [pe_next]. rewrite E. cbn [obind fst snd]. eexists _, _. split; [reflexivity|]. cbn [fst] in HN.
    destruct (first_ok _ L) as [[p t]|]; [destruct HN as (-> & -> & _ & HR')|destruct HN as (-> & HR')]; split; auto; cbn [DL]; eauto.
  - intros (-> & -> & -> & Hl & HF & H0) (C & rem & HR). destruct (fuel_next mp vs gs xs false Hl m C L rem HR) as (_ & Hfu & _). destruct (next_ok2 mp vs gs xs false Hl HF del _ m C L rem Hfu HR) as (z & m' & E & HS). cbn [pe_next]. rewrite E. cbn [obind fst snd]. eexists _, _. split; [reflexivity|]. unfold stepped in HS.
    destruct (first_ok _ L) as [[p t]|]; destruct HS as (-> & C' & HR'); split; auto; cbn [DL]; eauto.
Qed.
Lemma set_docs_ok i r y del : dicts i r y -> forall fuel de L bv, DL i r y de L -> (length L < fuel)%nat ->
  exists bv' de', set_docs fuel r del de bv = Some (bv', de') /\ (exists L', DL i r y de' L') /\ forall d, In d bv' <-> In d bv \/ (del d = false /\ exists p, In p L /\ fst p = d).
Proof.
  intros H. induction fuel as [|fuel IH]; intros de L bv HD Hf; [lia|]. cbn [set_docs]. destruct (docs_next i r y del de L H HD) as (z & de' & E & HN). rewrite E. cbn [obind fst snd].
  assert (HF : forall l : list post, match first_ok (fun d => negb (del d)) l with Some (p, t) => del (fst p) = false /\ (length t < length l)%nat /\ forall q, del (fst q) = false -> (In q l <-> q = p \/ In q t) | None => forall q, In q l -> del (fst q) = true end).
  { induction l as [|q l IHl]; cbn [first_ok]; [intros q []|]. destruct (del (fst q)) eqn:Eq; cbn [negb].
    - destruct (first_ok _ l) as [[p t]|]; [|intros q' [<-|Hq]; auto]. destruct IHl as (G1 & G2 & G3). split; [exact G1|]. split; [cbn [length]; lia|]. intros q' Hq'. rewrite <- (G3 q' Hq'). cbn [In]. split; [intros [->|G]; [congruence|exact G]|auto].
    - split; [exact Eq|]. split; [cbn [length]; lia|]. intros q' _. cbn [In]. split; intros [G|G]; auto. }
  specialize (HF L). destruct (first_ok _ L) as [[p t]|].
  - destruct HN as (-> & HD'). destruct HF as (G1 & G2 & G3). destruct (IH de' t (fst p :: bv) HD' ltac:(lia)) as (bv' & de2 & E2 & HD2 & Hin). exists bv', de2. split; [exact E2|]. split; [exact HD2|]. intros d. rewrite Hin. cbn [In]. split.
    + intros [[<-|G]|(G & q & Hq & <-)]; auto; right; (split; [auto|]); [exists p|exists q]; (split; [|reflexivity]); apply G3; auto.
    + intros [G|(G & q & Hq & <-)]; auto. apply (G3 q G) in Hq. destruct Hq as [->|Hq]; auto. right. eauto.
  - destruct HN as (-> & HD'). exists bv, de'. split; [reflexivity|]. split; [eauto|]. intros d. split; [auto|]. intros [G|(G & q & Hq & <-)]; [exact G|]. rewrite (HF q Hq) in G. discriminate.
Qed.

(* ---------- term enumerators *)
Section I.
  Variables (i : pidx) (r : prdr) (y : idx) (f : Z).
  Hypothesis (HD : dicts i r y) (Hf : pidx_field i f).
  Notation M := (idx_terms y f).
  Definition sk (te : tenum) (t : list Z) : Prop := forall de L, DL i r y de L -> exists de', pe_seek_te r te de = Some de' /\ DL i r y de' (plook i f t).
  Inductive stands : tenum -> list Z -> list (list Z) -> Prop :=
  | S_last : forall te t te', sk te t -> te_next (rdr_of r) te = Some (None, te') -> stands te t []
  | S_more : forall te t te' u rest, sk te t -> te_next (rdr_of r) te = Some (Some u, te') -> stands te' u rest -> stands te t (u :: rest).
  Lemma y_src : src_of y (rdr_of r).
  Proof.
    pose proof HD as H. destruct i as [v|mp vs], r as [g|mp' gs st], y as [x|mp2 xs]; cbn [dicts] in H; try tauto; cbn [rdr_of src_of].
    - apply opened_ok; [exact (z_sgm _ _ _ H)|exact (z_open _ _ _ H)].
    - destruct H as (-> & -> & -> & Hl & HF & H0). split; [reflexivity|]. exact (Hsrc vs gs xs Hl HF).
  Qed.
  Lemma M_sorted : StronglySorted slt M.
  Proof. exact (idx_sorted y _ f y_src). Qed.
  Lemma absent t : ~ In t M -> plook i f t = [].
  Proof.
    pose proof HD as H. destruct i as [v|mp vs], r as [g|mp' gs st], y as [x|mp2 xs]; cbn [dicts] in H; try tauto; cbn [idx_terms plook].
    - intros Hn. destruct (z_ok _ _ _ H) as (_ & _ & _ & _ & Hinv & _). assert (G : found (v_kn v) (fst g) (postings (v_fs v) f t) None); [|exact G]. eapply found_ok; [exact Hinv|exact (z_laid _ _ _ H)|]. split; [|reflexivity]. intros j Hj. exfalso. apply Hn. apply (in_map fst) in Hj. exact Hj.
    - destruct H as (-> & -> & -> & Hl & HF & H0). exact (look_absent mp vs gs xs Hl HF f t).
  Qed.
  Lemma one_stands v g x : i = PIOne v -> r = POne g -> y = IOne x -> forall k p e c, (length (terms_of (g_fs x) f) - p < k)%nat -> nth_error (terms_of (g_fs x) f) p = Some c -> at_ (g_skip x) f (terms_of (g_fs x) f) (S p) e ->
    stands (EOne e) (fst c) (skipn (S p) (map fst (terms_of (g_fs x) f))).
  Proof.
    intros Ei Er Ey. pose proof HD as H. rewrite Ei, Er, Ey in H. cbn [dicts] in H. pose proof y_src as Hs. rewrite Er, Ey in Hs. cbn [src_of rdr_of] in Hs. set (L := terms_of (g_fs x) f).
    induction k as [|k IH]; intros p e c Hk Hc He; [lia|]. assert (Hp : (p < length L)%nat) by (apply nth_error_Some; congruence).
    assert (SK : sk (EOne e) (fst c)).
    { unfold sk. rewrite Ei, Er, Ey. intros de P. destruct de as [d|]; cbn [DL]; [|tauto]. intros (rem & HR). cbn [pe_seek_te]. eexists. split; [reflexivity|]. exists []. unfold tde_seek_te. pose proof (z_ok _ _ _ H) as (_ & _ & Hk3 & _ & Hinv & _).
      pose proof (seek_rel (v_kn v) ltac:(lia) false (fst g) d _ (postings (v_fs v) f (fst c)) (Some (e_ti e)) HR) as G. unfold tde_seek in G. rewrite (z_skip _ _ _ H). apply G. clear G. eapply found_ok; [exact Hinv|exact (z_laid _ _ _ H)|].
      destruct He as (_ & _ & [(_ & _ & _ & Hti & _)|(G & _)]); [|exfalso; fold L in G; lia]. rewrite (T_S _ _ _ Hc) in Hti. destruct (z_x _ _ _ H) as (_ & Esk). rewrite Esk in Hti. split.
      - intros i0 Hi0. exists (e_ti e). split; [reflexivity|]. replace i0 with (snd c); [exact Hti|]. destruct Hs as (_ & _ & HFo). destruct (HFo f) as (_ & HS & _). apply In_nth_error in Hi0. destruct Hi0 as (k2 & Hk2). fold L in HS, Hk2.
        destruct (Nat.lt_trichotomy p k2) as [Hlt|[Heq|Hlt]]; [|subst k2; fold L in Hc; rewrite Hc in Hk2; apply some_inj in Hk2; rewrite Hk2; reflexivity|].
        + pose proof (sorted_nth _ HS _ _ _ _ Hc Hk2 Hlt) as G. cbn [fst] in G. exfalso. exact (slt_irr _ G).
        + pose proof (sorted_nth _ HS _ _ _ _ Hk2 Hc Hlt) as G. cbn [fst] in G. exfalso. exact (slt_irr _ G).
      - intros Hn. exfalso. apply Hn. apply in_map. eapply nth_error_In. exact Hc. }
    destruct (next_ok x (dict_of g) f (S p) e Hs He) as (e' & E & He'). fold L in E, He'. rewrite skipn_nth, nth_error_map. destruct (nth_error L (S p)) as [c'|] eqn:Ec; cbn [option_map] in *.
    - assert (S p < length L)%nat by (apply nth_error_Some; congruence). rewrite place_cnt in He' by lia. eapply S_more; [exact SK| |exact (IH (S p) e' c' ltac:(fold L; lia) Ec He')]. rewrite Er. cbn [te_next rdr_of]. rewrite E. reflexivity.
    - eapply S_last; [exact SK|]. rewrite Er. cbn [te_next rdr_of]. rewrite E. reflexivity.
  Qed.
  Lemma many_stands mp vs gs xs : i = PIMany mp vs -> r = PMany mp gs (pstarts 0 vs) -> y = IMany mp xs -> forall capa k p m t, (length M - p < k)%nat -> nth_error M p = Some t ->
    inv mp xs (map dict_of gs) f capa (nth_error M (S p)) m -> Forall2 (tirel mp xs f t) (hs mp xs (map dict_of gs) f t) (q_tis m) -> stands (EMany m) t (skipn (S p) M).
  Proof.
    intros Ei Er Ey capa. pose proof HD as H. pose proof Hf as Hf'. rewrite Ei, Er, Ey in H. rewrite Ei in Hf'. cbn [dicts pidx_field] in H, Hf'. destruct H as (_ & _ & _ & Hl & HF & H0). pose proof (Hsrc vs gs xs Hl HF) as Hs. rewrite Hl in Hf'.
    assert (Hfs : field_in mp (length (map dict_of gs)) f) by (rewrite map_length; exact Hf'). assert (EM : M = union (lists mp f O xs)) by (rewrite Ey; reflexivity).
    induction k as [|k IH]; intros p m t Hk Ht Hm HT; [lia|].
    assert (SK : sk (EMany m) t).
    { unfold sk. rewrite Ei, Er, Ey. intros de P. destruct de as [|d]; cbn [DL]; [tauto|]. intros (C & rem & HR). pose proof HR as (Hq & Hsub & _). destruct (seek_te_ok mp vs gs xs false Hl HF f t Hfs d C m (f, S p)) as (m' & C' & E & HR' & _ & Ete); auto; [discriminate|split; [exact Hfs|exists capa; cbn [fst snd]; rewrite <- EM; exact Hm]|].
      cbn [pe_seek_te]. rewrite E. cbn [obind]. eexists. split; [reflexivity|]. exists C', []. destruct HR' as (_ & G2 & G3 & G4). split; [exact Hq|]. split; [exact G2|]. split; [exact G3|exact G4]. }
    pose proof (next_inv mp xs (map dict_of gs) Hs f Hfs capa (S p) m) as HN. rewrite <- EM in HN. specialize (HN Hm). rewrite (skipn_nth M (S p)). destruct (nth_error M (S p)) as [u|] eqn:Eu.
    - destruct HN as (m' & E & HV & _ & _ & HT'). assert (S p < length M)%nat by (apply nth_error_Some; congruence). eapply S_more; [exact SK| |exact (IH (S p) m' u ltac:(lia) Eu HV HT')]. rewrite Er. cbn [te_next rdr_of]. rewrite E. reflexivity.
    - destruct HN as (m' & E & _). eapply S_last; [exact SK|]. rewrite Er. cbn [te_next rdr_of]. rewrite E. reflexivity.
  Qed.
  Lemma shape : (exists v g x, i = PIOne v /\ r = POne g /\ y = IOne x) \/ (exists mp vs gs xs, i = PIMany mp vs /\ r = PMany mp gs (pstarts 0 vs) /\ y = IMany mp xs).
  Proof.
    pose proof HD as H. destruct i as [v|mp vs], r as [g|mp' gs st], y as [x|mp2 xs]; cbn [dicts] in H; try tauto; [left; eauto 6|]. destruct H as (-> & -> & -> & _). right. eauto 8.
  Qed.
  Lemma skip_stands t : exists z te, terms_skip (rdr_of r) f t = Some (z, te) /\ match skipn (below M t) M with [] => z = None | u :: R => z = Some u /\ stands te u R end.
  Proof.
    destruct shape as [(v & g & x & Ei & Er & Ey)|(mp & vs & gs & xs & Ei & Er & Ey)].
    - pose proof y_src as Hs. rewrite Er, Ey in Hs. cbn [src_of rdr_of] in Hs. set (L := terms_of (g_fs x) f). destruct (scan_ok x (dict_of g) f _ _ t Hs (set_at x (dict_of g) ste_new f Hs)) as (e' & p' & E & Hat & Hp1 & Hp2). fold L in E, Hat, Hp1, Hp2.
      rewrite Er. cbn [terms_skip rdr_of]. rewrite E. cbn [obind fst snd]. rewrite Ey. cbn [idx_terms]. fold L. rewrite below_first. eexists _, _. split; [reflexivity|]. rewrite (skipn_nth (map fst L) (first_ge L t)), nth_error_map. destruct (nth_error L (first_ge L t)) as [c|] eqn:Ec; cbn [option_map]; [|reflexivity]. split; [reflexivity|].
      assert (p' = S (first_ge L t)) as -> by (apply Hp1; intros EL; rewrite EL in Ec; destruct (first_ge [] t); discriminate). exact (one_stands v g x Ei Er Ey (S (length L)) (first_ge L t) e' c ltac:(fold L; lia) Ec Hat).
    - pose proof HD as H. pose proof Hf as Hf'. rewrite Ei, Er, Ey in H. rewrite Ei in Hf'. cbn [dicts pidx_field] in H, Hf'. destruct H as (_ & _ & _ & Hl & HF & H0). rewrite Hl in Hf'. pose proof (Hsrc vs gs xs Hl HF) as Hs. assert (Hfs : field_in mp (length (map dict_of gs)) f) by (rewrite map_length; exact Hf').
      assert (EM : M = union (lists mp f O xs)) by (rewrite Ey; reflexivity).
      destruct (new_ok_none mp xs (map dict_of gs) Hs f Hfs) as (m & E & HV). rewrite Er. cbn [terms_skip rdr_of]. rewrite E. cbn [obind fst snd]. destruct (skip_ok mp xs (map dict_of gs) Hs f Hfs _ _ m t HV) as (q' & subs' & E2 & HV2). unfold mte_skip_to. rewrite E2. cbn [obind fst snd].
      pose proof (next_inv mp xs (map dict_of gs) Hs f Hfs _ _ _ (HV2 (q_term m) (q_df m) (q_tis m))) as HN. rewrite <- EM in *. rewrite (skipn_nth M (below M t)). destruct (nth_error M (below M t)) as [u|] eqn:Eu.
      + destruct HN as (m2 & E3 & HV3 & _ & _ & HT). rewrite E3. cbn [obind fst snd]. eexists _, _. split; [reflexivity|]. split; [reflexivity|].
        apply (many_stands mp vs gs xs Ei Er Ey (length (map dict_of gs)) (S (length M)) (below M t) m2 u); auto; lia.
      + destruct HN as (m2 & E3 & _). rewrite E3. cbn [obind fst snd]. eexists _, _. split; reflexivity.
  Qed.
End I.

(* ---------- the loop *)
Section P.
  Variables (A : Type) (dec : A -> list Z -> option (choice A)).
  (* the terms whose documents are taken *)
  Fixpoint picked (a : A) (l : list (list Z)) : option (list (list Z)) :=
    match l with
    | [] => Some []
    | t :: l' => match dec a t with None => None | Some Stop => Some [] | Some (Skip a') => picked a' l' | Some (Take a') => do x <- picked a' l'; Some (t :: x) end
    end.
  Variables (i : pidx) (r : prdr) (y : idx) (f : Z) (del : Z -> bool).
  Hypothesis (HD : dicts i r y) (Hf : pidx_field i f).
  Notation M := (idx_terms y f).
  Definition of_terms (ps : list (list Z)) (d : Z) : Prop := del d = false /\ exists t p, In t ps /\ In p (plook i f t) /\ fst p = d.
  Lemma of_nil d : ~ of_terms [] d.
  Proof. intros (_ & t & p & [] & _). Qed.
  Lemma loop_ok : forall fuel te t rest, stands i r y f te t rest -> forall a de L bv ps, DL i r y de L -> picked a (t :: rest) = Some ps -> (forall u, In u (t :: rest) -> length (plook i f u) + length rest < fuel)%nat ->
    exists bv', scan_loop A dec r del fuel a t te de bv = Some bv' /\ forall d, In d bv' <-> In d bv \/ of_terms ps d.
  Proof.
    induction fuel as [|fuel IH]; intros te t rest HS a de L bv ps HL Hp Hfu; [exfalso; specialize (Hfu t (or_introl eq_refl)); lia|].
    cbn [scan_loop picked] in *. destruct (dec a t) as [[|a'|a']|]; [| | |discriminate]; cbn [obind].
    - exists bv. split; [reflexivity|]. apply some_inj in Hp. subst ps. intros d. pose proof (of_nil d). tauto.
    - inversion HS as [te1 t1 te' Hsk En|te1 t1 te' u rest' Hsk En HS']; subst; rewrite En; cbn [obind fst snd].
      + cbn [picked] in Hp. apply some_inj in Hp. subst ps. exists bv. split; [reflexivity|]. intros d. pose proof (of_nil d). tauto.
      + eapply IH; eauto. intros v Hv. specialize (Hfu v (or_intror Hv)). cbn [length] in Hfu. lia.
    - assert (Hsk : sk i r y f te t) by (inversion HS; assumption). destruct (Hsk de L HL) as (de' & -> & HL'). cbn [obind].
      destruct (set_docs_ok i r y del HD (S fuel) de' _ bv HL') as (bv1 & de1 & -> & (L1 & HL1) & Hin1); [specialize (Hfu t (or_introl eq_refl)); lia|]. cbn [obind].
      destruct (picked a' rest) as [ps'|] eqn:Ep; [|discriminate]. apply some_inj in Hp. subst ps.
      assert (G : forall d, (In d bv1 \/ of_terms ps' d) <-> (In d bv \/ of_terms (t :: ps') d)).
      { intros d. rewrite Hin1. unfold of_terms. split.
        - intros [[G|(G & q & Hq & Eq)]|(G & u & q & Hu & Hq)]; auto; right; (split; [exact G|]); [exists t, q|exists u, q]; cbn [In]; tauto.
        - intros [G|(G & u & q & [<-|Hu] & Hq & Eq)]; auto; [left; right; eauto|right; eauto 8]. }
      inversion HS as [te1 t1 te' Hsk' En|te1 t1 te' u rest' Hsk' En HS']; subst; rewrite En; cbn [obind fst snd].
      + exists bv1. split; [reflexivity|]. intros d. rewrite <- G. cbn [picked] in Ep. apply some_inj in Ep. subst ps'. pose proof (of_nil d). tauto.
      + destruct (IH te' u rest' HS' a' de1 L1 bv1 ps' HL1 Ep) as (bv2 & E2 & Hin2); [|exists bv2; split; [exact E2|intros d; rewrite Hin2; apply G]]. intros v Hv. specialize (Hfu v (or_intror Hv)). cbn [length] in Hfu. lia.
  Qed.
  Definition enough : nat := S (length M + fold_right (fun u n => length (plook i f u) + n)%nat O M).
  Lemma enough_ok u : In u M -> (length (plook i f u) + length M < enough)%nat.
  Proof. unfold enough. enough (G : forall l, In u l -> (length (plook i f u) <= fold_right (fun u n => length (plook i f u) + n)%nat O l)%nat) by (intros H; specialize (G M H); lia). induction l as [|v l IH]; [intros []|]. intros [->|H]; cbn [fold_right]; [lia|]. specialize (IH H). lia. Qed.
  Lemma scan_ok2 fuel a from ps : (enough <= fuel)%nat -> picked a (skipn (below M from) M) = Some ps ->
    exists bv, scan A dec r del fuel a f from = Some bv /\ forall d, In d bv <-> of_terms ps d.
  Proof.
    intros Hfu Hp. destruct (skip_stands i r y f HD Hf from) as (z & te & E & Hz). unfold scan. rewrite E. cbn [obind fst snd]. destruct (skipn (below M from) M) as [|u R] eqn:EM.
    - subst z. cbn [picked] in Hp. apply some_inj in Hp. subst ps. exists []. split; [reflexivity|]. intros d. pose proof (of_nil d). cbn [In]. tauto.
    - destruct Hz as (-> & HS). destruct (docs_new i r y HD) as (de & -> & HL). cbn [obind]. assert (HI : forall v, In v (u :: R) -> In v M) by (intros v Hv; rewrite <- EM in Hv; rewrite <- (firstn_skipn (below M from) M); apply in_or_app; auto).
      assert (HLen : (length R < length M)%nat) by (apply (f_equal (@length _)) in EM; rewrite skipn_length in EM; cbn [length] in EM; lia).
      destruct (loop_ok fuel te u R HS a de [] [] ps HL Hp) as (bv & E2 & Hin); [|exists bv; split; [exact E2|intros d; rewrite Hin; cbn [In]; tauto]]. intros v Hv. pose proof (enough_ok v (HI v Hv)). lia.
  Qed.
End P.

(* ---------- text ranges *)
Definition low (g : range) (t : list Z) : Prop := match r_lower g with None => True | Some l => if r_incl g then sle l t else slt l t end.
Definition up (g : range) (t : list Z) : Prop := match r_upper g with None => True | Some u => if r_incu g then sle t u else slt t u end.
Lemma stop_up g t : match r_upper g with Some u => sleb u t && (negb (r_incu g) || sltb u t) | None => false end = false <-> up g t.
Proof.
  unfold up. destruct (r_upper g) as [u|]; [|tauto]. destruct (r_incu g); cbn [negb orb].
  - rewrite <- (sltb_ge u t). destruct (sltb u t) eqn:E; [|rewrite Bool.andb_false_r; tauto]. rewrite Bool.andb_true_r, (proj2 (sleb_spec u t)); [split; discriminate|]. apply slt_le, sltb_spec, E.
  - rewrite Bool.andb_true_r. apply sleb_gt.
Qed.
Lemma up_down g t u : slt t u -> up g u -> up g t.
Proof. unfold up. destruct (r_upper g) as [w|]; [|tauto]. destruct (r_incu g); intros H G; [apply slt_le; eapply slt_le_trans; eauto|eapply slt_trans; eauto]. Qed.
Lemma low_up g t u : slt t u -> low g t -> low g u.
Proof. unfold low. destruct (r_lower g) as [w|]; [|tauto]. destruct (r_incl g); intros H G; [eapply sle_trans; [exact G|apply slt_le, H]|eapply slt_trans; eauto]. Qed.
Lemma text_picked g : forall l check, StronglySorted slt l -> (check = false -> Forall (low g) l) -> (check = true -> forall t, low g t <-> slt (lower_of g) t) ->
  exists ps, picked bool (text_dec g) check l = Some ps /\ forall t, In t ps <-> In t l /\ in_range g t.
Proof.
  induction l as [|t l IH]; intros check HS Hc Hl; cbn [picked]; [exists []; split; [reflexivity|cbn; tauto]|]. inversion HS as [|? ? HS' HA]; subst. rewrite Forall_forall in HA. fold (low g) (up g) in *.
  assert (Elow : negb check || sltb (lower_of g) t = true <-> low g t).
  { destruct check; cbn [negb orb]; [rewrite (Hl eq_refl); apply sltb_spec|]. specialize (Hc eq_refl). inversion Hc; subst. tauto. }
  unfold text_dec at 1. destruct (negb check || sltb (lower_of g) t) eqn:E1.
  - assert (Lt : low g t) by (apply Elow; reflexivity). pose proof (stop_up g t) as Hup. destruct (match r_upper g with Some u => sleb u t && (negb (r_incu g) || sltb u t) | None => false end) eqn:E2.
    + exists []. split; [destruct (r_upper g); [rewrite E2; reflexivity|discriminate]|]. intros u. cbn [In]. split; [tauto|]. intros (Hu & _ & Hr). assert (up g t); [|apply Hup in H; discriminate]. destruct Hu as [->|Hu]; [exact Hr|]. exact (up_down g t u (HA u Hu) Hr).
    + destruct (IH false HS') as (ps & Ep & Hps); [intros _; apply Forall_forall; intros u Hu; exact (low_up g t u (HA u Hu) Lt)|discriminate|].
      exists (t :: ps). split; [destruct (r_upper g); [rewrite E2|]; rewrite Ep; reflexivity|]. intros u. cbn [In]. rewrite Hps. split; [intros [->|G]; [|tauto]|tauto]. split; [auto|]. split; [exact Lt|apply Hup; reflexivity].
  - destruct check; [|discriminate]. destruct (IH true HS') as (ps & Ep & Hps); [discriminate|exact Hl|]. exists ps. split; [exact Ep|]. intros u. rewrite Hps. cbn [In]. split; [tauto|]. intros ([<-|G] & Hr); [|tauto]. exfalso. destruct Hr as (Hr & _). apply Elow in Hr. discriminate.
Qed.
Lemma text_ok i r del f g : pidx_open i r -> pidx_field i f -> exists n, forall fuel, (n <= fuel)%nat -> exists bv, rfilt_get_bv fuel r del (Some f) g = Some bv /\ forall d, In d bv <-> has_term i f del (in_range g) d.
Proof.
  intros Ho Hf. destruct (dicts_of i r Ho) as (y & HD). exists (enough i y f). intros fuel Hn. pose proof (M_sorted i r y f HD Hf) as HM. destruct (skipn_below (lower_of g) _ HM) as (S1 & S2 & S3). rewrite Forall_forall in S2.
  set (check := negb (r_incl g || match r_lower g with None => true | _ => false end)).
  destruct (text_picked g _ check S1) as (ps & Ep & Hps).
  { intros Ec. apply Forall_forall. intros t Ht. specialize (S2 t Ht). unfold check in Ec. apply Bool.negb_false_iff in Ec. unfold low, lower_of in *. destruct (r_lower g); [|exact I]. rewrite Bool.orb_false_r in Ec. rewrite Ec. exact S2. }
  { intros Ec t. unfold check in Ec. apply Bool.negb_true_iff, Bool.orb_false_iff in Ec. destruct Ec as (E1 & E2). unfold low, lower_of. destruct (r_lower g); [|discriminate]. rewrite E1. tauto. }
  destruct (scan_ok2 bool (text_dec g) i r y f del HD Hf fuel check (lower_of g) ps Hn Ep) as (bv & E & Hin). exists bv. split; [exact E|]. intros d. rewrite Hin. unfold of_terms, has_term. split; intros (G & t & p & Ht & Hp & Ed); (split; [exact G|]); exists t, p; (split; [|auto]).
  - apply Hps, Ht.
  - apply Hps. split; [|exact Ht]. apply S3; [|destruct (in_dec (list_eq_dec Z.eq_dec) t (idx_terms y f)) as [Hi|Hi]; [exact Hi|exfalso; rewrite (absent i r y f HD Hf t Hi) in Hp; destruct Hp]].
    destruct Ht as (Hlo & _). unfold lower_of. destruct (r_lower g); [|apply sle_nil]. destruct (r_incl g); [exact Hlo|apply slt_le, Hlo].
Qed.

(* ---------- the terms of the index *)
Lemma terms_same kn v frq prx frq2 prx2 ds n : flaid kn frq prx (v_fs v) frq2 prx2 ds -> map fst (terms_of ds n) = pterms v n.
Proof.
  intros (_ & H & _). unfold terms_of, pterms. induction H as [|[a l] [b m] fs ds (E & HF) _ IH]; [reflexivity|]. cbn [fst snd find] in *. subst b. destruct (a =? n); [|exact IH]. induction HF as [|x z l m (Ex & _) _ IHl]; [reflexivity|]. cbn [map]. f_equal; [symmetry; exact Ex|exact IHl].
Qed.
Lemma voc_ok i r y f t : dicts i r y -> pidx_field i f -> In t (idx_terms y f) -> pvoc i f t.
Proof.
  intros H Hf. destruct i as [v|mp vs], r as [g|mp' gs st], y as [x|mp2 xs]; cbn [dicts] in H; try tauto; cbn [idx_terms pvoc].
  - rewrite (terms_same _ _ _ _ _ _ _ f (z_laid _ _ _ H)). auto.
  - destruct H as (-> & -> & -> & Hl & HF & H0). rewrite union_in, in_map_iff. intros (e & <- & He). apply in_concat in He. destruct He as (l & Hin & Ht). apply (in_map fst) in Ht. assert (G : forall k xs, In l (lists mp f k xs) -> exists j x, nth_error xs j = Some x /\ l = terms_in mp f (k + j) x).
    { clear. intros k xs. revert k. induction xs as [|x xs IH]; intros k; cbn [lists]; [intros []|]. intros [<-|H]; [exists O, x; rewrite Nat.add_0_r; auto|]. destruct (IH (S k) H) as (j & z & E & ->). exists (S j), z. cbn [nth_error]. rewrite Nat.add_succ_r. auto. }
    destruct (G O xs Hin) as (j & x & Hx & ->). cbn [Nat.add] in Ht. assert (G2 : forall l j x, Forall2 (fun vg x => segrel (fst vg) (snd vg) x) l xs -> nth_error xs j = Some x -> exists v g, nth_error l j = Some (v, g) /\ segrel v g x).
    { clear. induction xs as [|z xs IH]; intros l j x H; inversion H as [|[v g] b ? ? H1 H2]; subst; (destruct j as [|j]; cbn [nth_error]; [try discriminate|try discriminate; intros E; exact (IH _ _ _ H2 E)]). intros E. apply some_inj in E. subst. eauto. }
    destruct (G2 _ _ _ HF Hx) as (v & g & Hvg & HZ). assert (Hv : nth_error vs j = Some v) by (clear -Hvg; revert gs j Hvg; induction vs as [|a vs IH]; intros [|b gs] [|j]; cbn; try discriminate; [intros E; apply some_inj in E; congruence|apply IH]).
    unfold terms_in in Ht. destruct (fnum mp j f) as [m|] eqn:Em; [|destruct Ht]. destruct (Z.leb_spec 0 m); [|destruct Ht]. exists j, v, m. rewrite (terms_same _ _ _ _ _ _ _ m (z_laid _ _ _ HZ)) in Ht. auto.
Qed.

(* ---------- numeric ranges *)
Lemma hd_mono t u : slt t u -> t <> [] -> List.hd 0 t <= List.hd 0 u.
Proof. destruct t as [|a t]; [congruence|]. destruct u as [|b u]; unfold slt; cbn [scmp List.hd]; [discriminate|]. intros H _. destruct (Z.compare_spec a b); try discriminate; lia. Qed.
Section N.
  Variables (num : Type) (sscanf : list Z -> scanres num) (cond : num -> bool).
  Lemma num_picked : forall l c, StronglySorted slt l -> (forall t, In t l -> 0 <= List.hd 0 t < 128) -> (forall t, In t l -> List.hd 0 t <= 57 -> exists x n, sscanf t = SOk num x n) ->
    exists ps, picked _ (num_dec num sscanf cond) c l = Some ps /\ forall t, In t ps <-> In t l /\ List.hd 0 t <= 57 /\ exists x, number sscanf t x /\ cond x = true.
  Proof.
    induction l as [|t l IH]; intros c HS H128 Hok; cbn [picked]; [exists []; split; [reflexivity|cbn; tauto]|]. inversion HS as [|? ? HS' HA]; subst. rewrite Forall_forall in HA. unfold num_dec at 1. unfold schar. pose proof (H128 t (or_introl eq_refl)) as Ht. rewrite (proj2 (Z.ltb_lt (List.hd 0 t) 128)) by lia.
    destruct (Z.ltb_spec 57 (List.hd 0 t)).
    - exists []. split; [reflexivity|]. intros u. cbn [In]. split; [tauto|]. intros ([->|Hu] & Hle & _); [lia|]. assert (t <> []) as Hne by (intros ->; cbn in *; lia). pose proof (hd_mono t u (HA u Hu) Hne). lia.
    - destruct (Hok t (or_introl eq_refl) ltac:(lia)) as (x & n & En). unfold put. rewrite En. cbn [fst snd]. assert (IH' := fun c' => IH c' HS' (fun u Hu => H128 u (or_intror Hu)) (fun u Hu => Hok u (or_intror Hu))). destruct (IH' (Some x, n)) as (ps & Ep & Hps).
      destruct (Z.eqb_spec n (Z.of_nat (length t))) as [->|Hne].
      + destruct (cond x) eqn:Ec.
        * exists (t :: ps). rewrite Ep. split; [reflexivity|]. intros u. cbn [In]. rewrite Hps. split; [intros [->|G]; [split; [auto|]; split; [lia|]; exists x; split; [exact En|exact Ec]|tauto]|tauto].
        * exists ps. split; [exact Ep|]. intros u. cbn [In]. rewrite Hps. split; [tauto|]. intros ([->|G] & Hh & x' & Hx & Hc); [|split; [exact G|eauto]]. unfold number in Hx. rewrite En in Hx. inversion Hx; subst. congruence.
      + exists ps. split; [exact Ep|]. intros u. cbn [In]. rewrite Hps. split; [tauto|]. intros ([->|G] & Hh & x' & Hx & Hc); [|split; [exact G|eauto]]. unfold number in Hx. rewrite En in Hx. inversion Hx; subst. congruence.
  Qed.
End N.

Section N2.
  Variables (num : Type) (nle nlt : num -> num -> bool) (zero : num) (sscanf : list Z -> scanres num).
  Lemma bound_val s len x : bound_is sscanf s x -> exists z l, bound num zero sscanf s len = (true, z, l) /\ (s <> None -> z = x).
  Proof.
    unfold bound_is, bound, number. destruct s as [t|]; [|intros _; exists zero, len; split; [reflexivity|congruence]]. intros E. unfold put. rewrite E, Z.eqb_refl. exists x, (Z.of_nat (length t)). auto.
  Qed.
  Lemma num_ok i r del f g lo up : pidx_open i r -> pidx_field i f -> bound_is sscanf (r_lower g) lo -> bound_is sscanf (r_upper g) up ->
    (forall t, pvoc i f t -> sle [43; 46] t -> 0 <= List.hd 0 t < 128) -> (forall t, pvoc i f t -> sle [43; 46] t -> List.hd 0 t <= 57 -> exists x n, sscanf t = SOk num x n) ->
    exists n, forall fuel, (n <= fuel)%nat -> exists bv, trfilt_get_bv num nle nlt zero sscanf fuel r del (Some f) g = Some bv /\
      forall d, In d bv <-> has_term i f del (fun t => sle [43; 46] t /\ List.hd 0 t <= 57 /\ exists x, number sscanf t x /\ within_num num nle nlt g lo up x = true) d.
  Proof.
    intros Ho Hf Hlo Hup H128 Hok. destruct (dicts_of i r Ho) as (y & HD). exists (enough i y f). intros fuel Hn. pose proof (M_sorted i r y f HD Hf) as HM. destruct (skipn_below [43; 46] _ HM) as (S1 & S2 & S3). rewrite Forall_forall in S2.
    unfold trfilt_get_bv. destruct (bound_val _ 0 lo Hlo) as (zl & l1 & -> & El). destruct (bound_val _ l1 up Hup) as (zu & l2 & -> & Eu). cbn [andb].
    assert (HI : forall t, In t (skipn (below (idx_terms y f) [43; 46]) (idx_terms y f)) -> pvoc i f t /\ sle [43; 46] t) by (intros t Ht; split; [|exact (S2 t Ht)]; apply (voc_ok i r y f t HD Hf); rewrite <- (firstn_skipn (below (idx_terms y f) [43; 46]) (idx_terms y f)); apply in_or_app; auto).
    destruct (num_picked num sscanf (within_num num nle nlt g zl zu) _ (None, l2) S1) as (ps & Ep & Hps); [intros t Ht; destruct (HI t Ht); auto|intros t Ht; destruct (HI t Ht); auto|].
    destruct (scan_ok2 _ _ i r y f del HD Hf fuel _ [43; 46] ps Hn Ep) as (bv & E & Hin). exists bv. split; [exact E|].
    assert (Ew : forall x, within_num num nle nlt g zl zu x = within_num num nle nlt g lo up x) by (intros x; unfold within_num; destruct (r_lower g); [rewrite El by discriminate|]; (destruct (r_upper g); [rewrite Eu by discriminate; reflexivity|reflexivity])).
    intros d. rewrite Hin. unfold of_terms, has_term. split; intros (G & t & p & Ht & Hp & Ed); (split; [exact G|]); exists t, p; (split; [|auto]).
    - apply Hps in Ht. destruct Ht as (Ht & Hh & x & Hx & Hc). split; [exact (S2 t Ht)|]. split; [exact Hh|]. exists x. rewrite <- Ew. auto.
    - destruct Ht as (Ht & Hh & x & Hx & Hc). apply Hps. split; [|split; [exact Hh|]; exists x; rewrite Ew; auto]. apply S3; [exact Ht|]. destruct (in_dec (list_eq_dec Z.eq_dec) t (idx_terms y f)) as [Hi|Hi]; [exact Hi|exfalso; rewrite (absent i r y f HD Hf t Hi) in Hp; destruct Hp].
  Qed.
End N2.

Lemma within_ok num (nle nlt : num -> num -> bool) g lo up x : within_num num nle nlt g lo up x = true <-> num_in nle nlt g lo up x.
Proof. unfold within_num, num_in. rewrite andb_true_iff. destruct (r_lower g), (r_upper g), (r_incl g), (r_incu g); intuition. Qed.
Lemma range_new_ok lower upper incl incu g : range_new lower upper incl incu = Some g <-> bounds_ok lower upper incl incu /\ g = mkRange lower upper incl incu.
Proof.
  unfold range_new, bounds_ok. destruct lower as [l|], upper as [u|], incl, incu; cbn [andb]; try (split; [discriminate|]; intros [(A & B & C & D) _]; exfalso; first [exact (B eq_refl eq_refl)|exact (C eq_refl eq_refl)|destruct A as [A|A]; exact (A eq_refl)]);
    try (destruct (sltb u l) eqn:E; [split; [discriminate|]; intros [(_ & _ & _ & D) _]; apply sltb_spec in E; specialize (D l u eq_refl eq_refl); apply sle_not in D; contradiction|]);
    (split; [intros G; apply some_inj in G; split; [|congruence]; split; [(left; discriminate) || (right; discriminate)|]; split; [discriminate|]; split; [discriminate|]; intros l' u' E1 E2; try discriminate; apply some_inj in E1, E2; subst; apply sltb_ge; assumption|intros [_ ->]; reflexivity]).
Qed.
Lemma num_ok2 num nle nlt zero sscanf i r del f g lo up : pidx_open i r -> pidx_field i f -> bound_is sscanf (r_lower g) lo -> bound_is sscanf (r_upper g) up ->
  (forall t, pvoc i f t -> sle [43; 46] t -> 0 <= List.hd 0 t < 128) -> (forall t, pvoc i f t -> sle [43; 46] t -> List.hd 0 t <= 57 -> exists x n, sscanf t = SOk num x n) ->
  exists n, forall fuel, (n <= fuel)%nat -> exists bv, trfilt_get_bv num nle nlt zero sscanf fuel r del (Some f) g = Some bv /\
    forall d, In d bv <-> has_term i f del (fun t => sle [43; 46] t /\ List.hd 0 t <= 57 /\ exists x, number sscanf t x /\ num_in nle nlt g lo up x) d.
Proof.
  intros A B C D E F. destruct (num_ok num nle nlt zero sscanf i r del f g lo up A B C D E F) as (n & G). exists n. intros fuel Hf. destruct (G fuel Hf) as (bv & G1 & G2). exists bv. split; [exact G1|].
  intros d. rewrite G2. unfold has_term. split; intros (H1 & t & p & (P1 & P2 & x & P3 & P4) & P5); (split; [exact H1|]); exists t, p; (split; [|exact P5]); (split; [exact P1|]); (split; [exact P2|]); exists x; (split; [exact P3|]); apply within_ok; exact P4.
Qed.
