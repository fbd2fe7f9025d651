From Coq Require Import Sorting.Sorted Sorting.Permutation.
From Verif Require Import Util Strcmp PQueue_Model PQueue_Spec PQueue_Proofs Match_Model Match_Spec Match_Properties Span_Model Span_Spec Span_Proofs SpanQuery_Proofs Collect_Model Collect_Spec Collect_Proofs CollectSpan_Model CollectSpan_Spec CollectSpan_Proofs Ring.
Open Scope Z_scope.
(* ---------- positions of a term inside compacted ranges *)
Lemma term_mv_cons p r c cs : term_mv (p :: r) (c :: cs) = do m <- c; if p <=? m_end m then do more <- term_mv r (c :: cs); Some (if m_start m <=? p then (p, p) :: more else more) else term_mv (p :: r) cs.
Proof. reflexivity. Qed.
Lemma term_mv_ok : forall ps out, up ps -> Match_Spec.apart 0 out -> proper out -> exists ms, term_mv ps (map Some out) = Some ms /\ forall r, In r ms <-> exists p, In p ps /\ covers out p /\ r = (p, p).
Proof.
  induction ps as [|p ps IH]; intros out Hu; [intros _ _; exists []; split; [reflexivity|]; intros r; split; [intros []|intros (p & [] & _)]|]. apply up_inv in Hu. destruct Hu as (Hu & Hp). induction out as [|m out IHo]; intros Ha Hpr.
  - destruct (IH [] Hu Ha Hpr) as (ms & E & Hm). exists ms. split; [exact E|]. intros r. rewrite Hm. split; intros (q & H1 & (m & [] & _) & _).
  - cbn [map]. rewrite term_mv_cons. cbn [obind]. assert (Hpr' : proper out) by (intros x Hx; apply Hpr; right; exact Hx). assert (Ha' : Match_Spec.apart 0 out) by (inversion Ha; assumption). destruct (Z.leb_spec p (m_end m)) as [Hle|Hgt].
    + destruct (IH (m :: out) Hu Ha Hpr) as (ms & E & Hm). cbn [map] in E. rewrite E. cbn [obind]. eexists. split; [reflexivity|]. intros r. assert (HC : covers (m :: out) p <-> m_start m <= p).
      { split; [|intros H; exists m; split; [left; reflexivity|lia]]. intros (x & [<-|Hx] & H); [lia|]. inversion Ha as [|? ? _ HF]. subst. rewrite Forall_forall in HF. specialize (HF x Hx). cbn in HF. pose proof (Hpr m (or_introl eq_refl)). lia. }
      destruct (Z.leb_spec (m_start m) p) as [Hs|Hs].
      * split; [intros [<-|H]; [exists p; split; [left; reflexivity|]; split; [apply HC; exact Hs|reflexivity]|apply Hm in H; destruct H as (q & Hq & Hr); exists q; split; [right; exact Hq|exact Hr]]|]. intros (q & [<-|Hq] & HCq & ->); [left; reflexivity|right; apply Hm; exists q; auto].
      * rewrite Hm. split; [intros (q & Hq & Hr); exists q; split; [right; exact Hq|exact Hr]|]. intros (q & [<-|Hq] & HCq & ->); [apply HC in HCq; lia|exists q; auto].
    + destruct (IHo Ha' Hpr') as (ms & E & Hm). rewrite E. exists ms. split; [reflexivity|]. intros r. rewrite Hm. split; intros (q & Hq & (x & Hx & Hr) & ->); exists q; (split; [exact Hq|split; [|reflexivity]]); exists x; (split; [|exact Hr]); [right; exact Hx|].
      destruct Hx as [<-|Hx]; [|exact Hx]. exfalso. destruct Hq as [<-|Hq]; [lia|specialize (Hp q Hq); lia].
Qed.
Lemma list_cells w out : v_list w = Some out -> v_cells w = map Some out.
Proof.
  unfold v_list, v_cells. destruct (_ <=? _)%nat; [|discriminate]. generalize (firstn (v_size w) (v_mem w)). intros l. revert out. induction l as [|[a|] l IH]; intros out E; cbn [Match_Model.all_some] in E; try discriminate; [apply some_inj in E; subst out; reflexivity|]. destruct (Match_Model.all_some l) as [r|]; [|discriminate]. apply some_inj in E. subst out. cbn [map]. rewrite (IH r eq_refl). reflexivity.
Qed.
Section TV.
  Variable v : tv.
  Hypothesis HV : tv_ok v.
  Variable qsort : (mr -> mr -> Z) -> list mr -> list mr.
  Hypothesis HQ : qsorts qsort.
  Lemma terms_mv_ok out : Match_Spec.apart 0 out -> proper out -> forall terms, exists ms, terms_mv v terms (map Some out) = Some ms /\ forall r, In r ms <-> exists t p, In t terms /\ occurs v t p /\ covers out p /\ r = (p, p).
  Proof.
    intros Ha Hp. induction terms as [|t terms (ms & E & Hm)]; [exists []; split; [reflexivity|]; intros r; split; [intros []|intros (t & p & [] & _)]|]. cbn [terms_mv]. destruct (get_term_ok v HV t) as (x & Ex & Hx). rewrite Ex. cbn [obind]. destruct x as [ps|].
    - destruct Hx as (_ & _ & Hup & Hocc). destruct (term_mv_ok ps out Hup Ha Hp) as (here & Eh & Hh). rewrite Eh, E. cbn [obind]. eexists. split; [reflexivity|]. intros r. rewrite in_app_iff, Hm, Hh. split.
      + intros [(p & H1 & H2 & ->)|(t' & p & H1 & H2)]; [exists t, p; split; [left; reflexivity|]; split; [apply Hocc; exact H1|auto]|exists t', p; split; [right; exact H1|exact H2]].
      + intros (t' & p & [<-|H1] & H2 & H3 & ->); [left; exists p; split; [apply Hocc; exact H2|auto]|right; exists t', p; auto].
    - rewrite E. cbn [obind app]. exists ms. split; [reflexivity|]. intros r. rewrite Hm. split; intros (t' & p & H1 & H2); exists t', p; [split; [right; exact H1|exact H2]|]. destruct H1 as [<-|H1]; [destruct (Hx p (proj1 H2))|auto].
  Qed.
  Lemma from_spans_ok terms l : l <> [] -> (forall x, In x l -> fst x < snd x) ->
    exists ms, from_spans qsort v terms l = Some ms /\ forall r, In r ms <-> exists t p x, In t terms /\ occurs v t p /\ In x l /\ fst x <= p < snd x /\ r = (p, p).
  Proof.
    intros Hne Hl. unfold from_spans. destruct (compact_cov qsort (map (fun x : Z * Z => (fst x, snd x - 1)) l) HQ) as (w & out & E & EL & Ha & Hp & HC).
    - destruct l; [congruence|discriminate].
    - intros m Hm. apply in_map_iff in Hm. destruct Hm as (x & <- & Hx). cbn [fst snd]. specialize (Hl x Hx). lia.
    - rewrite E. cbn [obind]. rewrite (list_cells w out EL). assert (Ha0 : Match_Spec.apart 0 out).
      { clear - Ha. unfold Match_Spec.apart in *. induction Ha; constructor; auto. eapply Forall_impl; [|exact H]. cbn. intros. lia. }
      destruct (terms_mv_ok out Ha0 Hp (nodup str_dec terms)) as (ms & Em & Hm). exists ms. split; [exact Em|]. intros r. rewrite Hm. split.
      + intros (t & p & H1 & H2 & H3 & ->). apply nodup_In in H1. apply HC in H3. destruct H3 as (m & Hin & Hr). apply in_map_iff in Hin. destruct Hin as (y & <- & Hy). apply in_map_iff in Hy. destruct Hy as (x & <- & Hx). cbn in Hr. exists t, p, x. split; [exact H1|]. split; [exact H2|]. split; [exact Hx|]. split; [lia|reflexivity].
      + intros (t & p & x & H1 & H2 & H3 & H4 & ->). exists t, p. split; [apply nodup_In; exact H1|]. split; [exact H2|]. split; [|reflexivity]. apply HC. exists (range (fst x, snd x - 1)). split; [apply in_map, in_map_iff; exists x; auto|cbn; lia].
  Qed.
  (* without spans the compaction makes a range of what was never written *)
  Lemma from_none_absent terms : (forall t p, In t terms -> ~ occurs v t p) -> from_spans qsort v terms [] = Some [].
  Proof.
    intros H. unfold from_spans. cbn [map]. destruct (empty_compact qsort false HQ) as (w & E & _). change (vec_of []) with matchv_new. rewrite E. cbn [obind]. assert (G : forall t p, In t (nodup str_dec terms) -> ~ occurs v t p) by (intros t p Ht; apply H; apply nodup_In in Ht; exact Ht). revert G. generalize (nodup str_dec terms). intros l. induction l as [|t l IH]; intros G; [reflexivity|]. cbn [terms_mv]. destruct (get_term_ok v HV t) as (x & Ex & Hx). rewrite Ex. cbn [obind]. destruct x as [ps|].
    - destruct Hx as (_ & Hne & _ & Hocc). destruct ps as [|p ps]; [congruence|]. destruct (G t p (or_introl eq_refl)). apply Hocc. left. reflexivity.
    - rewrite IH; [reflexivity|]. intros t' p Ht'. apply G. right. exact Ht'.
  Qed.
  Lemma from_none_undefined terms t p : In t terms -> occurs v t p -> from_spans qsort v terms [] = None.
  Proof.
    intros H Ho. unfold from_spans. cbn [map]. change (vec_of []) with matchv_new. assert (E : exists w, compact qsort false matchv_new = Some w /\ v_cells w = [None]).
    { assert (E : qsort mr_cmp [] = []) by (destruct (Match_Proofs.qsort_ok false qsort HQ []) as (K & _); apply Permutation_nil in K; exact K). unfold compact, matchv_sort. cbn [v_list matchv_new v_size v_mem INIT_CAPA repeat length Nat.leb firstn Match_Model.all_some obind]. rewrite E. cbn. eexists. split; reflexivity. }
    destruct E as (w & E & EC). rewrite E. cbn [obind]. rewrite EC. apply (nodup_In str_dec) in H. revert H. generalize (nodup str_dec terms). intros l. induction l as [|u l IH]; intros H; [destruct H|]. cbn [terms_mv]. destruct (get_term_ok v HV u) as (x & Ex & Hx). rewrite Ex. cbn [obind]. destruct x as [ps|].
    - destruct Hx as (_ & Hne & _ & _). destruct ps as [|q ps]; [congruence|]. reflexivity.
    - destruct H as [->|H]; [destruct (Hx p Ho)|]. rewrite (IH H). reflexivity.
  Qed.
End TV.
(* ---------- the query on the field *)
Section TSQ_IND.
  Variable P : tsq -> Prop.
  Hypothesis HT : forall t, P (GTerm t).
  Hypothesis HF : forall e q, P q -> P (GFirst e q).
  Hypothesis HO : forall qs, Forall P qs -> P (GOr qs).
  Hypothesis HN : forall o s qs, Forall P qs -> P (GNear o s qs).
  Hypothesis HX : forall a b, P a -> P b -> P (GNot a b).
  Fixpoint tsq_ind2 (q : tsq) : P q :=
    match q with
    | GTerm t => HT t
    | GFirst e q => HF e q (tsq_ind2 q)
    | GOr qs => HO qs ((fix go l : Forall P l := match l with [] => Forall_nil P | q :: t => Forall_cons q (tsq_ind2 q) (go t) end) qs)
    | GNear o s qs => HN o s qs ((fix go l : Forall P l := match l with [] => Forall_nil P | q :: t => Forall_cons q (tsq_ind2 q) (go t) end) qs)
    | GNot a b => HX a b (tsq_ind2 a) (tsq_ind2 b)
    end.
End TSQ_IND.
Section ONTV.
  Variable v : tv.
  Hypothesis HV : tv_ok v.
  Hypothesis HP : pos_ok v.
  Record stands (q : tsq) (s : squery) : Prop := {
    sd_ok : terms_ok s;
    sd_spans : forall x, spans_in s x <-> tspan v q x;
    sd_usable : forall k, usable k s = usable k (shape q);
    sd_readable : readable s = readable (shape q);
    sd_ready : forall b, settled v b q -> ready b s = true }.
  Lemma stands_list qs : Forall (fun q => exists s, on_tv v q = Some s /\ stands q s) qs -> exists ss, Span_Model.all_some (map (on_tv v) qs) = Some ss /\ Forall2 stands qs ss.
  Proof.
    induction 1 as [|q qs (s & E & Hs) _ (ss & Es & Hss)]; [exists []; split; [reflexivity|constructor]|]. exists (s :: ss). cbn [map Span_Model.all_some]. rewrite E, Es. cbn [obind]. split; [reflexivity|constructor; assumption].
  Qed.
  Lemma list_usable k qs ss : Forall2 stands qs ss -> forallb (usable k) ss = forallb (usable k) (map shape qs).
  Proof. induction 1 as [|q s qs ss H _ IH]; [reflexivity|]. cbn [map forallb]. rewrite IH, (sd_usable _ _ H). reflexivity. Qed.
  Lemma list_ok qs ss : Forall2 stands qs ss -> (fix go (l : list squery) : Prop := match l with [] => True | q :: t => terms_ok q /\ go t end) ss.
  Proof. induction 1 as [|q s qs ss H _ IH]; [exact Logic.I|]. split; [exact (sd_ok _ _ H)|exact IH]. Qed.
  Lemma list_ready b qs ss : Forall2 stands qs ss -> (fix go (l : list tsq) : Prop := match l with [] => True | q :: t => settled v b q /\ go t end) qs -> forallb (ready b) ss = true.
  Proof. induction 1 as [|q s qs ss H _ IH]; [reflexivity|]. intros (H1 & H2). cbn [forallb]. rewrite (sd_ready _ _ H b H1), (IH H2). reflexivity. Qed.
  Lemma on_tv_ok q : exists s, on_tv v q = Some s /\ stands q s.
  Proof.
    induction q as [t|e q (s & E & Hs)|qs IH|o slop qs IH|a b (sa & Ea & Ha) (sb & Eb & Hb)] using tsq_ind2; cbn [on_tv].
    - destruct (get_term_ok v HV t) as (x & Ex & Hx). rewrite Ex. cbn [obind]. eexists. split; [reflexivity|]. destruct x as [ps|].
      + destruct Hx as (_ & Hne & Hup & Hocc). constructor; try reflexivity.
        * cbn [terms_ok]. split; [repeat constructor|]. constructor; [|constructor]. cbn [fst snd]. split; [unfold INT_MAX; lia|]. split; [exact Hne|]. split; [exact Hup|]. apply Forall_forall. intros p Hp. apply (HP t). apply Hocc. exact Hp.
        * intros [d s e]. cbn [spans_in tspan s_doc s_st s_en]. rewrite Hocc. split; [intros (l & [E|[]] & H1 & H2); injection E as <- <-; auto|intros (-> & H1 & H2); exists ps; split; [left; reflexivity|auto]].
        * intros b _. cbn [ready]. destruct ps; [congruence|reflexivity].
      + constructor; try reflexivity.
        * cbn [terms_ok]. split; constructor.
        * intros x. cbn [spans_in tspan]. split; [intros (l & [] & _)|intros (_ & H & _); destruct (Hx _ H)].
        * intros b H. cbn [ready settled] in *. destruct b; [|reflexivity]. destruct (H eq_refl) as (p & Hp). destruct (Hx p Hp).
    - rewrite E. cbn [obind]. eexists. split; [reflexivity|]. destruct Hs as [H1 H2 H3 H4 H5]. constructor; cbn [terms_ok spans_in tspan usable readable ready settled shape]; auto. intros x. rewrite H2. reflexivity.
    - destruct (stands_list qs IH) as (ss & E & HS). rewrite E. cbn [obind]. eexists. split; [reflexivity|]. constructor.
      + exact (list_ok _ _ HS).
      + intros x. cbn [spans_in tspan]. clear - HS. induction HS as [|q s qs ss H _ IH]; [reflexivity|]. rewrite IH, (sd_spans _ _ H). reflexivity.
      + intros k. exact (list_usable k _ _ HS).
      + cbn [shape readable]. destruct HS as [|q s qs ss H HS]; [reflexivity|]. destruct HS; [exact (sd_readable _ _ H)|reflexivity].
      + intros b H. exact (list_ready b _ _ HS H).
    - destruct (stands_list qs IH) as (ss & E & HS). rewrite E. cbn [obind]. eexists. split; [reflexivity|]. constructor; try reflexivity.
      + exact (list_ok _ _ HS).
      + intros x. cbn [spans_in tspan]. clear - HS. assert (G : forall l, (fix go (qs : list squery) (l : list span) : Prop := match qs, l with [], [] => True | q :: qs', y :: l' => spans_in q y /\ go qs' l' | _, _ => False end) ss l <-> (fix go (qs : list tsq) (l : list span) : Prop := match qs, l with [], [] => True | q :: qs', y :: l' => tspan v q y /\ go qs' l' | _, _ => False end) qs l).
        { induction HS as [|q s qs ss H _ IH]; intros [|y l]; try reflexivity. rewrite IH, (sd_spans _ _ H). reflexivity. }
        split; intros (l & H1 & H2); exists l; (split; [apply G; exact H1|exact H2]).
      + intros b H. cbn [ready settled] in *. destruct HS as [|q s qs ss Hq HS]; [destruct H|]. destruct H as (H1 & H2). rewrite (sd_ready _ _ Hq b H1), (list_ready true _ _ HS H2). reflexivity.
    - rewrite Ea, Eb. cbn [obind]. eexists. split; [reflexivity|]. destruct Ha as [A1 A2 A3 A4 A5], Hb as [B1 B2 B3 B4 B5]. constructor; cbn [terms_ok spans_in tspan usable readable ready settled shape]; auto.
      + intros x. rewrite A2. split; intros (H1 & H2); (split; [exact H1|]); intros y Hy; apply H2, B2; exact Hy.
      + intros k. rewrite A3, B3, B4. reflexivity.
      + intros bb (-> & H1 & H2). rewrite (A5 false H1), (B5 false H2). reflexivity.
  Qed.
  Lemma searchable_shape q s : on_tv v q = Some s -> stands q s -> searchable s = searchable (shape q).
  Proof.
    intros E Hs. destruct q as [t|e q|qs|o slop qs|a b]; cbn [on_tv] in E.
    - destruct (get_term v t); [|discriminate]. apply some_inj in E. subst s. reflexivity.
    - destruct (on_tv v q); [|discriminate]. apply some_inj in E. subst s. exact (sd_usable _ _ Hs false).
    - destruct (Span_Model.all_some _); [|discriminate]. apply some_inj in E. subst s. exact (sd_usable _ _ Hs false).
    - destruct (stands_list qs) as (ss & E' & HS); [apply Forall_forall; intros q _; apply on_tv_ok|]. rewrite E' in E. apply some_inj in E. subst s. cbn [shape searchable]. destruct HS as [|q s qs ss H HS]; [reflexivity|]. destruct HS as [|q1 s1 qs ss H1 HS]; [reflexivity|]. cbn [map]. rewrite (sd_usable _ _ H). f_equal. cbn [forallb]. rewrite (sd_usable _ _ H1), (sd_readable _ _ H1). f_equal.
      clear - HS. induction HS as [|q s qs ss H _ IH]; [reflexivity|]. cbn [map forallb]. rewrite IH, (sd_usable _ _ H), (sd_readable _ _ H). reflexivity.
    - destruct (on_tv v a); [|discriminate]. cbn [obind] in E. destruct (on_tv v b); [|discriminate]. apply some_inj in E. subst s. exact (sd_usable _ _ Hs false).
  Qed.
End ONTV.
(* spans are not empty *)
Lemma usable_proper : forall q k x, usable k q = true -> spans_in q x -> s_st x < s_en x.
Proof.
  fix IH 1. intros [l|e q|qs|o slop qs|a b] k x Hu H; cbn [usable spans_in] in *.
  - destruct H as (ps & _ & _ & H). lia.
  - exact (IH q k x Hu (proj1 H)).
  - induction qs as [|q qs IHq]; [destruct H|]. cbn [forallb] in Hu. bt. destruct H as [H|H]; [exact (IH q k x H0 H)|exact (IHq H1 H)].
  - discriminate.
  - bt. exact (IH a k x H0 (proj1 H)).
Qed.
Lemma searchable_proper q x : searchable q = true -> spans_in q x -> s_st x < s_en x.
Proof.
  destruct q as [l|e q|qs|o slop qs|a b]; try (apply usable_proper). cbn [searchable]. destruct qs as [|q0 [|q1 qs]]; try discriminate. intros Hu (l & Hl & Hw & _). bt. destruct l as [|y l]; [destruct Hl|]. destruct Hl as (Hy & _). apply (usable_proper q0 true) in Hy; [|assumption]. apply Forall_inv in Hw. lia.
Qed.
Lemma found_all q : searchable q = true -> terms_ok q -> exists l n, (forall f, (n <= f)%nat -> enumerate f q = Some l) /\ (forall x, In x l -> spans_in q x) /\ (forall x, spans_in q x -> l <> []) /\ (usable false q = true -> forall x, In x l <-> spans_in q x).
Proof.
  intros Hu Ht. destruct (search_ok q Hu Ht) as (l & hits & n & E & H1 & _). destruct (usable false q) eqn:Eu.
  - destruct (enumerates q Eu Ht) as (l' & n' & E' & _ & H' & _). exists l', n'. splits; auto; [intros x Hx; apply H'; exact Hx|]. intros x Hx ->. apply H' in Hx. exact Hx.
  - destruct q as [| | |o slop [|q0 [|q1 qs]]|]; cbn [searchable] in Hu; try congruence. bt. cbn [terms_ok] in Ht. destruct Ht as (Ht0 & Ht). apply (terms_list (q1 :: qs)) in Ht. destruct (near_built o slop q0 q1 qs) as (s & m & vs & E1 & HB & K1 & K2 & K3).
    + apply usable_built; assumption.
    + rewrite forallb_forall in H0. rewrite Forall_forall in *. intros q Hq. specialize (H0 q Hq). apply andb_true_iff in H0. apply usable_built; [tauto|apply Ht; exact Hq].
    + rewrite forallb_forall in *. intros q Hq. specialize (H0 q Hq). apply andb_true_iff in H0. tauto.
    + destruct (nb_enum _ _ HB) as (m' & Em). exists vs, (Nat.max m m'). splits; auto; [|intros x Hx ->; exact (K3 x Hx)|discriminate]. intros f Hf. unfold enumerate. rewrite E1 by lia. cbn [obind]. apply Em. lia.
Qed.
Definition gmarks (v : tv) (q : tsq) (p : Z) : Prop := exists t x, In t (g_terms q) /\ occurs v t p /\ tspan v q x /\ s_st x <= p < s_en x.
Fixpoint sought_terms q {struct q} : forall t, sought q t <-> In t (g_terms q).
Proof.
  assert (L : forall l t, (fix all (l : list tsq) : Prop := match l with [] => True | q :: r => (forall t, sought q t <-> In t (g_terms q)) /\ all r end) l -> (exists q, In q l /\ sought q t) <-> In t (flat_map g_terms l)).
  { induction l as [|q0 l IH]; intros t H; [split; [intros (q1 & [] & _)|intros []]|]. destruct H as (H0 & H). specialize (IH t H). cbn [flat_map]. rewrite in_app_iff, <- IH, <- H0. split.
    - intros (q1 & [<-|Hq] & Hs); [left; exact Hs|right; exists q1; auto].
    - intros [Hs|(q1 & Hq & Hs)]; [exists q0; split; [left; reflexivity|exact Hs]|exists q1; split; [right; exact Hq|exact Hs]]. }
  assert (A : forall l, (forall q, In q l -> forall t, sought q t <-> In t (g_terms q)) -> (fix all (l : list tsq) : Prop := match l with [] => True | q :: r => (forall t, sought q t <-> In t (g_terms q)) /\ all r end) l).
  { induction l as [|q0 l IH]; intros H; [exact Logic.I|]. split; [apply H; left; reflexivity|apply IH; intros q1 Hq; apply H; right; exact Hq]. }
  intros t. destruct q as [u|e q|qs|o slop qs|a b]; cbn [g_terms].
  - split; [intros H; inversion H; left; reflexivity|intros [->|[]]; constructor].
  - rewrite <- sought_terms. split; [intros H; inversion H; assumption|apply So_first].
  - rewrite <- (L qs t); [split; [intros H; inversion H; eauto|intros (q1 & Hq & Hs); eapply So_or; eauto]|]. revert qs. fix go 1. intros [|q0 qs]; [exact Logic.I|split; [exact (sought_terms q0)|exact (go qs)]].
  - rewrite <- (L qs t); [split; [intros H; inversion H; eauto|intros (q1 & Hq & Hs); eapply So_near; eauto]|]. revert qs. fix go 1. intros [|q0 qs]; [exact Logic.I|split; [exact (sought_terms q0)|exact (go qs)]].
  - rewrite <- sought_terms. split; [intros H; inversion H; assumption|apply So_not].
Qed.
Lemma marks_iff v q p : gmarks v q p <-> span_marks v q p.
Proof. split; intros (t & x & H & K); exists t, x; (split; [apply sought_terms; exact H|exact K]). Qed.
Section HILITE.
  Variable v : tv.
  Hypothesis HV : tv_ok v.
  Hypothesis HP : pos_ok v.
  Variable qsort : (mr -> mr -> Z) -> list mr -> list mr.
  Hypothesis HQ : qsorts qsort.
  Definition ends (x : span) : Z * Z := (s_st x, s_en x).
  Lemma sq_sound q f ms : searchable (shape q) = true -> spanq_matchv qsort f v (tv_field v) q = Some ms -> forall r, In r ms -> exists p, r = (p, p) /\ gmarks v q p.
  Proof.
    intros Hs E r Hr. unfold spanq_matchv in E. rewrite Z.eqb_refl in E. destruct (on_tv_ok v HV HP q) as (s & Es & Hst). rewrite <- (searchable_shape v HV HP q s Es Hst) in Hs. rewrite Es in E. cbn [obind] in E. destruct (tv_enumerate f s) as [l|] eqn:El; [|discriminate]. cbn [obind] in E.
    destruct (found_all s Hs (sd_ok _ _ _ Hst)) as (l' & n & En & H1 & _). assert (l' = l). { pose proof (tv_enumerate_ref f (Nat.max f n) s (Nat.le_max_l _ _) l El) as K. rewrite (En _ (Nat.le_max_r f n)) in K. apply some_inj in K. exact K. } subst l'.
    destruct l as [|x0 l0] eqn:EL.
    - destruct ms as [|m ms]; [destruct Hr|]. exfalso. cbn [map] in E. 
      assert (G : (forall t p, In t (g_terms q) -> ~ occurs v t p) \/ exists t p, In t (g_terms q) /\ occurs v t p).
      { clear - HV. induction (g_terms q) as [|t ts [IH|(u & p & H)]]; [left; intros t p []| |right; exists u, p; split; [right|]; tauto]. destruct (get_term_ok v HV t) as ([ps|] & _ & Hx); [right; destruct Hx as (_ & Hne & _ & Hocc); destruct ps as [|p ps]; [congruence|]; exists t, p; split; [left; reflexivity|apply Hocc; left; reflexivity]|left; intros u p [<-|Hu]; [apply Hx|apply IH; exact Hu]]. }
      destruct G as [G|(t & p & H2 & H3)]; [rewrite (from_none_absent v HV qsort HQ _ G) in E; discriminate|rewrite (from_none_undefined v HV qsort HQ _ t p H2 H3) in E; discriminate].
    - rewrite <- EL in *. destruct (from_spans_ok v HV qsort HQ (g_terms q) (map (fun x => (s_st x, s_en x)) l)) as (ms' & Em & Hm).
      + rewrite EL. discriminate.
      + intros y Hy. apply in_map_iff in Hy. destruct Hy as (x & <- & Hx). cbn [fst snd]. apply (searchable_proper s); [exact Hs|apply H1; exact Hx].
      + rewrite Em in E. apply some_inj in E. subst ms'. apply Hm in Hr. destruct Hr as (t & p & y & K1 & K2 & K3 & K4 & ->). apply in_map_iff in K3. destruct K3 as (x & <- & Hx). cbn [fst snd] in K4. exists p. split; [reflexivity|]. exists t, x. split; [exact K1|]. split; [exact K2|]. split; [apply (sd_spans _ _ _ Hst), H1; exact Hx|exact K4].
  Qed.
  Lemma sq_exact q : usable false (shape q) = true -> settled v false q -> (exists x, tspan v q x) ->
    exists ms n, (forall f, (n <= f)%nat -> spanq_matchv qsort f v (tv_field v) q = Some ms) /\ forall r, In r ms <-> exists p, r = (p, p) /\ gmarks v q p.
  Proof.
    intros Hu Hset (x0 & Hx0). unfold spanq_matchv. rewrite Z.eqb_refl. destruct (on_tv_ok v HV HP q) as (s & Es & Hst). rewrite Es. cbn [obind]. rewrite <- (sd_usable _ _ _ Hst) in Hu. assert (Hs : searchable s = true) by (destruct s; try exact Hu; discriminate).
    destruct (found_all s Hs (sd_ok _ _ _ Hst)) as (l & n & En & H1 & H2 & H3). specialize (H3 Hu). apply (sd_spans _ _ _ Hst) in Hx0. pose proof (H2 x0 Hx0) as Hne.
    destruct (from_spans_ok v HV qsort HQ (g_terms q) (map (fun x => (s_st x, s_en x)) l)) as (ms & Em & Hm).
    - destruct l; [congruence|discriminate].
    - intros y Hy. apply in_map_iff in Hy. destruct Hy as (x & <- & Hx). cbn [fst snd]. apply (searchable_proper s); [exact Hs|apply H1; exact Hx].
    - exists ms, n. split; [intros f Hf; rewrite (ready_enumerate f s l (sd_ready _ _ _ Hst false Hset) (En f Hf)); exact Em|]. intros r. rewrite Hm. split.
      + intros (t & p & y & K1 & K2 & K3 & K4 & ->). apply in_map_iff in K3. destruct K3 as (x & <- & Hx). exists p. split; [reflexivity|]. exists t, x. split; [exact K1|]. split; [exact K2|]. split; [apply (sd_spans _ _ _ Hst), H1; exact Hx|exact K4].
      + intros (p & -> & t & x & K1 & K2 & K3 & K4). exists t, p, (s_st x, s_en x). split; [exact K1|]. split; [exact K2|]. split; [apply in_map_iff; exists x; split; [reflexivity|apply H3, (sd_spans _ _ _ Hst); exact K3]|auto].
  Qed.
  (* a SpanNear: its result is defined, all of it is right, and the terms of one span at least are in it *)
  Lemma sq_near q : searchable (shape q) = true -> settled v false q -> (exists x, tspan v q x) ->
    exists ms n x, (forall f, (n <= f)%nat -> spanq_matchv qsort f v (tv_field v) q = Some ms) /\ (forall r, In r ms -> exists p, r = (p, p) /\ gmarks v q p) /\ tspan v q x /\
      forall t p, In t (g_terms q) -> occurs v t p -> s_st x <= p < s_en x -> In (p, p) ms.
  Proof.
    intros Hs Hset (x0 & Hx0). pose proof Hs as Hsh. unfold spanq_matchv. rewrite Z.eqb_refl. destruct (on_tv_ok v HV HP q) as (s & Es & Hst). rewrite Es. cbn [obind]. rewrite <- (searchable_shape v HV HP q s Es Hst) in Hs.
    destruct (found_all s Hs (sd_ok _ _ _ Hst)) as (l & n & En & H1 & H2 & _). apply (sd_spans _ _ _ Hst) in Hx0. pose proof (H2 x0 Hx0) as Hne.
    destruct (from_spans_ok v HV qsort HQ (g_terms q) (map (fun x => (s_st x, s_en x)) l)) as (ms & Em & Hm).
    - destruct l; [congruence|discriminate].
    - intros y Hy. apply in_map_iff in Hy. destruct Hy as (x & <- & Hx). cbn [fst snd]. apply (searchable_proper s); [exact Hs|apply H1; exact Hx].
    - destruct l as [|x l0] eqn:EL; [congruence|]. rewrite <- EL in *. exists ms, n, x. assert (Hx : In x l) by (rewrite EL; left; reflexivity). split; [intros f Hf; rewrite (ready_enumerate f s l (sd_ready _ _ _ Hst false Hset) (En f Hf)); exact Em|]. split; [|split; [apply (sd_spans _ _ _ Hst), H1; exact Hx|]].
      + intros r Hr. apply Hm in Hr. destruct Hr as (t & p & y & K1 & K2 & K3 & K4 & ->). apply in_map_iff in K3. destruct K3 as (z & <- & Hz). exists p. split; [reflexivity|]. exists t, z. split; [exact K1|]. split; [exact K2|]. split; [apply (sd_spans _ _ _ Hst), H1; exact Hz|exact K4].
      + intros t p K1 K2 K3. apply Hm. exists t, p, (s_st x, s_en x). split; [exact K1|]. split; [exact K2|]. split; [apply in_map_iff; exists x; auto|auto].
  Qed.
  (* no span although a term occurs *)
  Lemma sq_none q f t p : searchable (shape q) = true -> (forall x, ~ tspan v q x) -> In t (g_terms q) -> occurs v t p -> spanq_matchv qsort f v (tv_field v) q = None.
  Proof.
    intros Hs Hno Ht Ho. unfold spanq_matchv. rewrite Z.eqb_refl. destruct (on_tv_ok v HV HP q) as (s & Es & Hst). rewrite Es. cbn [obind]. rewrite <- (searchable_shape v HV HP q s Es Hst) in Hs. destruct (tv_enumerate f s) as [l|] eqn:El; [|reflexivity]. cbn [obind].
    destruct (found_all s Hs (sd_ok _ _ _ Hst)) as (l' & n & En & H1 & _). pose proof (tv_enumerate_ref f (Nat.max f n) s (Nat.le_max_l _ _) l El) as K. rewrite (En _ (Nat.le_max_r f n)) in K. apply some_inj in K. subst l'.
    destruct l as [|x l]; [exact (from_none_undefined v HV qsort HQ _ t p Ht Ho)|]. destruct (Hno x). apply (sd_spans _ _ _ Hst), H1. left. reflexivity.
  Qed.
  Lemma sq_absent q : usable false (shape q) = true -> settled v false q -> (forall t p, In t (g_terms q) -> ~ occurs v t p) -> (forall x, ~ tspan v q x) ->
    exists n, forall f, (n <= f)%nat -> spanq_matchv qsort f v (tv_field v) q = Some [].
  Proof.
    intros Hu Hset Hno Hx. unfold spanq_matchv. rewrite Z.eqb_refl. destruct (on_tv_ok v HV HP q) as (s & Es & Hst). rewrite Es. cbn [obind]. rewrite <- (sd_usable _ _ _ Hst) in Hu. assert (Hs : searchable s = true) by (destruct s; try exact Hu; discriminate).
    destruct (found_all s Hs (sd_ok _ _ _ Hst)) as (l & n & En & H1 & _). exists n. intros f Hf. rewrite (ready_enumerate f s l (sd_ready _ _ _ Hst false Hset) (En f Hf)). cbn [obind]. destruct l as [|x l]; [exact (from_none_absent v HV qsort HQ _ Hno)|]. destruct (Hx x). apply (sd_spans _ _ _ Hst), H1. left. reflexivity.
  Qed.
  (* a SpanNear with a missing term on the excluded side *)
  Lemma not_near_missing o slop a t0 m f p : (forall r, ~ occurs v m r) -> occurs v t0 p -> spanq_matchv qsort f v (tv_field v) (GNot (GTerm a) (GNear o slop [GTerm t0; GTerm m])) = None.
  Proof.
    intros Hm H0. unfold spanq_matchv. rewrite Z.eqb_refl. cbn [on_tv map].
    destruct (get_term_ok v HV a) as (xa & -> & _). destruct (get_term_ok v HV t0) as ([ps|] & -> & Hx0); [|destruct (Hx0 p H0)]. destruct Hx0 as (_ & Hne & _ & _). destruct ps as [|p0 ps]; [congruence|].
    destruct (get_term_ok v HV m) as ([pm|] & -> & Hxm). { destruct Hxm as (_ & Hnm & _ & Ho). destruct pm as [|r pm]; [congruence|]. destruct (Hm r). apply Ho. left. reflexivity. }
    cbn [obind Span_Model.all_some map]. unfold tv_enumerate. cbn [tv_spans_of map Span_Model.all_some obind].
    destruct f as [|[|f]]; reflexivity.
  Qed.
  (* a SpanNear of terms, some of them missing *)
  Lemma near_missing o slop t0 t1 ts f m t p : In m (t0 :: t1 :: ts) -> (forall q, ~ occurs v m q) -> In t (t0 :: t1 :: ts) -> occurs v t p -> spanq_matchv qsort f v (tv_field v) (GNear o slop (map GTerm (t0 :: t1 :: ts))) = None.
  Proof.
    intros Hm Hno Ht Ho. assert (HS : forall l, forallb (fun q => usable true q && readable q) (map shape (map GTerm l)) = true) by (induction l as [|u l IH]; [reflexivity|cbn [map forallb]; rewrite IH; reflexivity]).
    apply (sq_none _ f t p); [exact (HS (t1 :: ts))| | |exact Ho].
    - intros x. cbn [tspan]. intros (l & Hl & _). revert l Hm Hl. clear - Hno. generalize (t0 :: t1 :: ts) as us. induction us as [|u us IH]; intros l Hm Hl; [destruct Hm|]. cbn [map] in Hl. destruct l as [|y l]; [destruct Hl|]. destruct Hl as (Hy & Hl). destruct Hm as [->|Hm]; [|exact (IH l Hm Hl)]. cbn [tspan] in Hy. exact (Hno _ (proj1 (proj2 Hy))).
    - cbn [g_terms]. clear - Ht. revert Ht. generalize (t0 :: t1 :: ts). intros us. induction us as [|u us IH]; intros Ht; [destruct Ht|]. cbn [map flat_map g_terms app]. destruct Ht as [->|Ht]; [left; reflexivity|right; exact (IH Ht)].
  Qed.
End HILITE.
(* ---------- SpanMultiTermQuery: the wrapper never says that the positions are over *)
Lemma w_le a b : le tpew w_lt a b <-> w_doc a < w_doc b \/ w_doc a = w_doc b /\ w_pos a <= w_pos b.
Proof. unfold le, w_lt. rewrite orb_false_iff, andb_false_iff. lia. Qed.
Lemma w_pre : preorder tpew w_lt.
Proof. split; [intros a b|intros a b c]; rewrite !w_le; lia. Qed.
Definition runs_on (w : tpew) : Prop := forall ps, w_left w = Some ps -> forall p, In p ps -> 0 <= p.
Lemma runs_next w r : runs_on w -> tpew_next w = Some r -> fst r = true /\ runs_on (snd r).
Proof.
  unfold tpew_next, next_position. intros H E. destruct (w_left w) as [[|p ps]|] eqn:EL; try discriminate. cbn [obind fst snd] in E. pose proof (H _ EL p (or_introl eq_refl)). replace (p <? 0) with false in E by lia. apply some_inj in E. subst r. cbn [fst snd]. split; [reflexivity|]. intros l El q Hq. cbn in El. apply some_inj in El. subst l. apply (H _ EL). right. exact Hq.
Qed.
Lemma mt_fill_on capa : forall ws q m, Forall runs_on ws -> Forall runs_on m -> PInv tpew w_lt capa q m -> forall q', mt_fill ws q = Some q' -> exists m', PInv tpew w_lt capa q' m' /\ Forall runs_on m' /\ length m' = (length ws + length m)%nat.
Proof.
  induction ws as [|w ws IH]; intros q m Hw Hm HI q' E; cbn [mt_fill] in E; [apply some_inj in E; subst q'; exists m; auto|]. destruct (tpew_next w) as [x|] eqn:Ex; [|discriminate]. destruct (runs_next w x (Forall_inv Hw) Ex) as (Ef & Hx). cbn [obind] in E. rewrite Ef in E. destruct (push_ok tpew w_lt w_pre capa q m (snd x) HI) as (q1 & Ep & HI1). rewrite Ep in E. cbn [obind] in E.
  destruct (IH q1 (snd x :: m) (Forall_inv_tail Hw) (Forall_cons _ Hx Hm) HI1 q' E) as (m' & K1 & K2 & K3). exists m'. split; [exact K1|]. split; [exact K2|]. rewrite K3. cbn [length]. lia.
Qed.
Lemma mt_loop_on capa : forall f d p q m, Forall runs_on m -> m <> [] -> PInv tpew w_lt capa q m -> forall q', mt_loop f d p q = Some q' -> exists m', PInv tpew w_lt capa q' m' /\ Forall runs_on m' /\ m' <> [].
Proof.
  induction f as [|f IH]; intros d p q m Hm Hne HI q' E; [discriminate|]. cbn [mt_loop] in E. assert (Hsz : (0 < pq_size q)%nat) by (rewrite (pi_size _ _ _ _ _ HI); destruct m; [congruence|cbn; lia]). destruct (top_elt tpew w_lt capa q m HI Hsz) as (x & m' & Ex & Hperm).
  assert (Etop : pq_top tpew q = Some (Some x)) by (unfold pq_top; replace (0 <? pq_size q)%nat with true by (symmetry; apply Nat.ltb_lt; exact Hsz); unfold elt in Ex; destruct (nth_error (pq_heap q) 1); [cbn [obind] in Ex; rewrite Ex; reflexivity|discriminate]). rewrite Etop in E. cbn [obind] in E. assert (Hm2 : Forall runs_on (x :: m')) by (apply (Permutation_Forall Hperm); exact Hm).
  destruct (tpew_next x) as [y|] eqn:Ey; [|discriminate]. destruct (runs_next x y (Forall_inv Hm2) Ey) as (Ef & Hy). cbn [obind] in E. rewrite Ef in E. destruct (replace_top_ok tpew w_lt w_pre capa q m x m' (snd y) HI Ex Hperm) as (q1 & Eq & HI1). rewrite Eq in E. cbn [obind] in E.
  assert (K : exists m', PInv tpew w_lt capa q1 m' /\ Forall runs_on m' /\ m' <> []) by (exists (snd y :: m'); split; [exact HI1|]; split; [constructor; [exact Hy|exact (Forall_inv_tail Hm2)]|discriminate]).
  destruct (pq_top tpew q1) as [[t|]|]; [|apply some_inj in E; subst q1; exact K|discriminate]. cbn [obind] in E. destruct (_ && _); [|apply some_inj in E; subst q1; exact K]. destruct K as (m1 & A & B & C). exact (IH d p q1 m1 B C A q' E).
Qed.
Lemma mt_enum_never capa : forall f q m, Forall runs_on m -> m <> [] -> PInv tpew w_lt capa q m -> mt_enum f q = None.
Proof.
  induction f as [|f IH]; intros q m Hm Hne HI; [reflexivity|]. cbn [mt_enum]. assert (Hsz : (0 < pq_size q)%nat) by (rewrite (pi_size _ _ _ _ _ HI); destruct m; [congruence|cbn; lia]). destruct (top_elt tpew w_lt capa q m HI Hsz) as (x & m' & Ex & Hperm).
  assert (Etop : pq_top tpew q = Some (Some x)) by (unfold pq_top; replace (0 <? pq_size q)%nat with true by (symmetry; apply Nat.ltb_lt; exact Hsz); unfold elt in Ex; destruct (nth_error (pq_heap q) 1); [cbn [obind] in Ex; rewrite Ex; reflexivity|discriminate]). rewrite Etop. cbn [obind].
  destruct (mt_loop f (w_doc x) (w_pos x) q) as [q'|] eqn:El; [|reflexivity]. cbn [obind]. destruct (mt_loop_on capa f _ _ q m Hm Hne HI q' El) as (m1 & A & B & C). rewrite (IH q' m1 B C A). reflexivity.
Qed.
Lemma multi_never v qsort f terms : tv_ok v -> pos_ok v -> terms <> [] -> multi_span_matchv qsort f v (tv_field v) terms = None.
Proof.
  intros HV HP Hne. unfold multi_span_matchv. rewrite Z.eqb_refl. destruct (Span_Model.all_some (map (tpew_new v) terms)) as [ws|] eqn:E; [|reflexivity]. cbn [obind].
  assert (HW : Forall runs_on ws /\ length ws = length terms).
  { clear Hne. revert ws E. induction terms as [|t ts IH]; intros ws E; cbn [map Span_Model.all_some] in E; [apply some_inj in E; subst ws; auto|]. unfold tpew_new in E at 1. destruct (get_term_ok v HV t) as (x & Ex & Hx). rewrite Ex in E. cbn [obind] in E. destruct (Span_Model.all_some (map (tpew_new v) ts)) as [l|]; [|discriminate]. apply some_inj in E. subst ws. destruct (IH l eq_refl) as (H1 & H2). split; [|cbn [length]; rewrite H2; reflexivity]. constructor; [|exact H1].
    destruct x as [ps|]; intros l' El p Hp; cbn in El; [|discriminate]. apply some_inj in El. subst l'. destruct Hx as (_ & _ & _ & Hocc). apply (HP t). apply Hocc. exact Hp. }
  destruct HW as (H1 & H2). destruct (mt_fill (rev ws) (pq_new tpew (length terms))) as [q|] eqn:Eq; [|reflexivity]. cbn [obind]. destruct (mt_fill_on (length terms) (rev ws) _ [] (Forall_rev H1) (Forall_nil _) (new_ok tpew w_lt (length terms)) q Eq) as (m & A & B & C).
  rewrite (mt_enum_never (length terms) f q m B); [reflexivity| |exact A]. intros ->. rewrite rev_length, H2 in C. destruct terms; [congruence|discriminate].
Qed.
