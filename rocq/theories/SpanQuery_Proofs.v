From Coq Require Import Sorting.Permutation Sorting.Sorted.
From Verif Require Import Util Ring PQueue_Model Span_Model Span_Spec Span_Proofs SpanNear_Proofs.
Open Scope Z_scope.
Notation up := (StronglySorted Z.le).
Definition kdec : forall x y : key, {x = y} + {x <> y}.
Proof. intros (a & b) (c & d). destruct (Z.eq_dec a c), (Z.eq_dec b d); [left; congruence|right..]; congruence. Defined.
Notation cnt L x := (count_occ kdec L x).
Section SQ_IND.
  Variable P : squery -> Prop.
  Hypothesis Ht : forall l, P (QTerm l).
  Hypothesis Hf : forall e q, P q -> P (QFirst e q).
  Hypothesis Ho : forall qs, Forall P qs -> P (QOr qs).
  Hypothesis Hn : forall o s qs, Forall P qs -> P (QNear o s qs).
  Hypothesis Hx : forall a b, P a -> P b -> P (QNot a b).
  Fixpoint sq_ind2 (q : squery) : P q :=
    let go := fix go (l : list squery) : Forall P l := match l with [] => Forall_nil P | q :: t => Forall_cons q (sq_ind2 q) (go t) end in
    match q with QTerm l => Ht l | QFirst e q => Hf e q (sq_ind2 q) | QOr qs => Ho qs (go qs) | QNear o s qs => Hn o s qs (go qs) | QNot a b => Hx a b (sq_ind2 a) (sq_ind2 b) end.
End SQ_IND.
Lemma sb_nb k r s cur l : SB k r s cur l -> NB s (map U l).
Proof.
  revert s cur. induction l as [|x l IH]; intros s cur H; destruct (sb_facts _ _ _ _ _ H) as (_ & _ & _ & H4); destruct (H4 None I) as (s' & E & _ & Hs); cbn [tgt nonnil map] in *; [apply (NB_nil _ s'); exact E|]. pose proof (Hs x l eq_refl) as H'. destruct (sb_facts _ _ _ _ _ H') as (_ & _ & Hv & _). apply (NB_cons _ s'); [exact E|exact Hv|]. apply (IH s' (Some x) H').
Qed.
Lemma nb_enum s vs : NB s vs -> exists n, forall f, (n <= f)%nat -> enum f s = Some vs.
Proof.
  induction 1 as [s s' (n & E)|s s' v l (n & E) Hv H (m & IH)].
  - exists (S n). intros [|f] Hf; [lia|]. cbn [enum]. rewrite E by lia. reflexivity.
  - exists (S (Nat.max n m)). intros [|f] Hf; [lia|]. cbn [enum]. rewrite E by lia. cbn [obind fst snd]. rewrite Hv. cbn [obind]. rewrite IH by lia. reflexivity.
Qed.

(* ---------- the query behind the enumerator *)
Notation stands_for k q s L :=
  (SB k (readable q) s None L /\ (forall v, spans_in q v <-> exists x, v = U x /\ In x L) /\ forall x, times q (U x) (cnt L x)).
Definition built (k : bool) (q : squery) : Prop := exists s L n, (forall f, (n <= f)%nat -> spans_of f q = Some s) /\ stands_for k q s L.
Lemma cnt_map d ps x : cnt (map (fun p => (d, p)) ps) x = if d =? fst x then count_occ Z.eq_dec ps (snd x) else 0%nat.
Proof.
  induction ps as [|p ps IH]; cbn [map count_occ]; [destruct (d =? fst x); reflexivity|]. rewrite IH. destruct x as (a & b). cbn [fst snd]. destruct (kdec (d, p) (a, b)) as [E|E].
  - injection E as -> ->. rewrite Z.eqb_refl. destruct (Z.eq_dec b b); [reflexivity|congruence].
  - destruct (Z.eqb_spec d a) as [->|]; [|reflexivity]. destruct (Z.eq_dec p b); [congruence|reflexivity].
Qed.
Lemma cnt_filter (p : key -> bool) L x : cnt (filter p L) x = if p x then cnt L x else 0%nat.
Proof. induction L as [|y L IH]; cbn [filter count_occ]; [destruct (p x); reflexivity|]. destruct (p y) eqn:Ep; cbn [count_occ]; rewrite IH; destruct (kdec y x) as [->|]; try rewrite Ep; reflexivity. Qed.
Lemma overlap_U x y : overlap (U x) (U y) <-> x = y.
Proof. unfold overlap, U. cbn [s_doc s_st s_en]. destruct x, y. cbn [fst snd]. split; [intros; f_equal; lia|intros H; injection H as -> ->; lia]. Qed.
Lemma term_built k l : postings_ok l -> built k (QTerm l).
Proof.
  intros H. exists (STerm (-1) (-1) [] l), (keys_of l), O. split; [reflexivity|]. splits.
  - apply (sb_weak _ _ _ _ _ (term_sb l H)); auto.
  - intros [d s e]. cbn [spans_in s_doc s_st s_en]. split.
    + intros (ps & H1 & H2 & ->). exists (d, s). split; [reflexivity|]. apply keys_in. exists ps. auto.
    + intros (x & E & Hx). injection E as -> -> ->. apply keys_in in Hx. destruct Hx as (ps & H1 & H2). exists ps. auto.
  - intros x. cbn [times U s_doc s_st s_en]. rewrite Z.eqb_refl. clear H. induction l as [|(d & ps) l IH]; [reflexivity|]. cbn [keys_of flat_map fst snd]. rewrite !count_occ_app. rewrite cnt_map. fold (keys_of l). rewrite IH. destruct (d =? fst x); reflexivity.
Qed.
Lemma first_built k e q : built k q -> built k (QFirst e q).
Proof.
  intros (s & L & n & E & H1 & H2 & H3). exists (SFirst e s), (filter (upto e) L), n. split; [intros f Hf; cbn [spans_of]; rewrite E by lia; reflexivity|]. splits.
  - apply first_sb. exact H1.
  - intros v. cbn [spans_in]. rewrite H2. split.
    + intros ((x & -> & Hx) & He). exists x. split; [reflexivity|]. apply filter_In. split; [exact Hx|]. unfold upto. cbn [U s_en] in He. apply Z.leb_le. exact He.
    + intros (x & -> & Hx). apply filter_In in Hx. destruct Hx as (Hx & He). unfold upto in He. split; [exists x; auto|]. cbn [U s_en]. lia.
  - intros x. cbn [times U s_en]. rewrite cnt_filter. unfold upto. destruct (Z.leb_spec (snd x + 1) e); [left; split; [assumption|apply H3]|right; split; [assumption|reflexivity]].
Qed.
Lemma not_built k a b : built k a -> built true b -> (k = true -> readable b = true) -> built k (QNot a b).
Proof.
  intros (s & L & n & E & H1 & H2 & H3) (s2 & L2 & n2 & E2 & K1 & K2 & K3) Hr. destruct (not_sb k (readable a) (readable b) s s2 L L2 Hr H1 K1) as (b0 & s2' & (n3 & E3) & HB). exists (SNot true b0 s s2'), (filter (without L2) L), (Nat.max n (Nat.max n2 n3)). split; [intros f Hf; cbn [spans_of]; rewrite E, E2 by lia; cbn [obind]; rewrite E3 by lia; reflexivity|].
  assert (HO : forall x, (forall y, spans_in b y -> ~ overlap (U x) y) <-> ~ In x L2). { intros x. split; [intros H Hx; apply (H (U x)); [apply K2; exists x; auto|apply overlap_U; reflexivity]|]. intros H y Hy Ho. apply K2 in Hy. destruct Hy as (z & -> & Hz). apply overlap_U in Ho. subst. auto. }
  splits.
  - exact HB.
  - intros v. cbn [spans_in]. rewrite H2. split.
    + intros ((x & -> & Hx) & Hn). exists x. split; [reflexivity|]. apply filter_In. split; [exact Hx|]. apply without_spec. apply HO. exact Hn.
    + intros (x & -> & Hx). apply filter_In in Hx. destruct Hx as (Hx & Hw). apply without_spec in Hw. split; [exists x; auto|]. apply HO. exact Hw.
  - intros x. cbn [times]. rewrite cnt_filter. destruct (without L2 x) eqn:Ew.
    + left. apply without_spec in Ew. split; [apply HO; exact Ew|apply H3].
    + right. split; [|reflexivity]. exists (U x). split; [|apply overlap_U; reflexivity]. apply K2. exists x. split; [reflexivity|]. destruct (in_dec kdec x L2) as [Hi|Hn]; [exact Hi|]. apply without_spec in Hn. congruence.
Qed.
(* several enumerators *)
Lemma many_built k qs : Forall (built k) qs -> exists subs Ls n, (forall f, (n <= f)%nat -> all_some (map (spans_of f) qs) = Some subs) /\ Forall2 (fun q p => stands_for k q (fst p) (snd p)) qs (combine subs Ls) /\ length subs = length qs /\ length Ls = length qs.
Proof.
  induction 1 as [|q qs (s & L & n & E & H) HF (subs & Ls & m & E2 & H2 & H3 & H4)]; [exists [], [], O; splits; auto; constructor|].
  exists (s :: subs), (L :: Ls), (Nat.max n m). splits; [intros f Hf; cbn [map all_some]; rewrite E by lia; cbn [obind]; rewrite E2 by lia; reflexivity|cbn [combine]; constructor; [exact H|exact H2]|cbn [length]; lia|cbn [length]; lia].
Qed.
Lemma or_built k qs : Forall (built k) qs -> built k (QOr qs).
Proof.
  intros HF. destruct qs as [|q [|q2 qs]].
  - exists (SOr true (pq_new se 0) []), [], O. splits; [reflexivity| |intros v; cbn [spans_in]; split; [intros []|intros (x & _ & [])]|intros x; reflexivity]. apply (sb_weak k false); [|auto|intros E; exact E]. apply (or_sb k 0 [] [] []); constructor.
  - inversion HF as [|? ? (s & L & n & E & H1 & H2 & H3) _]; subst. exists s, L, n. split; [intros f Hf; cbn [spans_of map all_some]; rewrite E by lia; reflexivity|]. splits; [exact H1| |].
    + intros v. cbn [spans_in]. rewrite <- H2. tauto.
    + intros x. cbn [times]. exists (cnt L x), O. splits; auto.
  - destruct (many_built k (q :: q2 :: qs) HF) as (subs & Ls & n & E & H1 & H2 & H3). set (qs0 := q :: q2 :: qs) in *. exists (SOr true (pq_new se (length subs)) subs), (ksort (concat Ls)), n. destruct (ksort_ok (concat Ls)) as (KK & KP). split; [intros f Hf; cbn [spans_of]; rewrite E by lia; cbn [obind]; destruct subs as [|? [|? ?]]; cbn [length qs0] in H2; try lia; reflexivity|].
    assert (HL : length subs = length Ls) by lia. clear E n HF. splits.
    + cbn [readable qs0]. apply (or_sb k (length subs) subs Ls); [|exact KK|exact KP]. clear KK KP H2 H3. revert subs Ls H1 HL. generalize qs0. intros q0. induction q0 as [|a q0 IH]; intros [|s subs] [|L Ls] H1 HL; try discriminate; cbn [combine] in H1; inversion H1 as [|? ? ? ? (Hs & _) H1']; subst; constructor; [cbn [fst snd] in Hs; apply (sb_weak _ _ _ _ _ Hs); [auto|discriminate]|apply IH; [exact H1'|cbn [length] in HL; lia]].
    + intros v. transitivity (exists x, v = U x /\ In x (concat Ls)); [|split; intros (x & E & Hx); exists x; (split; [exact E|]); [apply (Permutation_in _ (Permutation_sym KP)); exact Hx|apply (Permutation_in _ KP); exact Hx]]. clear KK KP H2 H3. revert subs Ls H1 HL. generalize qs0. intros q0. cbn [spans_in]. induction q0 as [|a q0 IH]; intros [|s subs] [|L Ls] H1 HL; try discriminate; cbn [combine] in H1; inversion H1 as [|? ? ? ? (_ & Hs & _) H1']; subst; [split; [intros []|intros (x & _ & [])]|]. cbn [concat snd] in *. rewrite Hs, (IH subs Ls H1' ltac:(cbn [length] in HL; lia)). split.
      * intros [(x & E & Hx)|(x & E & Hx)]; exists x; (split; [exact E|]); apply in_or_app; auto.
      * intros (x & E & Hx). apply in_app_or in Hx. destruct Hx as [Hx|Hx]; [left|right]; exists x; auto.
    + intros x. rewrite (proj1 (Permutation_count_occ kdec _ _) KP x). clear KK KP H2 H3. revert subs Ls H1 HL. generalize qs0. intros q0. cbn [times]. induction q0 as [|a q0 IH]; intros [|s subs] [|L Ls] H1 HL; try discriminate; cbn [combine] in H1; inversion H1 as [|? ? ? ? (_ & _ & Hs) H1']; subst; [reflexivity|]. cbn [concat snd] in *. exists (cnt L x), (cnt (concat Ls) x). splits; [apply Hs|apply (IH subs Ls H1'); cbn [length] in HL; lia|apply count_occ_app].
Qed.
Lemma usable_built q : forall k, usable k q = true -> terms_ok q -> built k q.
Proof.
  induction q as [l|e q IH|qs IH|o s qs _|a b IHa IHb] using sq_ind2; intros k Hu Ht; cbn [usable terms_ok] in *.
  - apply term_built. exact Ht.
  - apply first_built, IH; assumption.
  - apply or_built. induction IH as [|q qs Hq HF IHl]; constructor; cbn [forallb] in Hu; apply andb_true_iff in Hu; destruct Ht as (Ht & Ht2); [apply Hq; tauto|apply IHl; tauto].
  - discriminate.
  - apply andb_true_iff in Hu. destruct Hu as (Hu & Hr). apply andb_true_iff in Hu. destruct Ht as (Ha & Hb). apply not_built; [apply IHa; tauto|apply IHb; tauto|]. intros ->. exact Hr.
Qed.
Lemma terms_list qs : (fix go (l : list squery) : Prop := match l with [] => True | q :: t => terms_ok q /\ go t end) qs -> Forall terms_ok qs.
Proof. induction qs as [|q qs IH]; intros H; constructor; destruct H; auto. Qed.
Lemma U_le x y : kle x y -> span_le (U x) (U y).
Proof. unfold kle, span_le, U. cbn [s_doc s_st s_en]. lia. Qed.
Lemma map_SS l : KS l -> StronglySorted span_le (map U l).
Proof. induction 1 as [|x l HS IH HF]; cbn [map]; constructor; auto. rewrite Forall_forall in *. intros y Hy. apply in_map_iff in Hy. destruct Hy as (z & <- & Hz). apply U_le, HF, Hz. Qed.
Definition sdec : forall x y : span, {x = y} + {x <> y}.
Proof. intros [a b c] [d e f]. destruct (Z.eq_dec a d), (Z.eq_dec b e), (Z.eq_dec c f); [left; congruence|right; congruence..]. Defined.
Lemma U_inj x y : U x = U y -> x = y.
Proof. destruct x, y. unfold U. cbn [fst snd]. congruence. Qed.
Lemma cnt_U L x : count_occ sdec (map U L) (U x) = cnt L x.
Proof. induction L as [|y L IH]; [reflexivity|]. cbn [map count_occ]. rewrite IH. destruct (sdec (U y) (U x)) as [E|E], (kdec y x) as [E'|E']; auto; [apply U_inj in E; congruence|congruence]. Qed.
(* the enumerator goes through the spans of the query *)
Lemma enumerates q : usable false q = true -> terms_ok q -> exists l n, (forall f, (n <= f)%nat -> enumerate f q = Some l) /\ StronglySorted span_le l /\ (forall x, In x l <-> spans_in q x) /\ forall x, In x l -> times q x (count_occ sdec l x).
Proof.
  intros Hu Ht. destruct (usable_built q false Hu Ht) as (s & L & n & E & H1 & H2 & H3). destruct (nb_enum _ _ (sb_nb _ _ _ _ _ H1)) as (m & Em). exists (map U L), (Nat.max n m). splits.
  - intros f Hf. unfold enumerate. rewrite E by lia. cbn [obind]. apply Em. lia.
  - destruct (sb_facts _ _ _ _ _ H1) as (HK & _). apply map_SS. exact HK.
  - intros x. rewrite H2, in_map_iff. split; intros (y & Ey & Hy); exists y; auto.
  - intros x Hx. apply in_map_iff in Hx. destruct Hx as (y & <- & Hy). rewrite cnt_U. apply H3.
Qed.

(* ---------- SpanScorer by next *)
Fixpoint group (vs : list span) : list (Z * nat) :=
  match vs with
  | [] => []
  | v :: t => match group t with (d, n) :: r => if d =? s_doc v then (d, S n) :: r else (s_doc v, 1%nat) :: (d, n) :: r | [] => [(s_doc v, 1%nat)] end
  end.
(* the spans of the document d in front *)
Fixpoint front (d : Z) (vs : list span) : nat := match vs with [] => 0%nat | v :: t => if s_doc v =? d then S (front d t) else 0%nat end.
Fixpoint behind (d : Z) (vs : list span) : list span := match vs with [] => [] | v :: t => if s_doc v =? d then behind d t else vs end.
Lemma group_front v t : group (v :: t) = (s_doc v, S (front (s_doc v) t)) :: group (behind (s_doc v) t).
Proof.
  revert v. induction t as [|w t IH]; intros v; [reflexivity|]. change (group (v :: w :: t)) with (match group (w :: t) with (d, n) :: r => if d =? s_doc v then (d, S n) :: r else (s_doc v, 1%nat) :: (d, n) :: r | [] => [(s_doc v, 1%nat)] end). rewrite (IH w). cbn [front behind]. destruct (Z.eqb_spec (s_doc w) (s_doc v)) as [->|]; [reflexivity|]. rewrite <- (IH w). reflexivity.
Qed.
(* state: the enumerator s stands on v, the rest vs follows *)
Lemma count_ok d vs s : NB s vs -> forall n0, exists s', (exists n, forall f, (n <= f)%nat -> count_loop f d n0 s = Some (nonnil (behind d vs), (n0 + front d vs)%nat, s')) /\ forall w t, behind d vs = w :: t -> val s' = Some w /\ NB s' t.
Proof.
  induction 1 as [s s' (n & E)|s s' v l (n & E) Hv H IH]; intros n0.
  - exists s'. split; [|discriminate]. exists (S n). intros [|f] Hf; [lia|]. cbn [count_loop]. rewrite E by lia. cbn [obind fst snd behind front nonnil]. do 2 f_equal. f_equal. lia.
  - cbn [behind front]. destruct (Z.eqb_spec (s_doc v) d) as [Ed|Ed].
    + destruct (IH (S n0)) as (s2 & (m & Em) & Hs). exists s2. split; [|exact Hs]. exists (S (Nat.max n m)). intros [|f] Hf; [lia|]. cbn [count_loop]. rewrite E by lia. cbn [obind fst snd]. rewrite Hv. cbn [obind]. destruct (Z.eqb_spec (s_doc v) d); [|lia]. rewrite Em by lia. do 2 f_equal. f_equal. lia.
    + exists s'. split; [|intros w t Ew; injection Ew as <- <-; auto]. exists (S n). intros [|f] Hf; [lia|]. cbn [count_loop]. rewrite E by lia. cbn [obind fst snd]. rewrite Hv. cbn [obind]. destruct (Z.eqb_spec (s_doc v) d); [lia|]. cbn [nonnil]. do 2 f_equal. f_equal. lia.
Qed.
Lemma behind_len d vs : (length (behind d vs) <= length vs)%nat.
Proof. induction vs as [|v t IH]; cbn [behind]; [lia|]. destruct (s_doc v =? d); cbn [length] in *; lia. Qed.
Lemma hits_ok : forall N vs doc fr s, (length vs <= N)%nat -> (forall w t, vs = w :: t -> val s = Some w /\ NB s t) -> exists n, forall f, (n <= f)%nat -> sc_hits f (mkSc doc false (nonnil vs) fr s) = Some (group vs).
Proof.
  induction N as [N IH] using lt_wf_ind. intros vs doc fr s HN Hs. destruct vs as [|w t].
  - exists 2%nat. intros [|[|f]] Hf; try lia. cbn [nonnil sc_hits]. reflexivity.
  - destruct (Hs w t eq_refl) as (Hv & HB). destruct (count_ok (s_doc w) t s HB 1) as (s' & (n & E) & Hs'). pose proof (behind_len (s_doc w) t) as HL. destruct (IH (length (behind (s_doc w) t)) ltac:(cbn [length] in HN; lia) (behind (s_doc w) t) (s_doc w) (1 + front (s_doc w) t)%nat s' (le_n _) Hs') as (m & Em).
    exists (S (Nat.max n m)). intros [|f] Hf; [lia|]. cbn [sc_hits]. unfold sc_next. cbn [c_first c_more c_spans nonnil obind fst snd]. rewrite Hv. cbn [obind]. rewrite E by lia. cbn [obind Nat.add Nat.eqb negb]. rewrite orb_true_r. cbn [obind fst snd c_doc c_freq]. cbn [Nat.add] in Em. rewrite Em by lia. cbn [obind]. rewrite group_front. reflexivity.
Qed.
Lemma scorer_ok s vs : NB s vs -> exists n, forall f, (n <= f)%nat -> sc_hits f (sc_new s) = Some (group vs).
Proof.
  intros H. destruct H as [s s' (n & E)|s s' v t (n & E) Hv HB].
  - exists (S n). intros [|f] Hf; [lia|]. cbn [sc_hits]. unfold sc_next, sc_new. cbn [c_first c_spans]. rewrite E by lia. reflexivity.
  - destruct (count_ok (s_doc v) t s' HB 1) as (s2 & (m & Em) & Hs2). destruct (hits_ok _ (behind (s_doc v) t) (s_doc v) (1 + front (s_doc v) t)%nat s2 (le_n _) Hs2) as (p & Ep). exists (S (Nat.max n (Nat.max m p))). intros [|f] Hf; [lia|]. cbn [sc_hits]. unfold sc_next, sc_new. cbn [c_first c_spans c_more]. rewrite E by lia. cbn [obind fst snd]. rewrite Hv. cbn [obind]. rewrite Em by lia. cbn [obind Nat.add Nat.eqb negb]. rewrite orb_true_r. cbn [obind fst snd c_doc c_freq]. cbn [Nat.add] in Ep. rewrite Ep by lia. cbn [obind]. rewrite group_front. reflexivity.
Qed.
Definition in_doc (d : Z) (vs : list span) : list span := filter (fun v => s_doc v =? d) vs.
Lemma group_ok vs : up (map s_doc vs) -> StronglySorted Z.lt (map fst (group vs)) /\ (forall d, In d (map fst (group vs)) <-> In d (map s_doc vs)) /\ forall d n, In (d, n) (group vs) -> n = length (in_doc d vs).
Proof.
  induction vs as [|v t IH]; intros H; [splits; [constructor|tauto|intros d n []]|]. cbn [map] in H. apply up_inv in H. destruct H as (H & Hv). destruct (IH H) as (I1 & I2 & I3). cbn [group]. destruct (group t) as [|(d & n) r] eqn:Eg.
  - assert (t = []) as -> by (destruct t as [|w t]; [reflexivity|]; destruct (proj2 (I2 (s_doc w)) (or_introl eq_refl))). cbn [map fst]. splits; [constructor; constructor|reflexivity|]. intros d n [E|[]]. injection E as <- <-. unfold in_doc. cbn [filter]. rewrite Z.eqb_refl. reflexivity.
  - assert (Hd : In d (map s_doc t)) by (apply I2; left; reflexivity). pose proof (Hv d Hd) as Ld. cbn [map fst] in I1. assert (HR : forall z, In z (map fst r) -> d < z) by (inversion I1 as [|? ? _ HF]; subst; rewrite Forall_forall in HF; exact HF). destruct (Z.eqb_spec d (s_doc v)) as [E|E].
    + splits; [exact I1| |].
      * intros z. rewrite (I2 z). cbn [map In]. split; [auto|]. intros [<-|Hz]; [rewrite <- E; exact Hd|exact Hz].
      * intros z m [E2|Hz]; [assert (z = d) as -> by congruence; assert (m = S n) as -> by congruence; unfold in_doc; cbn [filter]; destruct (Z.eqb_spec (s_doc v) d); [|congruence]; cbn [length]; f_equal; apply (I3 d n); left; reflexivity|]. unfold in_doc. cbn [filter]. destruct (Z.eqb_spec (s_doc v) z) as [E3|]; [|apply (I3 z m); right; exact Hz]. pose proof (HR z (in_map fst _ _ Hz)). lia.
    + splits.
      * cbn [map fst]. constructor; [exact I1|]. constructor; [lia|]. apply Forall_forall. intros z Hz. pose proof (HR z Hz). lia.
      * intros z. cbn [map fst In]. rewrite <- (I2 z). cbn [map fst In]. tauto.
      * intros z m [E2|Hz].
        -- injection E2 as <- <-. unfold in_doc. cbn [filter]. rewrite Z.eqb_refl. cbn [length]. f_equal. symmetry. rewrite length_zero_iff_nil. apply filter_no. intros w Hw. apply Z.eqb_neq. intros E2. assert (In (s_doc v) (map s_doc t)) as Hi by (rewrite <- E2; apply in_map; exact Hw). apply I2 in Hi. cbn [map fst In] in Hi. destruct Hi as [Hi|Hi]; [lia|pose proof (HR _ Hi); lia].
        -- unfold in_doc. cbn [filter]. destruct (Z.eqb_spec (s_doc v) z) as [E3|]; [|apply (I3 z m); exact Hz]. destruct Hz as [Hz|Hz]; [assert (z = d) by congruence; lia|]. pose proof (HR z (in_map fst _ _ Hz)). lia.
Qed.
Lemma up_docs l : StronglySorted span_le l -> up (map s_doc l).
Proof. induction 1 as [|x l HS IH HF]; cbn [map]; constructor; auto. rewrite Forall_forall in *. intros y Hy. apply in_map_iff in Hy. destruct Hy as (z & <- & Hz). specialize (HF z Hz). unfold span_le in HF. lia. Qed.
(* a SpanNear *)
Fixpoint choices (qs : list squery) (l : list span) : Prop := match qs, l with [], [] => True | q :: qs', y :: l' => spans_in q y /\ choices qs' l' | _, _ => False end.
Lemma choices_spec l ps : Forall2 (fun q (p : se * list key) => forall v, spans_in q v <-> exists x, v = U x /\ In x (snd p)) l ps ->
  forall ls, choices l ls <-> exists ys, ls = map U ys /\ Forall2 (fun m y => In y (ml m)) (map (fun p : se * list key => (fst p, (None, snd p)) : mem) ps) ys.
Proof.
  induction 1 as [|q p l ps Hs HF IH]; intros ls; cbn [map].
  - destruct ls; cbn [choices]; [split; [intros _; exists []; split; [reflexivity|apply Forall2_nil]|intros _; exact I]|split; [intros []|intros (ys & E & HFn); inversion HFn; subst; discriminate]].
  - destruct ls as [|v ls]; cbn [choices]; [split; [intros []|intros (ys & E & HF2); inversion HF2; subst; discriminate]|]. rewrite (IH ls), (Hs v). split.
    + intros ((x & -> & Hx) & (ys & -> & Hys)). exists (x :: ys). split; [reflexivity|]. constructor; [exact Hx|exact Hys].
    + intros (ys & E & HF2). inversion HF2 as [|? y ? ys' Hy Hys]; subst. cbn [map] in E. injection E as -> ->. split; [exists y; auto|exists ys'; auto].
Qed.
Lemma near_built o slop q0 q1 qs : built true q0 -> Forall (built true) (q1 :: qs) -> forallb readable (q1 :: qs) = true ->
  exists s n vs, (forall f, (n <= f)%nat -> spans_of f (QNear o slop (q0 :: q1 :: qs)) = Some s) /\ NB s vs /\ (forall v, In v vs -> spans_in (QNear o slop (q0 :: q1 :: qs)) v) /\ up (map s_doc vs) /\ forall x, spans_in (QNear o slop (q0 :: q1 :: qs)) x -> In (s_doc x) (map s_doc vs).
Proof.
  intros (s0 & L0 & n0 & E0 & H0 & S0 & _) HF HR. destruct (many_built true (q1 :: qs) HF) as (subs & Ls & n & E & H1 & H2 & H3).
  set (b := map (fun p : se * list key => (fst p, (None, snd p)) : mem) (combine subs Ls)).
  assert (Eb : map fst b = subs). { unfold b. rewrite map_map. cbn [fst]. assert (HL : length subs = length Ls) by lia. clear b H1 E H2 H3. revert Ls HL. induction subs as [|s subs IH]; intros [|L Ls] HL; try discriminate; [reflexivity|]. cbn [combine map fst]. f_equal. apply IH. cbn [length] in HL. lia. }
  assert (Hb : Forall okm b). { unfold b. clear b Eb. revert H1 HR. generalize (combine subs Ls) (q1 :: qs). intros ps l H1. clear HF. induction H1 as [|q p l ps (Hs & _) HF IH]; intros HR; cbn [map]; constructor; cbn [forallb] in HR; apply andb_true_iff in HR; destruct HR as (HR & HR2); [|auto]. unfold okm. cbn [fst snd]. rewrite HR in Hs. exact Hs. }
  assert (Hbn : Forall (fun m : mem => fst (snd m) = None) b) by (unfold b; apply Forall_forall; intros m Hm; apply in_map_iff in Hm; destruct Hm as (p & <- & _); reflexivity).
  assert (Hne : b <> []) by (intros E1; apply (f_equal (@length _)) in E1; rewrite <- (map_length fst), Eb, H2 in E1; discriminate).
  destruct (near_start o slop s0 L0 b (-1) (-1) (-1) (sb_weak _ _ _ _ _ H0 true false ltac:(auto) ltac:(discriminate)) Hb Hbn Hne) as (vs & V1 & V2 & V3 & V4). rewrite Eb in V1.
  assert (HC : forall ls, choices (q0 :: q1 :: qs) ls <-> exists ys, ls = map U ys /\ Forall2 (fun m y => In y (ml m)) ((s0, (None, L0)) :: b) ys).
  { assert (HQ : Forall2 (fun q (p : se * list key) => forall v, spans_in q v <-> exists x, v = U x /\ In x (snd p)) (q0 :: q1 :: qs) ((s0, L0) :: combine subs Ls)) by (constructor; [exact S0|clear - H1; induction H1 as [|q p l ps (_ & Hs & _) HF IH]; constructor; auto]). exact (choices_spec _ _ HQ). }
  exists (SNear o slop 0 (-1) (-1) (-1) (s0 :: subs)), (Nat.max n0 n), vs. splits; auto.
  - intros f Hf. assert (EA : all_some (map (spans_of f) (q0 :: q1 :: qs)) = Some (s0 :: subs)) by (cbn [map all_some]; rewrite E0 by lia; cbn [obind]; pose proof (E f ltac:(lia)) as E1; cbn [map all_some] in E1; rewrite E1; reflexivity). change (spans_of f (QNear o slop (q0 :: q1 :: qs))) with (do l <- all_some (map (spans_of f) (q0 :: q1 :: qs)); match l with [s] => Some s | _ => Some (SNear o slop 0 (-1) (-1) (-1) l) end). rewrite EA. cbn [obind]. destruct subs; [discriminate|reflexivity].
  - intros v Hv. rewrite Forall_forall in V2. destruct (V2 v Hv) as (ys & HF2 & Hw). exists (map U ys). split; [apply (HC (map U ys)); exists ys; auto|exact Hw].
  - intros x (ls & Hls & Hw). apply (HC ls) in Hls. destruct Hls as (ys & -> & HF2). apply V4. exists ys. split; [exact HF2|]. exists x. auto.
Qed.
(* what the search reports *)
Lemma search_ok q : searchable q = true -> terms_ok q -> exists l hits n, (forall f, (n <= f)%nat -> enumerate f q = Some l /\ search f q = Some hits) /\ (forall v, In v l -> spans_in q v) /\ StronglySorted Z.lt (map fst hits) /\
  (forall d, In d (map fst hits) <-> exists x, spans_in q x /\ s_doc x = d) /\ forall d n, In (d, n) hits -> n = length (in_doc d l).
Proof.
  intros Hu Ht. assert (G : exists s n vs, (forall f, (n <= f)%nat -> spans_of f q = Some s) /\ NB s vs /\ (forall v, In v vs -> spans_in q v) /\ up (map s_doc vs) /\ forall x, spans_in q x -> In (s_doc x) (map s_doc vs)).
  { assert (PL : usable false q = true -> exists s n vs, (forall f, (n <= f)%nat -> spans_of f q = Some s) /\ NB s vs /\ (forall v, In v vs -> spans_in q v) /\ up (map s_doc vs) /\ forall x, spans_in q x -> In (s_doc x) (map s_doc vs)).
    { intros Hp. destruct (usable_built q false Hp Ht) as (s & L & n & E & H1 & H2 & H3). exists s, n, (map U L). splits; [exact E|apply (sb_nb _ _ _ _ _ H1)| |destruct (sb_facts _ _ _ _ _ H1) as (HK & _); apply up_docs, map_SS; exact HK|].
      - intros v Hv. apply in_map_iff in Hv. destruct Hv as (x & <- & Hx). apply H2. exists x. auto.
      - intros x Hx. apply H2 in Hx. destruct Hx as (y & -> & Hy). apply in_map, in_map. exact Hy. }
    destruct q as [| | |o slop [|q0 [|q1 qs]]|]; cbn [searchable] in Hu; auto. apply andb_true_iff in Hu. destruct Hu as (Hu0 & Hu). cbn [terms_ok] in Ht. destruct Ht as (Ht0 & Ht). apply (terms_list (q1 :: qs)) in Ht. clear PL.
    apply near_built; [apply usable_built; assumption| |].
    - rewrite forallb_forall in Hu. rewrite Forall_forall in *. intros q Hq. specialize (Hu q Hq). apply andb_true_iff in Hu. apply usable_built; [tauto|apply Ht; exact Hq].
    - rewrite forallb_forall in *. intros q Hq. specialize (Hu q Hq). apply andb_true_iff in Hu. tauto. }
  destruct G as (s & n & vs & E & HB & H1 & H2 & H3). destruct (nb_enum _ _ HB) as (m & Em). destruct (scorer_ok _ _ HB) as (p & Ep). destruct (group_ok vs H2) as (G1 & G2 & G3). exists vs, (group vs), (Nat.max n (Nat.max m p)). splits; auto.
  - intros f Hf. unfold enumerate, search. rewrite E by lia. cbn [obind]. rewrite Em, Ep by lia. auto.
  - intros d. rewrite G2, in_map_iff. split; [intros (v & Ev & Hv); exists v; auto|]. intros (x & Hx & <-). apply H3 in Hx. apply in_map_iff in Hx. exact Hx.
Qed.
(* skip_to as the first move, to a document with a span *)
Lemma skip_loop_ok d vs s : NB s vs -> forall n0 fst0 v, val s = Some v -> s_doc v = d -> exists s', (exists n, forall f, (n <= f)%nat -> skip_loop f d fst0 true n0 s = Some (false, nonnil (behind d vs), (S n0 + front d vs)%nat, s')) /\ forall w t, behind d vs = w :: t -> val s' = Some w /\ NB s' t.
Proof.
  induction 1 as [s s' (n & E)|s s' v l (n & E) Hv H IH]; intros n0 f0 v0 Hv0 Hd.
  - exists s'. split; [|discriminate]. exists (S (S n)). intros [|[|f]] Hf; try lia. cbn [skip_loop]. rewrite Hv0. cbn [obind]. rewrite Hd, Z.eqb_refl. rewrite E by lia. cbn [obind fst snd behind front nonnil skip_loop]. do 2 f_equal. f_equal. lia.
  - cbn [behind front]. destruct (Z.eqb_spec (s_doc v) d) as [Ed|Ed].
    + destruct (IH (S n0) false v Hv Ed) as (s2 & (m & Em) & Hs). exists s2. split; [|exact Hs]. exists (S (Nat.max n m)). intros [|f] Hf; [lia|]. cbn [skip_loop]. rewrite Hv0. cbn [obind]. rewrite Hd, Z.eqb_refl. rewrite E by lia. cbn [obind fst snd]. rewrite Em by lia. do 2 f_equal. f_equal. lia.
    + exists s'. split; [|intros w t Ew; injection Ew as <- <-; auto]. exists (S (S n)). intros [|[|f]] Hf; try lia. cbn [skip_loop]. rewrite Hv0. cbn [obind]. rewrite Hd, Z.eqb_refl. rewrite E by lia. cbn [obind fst snd]. rewrite Hv. cbn [obind]. destruct (Z.eqb_spec (s_doc v) d); [lia|]. cbn [nonnil]. do 2 f_equal. f_equal. lia.
Qed.
Lemma behind_from d vs : up (map s_doc vs) -> (forall v, In v vs -> d <= s_doc v) -> behind d vs = filter (fun v => d <? s_doc v) vs /\ front d vs = length (in_doc d vs).
Proof.
  induction vs as [|v t IH]; intros H Hd; [split; reflexivity|]. cbn [map] in H. apply up_inv in H. destruct H as (H & Hv). destruct (IH H) as (I1 & I2); [intros w Hw; apply Hd; right; exact Hw|]. cbn [behind front filter]. unfold in_doc. cbn [filter]. pose proof (Hd v (or_introl eq_refl)). destruct (Z.eqb_spec (s_doc v) d) as [E|E].
  - destruct (Z.ltb_spec d (s_doc v)); [lia|]. cbn [length]. unfold in_doc in I2. rewrite I1, I2. auto.
  - destruct (Z.ltb_spec d (s_doc v)); [|lia]. assert (G : forall w, In w t -> d < s_doc w) by (intros w Hw; pose proof (Hv (s_doc w) (in_map s_doc _ _ Hw)); lia). split; [f_equal; symmetry; apply filter_all; intros w Hw; apply Z.ltb_lt; auto|]. rewrite (filter_no _ t); [reflexivity|]. intros w Hw. apply Z.eqb_neq. specialize (G w Hw). lia.
Qed.
Lemma first_skip_ok q d x : usable true q = true -> terms_ok q -> spans_in q x -> s_doc x = d ->
  exists l n, (forall f, (n <= f)%nat -> enumerate f q = Some l) /\ exists s c hits, (forall f, (n <= f)%nat -> spans_of f q = Some s /\ sc_skip f (sc_new s) d = Some (true, c) /\ sc_hits f c = Some hits) /\ c_doc c = d /\ c_freq c = length (in_doc d l) /\
    StronglySorted Z.lt (map fst hits) /\ (forall e, In e (map fst hits) <-> d < e /\ exists y, spans_in q y /\ s_doc y = e) /\ forall e n, In (e, n) hits -> n = length (in_doc e l).
Proof.
  intros Hu Ht Hx Hd. destruct (usable_built q true Hu Ht) as (s & L & n & E & H1 & H2 & H3). destruct (nb_enum _ _ (sb_nb _ _ _ _ _ H1)) as (m & Em). destruct (sb_facts _ _ _ _ _ H1) as (HK & HO & _ & H4). cbn [here] in *. apply H2 in Hx. destruct Hx as (k & -> & Hk). cbn [U s_doc] in Hd. subst d. rewrite Forall_forall in HO. destruct (HO k Hk) as (Hk0 & _).
  destruct (H4 (Some (fst k))) as (s1 & (n1 & E1) & _ & Hs); [cbn [allowed]; splits; auto; lia|]. cbn [tgt] in *. assert (Hkf : In k (from (fst k) L)) by (unfold from; apply filter_In; split; [exact Hk|apply Z.leb_refl]). pose proof (tgt_KS (Some (fst k)) L HK) as HKf. cbn [tgt] in HKf. destruct (from (fst k) L) as [|y t] eqn:Ef; [destruct Hkf|].
  assert (Hy : fst y = fst k). { assert (In y (from (fst k) L)) as Hy by (rewrite Ef; left; reflexivity). unfold from in Hy. apply filter_In in Hy. destruct Hy as (_ & Hy). destruct Hkf as [->|Hkf]; [reflexivity|]. apply KS_inv in HKf. pose proof (kle_doc _ _ (proj2 HKf k Hkf)). lia. }
  pose proof (Hs y t eq_refl) as HB. destruct (sb_facts _ _ _ _ _ HB) as (HK1 & _ & Hv & _). cbn [shows] in Hv. pose proof (sb_nb _ _ _ _ _ HB) as HNB. destruct (skip_loop_ok (fst k) _ _ HNB O true (U y) Hv Hy) as (s2 & (n2 & E2) & Hs2). destruct (hits_ok _ (behind (fst k) (map U t)) (fst k) (S (front (fst k) (map U t))) s2 (le_n _) Hs2) as (n3 & E3).
  assert (HUP : up (map s_doc (map U (y :: t)))) by (apply up_docs, map_SS; exact HKf). assert (HGE : forall v, In v (map U (y :: t)) -> fst k <= s_doc v). { intros v Hv0. rewrite <- Ef in Hv0. apply in_map_iff in Hv0. destruct Hv0 as (z & <- & Hz). unfold from in Hz. apply filter_In in Hz. cbn [U s_doc]. lia. }
  destruct (behind_from (fst k) _ HUP HGE) as (B1 & B2). cbn [map behind front] in B1, B2. replace (s_doc (U y) =? fst k) with true in B1, B2 by (symmetry; apply Z.eqb_eq; exact Hy).
  assert (LE : forall e, fst k <= e -> length (in_doc e (map U L)) = length (in_doc e (map U (y :: t)))). { intros e He. rewrite <- Ef. unfold in_doc, from. clear - He. induction L as [|z L IH]; [reflexivity|]. cbn [map filter]. destruct (Z.leb_spec (fst k) (fst z)); cbn [map filter]; cbn [U s_doc]; destruct (Z.eqb_spec (fst z) e); cbn [length]; rewrite ?IH; try reflexivity; lia. }
  assert (HUPb : up (map s_doc (behind (fst k) (map U t)))). { rewrite B1. change (U y :: map U t) with (map U (y :: t)). clear - HUP. induction (map U (y :: t)) as [|v l IH]; [constructor|]. cbn [map] in HUP. apply up_inv in HUP. destruct HUP as (HU & Hv). cbn [filter]. destruct (fst k <? s_doc v); [|auto]. cbn [map]. constructor; [auto|]. apply Forall_forall. intros w Hw. apply in_map_iff in Hw. destruct Hw as (z & <- & Hz). apply filter_In in Hz. apply Hv. apply in_map. tauto. }
  destruct (group_ok _ HUPb) as (G1 & G2 & G3).
  exists (map U L), (Nat.max (Nat.max n m) (Nat.max n1 (Nat.max n2 n3))). split; [intros f Hf; unfold enumerate; rewrite E by lia; cbn [obind]; apply Em; lia|].
  exists s, (mkSc (fst k) false (nonnil (behind (fst k) (map U t))) (S (front (fst k) (map U t))) s2), (group (behind (fst k) (map U t))). splits.
  - intros f Hf. splits; [apply E; lia| |apply E3; lia]. unfold sc_skip, sc_new. cbn [c_spans c_first]. rewrite E1 by lia. cbn [obind fst snd nonnil]. rewrite Hv. cbn [obind]. rewrite E2 by lia. cbn [obind Nat.add Nat.eqb negb]. rewrite orb_true_r. cbn [U s_doc]. rewrite Hy. reflexivity.
  - reflexivity.
  - cbn [c_freq]. rewrite (LE (fst k)) by lia. exact B2.
  - exact G1.
  - intros e. rewrite G2, B1. change (U y :: map U t) with (map U (y :: t)). rewrite in_map_iff. split.
    + intros (v & Ev & Hv0). apply filter_In in Hv0. destruct Hv0 as (Hv0 & Hlt). split; [lia|]. exists v. split; [|exact Ev]. apply H2. apply in_map_iff in Hv0. destruct Hv0 as (z & <- & Hz). exists z. split; [reflexivity|]. rewrite <- Ef in Hz. unfold from in Hz. apply filter_In in Hz. tauto.
    + intros (He & v & Hv0 & <-). exists v. split; [reflexivity|]. apply filter_In. split; [|lia]. apply H2 in Hv0. destruct Hv0 as (z & -> & Hz). apply in_map. rewrite <- Ef. unfold from. apply filter_In. split; [exact Hz|]. cbn [U s_doc] in He. lia.
  - intros e n0 Hn. pose proof (G3 e n0 Hn) as ->. assert (He : fst k < e). { pose proof (proj1 (G2 e) (in_map fst _ _ Hn)) as Hi. rewrite B1 in Hi. apply in_map_iff in Hi. destruct Hi as (v & <- & Hv0). apply filter_In in Hv0. lia. } rewrite (LE e) by lia. rewrite B1. change (U y :: map U t) with (map U (y :: t)). unfold in_doc. f_equal. clear - He. induction (map U (y :: t)) as [|v l IH]; [reflexivity|]. cbn [filter]. destruct (Z.ltb_spec (fst k) (s_doc v)); cbn [filter]; destruct (Z.eqb_spec (s_doc v) e); rewrite ?IH; try reflexivity; lia.
Qed.
