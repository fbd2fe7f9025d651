(* C45, C46, C66: span queries. *)
From Coq Require Import Sorting.Sorted.
From Verif Require Import Util PQueue_Model Span_Model Span_Spec Span_Proofs SpanNear_Proofs SpanQuery_Proofs.
Open Scope Z_scope.

(* ---------- C45: a SpanNear over position lists *)
(* p is a position of the term with these postings in document d *)
Definition occurs (d : Z) (l : list (Z * list Z)) (p : Z) : Prop := exists ps, In (d, ps) l /\ In p ps.
(* one occurrence of each term between lo and hi, in order if asked for, with at most slop other positions *)
Definition near (in_order : bool) (slop : Z) (ls : list (list (Z * list Z))) (d : Z) : Prop :=
  exists ps lo hi, Forall2 (occurs d) ls ps /\ Forall (fun p => lo <= p < hi) ps /\ hi - lo - Z.of_nat (length ls) <= slop /\ (in_order = true -> StronglySorted Z.le ps).
Lemma near_spans o slop ls d : near o slop ls d <-> exists x, spans_in (QNear o slop (map QTerm ls)) x /\ s_doc x = d.
Proof.
  assert (HC : forall ls ys, choices (map QTerm ls) ys <-> exists ks, ys = map U ks /\ Forall2 (fun l k => occurs (fst k) l (snd k)) ls ks).
  { clear. induction ls as [|l ls IH]; intros ys; cbn [map]; destruct ys as [|y ys]; cbn [choices].
    - split; [intros _; exists []; split; [reflexivity|apply Forall2_nil]|intros _; exact I].
    - split; [intros []|intros (ks & E & H); inversion H; subst; discriminate].
    - split; [intros []|intros (ks & E & H); inversion H; subst; discriminate].
    - rewrite (IH ys). cbn [spans_in]. split.
      + intros ((ps & H1 & H2 & H3) & ks & -> & H). exists ((s_doc y, s_st y) :: ks). split; [cbn [map]; f_equal; unfold U; cbn [fst snd]; rewrite <- H3; destruct y; reflexivity|]. constructor; [exists ps; auto|exact H].
      + intros (ks & E & H). inversion H as [|? k ? ks' (ps & Hk1 & Hk2) Hks]; subst. cbn [map] in E. injection E as -> ->. cbn [U s_doc s_st s_en]. split; [exists ps; auto|exists ks'; auto]. }
  split.
  - intros (ps & lo & hi & HF & HB & HS & Ho). exists (mkSp d lo hi). split; [|reflexivity]. assert (HL : length ps = length ls) by (clear - HF; induction HF; cbn [length]; lia). exists (map U (map (fun p => (d, p)) ps)). split.
    + apply (HC ls). exists (map (fun p => (d, p)) ps). split; [reflexivity|]. clear - HF. induction HF as [|l p ls ps H HF IH]; cbn [map]; constructor; auto.
    + split; [|split].
      * rewrite Forall_forall in *. intros y Hy. rewrite map_map in Hy. apply in_map_iff in Hy. destruct Hy as (p & <- & Hp). specialize (HB p Hp). cbn [U s_doc s_st s_en fst snd]. lia.
      * rewrite lengths_U, map_length, HL. exact HS.
      * intros E. apply (proj2 (in_turn_up slop (map (fun p => (d, p)) ps))). rewrite map_map. cbn [snd]. rewrite map_id. exact (Ho E).
  - intros (x & (ys & Hc & (F1 & F2 & F3)) & <-). apply (HC ls) in Hc. destruct Hc as (ks & -> & HF). exists (map snd ks), (s_st x), (s_en x). assert (HL : length ks = length ls) by (clear - HF; induction HF; cbn [length]; lia). split; [|split; [|split]].
    + assert (HD : forall k, In k ks -> fst k = s_doc x) by (intros k Hk; rewrite Forall_forall in F1; destruct (F1 (U k) (in_map U _ _ Hk)) as (E & _); exact E). clear - HF HD. induction HF as [|l k ls ks H HF IH]; cbn [map]; constructor; [rewrite <- (HD k (or_introl eq_refl)); exact H|apply IH; intros k' Hk'; apply HD; right; exact Hk'].
    + rewrite Forall_forall in *. intros p Hp. apply in_map_iff in Hp. destruct Hp as (k & <- & Hk). destruct (F1 (U k) (in_map U _ _ Hk)) as (_ & H1 & H2). cbn [U s_st s_en] in *. lia.
    + rewrite lengths_U, HL in F2. exact F2.
    + intros E. apply (in_turn_up slop). exact (F3 E).
Qed.
Lemma c45_terms o slop l0 l1 ls : Forall postings_ok (l0 :: l1 :: ls) -> exists hits n, (forall f, (n <= f)%nat -> search f (QNear o slop (map QTerm (l0 :: l1 :: ls))) = Some hits) /\
  StronglySorted Z.lt (map fst hits) /\ forall d, In d (map fst hits) <-> near o slop (l0 :: l1 :: ls) d.
Proof.
  intros H. destruct (search_ok (QNear o slop (map QTerm (l0 :: l1 :: ls)))) as (l & hits & n & H1 & _ & H3 & H4 & _).
  - cbn [map searchable usable readable forallb andb]. clear H. induction ls; [reflexivity|]. cbn [map forallb usable readable andb]. exact IHls.
  - cbn [terms_ok map]. rewrite Forall_forall in H. split; [apply H; left; reflexivity|]. split; [apply H; right; left; reflexivity|]. assert (G : forall l, In l ls -> postings_ok l) by (intros k Hk; apply H; right; right; exact Hk). clear H. induction ls as [|k ls IH]; [exact I|]. cbn [map]. split; [apply G; left; reflexivity|apply IH; intros m Hm; apply G; right; exact Hm].
  - exists hits, n. split; [intros f Hf; apply H1; exact Hf|]. split; [exact H3|]. intros d. rewrite H4, near_spans. reflexivity.
Qed.
(* for terms: all position lists, slops, orders and numbers of clauses from two on *)
Theorem C45_terms : forall in_order slop l0 l1 ls, Forall postings_ok (l0 :: l1 :: ls) ->
  exists hits n, (forall f, (n <= f)%nat -> search f (QNear in_order slop (map QTerm (l0 :: l1 :: ls))) = Some hits) /\
    StronglySorted Z.lt (map fst hits) /\ forall d, In d (map fst hits) <-> near in_order slop (l0 :: l1 :: ls) d.
Proof. exact c45_terms. Qed.
Print Assumptions C45_terms.
Definition ex_a : list (Z * list Z) := [(1, [0; 9]); (4, [3])].
Definition ex_b : list (Z * list Z) := [(1, [5; 12]); (4, [6])].
Definition ex_c : list (Z * list Z) := [(1, [13]); (2, [1]); (4, [8])].
Definition posts_b (l : list (Z * list Z)) : bool :=
  (fix inc (l : list Z) : bool := match l with x :: (y :: _) as t => (x <? y) && inc t | _ => true end) (map fst l) &&
  forallb (fun d : Z * list Z => (0 <=? fst d) && (fst d <? INT_MAX) && negb (match snd d with [] => true | _ => false end) && forallb (fun p => (0 <=? p) && (p <? INT_MAX)) (snd d) && (fix inc (l : list Z) : bool := match l with x :: (y :: _) as t => (x <=? y) && inc t | _ => true end) (snd d)) l.
Lemma chain_ss (R : Z -> Z -> Prop) (rb : Z -> Z -> bool) : (forall x y, rb x y = true -> R x y) -> (forall x y z, R x y -> R y z -> R x z) -> forall l, (fix inc (l : list Z) : bool := match l with x :: (y :: _) as t => rb x y && inc t | _ => true end) l = true -> StronglySorted R l.
Proof.
  intros H1 H2. induction l as [|x l IH]; intros H; [constructor|]. destruct l as [|y l]; [constructor; constructor|]. apply andb_true_iff in H. destruct H as (Hxy & H). specialize (IH H). constructor; [exact IH|]. inversion IH as [|? ? _ HF]; subst. constructor; [auto|]. rewrite Forall_forall in *. intros z Hz. apply (H2 _ y); auto.
Qed.
Lemma posts_b_ok l : posts_b l = true -> postings_ok l.
Proof.
  unfold posts_b. intros H. apply andb_true_iff in H. destruct H as (H1 & H2). split; [apply (chain_ss Z.lt Z.ltb); auto; intros; lia|]. rewrite forallb_forall in H2. apply Forall_forall. intros d Hd. specialize (H2 d Hd). rewrite !andb_true_iff in H2. destruct H2 as ((((K1 & K2) & K3) & K4) & K5). split; [lia|]. split; [destruct (snd d); [discriminate|discriminate]|]. split; [apply (chain_ss Z.le Z.leb); auto; intros; lia|]. rewrite forallb_forall in K4. apply Forall_forall. intros p Hp. specialize (K4 p Hp). lia.
Qed.
Example c45_terms_ex : Forall postings_ok [ex_a; ex_b; ex_c] /\ search 40 (QNear true 2 (map QTerm [ex_a; ex_b; ex_c])) = Some [(1, 1%nat)] /\ search 40 (QNear false 3 (map QTerm [ex_c; ex_a; ex_b])) = Some [(1, 1%nat); (4, 1%nat)].
Proof. split; [repeat (apply Forall_cons; [apply posts_b_ok; reflexivity|]); apply Forall_nil|]. split; vm_compute; reflexivity. Qed.

(* clauses that are SpanOr, SpanFirst, SpanNot over terms: one position each, too *)
Theorem C45_near_partial : forall in_order slop q0 q1 qs, usable true q0 = true -> forallb (fun q => usable true q && readable q) (q1 :: qs) = true -> terms_ok (QNear in_order slop (q0 :: q1 :: qs)) ->
  exists l hits n, (forall f, (n <= f)%nat -> enumerate f (QNear in_order slop (q0 :: q1 :: qs)) = Some l /\ search f (QNear in_order slop (q0 :: q1 :: qs)) = Some hits) /\
    (forall v, In v l -> spans_in (QNear in_order slop (q0 :: q1 :: qs)) v) /\
    forall d, In d (map fst hits) <-> exists x, spans_in (QNear in_order slop (q0 :: q1 :: qs)) x /\ s_doc x = d.
Proof. intros o slop q0 q1 qs H0 H1 Ht. destruct (search_ok (QNear o slop (q0 :: q1 :: qs))) as (l & hits & n & K1 & K2 & _ & K4 & _); [cbn [searchable]; rewrite H0; exact H1|exact Ht|]. exists l, hits, n. auto. Qed.
Print Assumptions C45_near_partial.
Definition ex_or : squery := QOr [QTerm [(1, [3]); (2, [4])]; QTerm [(2, [0])]].
Definition ex_not : squery := QNot (QTerm [(1, [5]); (2, [6; 8])]) (QOr [QTerm [(2, [6])]; QTerm [(1, [4])]]).
Example c45_near_ex : usable true ex_or = true /\ search 60 (QNear true 1 [ex_or; QFirst 7 (QTerm [(1, [5]); (2, [6; 8])])]) = Some [(1, 1%nat); (2, 1%nat)] /\
  usable true (QNot (QTerm [(1, [5]); (2, [6; 8])]) (QTerm [(2, [6])])) = true /\ readable (QNot (QTerm [(1, [5]); (2, [6; 8])]) (QTerm [(2, [6])])) = true /\
  search 60 (QNear true 1 [ex_or; QNot (QTerm [(1, [5]); (2, [6; 8])]) (QTerm [(2, [6])])]) = Some [(1, 1%nat)].
Proof. vm_compute. auto. Qed.
(* a clause that is a SpanNear has longer spans, of which the first one found is kept: a (x y) c with 2 positions between, in order,
   is found with x y 1..6 but 1..2 comes first *)
Definition nested : squery := QNear true 2 [QTerm [(1, [0])]; QNear true 10 [QTerm [(1, [1; 3])]; QTerm [(1, [2; 6])]]; QTerm [(1, [7])]].
Lemma c45_nested : terms_ok nested /\ spans_in nested (mkSp 1 0 8) /\ exists f, search f nested = Some [].
Proof.
  split; [|split; [|exists 60%nat; vm_compute; reflexivity]].
  - cbn [terms_ok nested]. repeat split; try (apply posts_b_ok; reflexivity).
  - exists [mkSp 1 0 1; mkSp 1 1 7; mkSp 1 7 8]. split.
    + split; [exists [0]; cbn; auto|]. split; [|split; [exists [7]; cbn; auto|exact I]]. exists [mkSp 1 1 2; mkSp 1 6 7]. split; [split; [exists [1; 3]; cbn; auto|split; [exists [2; 6]; cbn; auto|exact I]]|]. split; [repeat constructor; cbn; lia|]. split; [vm_compute; discriminate|]. intros _. cbn. lia.
    + split; [repeat constructor; cbn; lia|]. split; [vm_compute; discriminate|]. intros _. cbn. lia.
Qed.
Theorem C45_nested_refuted : exists q x, terms_ok q /\ spans_in q x /\ exists f, search f q = Some [].
Proof. exists nested, (mkSp 1 0 8). exact c45_nested. Qed.
Print Assumptions C45_nested_refuted.

(* ---------- C46: the scorer *)
Theorem C46_next_partial : forall q, searchable q = true -> terms_ok q -> exists l hits n, (forall f, (n <= f)%nat -> enumerate f q = Some l /\ search f q = Some hits) /\ (forall v, In v l -> spans_in q v) /\
  StronglySorted Z.lt (map fst hits) /\ (forall d, In d (map fst hits) <-> exists x, spans_in q x /\ s_doc x = d) /\ forall d n, In (d, n) hits -> n = length (in_doc d l).
Proof. exact search_ok. Qed.
Print Assumptions C46_next_partial.
Definition ex_t : squery := QTerm [(1, [0]); (5, [0; 3]); (8, [2])].
Example c46_next_ex : searchable ex_not = true /\ search 40 ex_not = Some [(1, 1%nat); (2, 1%nat)] /\ search 40 (QOr [ex_t; ex_or; ex_t]) = Some [(1, 3%nat); (2, 2%nat); (5, 4%nat); (8, 2%nat)].
Proof. vm_compute. auto. Qed.
(* skip_to as the first move, to a document that has a span *)
Theorem C46_first_skip_partial : forall q d x, usable true q = true -> terms_ok q -> spans_in q x -> s_doc x = d ->
  exists l n, (forall f, (n <= f)%nat -> enumerate f q = Some l) /\ exists s c hits, (forall f, (n <= f)%nat -> spans_of f q = Some s /\ sc_skip f (sc_new s) d = Some (true, c) /\ sc_hits f c = Some hits) /\ c_doc c = d /\ c_freq c = length (in_doc d l) /\
    StronglySorted Z.lt (map fst hits) /\ (forall e, In e (map fst hits) <-> d < e /\ exists y, spans_in q y /\ s_doc y = e) /\ forall e n, In (e, n) hits -> n = length (in_doc e l).
Proof. exact first_skip_ok. Qed.
Print Assumptions C46_first_skip_partial.
Fixpoint moves (f : nat) (ops : list (option Z)) (c : scorer) : option (list (bool * Z * nat)) :=
  match ops with [] => Some [] | o :: t => do r <- sc_move f o c; do l <- moves f t (snd r); Some ((fst r, c_doc (snd r), c_freq (snd r)) :: l) end.
Definition drive (f : nat) (q : squery) (ops : list (option Z)) : option (list (bool * Z * nat)) := do s <- spans_of f q; moves f ops (sc_new s).
Example c46_first_skip_ex : drive 40 ex_t [Some 5; None] = Some [(true, 5, 2%nat); (true, 8, 1%nat)] /\ drive 40 (QOr [ex_t; ex_or]) [Some 2; None; None; None] = Some [(true, 2, 2%nat); (true, 5, 2%nat); (true, 8, 1%nat); (false, 8, 1%nat)].
Proof. vm_compute. auto. Qed.
(* the scorer has the spans on the next document already, from where skip_to goes at least one document on: after document 1, skip_to 5
   goes to 8 although 5 has spans *)
Theorem C46_lost_refuted : exists q d x, terms_ok q /\ usable true q = true /\ spans_in q x /\ s_doc x = d /\ exists f e n, drive f q [None; Some d] = Some [(true, 1, 1%nat); (true, e, n)] /\ d < e.
Proof.
  exists ex_t, 5, (mkSp 5 0 1). split; [apply posts_b_ok; reflexivity|]. split; [reflexivity|]. split; [exists [0; 3]; cbn; auto|]. split; [reflexivity|]. exists 40%nat, 8, 0%nat. split; [vm_compute; reflexivity|lia].
Qed.
Print Assumptions C46_lost_refuted.
(* and a document after the target is reported with no span, and again by the next move *)
Theorem C46_repeated_refuted : exists q ops d n, terms_ok q /\ usable true q = true /\ exists f, drive f q ops = Some [(true, d, 0%nat); (true, d, S n)].
Proof. exists ex_t, [Some 3; None], 5, 0%nat. split; [apply posts_b_ok; reflexivity|]. split; [reflexivity|]. exists 40%nat. vm_compute. reflexivity. Qed.
Print Assumptions C46_repeated_refuted.

(* ---------- C66: SpanOr, SpanFirst and SpanNot *)
Theorem C66_enumerates : forall q, usable false q = true -> terms_ok q -> exists l n, (forall f, (n <= f)%nat -> enumerate f q = Some l) /\ StronglySorted span_le l /\ (forall x, In x l <-> spans_in q x) /\ forall x, In x l -> times q x (count_occ sdec l x).
Proof. exact enumerates. Qed.
Print Assumptions C66_enumerates.
Example c66_enumerates_ex : usable false ex_not = true /\ enumerate 40 ex_not = Some [mkSp 1 5 6; mkSp 2 8 9] /\ enumerate 40 (QFirst 3 (QOr [ex_or; ex_t])) = Some [mkSp 1 0 1; mkSp 2 0 1; mkSp 5 0 1; mkSp 8 2 3].
Proof. vm_compute. auto. Qed.
(* skip_to: spans from the document on, for whoever asks after a smaller one *)
Theorem C66_skips : forall q, usable true q = true -> terms_ok q -> exists s L n, (forall f, (n <= f)%nat -> spans_of f q = Some s) /\ SB true (readable q) s None L /\ forall v, spans_in q v <-> exists x, v = U x /\ In x L.
Proof. intros q H1 H2. destruct (usable_built q true H1 H2) as (s & L & n & E & K1 & K2 & _). exists s, L, n. auto. Qed.
Print Assumptions C66_skips.
(* a SpanOr of several clauses has no document before it has moved; a SpanNear asks for it: the top of an empty queue is read *)
Definition or_in_near : squery := QNear true 1 [QTerm [(1, [0])]; QOr [QTerm [(1, [1])]; QTerm [(1, [2])]]].
Lemma c67_crash : forall f, (exists s, spans_of f or_in_near = Some s) /\ search f or_in_near = None.
Proof. intros f. split; [eexists; reflexivity|]. unfold search. cbn [or_in_near spans_of map all_some obind]. unfold sc_new. destruct f as [|[|[|[|f]]]]; vm_compute; reflexivity. Qed.
Theorem C67_or_in_near_refuted : exists q x, terms_ok q /\ spans_in q x /\ forall f, (exists s, spans_of f q = Some s) /\ search f q = None.
Proof.
  exists or_in_near, (mkSp 1 0 2). split; [cbn [terms_ok or_in_near]; repeat split; try (apply posts_b_ok; reflexivity)|]. split; [|exact c67_crash]. exists [mkSp 1 0 1; mkSp 1 1 2]. split; [split; [exists [0]; cbn; auto|split; [left; exists [1]; cbn; auto|exact I]]|]. split; [repeat constructor; cbn; lia|]. split; [vm_compute; discriminate|]. intros _. cbn. lia.
Qed.
Print Assumptions C67_or_in_near_refuted.
