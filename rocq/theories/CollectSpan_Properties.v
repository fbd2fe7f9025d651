(* C117: what is highlighted for a span query.  C118: that all of it is. *)
From Coq Require Import Sorting.Sorted Sorting.Permutation.
From Verif Require Import Util Strcmp Match_Model Match_Spec Match_Properties Span_Model Span_Spec Collect_Model Collect_Spec Collect_Proofs Collect_Properties CollectSpan_Model CollectSpan_Spec CollectSpan_Proofs CollectSpanMv_Proofs Ring.
Open Scope Z_scope.

(* ---------- C117: nothing is marked that should not be *)
Theorem C117_within : forall qsort fuel v q ms, qsorts qsort -> tv_ok v -> pos_ok v -> searchable (shape q) = true -> spanq_matchv qsort fuel v (tv_field v) q = Some ms -> forall r, In r ms -> exists p, r = (p, p) /\ span_marks v q p.
Proof. intros qsort fuel v q ms HQ HV HP Hs E r Hr. destruct (sq_sound v HV HP qsort HQ q fuel ms Hs E r Hr) as (p & -> & H). exists p. split; [reflexivity|apply marks_iff; exact H]. Qed.
Print Assumptions C117_within.
Theorem C117_other_field : forall qsort fuel v q field, field <> tv_field v -> spanq_matchv qsort fuel v field q = Some [].
Proof. intros qsort fuel v q field H. unfold spanq_matchv. replace (tv_field v =? field) with false by lia. reflexivity. Qed.
Print Assumptions C117_other_field.
(* "ax by cz ax by" *)
Definition ax : str := [97; 120].  Definition by_ : str := [98; 121].  Definition cz : str := [99; 122].
Lemma c113_pos : pos_ok c113_v.
Proof. intros t p (ps & H & Hp). cbn in H. unfold INT_MAX. repeat (destruct H as [H|H]; [injection H as <- <-; cbn in Hp; lia|]). destruct H. Qed.
(* by within 1 of cz: only the first by; ax not among the terms *)
Definition c117_near : tsq := GNear false 0 [GTerm by_; GTerm cz].
Definition c117_not : tsq := GNot (GTerm by_) (GFirst 2 (GTerm by_)).
Example C117_example : tv_ok c113_v /\ pos_ok c113_v /\ searchable (shape c117_near) = true /\ spanq_matchv isort 30 c113_v 1 c117_near = Some [(1, 1); (2, 2)] /\ spanq_matchv isort 30 c113_v 1 c117_not = Some [(4, 4)] /\
  spanq_matchv isort 30 c113_v 1 (GOr [GFirst 2 (GTerm ax); GTerm cz; GTerm [120]]) = Some [(0, 0); (2, 2)].
Proof. split; [apply C113_example|]. split; [exact c113_pos|]. repeat split; vm_compute; reflexivity. Qed.

(* ---------- C118: all that should be marked is *)
Theorem C118_exact_partial : forall qsort v q, qsorts qsort -> tv_ok v -> pos_ok v -> usable false (shape q) = true -> settled v false q -> (exists x, tspan v q x) ->
  exists ms n, (forall f, (n <= f)%nat -> spanq_matchv qsort f v (tv_field v) q = Some ms) /\ forall r, In r ms <-> exists p, r = (p, p) /\ span_marks v q p.
Proof. intros qsort v q HQ HV HP H1 H2 H3. destruct (sq_exact v HV HP qsort HQ q H1 H2 H3) as (ms & n & E & H). exists ms, n. split; [exact E|]. intros r. rewrite H. split; intros (p & -> & K); exists p; (split; [reflexivity|apply marks_iff; exact K]). Qed.
Print Assumptions C118_exact_partial.
Theorem C118_near_partial : forall qsort v q, qsorts qsort -> tv_ok v -> pos_ok v -> searchable (shape q) = true -> settled v false q -> (exists x, tspan v q x) ->
  exists ms n x, (forall f, (n <= f)%nat -> spanq_matchv qsort f v (tv_field v) q = Some ms) /\ (forall r, In r ms -> exists p, r = (p, p) /\ span_marks v q p) /\ tspan v q x /\
    forall t p, sought q t -> occurs v t p -> s_st x <= p < s_en x -> In (p, p) ms.
Proof.
  intros qsort v q HQ HV HP H1 H2 H3. destruct (sq_near v HV HP qsort HQ q H1 H2 H3) as (ms & n & x & E & H & K & L). exists ms, n, x. split; [exact E|]. split; [|split; [exact K|]].
  - intros r Hr. destruct (H r Hr) as (p & -> & M). exists p. split; [reflexivity|apply marks_iff; exact M].
  - intros t p Ht. apply L. apply sought_terms. exact Ht.
Qed.
Print Assumptions C118_near_partial.
(* a field without any of the terms *)
Theorem C118_absent_partial : forall qsort v q, qsorts qsort -> tv_ok v -> pos_ok v -> usable false (shape q) = true -> settled v false q -> (forall t p, sought q t -> ~ occurs v t p) -> (forall x, ~ tspan v q x) ->
  exists n, forall f, (n <= f)%nat -> spanq_matchv qsort f v (tv_field v) q = Some [].
Proof. intros qsort v q HQ HV HP H1 H2 H3. apply (sq_absent v HV HP qsort HQ q H1 H2). intros t p Ht. apply H3. apply sought_terms. exact Ht. Qed.
Print Assumptions C118_absent_partial.
Lemma c117_span : exists x, tspan c113_v c117_not x.
Proof.
  exists (mkSp 0 4 5). cbn [c117_not tspan s_doc s_st s_en]. split; [split; [reflexivity|]; split; [exists [1; 4]; cbn; auto|reflexivity]|]. intros y ((H1 & H2 & H3) & H4) (_ & H5 & H6). cbn in *. lia.
Qed.
Example C118_example : usable false (shape c117_not) = true /\ settled c113_v false c117_not /\ (exists x, tspan c113_v c117_not x) /\ searchable (shape c117_near) = true /\ settled c113_v false c117_near /\ (exists x, tspan c113_v c117_near x) /\
  (exists n, forall f, (n <= f)%nat -> spanq_matchv isort f c113_v 1 (GTerm [120]) = Some []).
Proof.
  split; [reflexivity|]. split; [cbn; repeat split; discriminate|]. split; [exact c117_span|]. split; [reflexivity|]. split; [cbn; repeat split; try discriminate; intros _; exists 2; exists [2]; cbn; auto|]. split.
  - exists (mkSp 0 1 3). cbn [c117_near tspan]. exists [mkSp 0 1 2; mkSp 0 2 3]. cbn. split; [repeat split; [exists [1; 4]; cbn; auto|exists [2]; cbn; auto]|]. split; [repeat constructor; cbn; lia|]. split; [cbn; lia|discriminate].
  - destruct (C118_absent_partial isort c113_v (GTerm [120]) C49_qsort_example (proj1 C117_example) c113_pos eq_refl) as (n & Hn).
    + cbn. discriminate.
    + intros t p Ht (ps & H & _). inversion Ht; subst. cbn in H. repeat (destruct H as [H|H]; [discriminate H|]). destruct H.
    + intros x (_ & (ps & H & _) & _). cbn in H. repeat (destruct H as [H|H]; [discriminate H|]). destruct H.
    + exists n. exact Hn.
Qed.
(* a query with terms in the field but no span there: a range that was never written is read *)
Theorem C118_no_span_refuted : forall qsort fuel v q t p, qsorts qsort -> tv_ok v -> pos_ok v -> searchable (shape q) = true -> (forall x, ~ tspan v q x) -> sought q t -> occurs v t p -> spanq_matchv qsort fuel v (tv_field v) q = None.
Proof. intros qsort fuel v q t p HQ HV HP H1 H2 H3. apply (sq_none v HV HP qsort HQ q fuel t p H1 H2). apply sought_terms. exact H3. Qed.
Print Assumptions C118_no_span_refuted.
(* so for every SpanNear of terms of which some are in the field and some are not *)
Theorem C118_missing_refuted : forall qsort fuel v in_order slop t0 t1 ts m t p, qsorts qsort -> tv_ok v -> pos_ok v -> In m (t0 :: t1 :: ts) -> (forall q, ~ occurs v m q) -> In t (t0 :: t1 :: ts) -> occurs v t p ->
  spanq_matchv qsort fuel v (tv_field v) (GNear in_order slop (map GTerm (t0 :: t1 :: ts))) = None.
Proof. intros qsort fuel v o slop t0 t1 ts m t p HQ HV HP. exact (near_missing v HV HP qsort HQ o slop t0 t1 ts fuel m t p). Qed.
Print Assumptions C118_missing_refuted.
(* and for a missing term on the excluded side of a SpanNot, which has spans then *)
Theorem C118_excluded_refuted : forall qsort fuel v in_order slop a t0 m p, tv_ok v -> (forall r, ~ occurs v m r) -> occurs v t0 p ->
  spanq_matchv qsort fuel v (tv_field v) (GNot (GTerm a) (GNear in_order slop [GTerm t0; GTerm m])) = None.
Proof. intros qsort fuel v o slop a t0 m p HV. exact (not_near_missing v HV qsort o slop a t0 m fuel p). Qed.
Print Assumptions C118_excluded_refuted.
(* SpanMultiTermQuery and SpanPrefixQuery: positions behind the last are read, whatever the terms and the field *)
Theorem C118_multi_refuted : forall qsort fuel v terms, tv_ok v -> pos_ok v -> terms <> [] -> multi_span_matchv qsort fuel v (tv_field v) terms = None.
Proof. intros qsort fuel v terms. exact (multi_never v qsort fuel terms). Qed.
Print Assumptions C118_multi_refuted.
Example C118_refuted_example : spanq_matchv isort 30 c113_v 1 (GFirst 2 (GTerm cz)) = None /\ (forall x, ~ tspan c113_v (GFirst 2 (GTerm cz)) x) /\ occurs c113_v cz 2 /\ spanq_matchv isort 30 c113_v 1 (GFirst 3 (GTerm cz)) = Some [(2, 2)] /\
  spanq_matchv isort 30 c113_v 1 (GNear true 0 [GTerm ax; GTerm [120]]) = None /\ spanq_matchv isort 30 c113_v 1 (GNot (GTerm by_) (GNear true 0 [GTerm ax; GTerm [120]])) = None /\ multi_span_matchv isort 30 c113_v 1 [ax] = None.
Proof.
  split; [vm_compute; reflexivity|]. split; [|split; [exists [2]; cbn; auto|repeat split; vm_compute; reflexivity]]. intros x ((_ & (ps & H & Hp) & H2) & H3). cbn in H. repeat (destruct H as [H|H]; [try discriminate H; injection H as <-; cbn in Hp; lia|]). destruct H.
Qed.
