From Coq Require Import Sorting.Sorted Sorting.Permutation.
From Verif Require Import Util Strcmp PQueue_Model PQueue_Spec PQueue_Proofs Match_Model Match_Spec Match_Properties Span_Model Span_Spec Collect_Model Collect_Spec Collect_Proofs CollectSpan_Model Ring.
Open Scope Z_scope.
(* ---------- what is defined with one enumerator is the same with another *)
Definition ref {A} (x y : option A) : Prop := forall r, x = Some r -> y = Some r.
Lemma ref_refl {A} (x : option A) : ref x x.
Proof. intros r H. exact H. Qed.
Lemma ref_none {A} (y : option A) : ref None y.
Proof. intros r H. discriminate. Qed.
Lemma ref_bind {A B} (x y : option A) (k l : A -> option B) : ref x y -> (forall a, ref (k a) (l a)) -> ref (obind x k) (obind y l).
Proof. intros H1 H2 r. destruct x as [a|]; [|discriminate]. rewrite (H1 a eq_refl). cbn [obind]. apply H2. Qed.
Ltac ref_go :=
  match goal with
  | |- ref ?x ?x => apply ref_refl
  | |- ref None _ => apply ref_none
  | H : _ |- ref _ _ => apply H; solve [lia | auto]
  | |- ref (obind _ _) (obind _ _) => apply ref_bind; [|intros]
  | |- ref (if ?b then _ else _) (if ?b then _ else _) => destruct b
  | |- ref (match ?x with _ => _ end) (match ?x with _ => _ end) => destruct x
  end.
Section REF.
  Variables call1 call2 : option Z -> se -> option (bool * se).
  Hypothesis HC : forall op s, ref (call1 op s) (call2 op s).
  Lemma first_next_ref : forall f g last sub, (f <= g)%nat -> ref (first_next call1 f last sub) (first_next call2 g last sub).
  Proof. induction f as [|f IH]; intros [|g] last sub Hg; try lia; cbn [first_next]; repeat ref_go. Qed.
  Lemma first_skip_ref f g last sub d : (f <= g)%nat -> ref (first_skip call1 f last sub d) (first_skip call2 g last sub d).
  Proof. intros Hg. pose proof first_next_ref. unfold first_skip. repeat ref_go. Qed.
  Lemma or_fill_ref op : forall subs q, ref (or_fill call1 op subs q) (or_fill call2 op subs q).
  Proof. induction subs as [|s t IH]; intros q; cbn [or_fill]; repeat ref_go. Qed.
  Lemma or_next_ref ft q subs : ref (or_next call1 ft q subs) (or_next call2 ft q subs).
  Proof. pose proof or_fill_ref. unfold or_next. repeat ref_go. Qed.
  Lemma or_skip_loop_ref : forall f g q d, (f <= g)%nat -> ref (or_skip_loop call1 f q d) (or_skip_loop call2 g q d).
  Proof. induction f as [|f IH]; intros [|g] q d Hg; try lia; cbn [or_skip_loop]; repeat ref_go. Qed.
  Lemma or_skip_ref f g ft q subs d : (f <= g)%nat -> ref (or_skip call1 f ft q subs d) (or_skip call2 g ft q subs d).
  Proof. intros Hg. pose proof or_fill_ref. pose proof or_skip_loop_ref. unfold or_skip. repeat ref_go. Qed.
  Lemma goto_loop_ref : forall f g cur prev subs, (f <= g)%nat -> ref (goto_loop call1 f cur prev subs) (goto_loop call2 g cur prev subs).
  Proof. induction f as [|f IH]; intros [|g] cur prev subs Hg; try lia; cbn [goto_loop]; repeat ref_go. Qed.
  Lemma goto_next_doc_ref f g cur subs : (f <= g)%nat -> ref (goto_next_doc call1 f cur subs) (goto_next_doc call2 g cur subs).
  Proof. intros Hg. pose proof goto_loop_ref. unfold goto_next_doc. repeat ref_go. Qed.
  Lemma unordered_ref : forall f g slop subs cur doc st en, (f <= g)%nat -> ref (unordered call1 f slop subs cur doc st en) (unordered call2 g slop subs cur doc st en).
  Proof. pose proof goto_next_doc_ref. induction f as [|f IH]; intros [|g] slop subs cur doc st en Hg; try lia; cbn [unordered]; repeat ref_go. Qed.
  Lemma ord_adv_ref : forall f g p s, (f <= g)%nat -> ref (ord_adv call1 f p s) (ord_adv call2 g p s).
  Proof. induction f as [|f IH]; intros [|g] p s Hg; try lia; cbn [ord_adv]; repeat ref_go. Qed.
  Lemma ord_inner_ref f g : (f <= g)%nat -> forall n i p sum subs cur, ref (ord_inner call1 f n i p sum subs cur) (ord_inner call2 g n i p sum subs cur).
  Proof. intros Hg. pose proof ord_adv_ref. pose proof goto_next_doc_ref. induction n as [|n IH]; intros i p sum subs cur; cbn [ord_inner]; repeat ref_go. Qed.
  Lemma ordered_ref : forall f g slop subs cur doc st en, (f <= g)%nat -> ref (ordered call1 f slop subs cur doc st en) (ordered call2 g slop subs cur doc st en).
  Proof. pose proof goto_next_doc_ref. pose proof ord_inner_ref. induction f as [|f IH]; intros [|g] slop subs cur doc st en Hg; try lia; cbn [ordered]; repeat ref_go. Qed.
  Lemma near_match_ref f g o slop cur doc st en subs : (f <= g)%nat -> ref (near_match call1 f o slop cur doc st en subs) (near_match call2 g o slop cur doc st en subs).
  Proof. intros Hg. pose proof goto_next_doc_ref. pose proof ordered_ref. pose proof unordered_ref. unfold near_match. destruct o; repeat ref_go. Qed.
  Lemma near_move_ref f g op o slop cur doc st en subs : (f <= g)%nat -> ref (near_move call1 f op o slop cur doc st en subs) (near_move call2 g op o slop cur doc st en subs).
  Proof. intros Hg. pose proof near_match_ref. unfold near_move. repeat ref_go. Qed.
  Lemma not_before_ref : forall f g inc me exc, (f <= g)%nat -> ref (not_before call1 f inc me exc) (not_before call2 g inc me exc).
  Proof. induction f as [|f IH]; intros [|g] inc me exc Hg; try lia; cbn [not_before]; repeat ref_go. Qed.
  Lemma not_loop_ref : forall f g mi me inc exc, (f <= g)%nat -> ref (not_loop call1 f mi me inc exc) (not_loop call2 g mi me inc exc).
  Proof. pose proof not_before_ref. induction f as [|f IH]; intros [|g] mi me inc exc Hg; try lia; cbn [not_loop]; repeat ref_go. Qed.
  Lemma not_next_ref f g mi me inc exc : (f <= g)%nat -> ref (not_next call1 f mi me inc exc) (not_next call2 g mi me inc exc).
  Proof. intros Hg. pose proof not_loop_ref. unfold not_next. repeat ref_go. Qed.
  Lemma not_skip_ref f g mi me inc exc d : (f <= g)%nat -> ref (not_skip call1 f mi me inc exc d) (not_skip call2 g mi me inc exc d).
  Proof. intros Hg. pose proof not_before_ref. pose proof not_next_ref. unfold not_skip. repeat ref_go. Qed.
End REF.
Lemma run_ref : forall f g op s, (f <= g)%nat -> ref (run f op s) (run g op s).
Proof.
  induction f as [|f IH]; intros [|g] op s Hg; try lia; cbn [run]; [apply ref_none|apply ref_none|]. assert (HC : forall op s, ref (run f op s) (run g op s)) by (intros; apply IH; lia). assert (Hl : (f <= g)%nat) by lia.
  destruct s, op; first [apply ref_refl|apply first_next_ref|apply first_skip_ref|apply or_next_ref|apply or_skip_ref|apply near_move_ref|apply not_next_ref|apply not_skip_ref]; assumption.
Qed.
Lemma tv_skip_ref pos rest d : ref (tv_skip pos rest d) (term_skip pos rest d).
Proof.
  unfold tv_skip, term_skip. destruct rest as [|[[|x|x] [|p t]] [|y rest]]; try apply ref_none.
  - destruct (d =? 0); [apply ref_none|]. cbn [docs_from term_next]. apply ref_refl.
  - destruct (Z.eqb_spec d 0) as [->|H]; [cbn [docs_from Z.ltb Z.compare term_next]; apply ref_refl|]. destruct (Z.ltb_spec 0 d) as [G|G]; [|apply ref_none]. cbn [docs_from]. rewrite (proj2 (Z.ltb_lt _ _) G). apply ref_refl.
Qed.
Lemma tv_run_ref : forall f g op s, (f <= g)%nat -> ref (tv_run f op s) (run g op s).
Proof.
  induction f as [|f IH]; intros [|g] op s Hg; try lia; cbn [run tv_run]; [apply ref_none|apply ref_none|]. assert (HC : forall op s, ref (tv_run f op s) (run g op s)) by (intros; apply IH; lia). assert (Hl : (f <= g)%nat) by lia.
  destruct s, op; first [apply ref_refl|apply tv_skip_ref|apply first_next_ref|apply first_skip_ref|apply or_next_ref|apply or_skip_ref|apply near_move_ref|apply not_next_ref|apply not_skip_ref]; assumption.
Qed.
Lemma all_some_ref {A B} (f g : A -> option B) l : Forall (fun x => ref (f x) (g x)) l -> ref (Span_Model.all_some (map f l)) (Span_Model.all_some (map g l)).
Proof. induction 1 as [|x l H HF IH]; cbn [map Span_Model.all_some]; [apply ref_refl|]. apply ref_bind; [exact H|intros]. apply ref_bind; [exact IH|intros; apply ref_refl]. Qed.
Lemma tv_spans_ref f g : (f <= g)%nat -> forall q, ref (tv_spans_of f q) (spans_of g q).
Proof.
  intros Hg. fix IH 1.
  intros [l|e q|qs|o slop qs|a b]; cbn [tv_spans_of spans_of].
  - apply ref_refl.
  - apply ref_bind; [apply IH|intros; apply ref_refl].
  - apply ref_bind; [apply all_some_ref; induction qs as [|q qs IHq]; constructor; [apply IH|exact IHq]|intros; apply ref_refl].
  - apply ref_bind; [apply all_some_ref; induction qs as [|q qs IHq]; constructor; [apply IH|exact IHq]|intros; apply ref_refl].
  - apply ref_bind; [apply IH|intros i]. apply ref_bind; [apply IH|intros e]. apply ref_bind; [apply tv_run_ref; exact Hg|intros; apply ref_refl].
Qed.
Lemma tv_enum_ref : forall f g s, (f <= g)%nat -> ref (tv_enum f s) (enum g s).
Proof. pose proof tv_run_ref. induction f as [|f IH]; intros [|g] s Hg; try lia; cbn [tv_enum enum]; repeat ref_go. Qed.
(* the spans found on a term vector are those found in an index with the same postings *)
Lemma tv_enumerate_ref f g q : (f <= g)%nat -> ref (tv_enumerate f q) (enumerate g q).
Proof. intros Hg. unfold tv_enumerate, enumerate. apply ref_bind; [apply tv_spans_ref; exact Hg|intros; apply tv_enum_ref; exact Hg]. Qed.
(* ---------- enumerators without SpanNear and SpanNot are never asked to skip *)
Section HEAP.
  Variables (A : Type) (lt : A -> A -> bool) (P : A -> bool).
  Definition hp (o : option A) : Prop := match o with Some e => P e = true | None => True end.
  Lemma hp_upd h i o : Forall hp h -> hp o -> Forall hp (upd h i o).
  Proof. revert i. induction h as [|x h IH]; intros i HF Ho; destruct i; cbn [upd]; try exact HF; constructor; try assumption; [exact (Forall_inv_tail HF)|exact (Forall_inv HF)|apply IH; [exact (Forall_inv_tail HF)|exact Ho]]. Qed.
  Lemma hp_nth h i o : Forall hp h -> nth_error h i = Some o -> hp o.
  Proof. intros HF H. rewrite Forall_forall in HF. apply HF. exact (nth_error_In _ _ H). Qed.
  Lemma hp_elt h i x : Forall hp h -> elt A h i = Some x -> P x = true.
  Proof. unfold elt. intros HF H. destruct (nth_error h i) as [o|] eqn:E; [|discriminate]. cbn [obind] in H. subst o. exact (hp_nth _ _ _ HF E). Qed.
  Lemma hp_up : forall f h i n r, Forall hp h -> P n = true -> PQueue_Model.up A lt f h i n = Some r -> Forall hp r.
  Proof.
    induction f as [|f IH]; intros h i n r HF Hn E; [discriminate|]. cbn [PQueue_Model.up] in E. destruct (0 <? i / 2)%nat; [|apply some_inj in E; subst r; apply hp_upd; assumption].
    destruct (elt A h (i / 2)) as [p|] eqn:Ep; [|discriminate]. cbn [obind] in E. destruct (lt n p); [|apply some_inj in E; subst r; apply hp_upd; assumption]. apply IH in E; [exact E| |exact Hn]. apply hp_upd; [exact HF|]. exact (hp_elt _ _ _ HF Ep).
  Qed.
  Lemma hp_down : forall f h i size n r, Forall hp h -> hp n -> down A lt f h i size n = Some r -> Forall hp r.
  Proof.
    induction f as [|f IH]; intros h i size n r HF Hn E; [discriminate|]. cbn [down] in E. destruct (child A lt h i size) as [j|]; [|discriminate]. cbn [obind] in E. destruct (j <=? size)%nat; [|apply some_inj in E; subst r; apply hp_upd; assumption].
    destruct (elt A h j) as [c|] eqn:Ec; [|discriminate]. cbn [obind] in E. destruct n as [n|]; [|discriminate]. cbn [obind] in E. destruct (lt c n); [|apply some_inj in E; subst r; apply hp_upd; assumption]. apply IH in E; [exact E| |exact Hn]. apply hp_upd; [exact HF|exact (hp_elt _ _ _ HF Ec)].
  Qed.
  Definition qp (q : pq A) : Prop := Forall hp (pq_heap q).
  Lemma qp_down q r : qp q -> pq_down A lt q = Some r -> qp r.
  Proof. unfold pq_down, qp. intros HF E. destruct (nth_error (pq_heap q) 1) as [n|] eqn:En; [|discriminate]. cbn [obind] in E. destruct (down _ _ _ _ _ _ _) as [h|] eqn:Ed; [|discriminate]. apply some_inj in E. subst r. cbn [pq_heap]. exact (hp_down _ _ _ _ _ _ HF (hp_nth _ _ _ HF En) Ed). Qed.
  Lemma qp_push q e r : qp q -> P e = true -> pq_push A lt q e = Some r -> qp r.
  Proof.
    unfold pq_push, qp. intros HF He E. set (h := if (_ <=? _)%nat then _ else _) in E. assert (Hh : Forall hp h) by (unfold h; destruct (_ <=? _)%nat; [apply Forall_app; split; [exact HF|apply Forall_forall; intros o Ho; apply repeat_spec in Ho; subst o; exact Logic.I]|exact HF]). clearbody h.
    destruct (nth_error h _); [|discriminate]. cbn [obind] in E. destruct (PQueue_Model.up _ _ _ _ _ _) as [h'|] eqn:Eu; [|discriminate]. apply some_inj in E. subst r. cbn [pq_heap]. apply hp_up in Eu; [exact Eu|apply hp_upd; [exact Hh|exact He]|exact He].
  Qed.
  Lemma qp_replace q e r : qp q -> P e = true -> pq_replace_top A lt q e = Some r -> qp r.
  Proof. unfold pq_replace_top. intros HF He E. destruct (nth_error _ 1); [|discriminate]. cbn [obind] in E. apply qp_down in E; [exact E|]. unfold qp. cbn [pq_heap]. apply hp_upd; [exact HF|exact He]. Qed.
  Lemma qp_pop q x r : qp q -> pq_pop A lt q = Some (x, r) -> qp r.
  Proof.
    unfold pq_pop. intros HF E. destruct (0 <? pq_size q)%nat; [|apply some_inj in E; injection E as _ <-; exact HF]. destruct (nth_error (pq_heap q) 1) as [t|]; [|discriminate]. cbn [obind] in E. destruct (nth_error (pq_heap q) (pq_size q)) as [l|] eqn:El; [|discriminate]. cbn [obind] in E.
    destruct (pq_down _ _ _) as [q'|] eqn:Ed; [|discriminate]. apply some_inj in E. injection E as _ <-. apply qp_down in Ed; [exact Ed|]. unfold qp. cbn [pq_heap]. apply hp_upd; [apply hp_upd; [exact HF|exact (hp_nth _ _ _ HF El)]|exact Logic.I].
  Qed.
  Lemma qp_top q x : qp q -> (do t <- pq_top A q; t) = Some x -> P x = true.
  Proof. unfold pq_top. intros HF E. destruct (0 <? pq_size q)%nat; [|discriminate]. destruct (nth_error (pq_heap q) 1) as [o|] eqn:En; [|discriminate]. cbn [obind] in E. subst o. exact (hp_nth _ _ _ HF En). Qed.
End HEAP.
(* an enumerator that was not moved yet, and may be asked to skip if b; an enumerator on a span *)
Fixpoint on (s : se) : bool :=
  match s with
  | STerm doc _ _ rest => (doc =? 0) && match rest with [] => true | _ => false end
  | SFirst _ s => on s
  | SOr ft q subs => negb ft && forallb (fun o => match o with Some e => on e | None => true end) (pq_heap q)
  | SNear _ _ _ doc _ _ subs => (doc =? 0) && forallb on subs
  | SNot mi me inc exc => mi && on inc && (negb me || on exc)
  end.
Fixpoint fresh (b : bool) (s : se) : bool :=
  match s with
  | STerm doc _ now rest => (doc =? -1) && match now with [] => true | _ => false end && match rest with [] => negb b | [(0, _ :: _)] => true | _ => false end
  | SFirst _ s => fresh b s
  | SOr ft q subs => ft && forallb (fun o => match o with Some _ => false | None => true end) (pq_heap q) && forallb (fresh b) subs
  | SNear _ _ cur doc _ _ subs => (cur =? 0)%nat && (doc =? -1) && match subs with s :: ((_ :: _) as t) => fresh b s && forallb (fresh true) t | _ => false end
  | SNot mi me inc exc => negb b && mi && fresh b inc && (negb me || on exc)
  end.
Definition okc (op : option Z) (s : se) : Prop := op = None /\ (on s = true \/ exists b, fresh b s = true) \/ op = Some 0 /\ fresh true s = true.
Ltac bt := repeat match goal with H : _ && _ = true |- _ => apply andb_true_iff in H; destruct H end.
Lemma on_val : forall s v, on s = true -> val s = Some v -> s_doc v = 0.
Proof.
  fix IH 1. intros [doc pos now rest|last sub|ft q subs|o slop cur doc st en subs|mi me inc exc] v H E; cbn [on val] in *; bt.
  - apply some_inj in E. subst v. cbn. lia.
  - exact (IH sub v H E).
  - destruct (pq_size q); [discriminate|]. destruct q as [hq sz cp]. cbn [pq_heap] in *. destruct hq as [|a [|[t|] l]]; try discriminate. cbn [forallb] in *. bt. exact (IH t v H1 E).
  - apply some_inj in E. subst v. cbn. lia.
  - exact (IH inc v H1 E).
Qed.
Lemma fresh_val : forall s b v, fresh b s = true -> val s = Some v -> s_doc v = -1.
Proof.
  fix IH 1. intros [doc pos now rest|last sub|ft q subs|o slop cur doc st en subs|mi me inc exc] b v H E; cbn [fresh val] in *; bt.
  - apply some_inj in E. subst v. cbn. lia.
  - exact (IH sub b v H E).
  - destruct (pq_size q); [discriminate|]. destruct q as [hq sz cp]. cbn [pq_heap] in *. destruct hq as [|a [|[t|] l]]; try discriminate. cbn [forallb] in *. bt. discriminate.
  - apply some_inj in E. subst v. cbn. lia.
  - exact (IH inc b v H1 E).
Qed.
Lemma on_or ft q subs : on (SOr ft q subs) = true <-> ft = false /\ qp se on q.
Proof. cbn [on]. rewrite andb_true_iff, negb_true_iff, forallb_forall. unfold qp. rewrite !Forall_forall. split; intros (H1 & H2); (split; [exact H1|]); intros o Ho; specialize (H2 o Ho); destruct o; cbn in *; auto. Qed.
Lemma on_subs subs i s : forallb on subs = true -> nth_error subs i = Some s -> on s = true.
Proof. rewrite forallb_forall. intros H E. apply H. exact (nth_error_In _ _ E). Qed.
Lemma on_upd subs i s : forallb on subs = true -> on s = true -> forallb on (upd subs i s) = true.
Proof. revert i. induction subs as [|x l IH]; intros [|i] H Hs; cbn [upd forallb] in *; bt; try reflexivity; apply andb_true_iff; split; auto. Qed.
Section TWO.
  Variables c d : option Z -> se -> option (bool * se).
  Definition same (x y : option (bool * se)) : Prop := forall r, x = Some r -> y = Some r /\ (fst r = true -> on (snd r) = true).
  Hypothesis HC : forall op s, okc op s -> same (c op s) (d op s).
  Lemma c_on s : on s = true -> same (c None s) (d None s).
  Proof. intros H. apply HC. left. auto. Qed.
  Ltac st E x := match type of E with obind ?e _ = Some _ => destruct e as [x|] eqn:?; [|discriminate E]; cbn [obind] in E |- * end.
  Lemma t_first last : forall f sub, on sub = true \/ (exists b, fresh b sub = true) -> same (first_next c f last sub) (first_next d f last sub).
  Proof.
    induction f as [|f IH]; intros sub Hs r E; [discriminate|]. cbn [first_next] in *. st E x. destruct (HC None sub (or_introl (conj eq_refl Hs)) x Heqo) as (Et & Hx). rewrite Et. cbn [obind] in *. destruct (fst x) eqn:Ef.
    - st E w. cbn [obind]. destruct (s_en w <=? last); [split; [exact E|]; apply some_inj in E; subst r; intros _; exact (Hx eq_refl)|apply IH; [left; exact (Hx eq_refl)|exact E]].
    - split; [exact E|]. apply some_inj in E. subst r. discriminate.
  Qed.
  Lemma t_first_skip f last sub : fresh true sub = true -> same (first_skip c f last sub 0) (first_skip d f last sub 0).
  Proof.
    intros Hs r E. unfold first_skip in *. st E x. destruct (HC (Some 0) sub (or_intror (conj eq_refl Hs)) x Heqo) as (Et & Hx). rewrite Et. cbn [obind] in *. destruct (fst x) eqn:Ef.
    - st E w. cbn [obind]. destruct (s_en w <=? last); [split; [exact E|]; apply some_inj in E; subst r; intros _; exact (Hx eq_refl)|apply t_first; [left; exact (Hx eq_refl)|exact E]].
    - split; [exact E|]. apply some_inj in E. subst r. discriminate.
  Qed.
  Lemma t_fill op : forall subs q, Forall (okc op) subs -> qp se on q -> forall q', or_fill c op subs q = Some q' -> or_fill d op subs q = Some q' /\ qp se on q'.
  Proof.
    induction subs as [|s l IH]; intros q Hl H0 q1 E; cbn [or_fill] in *; [apply some_inj in E; subst q1; auto|]. st E x. destruct (HC op s (Forall_inv Hl) x Heqo) as (Et & Hx). rewrite Et. cbn [obind] in *. destruct (fst x).
    - st E q'. cbn [obind]. apply IH; [exact (Forall_inv_tail Hl)| |exact E]. exact (qp_push _ _ _ _ _ _ H0 (Hx eq_refl) Heqo0).
    - apply IH; [exact (Forall_inv_tail Hl)|exact H0|exact E].
  Qed.
  Lemma t_done q subs : qp se on q -> forall r, or_done q subs = Some r -> fst r = true -> on (snd r) = true.
  Proof. intros H r E _. unfold or_done in E. apply some_inj in E. subst r. apply on_or. auto. Qed.
  Lemma t_or ft q subs : on (SOr ft q subs) = true \/ (exists b, fresh b (SOr ft q subs) = true) -> same (or_next c ft q subs) (or_next d ft q subs).
  Proof.
    intros H r E. unfold or_next in *. destruct ft.
    - destruct H as [H|(b & H)]; [cbn [on negb andb] in H; discriminate|]. cbn [fresh] in H. bt. rewrite forallb_forall in H0, H1. st E q'. destruct (t_fill None subs q) with (q' := q') as (Et & Hq); [apply Forall_forall; intros s Hs; left; split; [reflexivity|]; right; exists b; auto|apply Forall_forall; intros o Ho; specialize (H1 o Ho); destruct o; [discriminate|exact Logic.I]|exact Heqo|].
      rewrite Et. cbn [obind]. split; [exact E|]. exact (t_done _ _ Hq r E).
    - destruct H as [H|(b & H)]; [|cbn [fresh andb] in H; discriminate]. apply on_or in H. destruct H as (_ & HQ). destruct (pq_size q =? 0)%nat; [split; [exact E|]; apply some_inj in E; subst r; discriminate|]. unfold or_top in *. st E t. st E x. destruct (c_on t (qp_top _ _ _ _ HQ Heqo) x Heqo0) as (Et & Hx). cbn [obind]. rewrite Et. cbn [obind]. split; [exact E|]. destruct (fst x).
      + st E q'. apply some_inj in E. subst r. intros _. apply on_or. split; [reflexivity|]. exact (qp_replace _ _ _ _ _ _ HQ (Hx eq_refl) Heqo1).
      + st E y. destruct y as [y q']. cbn [snd] in E. apply (t_done q' subs); [exact (qp_pop _ _ _ _ _ _ HQ Heqo1)|exact E].
  Qed.
  Lemma t_or_skip f ft q subs : fresh true (SOr ft q subs) = true -> same (or_skip c f ft q subs 0) (or_skip d f ft q subs 0).
  Proof.
    intros H r E. cbn [fresh] in H. bt. subst ft. unfold or_skip in *. rewrite forallb_forall in H0, H1. st E q'. destruct (t_fill (Some 0) subs q) with (q' := q') as (Et & Hq); [apply Forall_forall; intros s Hs; right; auto|apply Forall_forall; intros o Ho; specialize (H1 o Ho); destruct o; [discriminate|exact Logic.I]|exact Heqo|].
    rewrite Et. cbn [obind]. split; [exact E|]. exact (t_done _ _ Hq r E).
  Qed.
  (* SpanNear: the clauses before k are on document 0, the others not moved *)
  Definition part (k : nat) (subs : list se) : Prop := (k <= length subs)%nat /\ forall i s, nth_error subs i = Some s -> if (i <? k)%nat then on s = true else fresh true s = true.
  Lemma part_all subs : part (length subs) subs <-> forallb on subs = true.
  Proof.
    split.
    - intros (_ & H). apply forallb_forall. intros s Hs. apply In_nth_error in Hs. destruct Hs as (i & Hi). specialize (H i s Hi). assert (i < length subs)%nat by (apply nth_error_Some; congruence). replace (i <? length subs)%nat with true in H by (symmetry; apply Nat.ltb_lt; lia). exact H.
    - intros H. split; [lia|]. intros i s Hi. assert (i < length subs)%nat by (apply nth_error_Some; congruence). replace (i <? length subs)%nat with true by (symmetry; apply Nat.ltb_lt; lia). exact (on_subs _ _ _ H Hi).
  Qed.
  Lemma t_goto : forall f k subs, (1 <= k)%nat -> part k subs -> forall r, goto_loop c f (k mod length subs) 0 subs = Some r -> goto_loop d f (k mod length subs) 0 subs = Some r /\ (fst (fst r) = true -> forallb on (snd r) = true).
  Proof.
    induction f as [|f IH]; intros k subs Hk (Hl & Hp) r E; [discriminate|]. cbn [goto_loop] in *. st E s. st E v. try rewrite Heqo0. cbn [obind]. destruct (Nat.eq_dec k (length subs)) as [->|Hne].
    - assert (Hon : on s = true) by (specialize (Hp _ _ Heqo); rewrite Nat.mod_same in Hp by lia; replace (0 <? length subs)%nat with true in Hp by (symmetry; apply Nat.ltb_lt; lia); exact Hp). rewrite (on_val s v Hon Heqo0) in *. cbn [Z.ltb Z.compare] in *. split; [exact E|]. apply some_inj in E. subst r. intros _. apply part_all. split; assumption.
    - rewrite Nat.mod_small in * by lia. assert (Hf : fresh true s = true) by (specialize (Hp _ _ Heqo); rewrite Nat.ltb_irrefl in Hp; exact Hp). rewrite (fresh_val s true v Hf Heqo0) in *. cbn [Z.ltb Z.compare] in *. st E x. destruct (HC (Some 0) s (or_intror (conj eq_refl Hf)) x Heqo1) as (Et & Hx). rewrite Et. cbn [obind]. destruct (fst x).
      + specialize (Hx eq_refl). st E v'. cbn [obind]. rewrite (on_val _ _ Hx Heqo2) in *. unfold ring in *. assert (EL : length subs = length (upd subs k (snd x))) by (symmetry; apply upd_length). replace (k + 1)%nat with (S k) in * by lia. rewrite EL in E |- *. apply IH in E; [exact E|lia|]. split; [rewrite upd_length; lia|]. intros i s' Hi.
        destruct (Nat.eq_dec i k) as [->|Hik].
        * rewrite nth_error_upd in Hi. replace (k =? k)%nat with true in Hi by (symmetry; apply Nat.eqb_refl). replace (k <? length subs)%nat with true in Hi by (symmetry; apply Nat.ltb_lt; lia). cbn [andb] in Hi. apply some_inj in Hi. subst s'. replace (k <? S k)%nat with true by (symmetry; apply Nat.ltb_lt; lia). exact Hx.
        * rewrite nth_error_upd in Hi. replace (k =? i)%nat with false in Hi by (symmetry; apply Nat.eqb_neq; congruence). cbn [andb] in Hi. specialize (Hp i s' Hi). destruct (Nat.ltb_spec i k), (Nat.ltb_spec i (S k)); try lia; exact Hp.
      + split; [exact E|]. apply some_inj in E. subst r. discriminate.
  Qed.
  Lemma on_goto e f cur subs : forallb on subs = true -> forall r, goto_next_doc e f cur subs = Some r -> goto_next_doc d f cur subs = Some r /\ (fst (fst r) = true -> forallb on (snd r) = true).
  Proof.
    intros H r E. unfold goto_next_doc, doc_at in *. st E dd. cbn [obind]. destruct (nth_error subs cur) as [s|] eqn:Es; [|discriminate]. cbn [obind] in *. destruct (val s) as [v|] eqn:Ev; [|discriminate]. cbn [obind] in *. apply some_inj in Heqo. subst dd. rewrite (on_val s v (on_subs _ _ _ H Es) Ev) in *. destruct f; [discriminate|]. cbn [goto_loop] in *.
    st E s'. st E v'. cbn [obind]. try rewrite Heqo0. cbn [obind]. rewrite (on_val s' v' (on_subs _ _ _ H Heqo) Heqo0) in *. cbn [Z.ltb Z.compare] in *. split; [exact E|]. apply some_inj in E. subst r. auto.
  Qed.
  Lemma t_unord slop : forall f subs cur doc st0 en, forallb on subs = true -> same (unordered c f slop subs cur doc st0 en) (unordered d f slop subs cur doc st0 en).
  Proof.
    induction f as [|f IH]; intros subs cur doc st0 en H r E; [discriminate|]. cbn [unordered] in *. st E q. destruct q as [[[mx mn] at_] sum]. cbn [obind]. st E m. cbn [obind]. st E s. cbn [obind]. st E v. try rewrite Heqo2. cbn [obind]. pose proof (on_subs _ _ _ H Heqo1) as Hs. pose proof (on_val _ _ Hs Heqo2) as Hv. destruct (_ <=? slop).
    - split; [exact E|]. apply some_inj in E. subst r. intros _. cbn [on snd]. rewrite Hv, H. reflexivity.
    - st E x. destruct (c_on s Hs x Heqo3) as (Et & Hx). rewrite Et. cbn [obind]. destruct (fst x).
      + specialize (Hx eq_refl). st E v'. cbn [obind]. rewrite Hv, (on_val _ _ Hx Heqo4) in *. cbn [Z.ltb Z.compare] in *. apply IH; [apply on_upd; assumption|exact E].
      + split; [exact E|]. apply some_inj in E. subst r. discriminate.
  Qed.
  Lemma t_adv p : forall f s, on s = true -> same (ord_adv c f p s) (ord_adv d f p s).
  Proof.
    induction f as [|f IH]; intros s H r E; [discriminate|]. cbn [ord_adv] in *. st E v. cbn [obind]. destruct (_ && _).
    - st E x. destruct (c_on s H x Heqo0) as (Et & Hx). rewrite Et. cbn [obind]. destruct (fst x) eqn:Ef; [apply IH; [exact (Hx eq_refl)|exact E]|]. split; [exact E|]. apply some_inj in E. subst r. rewrite Ef. discriminate.
    - split; [exact E|]. apply some_inj in E. subst r. auto.
  Qed.
  Lemma t_inner f : forall n i p sum subs cur, s_doc p = 0 -> forallb on subs = true -> forall r, ord_inner c f n i p sum subs cur = Some r -> ord_inner d f n i p sum subs cur = Some r /\
    match r with OFail _ _ => True | OAgain _ l => forallb on l = true | OEnd e _ l => s_doc e = 0 /\ forallb on l = true end.
  Proof.
    induction n as [|n IH]; intros i p sum subs cur Hp H r E; cbn [ord_inner] in *; [apply some_inj in E; subst r; auto|]. st E s. cbn [obind]. st E x. destruct (t_adv p f s (on_subs _ _ _ H Heqo) x Heqo0) as (Et & Hx). rewrite Et. cbn [obind]. destruct (fst x).
    - specialize (Hx eq_refl). st E v. cbn [obind]. pose proof (on_val _ _ Hx Heqo1) as Hv. rewrite Hv, Hp in *. cbn [Z.eqb] in *. apply IH; [exact Hv|apply on_upd; assumption|exact E].
    - apply some_inj in E. subst r. auto.
  Qed.
  Lemma t_ord slop : forall f subs cur doc st0 en, forallb on subs = true -> same (ordered c f slop subs cur doc st0 en) (ordered d f slop subs cur doc st0 en).
  Proof.
    induction f as [|f IH]; intros subs cur doc st0 en H r E; [discriminate|]. cbn [ordered] in *. st E s. cbn [obind]. st E v. try rewrite Heqo0. cbn [obind]. pose proof (on_val _ _ (on_subs _ _ _ H Heqo) Heqo0) as Hv. st E x. destruct (t_inner f _ _ v _ subs cur Hv H x Heqo1) as (Et & Hx). rewrite Et. cbn [obind]. destruct x as [cc l|cc l|e sum l].
    - split; [exact E|]. apply some_inj in E. subst r. discriminate.
    - apply IH; assumption.
    - destruct Hx as (He & Hx). destruct (_ <=? slop); [split; [exact E|]; apply some_inj in E; subst r; intros _; cbn [on snd]; rewrite He, Hx; reflexivity|]. st E s0. cbn [obind]. st E y. destruct (c_on s0 (on_subs _ _ _ Hx Heqo2) y Heqo3) as (Et' & Hy). rewrite Et'. cbn [obind]. destruct (fst y).
      + specialize (Hy eq_refl). st E v'. cbn [obind]. rewrite He, (on_val _ _ Hy Heqo4) in *. cbn [Z.eqb] in *. apply IH; [apply on_upd; assumption|exact E].
      + split; [exact E|]. apply some_inj in E. subst r. discriminate.
  Qed.
  Lemma t_match f o slop doc st0 en subs cur : (cur < length subs)%nat -> forallb on subs = true \/ cur = 0%nat /\ (2 <= length subs)%nat /\ part 1 subs -> same (near_match c f o slop cur doc st0 en subs) (near_match d f o slop cur doc st0 en subs).
  Proof.
    intros Hc H r E. unfold near_match in *. st E d1. st E d2. cbn [obind]. assert (HA : forall l cc, forallb on l = true -> same ((if o then ordered c else unordered c) f slop l cc doc st0 en) ((if o then ordered d else unordered d) f slop l cc doc st0 en)) by (intros l cc Hl; destruct o; [apply t_ord|apply t_unord]; exact Hl).
    destruct H as [H|(-> & H2 & H)].
    - assert (HD : forall i z, doc_at subs i = Some z -> z = 0).
      { clear - H. intros i z Hz. unfold doc_at in Hz. destruct (nth_error subs i) as [s|] eqn:Es; [|discriminate]. cbn [obind] in Hz. destruct (val s) as [v|] eqn:Ev; [|discriminate]. apply some_inj in Hz. subst z. exact (on_val _ _ (on_subs _ _ _ H Es) Ev). }
      rewrite (HD _ _ Heqo0), (HD _ _ Heqo1) in *. cbn [Z.ltb Z.compare] in *. exact (HA subs cur H r E).
    - assert (D1 : d1 = 0). { unfold doc_at in Heqo0. destruct (nth_error subs 0) as [s|] eqn:Es; [|discriminate]. cbn [obind] in Heqo0. destruct (val s) as [v|] eqn:Ev; [|discriminate]. apply some_inj in Heqo0. subst d1. apply (on_val s v); [|exact Ev]. exact (proj2 H 0%nat s Es). }
      assert (D2 : d2 = -1). { unfold doc_at, ring in Heqo1. cbn [Nat.add] in Heqo1. rewrite Nat.mod_small in Heqo1 by lia. destruct (nth_error subs 1) as [s|] eqn:Es; [|discriminate]. cbn [obind] in Heqo1. destruct (val s) as [v|] eqn:Ev; [|discriminate]. apply some_inj in Heqo1. subst d2. apply (fresh_val s true v); [|exact Ev]. exact (proj2 H 1%nat s Es). }
      rewrite D1, D2 in *. cbn [Z.ltb Z.compare] in *. st E g. unfold goto_next_doc in *. rewrite Heqo0 in *. cbn [obind] in *. unfold ring in *. cbn [Nat.add] in *. destruct (t_goto f 1 subs (le_n 1) H g Heqo2) as (Et & Hg). rewrite Et. cbn [obind]. destruct g as [[b cc] l]. cbn [fst snd] in *. destruct b; [apply HA; [exact (Hg eq_refl)|exact E]|]. split; [exact E|]. apply some_inj in E. subst r. discriminate.
  Qed.
  Lemma t_near f op o slop cur doc st0 en subs : okc op (SNear o slop cur doc st0 en subs) -> same (near_move c f op o slop cur doc st0 en subs) (near_move d f op o slop cur doc st0 en subs).
  Proof.
    intros H r E. unfold near_move in *. st E s. cbn [obind]. st E x.
    assert (HH : okc op s /\ (on (snd x) = true -> forallb on (upd subs cur (snd x)) = true \/ cur = 0%nat /\ (2 <= length (upd subs cur (snd x)))%nat /\ part 1 (upd subs cur (snd x)))).
    { destruct H as [(-> & [H|(b & H)])|(-> & H)].
      - cbn [on] in H. bt. split; [left; split; [reflexivity|]; left; exact (on_subs _ _ _ H0 Heqo0)|]. intros Hx. left. apply on_upd; assumption.
      - cbn [fresh] in H. bt. apply Nat.eqb_eq in H. subst cur. destruct subs as [|s0 [|s1 t]]; try discriminate. bt. cbn [nth_error] in Heqo0. apply some_inj in Heqo0. subst s0. split; [left; split; [reflexivity|]; right; exists b; assumption|]. intros Hx. right. split; [reflexivity|]. split; [cbn; lia|]. split; [cbn; lia|]. intros i s' Hi. cbn [upd] in Hi. destruct i as [|i]; [apply some_inj in Hi; subst s'; exact Hx|]. cbn [nth_error] in Hi. match goal with HF : forallb (fresh true) _ = true |- _ => rewrite forallb_forall in HF; apply HF end. exact (nth_error_In _ _ Hi).
      - cbn [fresh] in H. bt. apply Nat.eqb_eq in H. subst cur. destruct subs as [|s0 [|s1 t]]; try discriminate. bt. cbn [nth_error] in Heqo0. apply some_inj in Heqo0. subst s0. split; [right; split; [reflexivity|]; assumption|]. intros Hx. right. split; [reflexivity|]. split; [cbn; lia|]. split; [cbn; lia|]. intros i s' Hi. cbn [upd] in Hi. destruct i as [|i]; [apply some_inj in Hi; subst s'; exact Hx|]. cbn [nth_error] in Hi. match goal with HF : forallb (fresh true) _ = true |- _ => rewrite forallb_forall in HF; apply HF end. exact (nth_error_In _ _ Hi). }
    destruct HH as (H1 & H2). destruct (HC op s H1 x Heqo1) as (Et & Hx). rewrite Et. cbn [obind]. destruct (fst x).
    - apply t_match; [rewrite upd_length; apply nth_error_Some; congruence|exact (H2 (Hx eq_refl))|exact E].
    - split; [exact E|]. apply some_inj in E. subst r. discriminate.
  Qed.
  (* SpanNot *)
  Lemma t_before i : forall f me exc, (me = true -> on exc = true) -> same (not_before c f i me exc) (not_before d f i me exc).
  Proof.
    induction f as [|f IH]; intros me exc H r E; [discriminate|]. cbn [not_before] in *. destruct me; [|split; [exact E|]; apply some_inj in E; subst r; discriminate]. specialize (H eq_refl). st E e. cbn [obind]. destruct (_ && _).
    - st E x. destruct (c_on exc H x Heqo0) as (Et & Hx). rewrite Et. cbn [obind]. apply IH; [exact Hx|exact E].
    - split; [exact E|]. apply some_inj in E. subst r. auto.
  Qed.
  Lemma t_notloop : forall f mi me inc exc, (mi = true -> on inc = true) -> (me = true -> on exc = true) -> same (not_loop c f mi me inc exc) (not_loop d f mi me inc exc).
  Proof.
    induction f as [|f IH]; intros mi me inc exc Hi He r E; [discriminate|]. cbn [not_loop] in *. destruct mi, me; cbn [andb] in *; try (split; [exact E|]; apply some_inj in E; subst r; cbn [fst snd on]; intros G; try discriminate G; rewrite (Hi eq_refl); reflexivity).
    specialize (Hi eq_refl). specialize (He eq_refl). st E i. cbn [obind]. st E e. cbn [obind]. rewrite (on_val _ _ Hi Heqo), (on_val _ _ He Heqo0) in *. cbn [Z.ltb Z.compare obind fst snd] in *. st E x. destruct (t_before i f true exc (fun _ => He) x Heqo1) as (Et & Hx). rewrite Et. cbn [obind]. destruct (fst x) eqn:Ef.
    - specialize (Hx eq_refl). st E e'. cbn [obind]. destruct (Span_Model.apart i e'); [split; [exact E|]; apply some_inj in E; subst r; intros _; cbn [on snd]; rewrite Hi, Hx; reflexivity|]. st E y. destruct (c_on inc Hi y Heqo3) as (Et' & Hy). rewrite Et'. cbn [obind]. apply IH; auto.
    - split; [exact E|]. apply some_inj in E. subst r. intros _. cbn [on snd]. rewrite Hi. reflexivity.
  Qed.
  Lemma t_not f mi me inc exc : on (SNot mi me inc exc) = true \/ (exists b, fresh b (SNot mi me inc exc) = true) -> same (not_next c f mi me inc exc) (not_next d f mi me inc exc).
  Proof.
    intros H r E. assert (HH : mi = true /\ (on inc = true \/ exists b, fresh b inc = true) /\ (me = true -> on exc = true)).
    { destruct H as [H|(b & H)]; cbn [on fresh] in H; bt; (split; [assumption|]; split; [eauto|]); intros ->; assumption. }
    destruct HH as (-> & H1 & H2). unfold not_next in *. st E x. destruct (HC None inc (or_introl (conj eq_refl H1)) x Heqo) as (Et & Hx). rewrite Et. cbn [obind]. apply t_notloop; assumption.
  Qed.
End TWO.
Lemma tv_run_same : forall f op s, okc op s -> same (run f op s) (tv_run f op s).
Proof.
  induction f as [|f IH]; intros op s H r E; [discriminate|]. destruct s as [doc pos now rest|last sub|ft q subs|o slop cur doc st0 en subs|mi me inc exc]; cbn [run tv_run] in *.
  - destruct H as [(-> & [H|(b & H)])|(-> & H)]; cbn [on fresh] in H; bt.
    + split; [exact E|]. destruct rest; [|discriminate]. unfold term_next in E. destruct now; apply some_inj in E; subst r; [discriminate|]. intros _. cbn [on snd]. rewrite H. reflexivity.
    + split; [exact E|]. destruct now; [|discriminate]. unfold term_next in E. destruct rest as [|(dd & [|p t]) [|]]; try discriminate; try (destruct dd; discriminate); [apply some_inj in E; subst r; discriminate|]. destruct dd; try discriminate. apply some_inj in E. subst r. reflexivity.
    + destruct now; [|discriminate]. destruct rest as [|(dd & [|p t]) [|]]; try discriminate; try (destruct dd; discriminate). destruct dd; try discriminate. cbn in E |- *. split; [exact E|]. apply some_inj in E. subst r. reflexivity.
  - destruct H as [(-> & H)|(-> & H)]; [apply (t_first _ _ IH); [exact H|exact E]|apply (t_first_skip _ _ IH); [exact H|exact E]].
  - destruct H as [(-> & H)|(-> & H)]; [apply (t_or _ _ IH); [exact H|exact E]|apply (t_or_skip _ _ IH); [exact H|exact E]].
  - apply (t_near _ _ IH); [exact H|exact E].
  - destruct H as [(-> & H)|(-> & H)]; [apply (t_not _ _ IH); [exact H|exact E]|]. cbn [fresh] in H. discriminate.
Qed.
(* queries of which no term that is missing in the field, and no SpanNot, is asked to skip *)
Fixpoint ready (b : bool) (q : squery) : bool :=
  match q with
  | QTerm l => match l with [] => negb b | [(0, _ :: _)] => true | _ => false end
  | QFirst _ q => ready b q
  | QOr qs => forallb (ready b) qs
  | QNear _ _ qs => match qs with q :: t => ready b q && forallb (ready true) t | [] => false end
  | QNot x y => negb b && ready b x && ready false y
  end.
Lemma ready_spans f : forall q b, ready b q = true -> forall s, spans_of f q = Some s -> tv_spans_of f q = Some s /\ fresh b s = true.
Proof.
  fix IH 1. intros [l|e q|qs|o slop qs|x y] b Hq s E; cbn [spans_of tv_spans_of ready] in *.
  - split; [exact E|]. apply some_inj in E. subst s. cbn. destruct l as [|(dd & [|p t]) [|]]; try discriminate; try (destruct dd; discriminate); exact Hq.
  - destruct (spans_of f q) as [z|] eqn:Ex; [|discriminate]. destruct (IH q b Hq z Ex) as (Et & Hx). rewrite Et. cbn [obind] in *. split; [exact E|]. apply some_inj in E. subst s. exact Hx.
  - assert (HF : forall l, Span_Model.all_some (map (spans_of f) qs) = Some l -> Span_Model.all_some (map (tv_spans_of f) qs) = Some l /\ forallb (fresh b) l = true).
    { clear E. induction qs as [|q qs IHq]; intros l E; cbn [map Span_Model.all_some] in *; [apply some_inj in E; subst l; auto|]. cbn [forallb] in Hq. apply andb_true_iff in Hq. destruct Hq as (Hq & Hqs). destruct (spans_of f q) as [z|] eqn:Ex; [|discriminate]. destruct (IH q b Hq z Ex) as (Et & Hx). rewrite Et. cbn [obind] in *.
      destruct (Span_Model.all_some (map (spans_of f) qs)) as [l'|] eqn:El; [|discriminate]. destruct (IHq Hqs l' eq_refl) as (Et' & Hl'). rewrite Et'. cbn [obind] in *. split; [exact E|]. apply some_inj in E. subst l. cbn [forallb]. rewrite Hx, Hl'. reflexivity. }
    destruct (Span_Model.all_some (map (spans_of f) qs)) as [l|] eqn:El; [|discriminate]. destruct (HF l eq_refl) as (Et & Hl). rewrite Et. cbn [obind] in *. split; [exact E|].
    assert (HO : forallb (fun o => match o with Some _ => false | None => true end) (pq_heap (pq_new se (length l))) = true) by (apply forallb_forall; intros o Ho; unfold pq_new in Ho; cbn [pq_heap] in Ho; apply repeat_spec in Ho; subst o; reflexivity).
    destruct l as [|s1 [|s2 l]]; apply some_inj in E; subst s; cbn [fresh]; try (rewrite HO, Hl; reflexivity). cbn [forallb] in Hl. bt. assumption.
  - destruct qs as [|q0 qs]; [discriminate|]. bt. cbn [map Span_Model.all_some] in *. destruct (spans_of f q0) as [s0|] eqn:E0; [|discriminate]. destruct (IH q0 b H s0 E0) as (Et0 & H1). rewrite Et0. cbn [obind] in *.
    assert (HF : forall l, Span_Model.all_some (map (spans_of f) qs) = Some l -> Span_Model.all_some (map (tv_spans_of f) qs) = Some l /\ forallb (fresh true) l = true).
    { clear E. rename H0 into Hq. induction qs as [|q qs IHq]; intros l E; cbn [map Span_Model.all_some] in *; [apply some_inj in E; subst l; auto|]. cbn [forallb] in Hq. apply andb_true_iff in Hq. destruct Hq as (Hq & Hqs). destruct (spans_of f q) as [z|] eqn:Ex; [|discriminate]. destruct (IH q true Hq z Ex) as (Et & Hx). rewrite Et. cbn [obind] in *.
      destruct (Span_Model.all_some (map (spans_of f) qs)) as [l'|] eqn:El; [|discriminate]. destruct (IHq Hqs l' eq_refl) as (Et' & Hl'). rewrite Et'. cbn [obind] in *. split; [exact E|]. apply some_inj in E. subst l. cbn [forallb]. rewrite Hx, Hl'. reflexivity. }
    destruct (Span_Model.all_some (map (spans_of f) qs)) as [l|] eqn:El; [|discriminate]. destruct (HF l eq_refl) as (Et & Hl). rewrite Et. cbn [obind] in *. split; [exact E|]. destruct l as [|s2 l]; apply some_inj in E; subst s; [exact H1|]. cbn [fresh]. rewrite H1, Hl. reflexivity.
  - bt. destruct b; [discriminate|]. destruct (spans_of f x) as [i|] eqn:Ei; [|discriminate]. destruct (IH x false H1 i Ei) as (Eti & Hi). rewrite Eti. cbn [obind] in *. destruct (spans_of f y) as [e|] eqn:Ee; [|discriminate]. destruct (IH y false H0 e Ee) as (Ete & He). rewrite Ete. cbn [obind] in *.
    destruct (run f None e) as [r|] eqn:Er; [|discriminate]. destruct (tv_run_same f None e (or_introl (conj eq_refl (or_intror (ex_intro _ false He)))) r Er) as (Etr & Hr). rewrite Etr. cbn [obind] in *. split; [exact E|]. apply some_inj in E. subst s. cbn [fresh]. rewrite Hi. cbn [negb andb]. destruct (fst r); [rewrite (Hr eq_refl)|]; reflexivity.
Qed.
Lemma tv_enum_same : forall f s, on s = true \/ (exists b, fresh b s = true) -> forall l, enum f s = Some l -> tv_enum f s = Some l.
Proof.
  induction f as [|f IH]; intros s Hs l E; [discriminate|]. cbn [enum tv_enum] in *. destruct (run f None s) as [x|] eqn:Ex; [|discriminate]. destruct (tv_run_same f None s (or_introl (conj eq_refl Hs)) x Ex) as (Et & Hx). rewrite Et. cbn [obind] in *. destruct (fst x); [|exact E]. destruct (val (snd x)) as [w|]; [|discriminate]. cbn [obind] in *.
  destruct (enum f (snd x)) as [l'|] eqn:El; [|discriminate]. rewrite (IH _ (or_introl (Hx eq_refl)) l' El). exact E.
Qed.
Lemma ready_enumerate f q l : ready false q = true -> enumerate f q = Some l -> tv_enumerate f q = Some l.
Proof.
  unfold enumerate, tv_enumerate. intros Hq E. destruct (spans_of f q) as [s|] eqn:Es; [|discriminate]. destruct (ready_spans f q false Hq s Es) as (Et & Hs). rewrite Et. cbn [obind] in *. apply tv_enum_same; [right; exists false; exact Hs|exact E].
Qed.
