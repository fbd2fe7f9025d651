From Coq Require Import Sorting.Permutation Sorting.Sorted.
From Verif Require Import Util PQueue_Model PQueue_Spec PQueue_Proofs Span_Model Span_Spec.
Open Scope Z_scope.
Ltac splits := match goal with |- _ /\ _ => split; [|splits] | _ => idtac end.

(* ---------- spans of one position, as (document, position) *)
Notation key := (Z * Z)%type.
Definition U (x : key) : span := mkSp (fst x) (snd x) (snd x + 1).
Definition kle (x y : key) : Prop := fst x < fst y \/ fst x = fst y /\ snd x <= snd y.
Notation KS := (StronglySorted kle).
Definition okk (x : key) : Prop := 0 <= fst x < INT_MAX /\ 0 <= snd x < INT_MAX.
Lemma kle_refl x : kle x x. Proof. unfold kle. lia. Qed.
Lemma kle_trans x y z : kle x y -> kle y z -> kle x z. Proof. unfold kle. lia. Qed.
Lemma kle_anti x y : kle x y -> kle y x -> x = y.
Proof. destruct x, y. unfold kle. cbn [fst snd]. intros. f_equal; lia. Qed.
Lemma kle_doc x y : kle x y -> fst x <= fst y. Proof. unfold kle. lia. Qed.
Lemma KS_inv x l : KS (x :: l) -> KS l /\ forall y, In y l -> kle x y.
Proof. intros H. inversion H as [|? ? H1 H2]; subst. rewrite Forall_forall in H2. auto. Qed.
Lemma KS_cons x l : KS l -> (forall y, In y l -> kle x y) -> KS (x :: l).
Proof. intros. constructor; [assumption|]. apply Forall_forall. assumption. Qed.
Lemma KS_filter f l : KS l -> KS (filter f l).
Proof. induction 1 as [|a l HS IH HF]; cbn [filter]; [constructor|]. destruct (f a); [|exact IH]. apply KS_cons; [exact IH|]. rewrite Forall_forall in HF. intros y Hy. apply filter_In in Hy. apply HF. tauto. Qed.
Lemma KS_perm l1 l2 : KS l1 -> KS l2 -> Permutation l1 l2 -> l1 = l2.
Proof.
  intros H1. revert l2. induction H1 as [|a l1 HS IH HF]; intros l2 H2 HP; [apply Permutation_nil in HP; auto|]. rewrite Forall_forall in HF. destruct l2 as [|b l2]; [apply Permutation_sym, Permutation_nil in HP; discriminate|]. apply KS_inv in H2. destruct H2 as (H2 & Hb).
  assert (a = b). { assert (In b (a :: l1)) as [E|Hi] by (apply (Permutation_in _ (Permutation_sym HP)); left; reflexivity); [exact E|]. assert (In a (b :: l2)) as [E|Hj] by (apply (Permutation_in _ HP); left; reflexivity); [auto|]. apply kle_anti; auto. }
  subst b. f_equal. apply IH; [exact H2|]. apply Permutation_cons_inv in HP. exact HP.
Qed.
Definition from (d : Z) (l : list key) : list key := filter (fun x => d <=? fst x) l.
Definition tgt (op : option Z) (l : list key) : list key := match op with None => l | Some d => from d l end.
Definition nonnil {A} (l : list A) : bool := match l with [] => false | _ => true end.
Lemma filter_len {A} (p : A -> bool) l : (length (filter p l) <= length l)%nat.
Proof. induction l as [|a l IH]; cbn [filter length]; [lia|]. destruct (p a); cbn [length]; lia. Qed.
Lemma filter_comm {A} (p q : A -> bool) l : filter p (filter q l) = filter q (filter p l).
Proof. induction l as [|a l IH]; [reflexivity|]. cbn [filter]. destruct (p a) eqn:Ep, (q a) eqn:Eq; cbn [filter]; rewrite ?Ep, ?Eq, ?IH; reflexivity. Qed.
Lemma filter_all {A} (p : A -> bool) l : (forall x, In x l -> p x = true) -> filter p l = l.
Proof. induction l as [|a l IH]; intros H; [reflexivity|]. cbn [filter]. rewrite (H a (or_introl eq_refl)). f_equal. apply IH. intros x Hx. apply H. right. exact Hx. Qed.
Lemma filter_no {A} (p : A -> bool) l : (forall x, In x l -> p x = false) -> filter p l = [].
Proof. induction l as [|a l IH]; intros H; [reflexivity|]. cbn [filter]. rewrite (H a (or_introl eq_refl)). apply IH. intros x Hx. apply H. right. exact Hx. Qed.
Lemma tgt_filter op p l : tgt op (filter p l) = filter p (tgt op l).
Proof. destruct op as [d|]; [apply filter_comm|reflexivity]. Qed.
Lemma tgt_KS op l : KS l -> KS (tgt op l).
Proof. destruct op; [apply KS_filter|auto]. Qed.
Lemma tgt_in op l x : In x (tgt op l) <-> In x l /\ match op with None => True | Some d => d <= fst x end.
Proof. destruct op as [d|]; cbn [tgt]; [unfold from; rewrite filter_In, Z.leb_le; reflexivity|tauto]. Qed.
Lemma tgt_shorter op l x r : tgt op l = x :: r -> (length r < length l)%nat.
Proof. intros E. destruct op as [d|]; cbn [tgt] in E; [pose proof (filter_len (fun x => d <=? fst x) l); unfold from in E; rewrite E in H; cbn [length] in H; lia|subst; cbn [length]; lia]. Qed.

(* ---------- the contract of an enumerator of such spans: it stands at cur (None: not moved yet), rest follows; k: it may be asked to
   skip; r: its document may be asked for before the first move and after the last *)
Definition ev (op : option Z) (s : se) (b : bool) (s' : se) : Prop := exists n, forall f, (n <= f)%nat -> run f op s = Some (b, s').
Definition allowed (k : bool) (cur : option key) (op : option Z) : Prop := match op with None => True | Some d => k = true /\ 0 <= d /\ match cur with None => True | Some c => fst c < d end end.
Definition here (cur : option key) (l : list key) : list key := match cur with None => l | Some c => c :: l end.
Definition shows (r : bool) (cur : option key) (s : se) : Prop :=
  match cur with Some c => val s = Some (U c) | None => r = true -> exists v, val s = Some v /\ s_doc v = -1 end.
Definition over (r : bool) (s : se) : Prop := r = true -> exists v, val s = Some v /\ s_doc v = INT_MAX.
Inductive SB (k r : bool) : se -> option key -> list key -> Prop :=
| SB_intro s cur rest : KS (here cur rest) -> Forall okk (here cur rest) -> shows r cur s ->
    (forall op, allowed k cur op -> exists s', ev op s (nonnil (tgt op rest)) s' /\ (tgt op rest = [] -> over r s') /\ forall x t, tgt op rest = x :: t -> SB k r s' (Some x) t) -> SB k r s cur rest.
Lemma sb_coind k r (R : se -> option key -> list key -> Prop) :
  (forall s cur rest, R s cur rest -> KS (here cur rest) /\ Forall okk (here cur rest) /\ shows r cur s /\
    forall op, allowed k cur op -> exists s', ev op s (nonnil (tgt op rest)) s' /\ (tgt op rest = [] -> over r s') /\ forall x t, tgt op rest = x :: t -> R s' (Some x) t) ->
  forall s cur rest, R s cur rest -> SB k r s cur rest.
Proof.
  intros H. assert (G : forall n s cur rest, (length rest <= n)%nat -> R s cur rest -> SB k r s cur rest).
  { induction n as [|n IH]; intros s cur rest Hn HR; destruct (H s cur rest HR) as (H1 & H2 & H3 & H4); constructor; auto; intros op Hop; destruct (H4 op Hop) as (s' & E & Ho & Hs); exists s'; (split; [exact E|]); (split; [exact Ho|]); intros x t Ex; pose proof (tgt_shorter _ _ _ _ Ex); [lia|]; apply IH; [lia|]; apply (Hs x t Ex). }
  intros s cur rest HR. apply (G (length rest)); auto.
Qed.
Lemma sb_facts k r s cur rest : SB k r s cur rest -> KS (here cur rest) /\ Forall okk (here cur rest) /\ shows r cur s /\
    forall op, allowed k cur op -> exists s', ev op s (nonnil (tgt op rest)) s' /\ (tgt op rest = [] -> over r s') /\ forall x t, tgt op rest = x :: t -> SB k r s' (Some x) t.
Proof. intros H. inversion H; subst. auto. Qed.
Lemma sb_weak k r s cur rest : SB k r s cur rest -> forall k' r', (k' = true -> k = true) -> (r' = true -> r = true) -> SB k' r' s cur rest.
Proof.
  intros H k' r' Hk Hr. apply (sb_coind k' r' (SB k r)); [|exact H]. clear s cur rest H. intros s cur rest H. destruct (sb_facts _ _ _ _ _ H) as (H1 & H2 & H3 & H4). splits; auto.
  - destruct cur as [c|]; cbn [shows] in *; auto.
  - intros op Hop. destruct (H4 op) as (s' & E & Ho & Hs); [destruct op as [d|]; cbn [allowed] in *; tauto|]. exists s'. splits; auto. intros E0 Hr'. apply Ho; auto.
Qed.
Lemma here_rest cur l : KS (here cur l) -> KS l.
Proof. destruct cur as [c|]; cbn [here]; intros H; [apply KS_inv in H; tauto|exact H]. Qed.
Lemma okk_rest cur l : Forall okk (here cur l) -> Forall okk l.
Proof. destruct cur as [c|]; cbn [here]; intros H; [inversion H; auto|exact H]. Qed.
(* moving on keeps the list in order *)
Lemma move_facts op cur rest x t : KS (here cur rest) -> Forall okk (here cur rest) -> tgt op rest = x :: t -> KS (x :: t) /\ Forall okk (x :: t) /\ match cur with None => True | Some c => kle c x end.
Proof.
  intros H1 H2 E. pose proof (here_rest _ _ H1) as H3. pose proof (okk_rest _ _ H2) as H4. splits.
  - rewrite <- E. apply tgt_KS. exact H3.
  - rewrite <- E. rewrite Forall_forall in *. intros y Hy. apply tgt_in in Hy. apply H4. tauto.
  - destruct cur as [c|]; [|exact I]. cbn [here] in H1. apply KS_inv in H1. apply H1. assert (In x (tgt op rest)) as Hx by (rewrite E; left; reflexivity). apply tgt_in in Hx. tauto.
Qed.

(* ---------- SpanTermEnum *)
Definition keys_of (l : list (Z * list Z)) : list key := flat_map (fun d : Z * list Z => map (fun p => (fst d, p)) (snd d)) l.
Lemma keys_in l x : In x (keys_of l) <-> exists ps, In (fst x, ps) l /\ In (snd x) ps.
Proof.
  unfold keys_of. rewrite in_flat_map. split.
  - intros ((d & ps) & Hd & Hx). cbn [fst snd] in Hx. apply in_map_iff in Hx. destruct Hx as (p & <- & Hp). exists ps. auto.
  - intros (ps & H1 & H2). exists (fst x, ps). split; [exact H1|]. cbn [fst snd]. apply in_map_iff. exists (snd x). split; [destruct x; reflexivity|exact H2].
Qed.
Definition entry_ok (d : Z * list Z) : Prop := 0 <= fst d < INT_MAX /\ snd d <> [] /\ StronglySorted Z.le (snd d) /\ Forall (fun p => 0 <= p < INT_MAX) (snd d).
Lemma keys_KS l : StronglySorted Z.lt (map fst l) -> Forall entry_ok l -> KS (keys_of l).
Proof.
  induction l as [|(d & ps) l IH]; intros H1 H2; [constructor|]. cbn [keys_of flat_map map fst snd] in *. inversion H1 as [|? ? G1 G2]; subst. inversion H2 as [|? ? (K1 & K2 & K3 & K4) K5]; subst. cbn [fst snd] in *. specialize (IH G1 K5). rewrite Forall_forall in G2.
  assert (HA : forall x, In x (keys_of l) -> d < fst x). { intros x Hx. apply keys_in in Hx. destruct Hx as (qs & Hx & _). apply G2. apply in_map_iff. exists (fst x, qs). auto. }
  clear K2 K4 H2. induction K3 as [|p ps HS IHp HF]; [exact IH|]. cbn [map app]. apply KS_cons; [exact IHp|]. intros y Hy. apply in_app_or in Hy. destruct Hy as [Hy|Hy].
  - apply in_map_iff in Hy. destruct Hy as (p' & <- & Hp'). rewrite Forall_forall in HF. right. cbn [fst snd]. split; [reflexivity|apply HF; exact Hp'].
  - left. apply HA. exact Hy.
Qed.
Lemma keys_okk l : Forall entry_ok l -> Forall okk (keys_of l).
Proof. intros H. apply Forall_forall. intros x Hx. apply keys_in in Hx. destruct Hx as (ps & H1 & H2). rewrite Forall_forall in H. destruct (H _ H1) as (K1 & _ & _ & K4). cbn [fst snd] in *. rewrite Forall_forall in K4. split; [exact K1|apply K4; exact H2]. Qed.
Lemma docs_from_keys d l : StronglySorted Z.lt (map fst l) -> keys_of (docs_from d l) = from d (keys_of l).
Proof.
  induction l as [|(x & ps) l IH]; intros H; [reflexivity|]. cbn [docs_from keys_of flat_map fst snd]. inversion H as [|? ? H1 H2]; subst. unfold from. rewrite filter_app. destruct (Z.ltb_spec x d) as [L|L].
  - rewrite (filter_no _ (map _ ps)); [apply IH; exact H1|]. intros y Hy. apply in_map_iff in Hy. destruct Hy as (p & <- & _). cbn [fst]. apply Z.leb_gt. exact L.
  - cbn [keys_of flat_map fst snd]. rewrite (filter_all _ (map _ ps)); [|intros y Hy; apply in_map_iff in Hy; destruct Hy as (p & <- & _); cbn [fst]; apply Z.leb_le; exact L]. f_equal. symmetry. apply filter_all. intros y Hy. apply keys_in in Hy. destruct Hy as (qs & Hy & _). rewrite Forall_forall in H2. specialize (H2 (fst y) (in_map fst _ _ Hy)). apply Z.leb_le. cbn [fst] in *. lia.
Qed.
Lemma docs_from_sorted d l : StronglySorted Z.lt (map fst l) -> StronglySorted Z.lt (map fst (docs_from d l)).
Proof. induction l as [|(x & ps) l IH]; intros H; [exact H|]. cbn [docs_from]. destruct (x <? d); [|exact H]. apply IH. inversion H; auto. Qed.
Lemma docs_from_ok d l : Forall entry_ok l -> Forall entry_ok (docs_from d l).
Proof. induction 1 as [|(x & ps) l H1 H2 IH]; [constructor|]. cbn [docs_from]. destruct (x <? d); [exact IH|constructor; assumption]. Qed.

Definition TR (s : se) (cur : option key) (rest : list key) : Prop :=
  exists doc pos now l, s = STerm doc pos now l /\ StronglySorted Z.lt (map fst l) /\ Forall entry_ok l /\ KS (here cur rest) /\ Forall okk (here cur rest) /\
    match cur with None => doc = -1 /\ now = [] /\ rest = keys_of l | Some c => c = (doc, pos) /\ rest = map (fun p => (doc, p)) now ++ keys_of l /\ Forall (fun d => doc < fst d) l end.
(* the first span of the documents l *)
Lemma term_enter pos doc l cur rest0 : StronglySorted Z.lt (map fst l) -> Forall entry_ok l ->
  exists s', term_next doc pos [] l = Some (nonnil (keys_of l), s') /\ (keys_of l = [] -> over true s') /\ forall x t, keys_of l = x :: t -> KS (here cur rest0) -> Forall okk (here cur rest0) -> TR s' (Some x) t.
Proof.
  intros H1 H2. destruct l as [|(d & ps) l]; [exists (STerm INT_MAX pos [] []); splits; [reflexivity|intros _ _; eexists; split; reflexivity|discriminate]|].
  pose proof (keys_KS _ H1 H2) as HK. pose proof (keys_okk _ H2) as HO. inversion H1 as [|? ? G1 G2]; subst. inversion H2 as [|? ? (K1 & K2 & K3 & K4) K5]; subst. cbn [fst snd] in *. destruct ps as [|p ps]; [congruence|]. exists (STerm d p ps l). splits; [reflexivity|discriminate|].
  intros x t E _ _. cbn [keys_of flat_map map fst snd app] in *. injection E as <- <-. exists d, p, ps, l. splits; auto. rewrite Forall_forall in *. intros y Hy. apply G2. apply in_map. exact Hy.
Qed.
Lemma term_sb l : postings_ok l -> SB true true (STerm (-1) (-1) [] l) None (keys_of l).
Proof.
  intros (H1 & H2). apply (sb_coind true true TR).
  2:{ exists (-1), (-1), [], l. splits; auto; [apply keys_KS; auto|apply keys_okk; auto]. }
  clear. intros s cur rest (doc & pos & now & l & -> & H1 & H2 & H3 & H4 & H5). splits; auto.
  { destruct cur as [c|]; cbn [shows val]; [destruct H5 as (-> & _); reflexivity|]. intros _. destruct H5 as (-> & _). eexists. split; reflexivity. }
  intros op Hop. destruct op as [d|].
  - assert (E : tgt (Some d) rest = keys_of (docs_from d l)).
    { rewrite (docs_from_keys d l H1). cbn [tgt]. destruct cur as [c|]; [|destruct H5 as (_ & _ & ->); reflexivity]. destruct H5 as (-> & -> & _). unfold from. rewrite filter_app. rewrite (filter_no _ (map _ now)); [reflexivity|]. intros y Hy. apply in_map_iff in Hy. destruct Hy as (p & <- & _). cbn [allowed fst] in *. apply Z.leb_gt. tauto. }
    destruct (term_enter pos INT_MAX (docs_from d l) cur rest (docs_from_sorted d l H1) (docs_from_ok d l H2)) as (s' & Es & Ho & Hs). exists s'. rewrite E. splits; auto. exists 1%nat. intros [|f] Hf; [lia|]. exact Es.
  - cbn [tgt]. destruct now as [|p now].
    + assert (E : rest = keys_of l) by (destruct cur as [c|]; [destruct H5 as (_ & -> & _)|destruct H5 as (_ & _ & ->)]; reflexivity). destruct (term_enter pos doc l cur rest H1 H2) as (s' & Es & Ho & Hs). exists s'. subst rest. splits; auto. exists 1%nat. intros [|f] Hf; [lia|]. exact Es.
    + destruct cur as [c|]; [|destruct H5 as (_ & H5 & _); discriminate]. destruct H5 as (-> & -> & H5). cbn [map app nonnil] in *. exists (STerm doc p now l). splits; [exists 1%nat; intros [|f] Hf; [lia|]; reflexivity|discriminate|].
      intros x t E. injection E as <- <-. exists doc, p, now, l. splits; auto; cbn [here] in *; [apply KS_inv in H3; tauto|inversion H4; auto].
Qed.

(* ---------- SpanFirstEnum *)
Definition upto (e : Z) (x : key) : bool := snd x + 1 <=? e.
Definition FR (k r : bool) (e : Z) (s : se) (cur : option key) (rest : list key) : Prop := exists sub l, s = SFirst e sub /\ SB k r sub cur l /\ rest = filter (upto e) l.
Lemma first_scan k r e : forall m sub cur l, (length l <= m)%nat -> SB k r sub cur l ->
  exists s', (exists n, forall f g, (n <= f)%nat -> (n <= g)%nat -> first_next (run f) g e sub = Some (nonnil (filter (upto e) l), s')) /\ (filter (upto e) l = [] -> over r s') /\ forall x t, filter (upto e) l = x :: t -> FR k r e s' (Some x) t.
Proof.
  induction m as [|m IH]; intros sub cur l Hm HB; destruct (sb_facts _ _ _ _ _ HB) as (H1 & H2 & H3 & H4); destruct (H4 None I) as (s1 & (n1 & E1) & Ho & Hs); cbn [tgt] in *; destruct l as [|y l]; cbn [length] in Hm; try lia.
  - exists (SFirst e s1). cbn [filter]. splits; [exists (S n1); intros f [|g] Hf Hg; [lia|]; cbn [first_next]; rewrite (E1 f) by lia; reflexivity|intros _; exact (Ho eq_refl)|discriminate].
  - exists (SFirst e s1). cbn [filter]. splits; [exists (S n1); intros f [|g] Hf Hg; [lia|]; cbn [first_next]; rewrite (E1 f) by lia; reflexivity|intros _; exact (Ho eq_refl)|discriminate].
  - pose proof (Hs y l eq_refl) as HB1. destruct (sb_facts _ _ _ _ _ HB1) as (_ & _ & Hv & _). cbn [shows] in Hv. cbn [filter]. destruct (upto e y) eqn:EU; unfold upto in EU.
    + exists (SFirst e s1). splits; [|discriminate|intros x t E; injection E as <- <-; exists s1, l; auto]. exists (S n1). intros f [|g] Hf Hg; [lia|]. cbn [first_next]. rewrite (E1 f) by lia. cbn [obind fst snd nonnil]. rewrite Hv. cbn [obind U s_en]. rewrite EU. reflexivity.
    + destruct (IH s1 (Some y) l ltac:(lia) HB1) as (s' & (n2 & E2) & Ho2 & Hs2). exists s'. splits; auto. exists (S (n1 + n2)). intros f [|g] Hf Hg; [lia|]. cbn [first_next]. rewrite (E1 f) by lia. cbn [obind fst snd nonnil]. rewrite Hv. cbn [obind U s_en]. rewrite EU. apply E2; lia.
Qed.
Lemma here_filter p cur l : KS (here cur l) -> KS (here cur (filter p l)).
Proof. destruct cur as [c|]; cbn [here]; intros H; [|apply KS_filter; exact H]. apply KS_inv in H. destruct H as (H & Hc). apply KS_cons; [apply KS_filter; exact H|]. intros y Hy. apply filter_In in Hy. apply Hc. tauto. Qed.
Lemma okk_filter p cur l : Forall okk (here cur l) -> Forall okk (here cur (filter p l)).
Proof. rewrite !Forall_forall. intros H x Hx. apply H. destruct cur as [c|]; cbn [here In] in *; [destruct Hx as [->|Hx]; [auto|right]|]; apply filter_In in Hx; tauto. Qed.
Lemma first_sb k r e sub cur l : SB k r sub cur l -> SB k r (SFirst e sub) cur (filter (upto e) l).
Proof.
  intros H. apply (sb_coind k r (FR k r e)); [|exists sub, l; auto]. clear. intros s cur rest (sub & l & -> & HB & ->). destruct (sb_facts _ _ _ _ _ HB) as (H1 & H2 & H3 & H4). splits; [apply here_filter; exact H1|apply okk_filter; exact H2|exact H3|].
  intros op Hop. rewrite tgt_filter. destruct op as [d|].
  - destruct (H4 (Some d) Hop) as (s1 & (n1 & E1) & Ho & Hs). cbn [tgt] in *. destruct (from d l) as [|y t] eqn:Ef.
    + exists (SFirst e s1). splits; [exists (S n1); intros [|f] Hf; [lia|]; cbn [run]; unfold first_skip; rewrite (E1 f) by lia; reflexivity|intros _; exact (Ho eq_refl)|discriminate].
    + pose proof (Hs y t eq_refl) as HB1. destruct (sb_facts _ _ _ _ _ HB1) as (_ & _ & Hv & _). cbn [shows] in Hv. cbn [filter]. destruct (upto e y) eqn:EU; unfold upto in EU.
      * exists (SFirst e s1). splits; [|discriminate|intros x t' E; injection E as <- <-; exists s1, t; auto]. exists (S n1). intros [|f] Hf; [lia|]. cbn [run]. unfold first_skip. rewrite (E1 f) by lia. cbn [obind fst snd nonnil]. rewrite Hv. cbn [obind U s_en]. rewrite EU. reflexivity.
      * destruct (first_scan k r e (length t) s1 (Some y) t (le_n _) HB1) as (s' & (n2 & E2) & Ho2 & Hs2). exists s'. splits; auto. exists (S (n1 + n2)). intros [|f] Hf; [lia|]. cbn [run]. unfold first_skip. rewrite (E1 f) by lia. cbn [obind fst snd nonnil]. rewrite Hv. cbn [obind U s_en]. rewrite EU. apply E2; lia.
  - cbn [tgt]. destruct (first_scan k r e (length l) sub cur l (le_n _) HB) as (s' & (n & En) & Ho & Hs). exists s'. splits; auto. exists (S n). intros [|f] Hf; [lia|]. cbn [run]. apply En; lia.
Qed.

(* ---------- SpanOrEnum *)
Lemma span_lt_spec a b : span_lt a b = true <-> s_doc a < s_doc b \/ s_doc a = s_doc b /\ (s_st a < s_st b \/ s_st a = s_st b /\ s_en a < s_en b).
Proof. unfold span_lt. destruct (Z.eqb_spec (s_doc a) (s_doc b)); [destruct (Z.eqb_spec (s_st a) (s_st b))|]; rewrite Z.ltb_lt; lia. Qed.
Lemma se_lt_pre : preorder se se_lt.
Proof.
  assert (G : forall a b, PQueue_Spec.le se se_lt a b <-> ~ (s_doc (val_d b) < s_doc (val_d a) \/ s_doc (val_d b) = s_doc (val_d a) /\ (s_st (val_d b) < s_st (val_d a) \/ s_st (val_d b) = s_st (val_d a) /\ s_en (val_d b) < s_en (val_d a)))).
  { intros a b. unfold PQueue_Spec.le, se_lt. rewrite <- span_lt_spec. destruct (span_lt _ _); split; intros H; auto; [discriminate|exfalso; auto]. }
  split.
  - intros a b. rewrite !G. lia.
  - intros a b c. rewrite !G. lia.
Qed.
Section OR.
  Variable k : bool.
  Notation mem := (se * list key)%type.
  Definition standing (p : mem) : Prop := exists x t, snd p = x :: t /\ SB k false (fst p) (Some x) t.
  Definition DQ (capa : nat) (q : pq se) (ms : list mem) : Prop := PInv se se_lt capa q (map fst ms) /\ Forall standing ms.
  Definition all (ms : list mem) : list key := concat (map snd ms).
  Lemma DQ_size capa q ms : DQ capa q ms -> pq_size q = length ms.
  Proof. intros (H & _). rewrite (pi_size _ _ _ _ _ H), map_length. reflexivity. Qed.
  Lemma all_perm a b : Permutation a b -> Permutation (all a) (all b).
  Proof. unfold all. induction 1; cbn [map concat]; [auto|apply Permutation_app_head; auto|rewrite !app_assoc; apply Permutation_app_tail, Permutation_app_comm|etransitivity; eauto]. Qed.
  Lemma standing_val s x t L : standing (s, x :: t) -> L = x :: t -> val s = Some (U x) /\ SB k false s (Some x) t /\ forall y, In y L -> kle x y.
  Proof. intros (x' & t' & E & HB) ->. cbn [fst snd] in *. injection E as <- <-. destruct (sb_facts _ _ _ _ _ HB) as (H1 & H2 & H3 & _). cbn [shows here] in *. splits; auto. apply KS_inv in H1. intros y [<-|Hy]; [apply kle_refl|apply H1; exact Hy]. Qed.
  Lemma dq_top capa q ms : DQ capa q ms -> ms <> [] -> exists s x t ms', Permutation ms ((s, x :: t) :: ms') /\ or_top q = Some s /\ val s = Some (U x) /\ (forall subs b, val (SOr b q subs) = Some (U x)) /\ (forall y, In y (all ms) -> kle x y) /\ SB k false s (Some x) t /\
    (forall p', standing p' -> exists q', pq_replace_top se se_lt q (fst p') = Some q' /\ DQ capa q' (p' :: ms')) /\
    exists z q', pq_pop se se_lt q = Some (z, q') /\ DQ capa q' ms'.
  Proof.
    intros HQ Hne. pose proof (DQ_size _ _ _ HQ) as Hs. destruct HQ as (HP & HF). assert (Hpos : (0 < pq_size q)%nat) by (destruct ms; [congruence|cbn [length] in Hs; lia]).
    destruct (top_elt se se_lt capa q (map fst ms) HP Hpos) as (s & m' & Ex & Pm). destruct (Permutation_map_inv _ _ (Permutation_sym Pm)) as (ms1 & E1 & P1). destruct ms1 as [|p ms']; [discriminate|]. cbn [map] in E1. injection E1 as Ex' Em'. subst s m'.
    assert (Pms : Permutation ms (p :: ms')) by exact P1. assert (HF2 : Forall standing (p :: ms')) by (apply (Permutation_Forall Pms); exact HF). inversion HF2 as [|? ? Hp Hr]; subst. destruct p as (s & L). pose proof Hp as (x & t & EL & HB). cbn [fst snd] in *. subst L.
    exists s, x, t, ms'. pose proof (PInv_least se se_lt se_lt_pre _ _ _ _ HP Ex Hpos) as (_ & Hl). assert (Ht : pq_top se q = Some (Some s)) by (unfold pq_top; destruct (Nat.ltb_spec 0 (pq_size q)); [apply elt_some; exact Ex|lia]).
    destruct (standing_val _ _ _ _ Hp eq_refl) as (Hv & _ & Hx). splits; auto.
    - unfold or_top. rewrite Ht. reflexivity.
    - intros subs b. cbn [val]. destruct (pq_size q); [lia|]. apply elt_some in Ex. destruct (pq_heap q) as [|h0 [|h1 hs]]; try discriminate. cbn [nth_error] in Ex. assert (h1 = Some s) as -> by congruence. exact Hv.
    - intros y Hy. unfold all in Hy. apply in_concat in Hy. destruct Hy as (L & HL & Hy). apply in_map_iff in HL. destruct HL as ((s2 & L2) & <- & Hm). cbn [snd] in Hy. rewrite Forall_forall in HF. pose proof (HF _ Hm) as (x2 & t2 & E2 & HB2). cbn [fst snd] in *. subst L2. destruct (standing_val s2 x2 t2 _ (HF _ Hm) eq_refl) as (Hv2 & _ & Hx2). apply (kle_trans x x2 y); [|apply Hx2; exact Hy]. specialize (Hl s2 (in_map fst _ _ Hm)). unfold PQueue_Spec.le, se_lt, val_d in Hl. rewrite Hv, Hv2 in Hl. unfold kle. assert (~ span_lt (U x2) (U x) = true) as Hn by congruence. rewrite span_lt_spec in Hn. cbn [U s_doc s_st s_en] in Hn. lia.
    - intros p' Hp'. destruct (replace_top_ok se se_lt se_lt_pre capa q (map fst ms) s (map fst ms') (fst p') HP Ex Pm) as (q' & E & HP'). exists q'. split; [exact E|]. split; [exact HP'|constructor; auto].
    - destruct (pop_ok se se_lt se_lt_pre capa q (map fst ms) HP Hpos) as (y & m2 & q' & E & P2 & _ & HP'). assert (y = s).
      { unfold pq_pop in E. destruct (Nat.ltb_spec 0 (pq_size q)); [|lia]. rewrite (proj1 (elt_some _ _ _ _) Ex) in E. cbn [obind] in E. destruct (nth_error (pq_heap q) (pq_size q)); [|discriminate]. cbn [obind] in E. destruct (pq_down _ _ _); [|discriminate]. cbn [obind] in E. congruence. }
      subst y. exists (Some s), q'. split; [exact E|]. split; [|exact Hr]. assert (Pm2 : Permutation m2 (map fst ms')) by (apply (Permutation_cons_inv (a := s)); rewrite <- P2; exact Pm). destruct HP' as [A1 A2 A3 A4 A5]. constructor; auto; [rewrite A1; apply Permutation_map; exact Pm2|rewrite A3; apply Permutation_length; exact Pm2].
  Qed.
  Lemma tgt_app op a b : tgt op (a ++ b) = tgt op a ++ tgt op b.
  Proof. destruct op; [apply filter_app|reflexivity]. Qed.
  Lemma tgt_concat op Ls : tgt op (concat Ls) = concat (map (tgt op) Ls).
  Proof. induction Ls as [|L Ls IH]; cbn [concat map]; [destruct op; reflexivity|]. rewrite tgt_app, IH. reflexivity. Qed.
  Lemma tgt_perm op a b : Permutation a b -> Permutation (tgt op a) (tgt op b).
  Proof. destruct op as [d|]; cbn [tgt]; [|auto]. unfold from. induction 1; cbn [filter]; auto; [destruct (d <=? fst x); auto|destruct (d <=? fst x), (d <=? fst y); auto; constructor|etransitivity; eauto]. Qed.
  Lemma fill_ok op capa : allowed k None op -> forall subs Ls q ms, Forall2 (fun s L => SB k false s None L) subs Ls -> DQ capa q ms ->
    exists q' ms', DQ capa q' ms' /\ Permutation (all ms') (all ms ++ tgt op (concat Ls)) /\ exists n, forall f, (n <= f)%nat -> or_fill (run f) op subs q = Some q'.
  Proof.
    intros Hop subs Ls q ms HF. revert q ms. induction HF as [|s L subs Ls HB HF IH]; intros q ms HQ.
    - exists q, ms. splits; [exact HQ|cbn [concat]; destruct op; cbn [tgt from filter]; rewrite app_nil_r; reflexivity|exists O; reflexivity].
    - destruct (sb_facts _ _ _ _ _ HB) as (_ & _ & _ & H4). destruct (H4 op Hop) as (s' & (n1 & E1) & _ & Hs). cbn [concat]. rewrite tgt_app. destruct (tgt op L) as [|x t] eqn:EL.
      + destruct (IH q ms HQ) as (q' & ms' & HQ' & Hh & n & En). exists q', ms'. splits; auto. exists (Nat.max n n1). intros f Hf. cbn [or_fill]. rewrite (E1 f ltac:(lia)). cbn [obind nonnil fst]. apply En; lia.
      + assert (Hst : standing (s', x :: t)) by (exists x, t; split; [reflexivity|apply Hs; reflexivity]). destruct HQ as (HP & HFm). destruct (push_ok se se_lt se_lt_pre capa q (map fst ms) s' HP) as (q1 & Ep & HP1).
        destruct (IH q1 ((s', x :: t) :: ms) (conj HP1 (Forall_cons _ Hst HFm))) as (q' & ms' & HQ' & Hh & n & En). exists q', ms'. splits; auto.
        * rewrite Hh. unfold all. cbn [map snd concat]. rewrite !app_assoc. apply Permutation_app_tail. apply Permutation_app_comm.
        * exists (Nat.max n n1). intros f Hf. cbn [or_fill]. rewrite (E1 f ltac:(lia)). cbn [obind nonnil fst snd]. rewrite Ep. cbn [obind]. apply En; lia.
  Qed.
  Definition OrR (s : se) (cur : option key) (rest : list key) : Prop :=
    KS (here cur rest) /\ Forall okk (here cur rest) /\
    match cur with
    | None => exists n subs Ls, s = SOr true (pq_new se n) subs /\ Forall2 (fun s L => SB k false s None L) subs Ls /\ Permutation rest (concat Ls)
    | Some x => exists q subs capa ms, s = SOr false q subs /\ DQ capa q ms /\ Permutation (x :: rest) (all ms)
    end.
  Lemma done_ok capa q ms subs L : DQ capa q ms -> KS L -> Forall okk L -> Permutation L (all ms) ->
    exists s', or_done q subs = Some (nonnil L, s') /\ forall x t, L = x :: t -> OrR s' (Some x) t.
  Proof.
    intros HQ HK HO HP. exists (SOr false q subs). split.
    - unfold or_done. rewrite (DQ_size _ _ _ HQ). do 2 f_equal. destruct ms as [|p ms]; [apply Permutation_sym, Permutation_nil in HP; subst; reflexivity|]. destruct HQ as (_ & HF). inversion HF as [|? ? (x & t & E & _) _]; subst. unfold all in HP. cbn [map concat] in HP. rewrite E in HP. destruct L; [apply Permutation_nil in HP; discriminate|reflexivity].
    - intros x t ->. red. splits; auto. exists q, subs, capa, ms. auto.
  Qed.
  Lemma skip_ok d capa : k = true -> 0 <= d -> forall m q ms, (length (all ms) <= m)%nat -> DQ capa q ms ->
    exists q' ms', DQ capa q' ms' /\ Permutation (all ms') (from d (all ms)) /\ exists n, forall f g, (n <= f)%nat -> (n <= g)%nat -> or_skip_loop (run f) g q d = Some q'.
  Proof.
    intros Hk Hd. induction m as [m IH] using lt_wf_ind. intros q ms Hm HQ. assert (E : ms = [] \/ ms <> []) by (destruct ms; [left|right]; congruence). destruct E as [E|Hne].
    { subst ms. exists q, []. splits; [exact HQ|constructor|]. exists 1%nat. intros f [|g] Hf Hg; [lia|]. cbn [or_skip_loop]. rewrite (DQ_size _ _ _ HQ). reflexivity. }
    assert (Hsz : (pq_size q =? 0)%nat = false) by (rewrite (DQ_size _ _ _ HQ); destruct ms; [congruence|reflexivity]).
    destruct (dq_top capa q ms HQ Hne) as (s & x & t & ms' & HP & Htop & Hv & _ & Hmin & HB & Hrep & z & q2 & Epop & HQ2). destruct (Z.ltb_spec (fst x) d) as [L|L].
    - destruct (sb_facts _ _ _ _ _ HB) as (_ & _ & _ & H4). destruct (H4 (Some d)) as (s' & (n1 & E1) & _ & Hs); [cbn [allowed]; auto|]. pose proof (Permutation_length (all_perm _ _ HP)) as HL. unfold all in HL at 2. cbn [map concat snd] in HL. rewrite app_length in HL. cbn [length] in HL. fold (all ms') in HL. cbn [tgt] in *.
      assert (HP2 : Permutation (from d (all ms)) (from d t ++ from d (all ms'))). { rewrite (tgt_perm (Some d) _ _ (all_perm _ _ HP)). cbn [tgt]. unfold all at 1. cbn [map concat snd app]. unfold from. cbn [filter]. destruct (Z.leb_spec d (fst x)); [lia|]. rewrite filter_app. reflexivity. }
      destruct (from d t) as [|y t'] eqn:Ef.
      + destruct (IH (length (all ms')) ltac:(lia) q2 ms' (le_n _) HQ2) as (q' & ms2 & HQ' & HP' & n & En). exists q', ms2. splits; [exact HQ'|rewrite HP', HP2; reflexivity|]. exists (S (Nat.max n n1)). intros f [|g] Hf Hg; [lia|]. cbn [or_skip_loop]. rewrite Hsz, Htop. cbn [obind]. rewrite Hv. cbn [obind U s_doc]. destruct (Z.ltb_spec (fst x) d); [|lia]. rewrite (E1 f ltac:(lia)). cbn [obind nonnil fst]. rewrite Epop. cbn [obind snd]. apply En; lia.
      + assert (Hst : standing (s', y :: t')) by (exists y, t'; split; [reflexivity|apply Hs; reflexivity]). destruct (Hrep _ Hst) as (q1 & E & HQ1). pose proof (filter_len (fun x => d <=? fst x) t) as Hle. unfold from in Ef. rewrite Ef in Hle. cbn [length] in Hle.
        destruct (IH (length (all ((s', y :: t') :: ms'))) ltac:(unfold all; cbn [map concat snd]; rewrite app_length; cbn [length]; fold (all ms'); lia) q1 _ (le_n _) HQ1) as (q' & ms2 & HQ' & HP' & n & En). exists q', ms2. splits; auto.
        * rewrite HP', HP2. unfold all at 1. cbn [map concat snd]. unfold from. rewrite filter_app. fold (all ms'). apply Permutation_app_tail. rewrite <- Ef, filter_all; [reflexivity|]. intros w Hw. apply filter_In in Hw. tauto.
        * exists (S (Nat.max n n1)). intros f [|g] Hf Hg; [lia|]. cbn [or_skip_loop]. rewrite Hsz, Htop. cbn [obind]. rewrite Hv. cbn [obind U s_doc]. destruct (Z.ltb_spec (fst x) d); [|lia]. rewrite (E1 f ltac:(lia)). cbn [obind nonnil fst snd]. cbn [fst] in E. rewrite E. cbn [obind snd]. apply En; lia.
    - exists q, ms. splits; auto.
      + unfold from. rewrite filter_all; [reflexivity|]. intros y Hy. apply Z.leb_le. pose proof (kle_doc _ _ (Hmin y Hy)). lia.
      + exists 1%nat. intros f [|g] Hf Hg; [lia|]. cbn [or_skip_loop]. rewrite Hsz, Htop. cbn [obind]. rewrite Hv. cbn [obind U s_doc]. destruct (Z.ltb_spec (fst x) d); [lia|reflexivity].
  Qed.
  Lemma OrR_ok s cur rest : OrR s cur rest -> SB k false s cur rest.
  Proof.
    apply (sb_coind k false OrR). clear. intros s cur rest (HK & HO & H). splits; auto.
    { destruct cur as [x|]; [|intros E; discriminate]. cbn [shows]. destruct H as (q & subs & capa & ms & -> & HQ & HP). assert (Hne : ms <> []) by (intros ->; apply Permutation_sym, Permutation_nil in HP; discriminate). destruct (dq_top capa q ms HQ Hne) as (s & y & t & ms' & HPm & _ & _ & Hv & Hmin & _). rewrite Hv. do 2 f_equal. cbn [here] in HK. apply KS_inv in HK. apply kle_anti; [apply Hmin, (Permutation_in _ HP); left; reflexivity|].
      assert (In y (x :: rest)) as [<-|Hy]; [apply (Permutation_in _ (Permutation_sym HP)), (Permutation_in _ (Permutation_sym (all_perm _ _ HPm))); left; reflexivity|apply kle_refl|apply HK; exact Hy]. }
    intros op Hop. assert (G : exists s', ev op s (nonnil (tgt op rest)) s' /\ forall x t, tgt op rest = x :: t -> OrR s' (Some x) t); [|destruct G as (s' & E & Hs); exists s'; splits; [exact E|intros _ E0; discriminate|exact Hs]].
    pose proof (tgt_KS op rest (here_rest _ _ HK)) as HK'. assert (HO' : Forall okk (tgt op rest)) by (apply okk_rest in HO; rewrite Forall_forall in *; intros y Hy; apply tgt_in in Hy; apply HO; tauto).
    destruct cur as [x|].
    - destruct H as (q & subs & capa & ms & -> & HQ & HP). assert (Hne : ms <> []) by (intros ->; apply Permutation_sym, Permutation_nil in HP; discriminate). destruct op as [d|]; cbn [tgt] in *.
      + destruct Hop as (Hk & Hd & Hx). destruct (skip_ok d capa Hk Hd _ q ms (le_n _) HQ) as (q' & ms' & HQ' & HP' & n & En). assert (HP2 : Permutation (from d rest) (all ms')).
        { rewrite HP'. rewrite <- (tgt_perm (Some d) _ _ HP). cbn [tgt]. unfold from. cbn [filter]. destruct (Z.leb_spec d (fst x)); [lia|]. reflexivity. }
        destruct (done_ok capa q' ms' subs _ HQ' HK' HO' HP2) as (s' & E & Hs). exists s'. split; [|exact Hs]. exists (S n). intros [|f] Hf; [lia|]. cbn [run]. unfold or_skip. rewrite (En f f) by lia. exact E.
      + destruct (dq_top capa q ms HQ Hne) as (s & y & t & ms' & HPm & Htop & Hv & Hv' & Hmin & HB & Hrep & z & q2 & Epop & HQ2).
        assert (x = y). { cbn [here] in HK. apply KS_inv in HK. apply kle_anti; [|apply Hmin, (Permutation_in _ (Permutation_sym HP) (or_introl eq_refl)) || apply Hmin, (Permutation_in _ HP); left; reflexivity]. assert (In y (x :: rest)) as [<-|Hy]; [apply (Permutation_in _ (Permutation_sym HP)), (Permutation_in _ (Permutation_sym (all_perm _ _ HPm))); left; reflexivity|apply kle_refl|apply HK; exact Hy]. }
        subst y. assert (HP2 : Permutation rest (t ++ all ms')). { rewrite (all_perm _ _ HPm) in HP. unfold all in HP. cbn [map concat snd app] in HP. apply Permutation_cons_inv in HP. exact HP. }
        assert (Hsz : (pq_size q =? 0)%nat = false) by (rewrite (DQ_size _ _ _ HQ); destruct ms; [congruence|reflexivity]). destruct (sb_facts _ _ _ _ _ HB) as (_ & _ & _ & H4). destruct (H4 None I) as (s' & (n1 & E1) & _ & Hs). cbn [tgt] in *. destruct t as [|y t].
        * destruct (done_ok capa q2 ms' subs rest HQ2 HK' HO' HP2) as (s2 & E & Hs2). exists s2. split; [|exact Hs2]. exists (S n1). intros [|f] Hf; [lia|]. cbn [run]. unfold or_next. rewrite Hsz, Htop. cbn [obind]. rewrite (E1 f) by lia. cbn [obind nonnil fst]. rewrite Epop. cbn [obind snd]. exact E.
        * assert (Hst : standing (s', y :: t)) by (exists y, t; split; [reflexivity|apply Hs; reflexivity]). destruct (Hrep _ Hst) as (q1 & E & HQ1). exists (SOr false q1 subs). assert (HN : exists w r, rest = w :: r) by (destruct rest as [|w r]; [apply Permutation_nil in HP2; discriminate|eauto]). destruct HN as (w & r & ->). split.
          -- exists (S n1). intros [|f] Hf; [lia|]. cbn [run]. unfold or_next. rewrite Hsz, Htop. cbn [obind]. rewrite (E1 f) by lia. cbn [obind nonnil fst snd]. cbn [fst] in E. rewrite E. reflexivity.
          -- intros w' r' Ew. injection Ew as <- <-. red. splits; auto. exists q1, subs, capa, ((s', y :: t) :: ms'). auto.
    - destruct H as (n0 & subs & Ls & -> & HF & HP). destruct (fill_ok op n0 Hop subs Ls (pq_new se n0) [] HF) as (q' & ms' & HQ' & HP' & n & En); [split; [apply new_ok|constructor]|]. cbn [all map concat app] in HP'. assert (HP2 : Permutation (tgt op rest) (all ms')) by (rewrite HP'; apply (tgt_perm op _ _ HP)).
      destruct (done_ok n0 q' ms' subs _ HQ' HK' HO' HP2) as (s' & E & Hs). exists s'. split; [|exact Hs]. exists (S n). intros [|f] Hf; [lia|]. cbn [run]. destruct op; unfold or_skip, or_next; rewrite (En f) by lia; exact E.
  Qed.
  Lemma or_sb n subs Ls rest : Forall2 (fun s L => SB k false s None L) subs Ls -> KS rest -> Permutation rest (concat Ls) -> SB k false (SOr true (pq_new se n) subs) None rest.
  Proof.
    intros HF HK HP. apply OrR_ok. red. splits; [exact HK| |exists n, subs, Ls; auto]. cbn [here]. apply Forall_forall. intros x Hx. apply (Permutation_in _ HP) in Hx. apply in_concat in Hx. destruct Hx as (L & HL & Hx). clear HP HK.
    induction HF as [|s L0 subs Ls HB HF IH]; [destruct HL|]. destruct HL as [<-|HL]; [|auto]. destruct (sb_facts _ _ _ _ _ HB) as (_ & HO & _). cbn [here] in HO. rewrite Forall_forall in HO. auto.
  Qed.
End OR.
(* the merged list *)
Fixpoint kins (x : key) (l : list key) : list key := match l with [] => [x] | y :: t => if (fst x <? fst y) || ((fst x =? fst y) && (snd x <=? snd y)) then x :: l else y :: kins x t end.
Lemma kins_ok x l : KS l -> KS (kins x l) /\ Permutation (x :: l) (kins x l).
Proof.
  induction l as [|y l IH]; intros H; cbn [kins]; [split; [constructor; constructor|reflexivity]|]. apply KS_inv in H. destruct H as (H & Hy). destruct ((fst x <? fst y) || ((fst x =? fst y) && (snd x <=? snd y))) eqn:E.
  - split; [|reflexivity]. assert (kle x y) by (unfold kle; lia). apply KS_cons; [apply KS_cons; auto|]. intros z [<-|Hz]; [assumption|apply (kle_trans _ y); auto].
  - destruct (IH H) as (I1 & I2). assert (kle y x) by (unfold kle; lia). split; [|rewrite perm_swap; constructor; exact I2]. apply KS_cons; [exact I1|]. intros z Hz. apply (Permutation_in _ (Permutation_sym I2)) in Hz. destruct Hz as [<-|Hz]; auto.
Qed.
Definition ksort (l : list key) : list key := fold_right kins [] l.
Lemma ksort_ok l : KS (ksort l) /\ Permutation (ksort l) l.
Proof. induction l as [|x l (I1 & I2)]; cbn [ksort fold_right]; [split; constructor|]. fold (ksort l). destruct (kins_ok x _ I1) as (J1 & J2). split; [exact J1|]. rewrite <- J2. constructor. exact I2. Qed.

(* ---------- SpanNotEnum *)
Definition keqb (x y : key) : bool := (fst x =? fst y) && (snd x =? snd y).
Lemma keqb_eq x y : keqb x y = true <-> x = y.
Proof. destruct x, y. unfold keqb. cbn [fst snd]. rewrite andb_true_iff, !Z.eqb_eq. split; [intros (-> & ->); reflexivity|intros H; injection H; auto]. Qed.
Definition without (E : list key) (y : key) : bool := negb (existsb (keqb y) E).
Lemma without_spec E y : without E y = true <-> ~ In y E.
Proof. unfold without. rewrite negb_true_iff, <- not_true_iff_false, existsb_exists. split; intros H G; apply H; [exists y; split; [exact G|apply keqb_eq; reflexivity]|destruct G as (z & Hz & E0); apply keqb_eq in E0; subst; exact Hz]. Qed.
Section NOT.
  Variables (k r re : bool) (E : list key).
  Hypothesis Hkr : k = true -> re = true.
  Definition EX (me : bool) (exc : se) (EL : list key) : Prop :=
    me = nonnil EL /\ KS EL /\ (EL = [] -> over re exc) /\ forall e t, EL = e :: t -> SB true re exc (Some e) t.
  Definition IN (mi : bool) (inc : se) (L : list key) : Prop :=
    mi = nonnil L /\ KS L /\ Forall okk L /\ (L = [] -> over r inc) /\ forall x t, L = x :: t -> SB k r inc (Some x) t.
  Definition same (L EL : list key) : Prop := forall y, In y L -> (In y E <-> In y EL).
  Definition NR (s : se) (cur : option key) (rest : list key) : Prop :=
    exists me inc exc l EL, s = SNot true me inc exc /\ SB k r inc cur l /\ rest = filter (without E) l /\ EX me exc EL /\ same l EL.
  Lemma EX_val me exc e t : EX me exc (e :: t) -> me = true /\ val exc = Some (U e) /\ SB true re exc (Some e) t /\ okk e.
  Proof. intros (H1 & H2 & _ & H3). specialize (H3 e t eq_refl). destruct (sb_facts _ _ _ _ _ H3) as (_ & H4 & H5 & _). splits; auto. cbn [here] in H4. inversion H4; auto. Qed.
  Lemma IN_val mi inc x t : IN mi inc (x :: t) -> mi = true /\ val inc = Some (U x) /\ SB k r inc (Some x) t /\ okk x /\ KS (x :: t).
  Proof. intros (H1 & H2 & H2' & _ & H3). specialize (H3 x t eq_refl). destruct (sb_facts _ _ _ _ _ H3) as (_ & _ & H5 & _). splits; auto. inversion H2'; auto. Qed.
  Lemma EX_move op me exc e t s' : EX me exc (e :: t) -> (forall x u, tgt op t = x :: u -> SB true re s' (Some x) u) -> (tgt op t = [] -> over re s') -> EX (nonnil (tgt op t)) s' (tgt op t).
  Proof. intros (_ & H2 & _ & _) Hs Ho. split; [reflexivity|]. split; [apply tgt_KS; apply KS_inv in H2; tauto|]. auto. Qed.
  Lemma IN_move op inc cur l s' : SB k r inc cur l -> (forall x u, tgt op l = x :: u -> SB k r s' (Some x) u) -> (tgt op l = [] -> over r s') -> IN (nonnil (tgt op l)) s' (tgt op l).
  Proof. intros HB Hs Ho. destruct (sb_facts _ _ _ _ _ HB) as (H1 & H2 & _). split; [reflexivity|]. split; [apply tgt_KS, (here_rest _ _ H1)|]. split; [|auto]. apply okk_rest in H2. rewrite Forall_forall in *. intros y Hy. apply tgt_in in Hy. apply H2. tauto. Qed.
  (* exc skips to the document of y *)
  Lemma sk_ok y me exc e t : okk y -> EX me exc (e :: t) -> exists me' exc' EL', EX me' exc' EL' /\ (forall z, In z EL' -> fst y <= fst z) /\ (forall z, fst y <= fst z -> In z (e :: t) <-> In z EL') /\
    exists n, forall f, (n <= f)%nat -> (if fst e <? fst y then run f (Some (fst y)) exc else Some (true, exc)) = Some (me', exc').
  Proof.
    intros Hy HX. destruct (EX_val _ _ _ _ HX) as (-> & Hv & HB & He). destruct (Z.ltb_spec (fst e) (fst y)) as [L|L].
    - destruct (sb_facts _ _ _ _ _ HB) as (_ & _ & _ & H4). destruct (H4 (Some (fst y))) as (s' & (n & En) & Ho & Hs); [cbn [allowed]; destruct Hy as (Hy & _); splits; auto; lia|]. exists (nonnil (from (fst y) t)), s', (from (fst y) t). splits.
      + apply (EX_move (Some (fst y)) true exc e t s' HX Hs Ho).
      + intros z Hz. unfold from in Hz. apply filter_In in Hz. lia.
      + intros z Hz. unfold from. rewrite filter_In, Z.leb_le. cbn [In]. split; [intros [<-|H]; [lia|auto]|tauto].
      + exists n. exact En.
    - exists true, exc, (e :: t). splits; auto; [|tauto|exists O; reflexivity]. intros z [<-|Hz]; [lia|]. destruct HX as (_ & H2 & _). apply KS_inv in H2. destruct H2 as (_ & H2). pose proof (kle_doc _ _ (H2 z Hz)). lia.
  Qed.
  (* and goes on until it is not before y *)
  Lemma nb_ok y : forall m me exc EL, (length EL <= m)%nat -> EX me exc EL -> (forall z, In z EL -> fst y <= fst z) ->
    exists me' exc' EL', EX me' exc' EL' /\ (forall z, In z EL' -> kle y z) /\ (forall z, kle y z -> In z EL <-> In z EL') /\ exists n, forall f g, (n <= f)%nat -> (n <= g)%nat -> not_before (run f) g (U y) me exc = Some (me', exc').
  Proof.
    induction m as [m IH] using lt_wf_ind. intros me exc EL Hm HX Hd. destruct EL as [|e t].
    { exists me, exc, []. splits; auto; [intros z []|tauto|]. destruct HX as (-> & _). exists 1%nat. intros f [|g] Hf Hg; [lia|]. reflexivity. }
    destruct (EX_val _ _ _ _ HX) as (-> & Hv & HB & He). pose proof HX as (_ & HK & _). apply KS_inv in HK. destruct HK as (HK & He2). destruct ((fst y =? fst e) && (snd e + 1 <=? snd y)) eqn:EC.
    - destruct (sb_facts _ _ _ _ _ HB) as (_ & _ & _ & H4). destruct (H4 None I) as (s' & (n1 & E1) & Ho & Hs). cbn [tgt] in *. pose proof (EX_move None true exc e t s' HX Hs Ho) as HX'. cbn [tgt length] in *. destruct (IH (length t) ltac:(lia) _ _ t (le_n _) HX') as (me' & exc' & EL' & K1 & K2 & K3 & n & En); [intros z Hz; apply Hd; right; exact Hz|].
      exists me', exc', EL'. splits; auto.
      + intros z Hz. rewrite <- (K3 z Hz). cbn [In]. split; [intros [<-|H]; [exfalso; unfold kle in Hz; lia|exact H]|auto].
      + exists (S (Nat.max n n1)). intros f [|g] Hf Hg; [lia|]. cbn [not_before]. rewrite Hv. cbn [obind U s_doc s_st s_en]. rewrite EC. rewrite (E1 f) by lia. cbn [obind fst snd]. apply En; lia.
    - assert (kle y e) by (specialize (Hd e (or_introl eq_refl)); unfold kle; lia). exists true, exc, (e :: t). splits; auto; [|tauto|].
      + intros z [<-|Hz]; [assumption|apply (kle_trans _ e); auto].
      + exists 1%nat. intros f [|g] Hf Hg; [lia|]. cbn [not_before]. rewrite Hv. cbn [obind U s_doc s_st s_en]. rewrite EC. reflexivity.
  Qed.
  Lemma apart_spec y e : kle y e -> apart (U y) (U e) = negb (keqb y e).
  Proof. unfold kle, apart, keqb. cbn [U s_doc s_st s_en]. destruct (Z.eqb_spec (fst y) (fst e)), (Z.eqb_spec (snd y) (snd e)); cbn [negb andb orb]; rewrite ?Z.leb_le, ?Z.leb_gt; try reflexivity; intros; [apply Z.leb_gt; lia|apply Z.leb_le; lia]. Qed.
  (* exc stands at or after y: whether y is excluded *)
  Lemma verdict y l EL : (forall z, In z EL -> kle y z) -> KS EL -> same (y :: l) EL -> without E y = match EL with [] => true | e :: _ => negb (keqb y e) end.
  Proof.
    intros Hy HK HS. assert (G : without E y = true <-> ~ In y EL) by (rewrite without_spec, (HS y (or_introl eq_refl)); reflexivity). destruct EL as [|e t].
    - apply G. intros [].
    - destruct (keqb y e) eqn:Ek.
      + apply keqb_eq in Ek. subst e. apply not_true_is_false. rewrite G. intros H. apply H. left. reflexivity.
      + apply G. intros [->|Hi]; [rewrite (proj2 (keqb_eq y y) eq_refl) in Ek; discriminate|]. apply KS_inv in HK. assert (y = e) by (apply kle_anti; [apply Hy; left; reflexivity|apply HK; exact Hi]). subst. rewrite (proj2 (keqb_eq e e) eq_refl) in Ek. discriminate.
  Qed.
  Lemma same_tail y l EL : same (y :: l) EL -> same l EL.
  Proof. intros H z Hz. apply H. right. exact Hz. Qed.
  Lemma same_step y l EL EL' : KS (y :: l) -> same (y :: l) EL -> (forall z, kle y z -> In z EL <-> In z EL') -> same (y :: l) EL'.
  Proof. intros HK H G z Hz. rewrite (H z Hz). apply G. apply KS_inv in HK. destruct Hz as [<-|Hz]; [apply kle_refl|apply HK; exact Hz]. Qed.
  Definition outcome (L : list key) (b : bool) (s' : se) : Prop := b = nonnil (filter (without E) L) /\ (filter (without E) L = [] -> over r s') /\ forall x t, filter (without E) L = x :: t -> NR s' (Some x) t.
  Lemma emit me inc exc y l EL : SB k r inc (Some y) l -> EX me exc EL -> same (y :: l) EL -> without E y = true -> outcome (y :: l) true (SNot true me inc exc).
  Proof. intros HB HX HS Hy. red. cbn [filter]. rewrite Hy. splits; [reflexivity|discriminate|]. intros x t Ex. injection Ex as <- <-. exists me, inc, exc, l, EL. splits; auto. apply (same_tail y). exact HS. Qed.
  Lemma not_loop_ok : forall m mi me inc exc L EL, (length L <= m)%nat -> IN mi inc L -> EX me exc EL -> same L EL ->
    exists b s', outcome L b s' /\ exists n, forall f g, (n <= f)%nat -> (n <= g)%nat -> not_loop (run f) g mi me inc exc = Some (b, s').
  Proof.
    induction m as [m IH] using lt_wf_ind. intros mi me inc exc L EL Hm HI HX HS. destruct L as [|y l].
    { exists false, (SNot mi me inc exc). destruct HI as (-> & _ & _ & Ho & _). split; [red; cbn [filter]; splits; [reflexivity|intros _; exact (Ho eq_refl)|discriminate]|]. exists 1%nat. intros f [|g] Hf Hg; [lia|]. reflexivity. }
    destruct (IN_val _ _ _ _ HI) as (-> & Hv & HB & Hy & HK). destruct EL as [|e t].
    { exists true, (SNot true me inc exc). split; [apply (emit _ _ _ _ _ [] HB HX HS); apply (verdict y l []); [intros z []|constructor|exact HS]|]. destruct HX as (-> & _). exists 1%nat. intros f [|g] Hf Hg; [lia|]. reflexivity. }
    destruct (EX_val _ _ _ _ HX) as (-> & Hve & _ & _). destruct (sk_ok y _ _ _ _ Hy HX) as (me1 & exc1 & EL1 & HX1 & Hd1 & Hs1 & n1 & E1). destruct (nb_ok y _ me1 exc1 EL1 (le_n _) HX1 Hd1) as (me2 & exc2 & EL2 & HX2 & Hd2 & Hs2 & n2 & E2).
    assert (HS2 : same (y :: l) EL2). { apply (same_step y l EL1 EL2 HK); [|exact Hs2]. apply (same_step y l (e :: t) EL1 HK HS). intros z Hz. apply Hs1. apply kle_doc. exact Hz. }
    pose proof HX2 as (HE2 & HK2 & _). pose proof (verdict y l EL2 Hd2 HK2 HS2) as HV. destruct EL2 as [|e2 t2].
    - exists true, (SNot true false inc exc2). cbn [nonnil] in HE2. subst me2. split; [apply (emit _ _ _ _ _ [] HB HX2 HS2 HV)|]. exists (S (Nat.max n1 n2)). intros f [|g] Hf Hg; [lia|]. cbn [not_loop andb]. rewrite Hv, Hve. cbn [obind U s_doc]. rewrite (E1 f) by lia. cbn [obind fst snd]. change (mkSp (fst y) (snd y) (snd y + 1)) with (U y). rewrite (E2 f g) by lia. reflexivity.
    - destruct (EX_val _ _ _ _ HX2) as (-> & Hv2 & _ & _). pose proof (apart_spec y e2 (Hd2 e2 (or_introl eq_refl))) as HA. rewrite <- HV in HA. destruct (without E y) eqn:EW.
      + exists true, (SNot true true inc exc2). split; [apply (emit _ _ _ _ _ _ HB HX2 HS2 EW)|]. exists (S (Nat.max n1 n2)). intros f [|g] Hf Hg; [lia|]. cbn [not_loop andb]. rewrite Hv, Hve. cbn [obind U s_doc]. rewrite (E1 f) by lia. cbn [obind fst snd]. change (mkSp (fst y) (snd y) (snd y + 1)) with (U y). rewrite (E2 f g) by lia. cbn [obind fst snd]. rewrite Hv2. cbn [obind]. rewrite HA. reflexivity.
      + destruct (sb_facts _ _ _ _ _ HB) as (_ & _ & _ & H4). destruct (H4 None I) as (s' & (n3 & E3) & Ho & Hs). pose proof (IN_move None inc (Some y) l s' HB Hs Ho) as HI'. cbn [tgt length] in *. destruct (IH (length l) ltac:(lia) _ _ _ _ l _ (le_n _) HI' HX2 (same_tail _ _ _ HS2)) as (b & s2 & HO & n4 & E4).
        exists b, s2. split; [unfold outcome in *; cbn [filter]; rewrite EW; exact HO|]. exists (S (Nat.max (Nat.max n1 n2) (Nat.max n3 n4))). intros f [|g] Hf Hg; [lia|]. cbn [not_loop andb]. rewrite Hv, Hve. cbn [obind U s_doc]. rewrite (E1 f) by lia. cbn [obind fst snd]. change (mkSp (fst y) (snd y) (snd y + 1)) with (U y). rewrite (E2 f g) by lia. cbn [obind fst snd]. rewrite Hv2. cbn [obind]. rewrite HA. rewrite (E3 f) by lia. cbn [obind fst snd]. apply E4; lia.
  Qed.
  Lemma not_next_ok me inc exc cur l EL : SB k r inc cur l -> EX me exc EL -> same l EL ->
    exists b s', outcome l b s' /\ exists n, forall f g, (n <= f)%nat -> (n <= g)%nat -> not_next (run f) g true me inc exc = Some (b, s').
  Proof.
    intros HB HX HS. destruct (sb_facts _ _ _ _ _ HB) as (_ & _ & _ & H4). destruct (H4 None I) as (s' & (n1 & E1) & Ho & Hs). pose proof (IN_move None inc cur l s' HB Hs Ho) as HI'. cbn [tgt] in *.
    destruct (not_loop_ok _ _ me _ exc l EL (le_n _) HI' HX HS) as (b & s2 & HO & n & En). exists b, s2. split; [exact HO|]. exists (Nat.max n n1). intros f g Hf Hg. unfold not_next. rewrite (E1 f) by lia. cbn [obind fst snd]. apply En; lia.
  Qed.
  Lemma same_from d l EL : same l EL -> same (from d l) EL.
  Proof. intros H y Hy. unfold from in Hy. apply filter_In in Hy. apply H. tauto. Qed.
  Lemma not_skip_ok d me inc exc cur l EL : allowed k cur (Some d) -> SB k r inc cur l -> EX me exc EL -> same l EL ->
    exists b s', outcome (from d l) b s' /\ exists n, forall f g, (n <= f)%nat -> (n <= g)%nat -> not_skip (run f) g true me inc exc d = Some (b, s').
  Proof.
    intros Hop HB HX HS. apply (same_from d) in HS. destruct (sb_facts _ _ _ _ _ HB) as (_ & _ & _ & H4). destruct (H4 (Some d) Hop) as (s1 & (n0 & E0) & Ho & Hs). pose proof (IN_move (Some d) inc cur l s1 HB Hs Ho) as HI. cbn [tgt] in *. destruct (from d l) as [|y t'] eqn:Ef.
    { exists false, (SNot false me s1 exc). split; [red; cbn [filter]; splits; [reflexivity|intros _; exact (Ho eq_refl)|discriminate]|]. exists n0. intros f g Hf Hg. unfold not_skip. rewrite (E0 f) by lia. reflexivity. }
    destruct (IN_val _ _ _ _ HI) as (_ & Hv & HB1 & Hy & HK).
    assert (G : exists me1 exc1 EL1, EX me1 exc1 EL1 /\ (forall z, In z EL1 -> fst y <= fst z) /\ (forall z, fst y <= fst z -> In z EL <-> In z EL1) /\ exists v n, val exc = Some v /\ forall f, (n <= f)%nat -> (if s_doc v <? fst y then run f (Some (fst y)) exc else Some (me, exc)) = Some (me1, exc1)).
    { destruct EL as [|e t].
      - exists me, exc, []. pose proof HX as (_ & _ & Hov & _). destruct (Hov eq_refl (Hkr (proj1 Hop))) as (v & Ev & Dv). splits; auto; [intros z []|tauto|]. exists v, O. split; [exact Ev|]. intros f _. destruct Hy as (Hy & _). destruct (Z.ltb_spec (s_doc v) (fst y)); [lia|reflexivity].
      - destruct (EX_val _ _ _ _ HX) as (-> & Hve & _ & _). destruct (sk_ok y _ _ _ _ Hy HX) as (me1 & exc1 & EL1 & HX1 & Hd1 & Hs1 & n1 & E1). exists me1, exc1, EL1. splits; auto. exists (U e), n1. auto. }
    destruct G as (me1 & exc1 & EL1 & HX1 & Hd1 & Hs1 & v & n1 & Hve & E1). destruct (nb_ok y _ me1 exc1 EL1 (le_n _) HX1 Hd1) as (me2 & exc2 & EL2 & HX2 & Hd2 & Hs2 & n2 & E2).
    assert (HS2 : same (y :: t') EL2). { apply (same_step y t' EL1 EL2 HK); [|exact Hs2]. apply (same_step y t' EL EL1 HK HS). intros z Hz. apply Hs1. apply kle_doc. exact Hz. }
    pose proof HX2 as (HE2 & HK2 & _). pose proof (verdict y t' EL2 Hd2 HK2 HS2) as HV. destruct EL2 as [|e2 t2].
    - exists true, (SNot true false s1 exc2). cbn [nonnil] in HE2. subst me2. split; [apply (emit _ _ _ _ _ [] HB1 HX2 HS2 HV)|]. exists (Nat.max n0 (Nat.max n1 n2)). intros f g Hf Hg. unfold not_skip. rewrite (E0 f) by lia. cbn [obind fst snd nonnil andb negb]. rewrite Hv, Hve. cbn [obind U s_doc]. rewrite (E1 f) by lia. cbn [obind fst snd]. change (mkSp (fst y) (snd y) (snd y + 1)) with (U y). rewrite (E2 f g) by lia. reflexivity.
    - destruct (EX_val _ _ _ _ HX2) as (-> & Hv2 & _ & _). pose proof (apart_spec y e2 (Hd2 e2 (or_introl eq_refl))) as HA. rewrite <- HV in HA. destruct (without E y) eqn:EW.
      + exists true, (SNot true true s1 exc2). split; [apply (emit _ _ _ _ _ _ HB1 HX2 HS2 EW)|]. exists (Nat.max n0 (Nat.max n1 n2)). intros f g Hf Hg. unfold not_skip. rewrite (E0 f) by lia. cbn [obind fst snd nonnil andb negb]. rewrite Hv, Hve. cbn [obind U s_doc]. rewrite (E1 f) by lia. cbn [obind fst snd]. change (mkSp (fst y) (snd y) (snd y + 1)) with (U y). rewrite (E2 f g) by lia. cbn [obind fst snd]. rewrite Hv2. cbn [obind]. rewrite HA. reflexivity.
      + destruct (not_next_ok true s1 exc2 (Some y) t' _ HB1 HX2 (same_tail _ _ _ HS2)) as (b & s2 & HO & n4 & E4). exists b, s2. split; [unfold outcome in *; cbn [filter]; rewrite EW; exact HO|]. exists (Nat.max (Nat.max n0 n4) (Nat.max n1 n2)). intros f g Hf Hg. unfold not_skip. rewrite (E0 f) by lia. cbn [obind fst snd nonnil andb negb]. rewrite Hv, Hve. cbn [obind U s_doc]. rewrite (E1 f) by lia. cbn [obind fst snd]. change (mkSp (fst y) (snd y) (snd y + 1)) with (U y). rewrite (E2 f g) by lia. cbn [obind fst snd]. rewrite Hv2. cbn [obind]. rewrite HA. apply E4; lia.
  Qed.
  Lemma NR_ok s cur rest : NR s cur rest -> SB k r s cur rest.
  Proof.
    apply (sb_coind k r NR). clear s cur rest. intros s cur rest (me & inc & exc & l & EL & -> & HB & -> & HX & HS). destruct (sb_facts _ _ _ _ _ HB) as (H1 & H2 & H3 & _). splits; [apply here_filter; exact H1|apply okk_filter; exact H2|exact H3|].
    intros op Hop. rewrite tgt_filter. assert (G : exists b s', outcome (tgt op l) b s' /\ exists n, forall f, (n <= f)%nat -> run f op (SNot true me inc exc) = Some (b, s')).
    { destruct op as [d|]; [destruct (not_skip_ok d me inc exc cur l EL Hop HB HX HS) as (b & s' & HO & n & En)|destruct (not_next_ok me inc exc cur l EL HB HX HS) as (b & s' & HO & n & En)]; exists b, s'; (split; [exact HO|]); exists (S n); (intros [|f] Hf; [lia|]); cbn [run]; apply En; lia. }
    destruct G as (b & s' & (-> & Ho & Hs) & n & En). exists s'. splits; auto. exists n. exact En.
  Qed.
End NOT.
Lemma not_sb k r re inc exc L E : (k = true -> re = true) -> SB k r inc None L -> SB true re exc None E ->
  exists b exc', ev None exc b exc' /\ SB k r (SNot true b inc exc') None (filter (without E) L).
Proof.
  intros Hkr HI HE. destruct (sb_facts _ _ _ _ _ HE) as (K1 & _ & _ & H4). destruct (H4 None I) as (s' & Es & Ho & Hs). cbn [tgt here] in *. exists (nonnil E), s'. split; [exact Es|]. apply (NR_ok k r re E Hkr). exists (nonnil E), inc, s', L, E. splits; auto; [split; auto|]. intros y _. tauto.
Qed.
