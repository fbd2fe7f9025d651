(* Merging: the queue of segments and the loop over the terms. *)
From Coq Require Import Sorting.Permutation.
From Verif Require Import Util Codec_Model Codec_Spec Codec_Proofs Seg_Model Seg_Spec SegCodec_Proofs Strcmp Dict_Model Dict_Spec DictCodec_Proofs Dict_Proofs DictCursor_Proofs Post_Model Post_Spec Post_Proofs PostRun_Proofs PQueue_Model PQueue_Spec PQueue_Proofs Multi_Model Mte_Model Mte_Spec Mte_Proofs Merge_Model Merge_Spec Merge_Proofs MergeBuf_Proofs.
Open Scope Z_scope.

(* ---------- lists *)
Lemma nth_ext_ {A} : forall a b : list A, (forall j, nth_error a j = nth_error b j) -> a = b.
Proof. induction a as [|x a IH]; intros [|y b] H; auto; [specialize (H O); discriminate|specialize (H O); discriminate|]. pose proof (H O) as H0. cbn in H0. apply some_inj in H0. f_equal; auto. apply IH. intros j. exact (H (S j)). Qed.
Lemma sorted_same {A} (R : A -> A -> Prop) : (forall a, ~ R a a) -> (forall a b c, R a b -> R b c -> R a c) ->
  forall l1 l2, StronglySorted R l1 -> StronglySorted R l2 -> (forall x, In x l1 <-> In x l2) -> l1 = l2.
Proof.
  intros Hi Ht. induction l1 as [|a l1 IH]; intros l2 H1 H2 HE.
  - destruct l2 as [|b l2]; auto. destruct (proj2 (HE b)); left; auto.
  - destruct l2 as [|b l2]; [destruct (proj1 (HE a)); left; auto|]. inversion H1 as [|? ? S1 F1]; inversion H2 as [|? ? S2 F2]; subst. rewrite Forall_forall in F1, F2.
    assert (a = b).
    { destruct (proj1 (HE a) ltac:(left; auto)) as [|Ha]; auto. destruct (proj2 (HE b) ltac:(left; auto)) as [|Hb]; auto. exfalso. apply (Hi a). eapply Ht; [apply F1|apply F2]; auto. }
    subst b. f_equal. apply IH; auto. intros x. split; intros Hx.
    + destruct (proj1 (HE x) ltac:(right; auto)) as [<-|]; auto. exfalso. apply (Hi a). auto.
    + destruct (proj2 (HE x) ltac:(right; auto)) as [<-|]; auto. exfalso. apply (Hi a). auto.
Qed.
Lemma perm_filter {A} (f : A -> bool) l l' : Permutation l l' -> Permutation (filter f l) (filter f l').
Proof. induction 1 as [|x l l' H IH|x y l|l1 l2 l3 H1 IH1 H2 IH2]; cbn [filter]; [constructor|destruct (f x); auto|destruct (f x), (f y); auto; constructor|eapply Permutation_trans; eauto]. Qed.
Lemma sorted_filter {A} (R : A -> A -> Prop) f l : StronglySorted R l -> StronglySorted R (filter f l).
Proof. induction 1 as [|a l H IH HF]; cbn [filter]; [constructor|]. destruct (f a); auto. constructor; auto. rewrite Forall_forall in *. intros x Hx. apply filter_In in Hx. apply HF. tauto. Qed.
Lemma flen {A} (p : A -> bool) l : (length (filter p l) <= length l)%nat.
Proof. induction l as [|x l IH]; cbn [filter length]; [lia|]. destruct (p x); cbn [length]; lia. Qed.
Lemma fall {A} (p : A -> bool) l : (forall x, In x l -> p x = true) -> filter p l = l.
Proof. induction l as [|x l IH]; intros H; [reflexivity|]. cbn [filter]. rewrite (H x) by (left; auto). f_equal. apply IH. intros; apply H; right; auto. Qed.
Lemma fnone {A} (p : A -> bool) l : (forall x, In x l -> p x = false) -> filter p l = [].
Proof. induction l as [|x l IH]; intros H; [reflexivity|]. cbn [filter]. rewrite (H x) by (left; auto). apply IH. intros; apply H; right; auto. Qed.
Lemma seq_sorted n : forall i, StronglySorted lt (seq i n).
Proof. induction n as [|n IH]; intros i; cbn [seq]; constructor; auto. rewrite Forall_forall. intros x Hx. apply in_seq in Hx. lia. Qed.
Definition ne {A} (l : list A) : bool := match l with [] => false | _ => true end.
Lemma flat_map_ne {A B} (f : A -> list B) l : flat_map f l = flat_map f (filter (fun x => ne (f x)) l).
Proof. induction l as [|x l IH]; [reflexivity|]. cbn [flat_map filter]. destruct (f x) eqn:E; cbn [ne]; [exact IH|]. cbn [flat_map]. rewrite E, IH. reflexivity. Qed.
(* the order of the segments within a term: bases may coincide only behind a segment without documents *)
Lemma in_base_order {B} (f : nat -> list B) (base : nat -> nat) N ms :
  (forall i j, (i < j < N)%nat -> (base i <= base j)%nat) -> (forall i j, (i < j < N)%nat -> f i <> [] -> (base i < base j)%nat) ->
  NoDup ms -> StronglySorted (fun i j => (base i <= base j)%nat) ms -> (forall j, In j ms -> (j < N)%nat) -> (forall j, (j < N)%nat -> ~ In j ms -> f j = []) ->
  flat_map f ms = flat_map f (seq 0 N).
Proof.
  intros H1 H2 HN HS HI HE. rewrite (flat_map_ne f ms), (flat_map_ne f (seq 0 N)). f_equal. apply (sorted_same lt).
  - intros a. lia.
  - intros a b c. lia.
  - revert HN HI. clear HE. induction HS as [|a l HS IH HF]; intros HN HI; cbn [filter]; [constructor|]. inversion HN as [|? ? Hn HN']; subst. assert (IH' : StronglySorted lt (filter (fun x => ne (f x)) l)) by (apply IH; auto; intros; apply HI; right; auto).
    destruct (ne (f a)) eqn:E; auto. constructor; auto. rewrite Forall_forall in *. intros x Hx. apply filter_In in Hx. destruct Hx as (Hx & Ex). pose proof (HF x Hx) as Hb.
    destruct (Nat.lt_trichotomy a x) as [|[->|Hlt]]; auto; [contradiction|]. assert (f x <> []) by (intros E'; rewrite E' in Ex; discriminate). pose proof (H2 x a ltac:(pose proof (HI a ltac:(left; auto)); lia) H). lia.
  - apply sorted_filter, seq_sorted.
  - intros x. rewrite !filter_In, in_seq. split; intros (A1 & A2); split; auto; [pose proof (HI x A1); lia|]. destruct (in_dec Nat.eq_dec x ms) as [|Hn]; auto. rewrite (HE x ltac:(lia) Hn) in A2. discriminate.
Qed.
Lemma flat_map_change {A} (f g : nat -> list A) i : forall l, NoDup l -> In i l -> (forall j, In j l -> j <> i -> f j = g j) -> f i = [] -> Permutation (flat_map g l) (g i ++ flat_map f l).
Proof.
  induction l as [|x l IH]; intros HN Hi HE Hf; [destruct Hi|]. inversion HN as [|? ? Hn HN']; subst. cbn [flat_map]. destruct (Nat.eq_dec x i) as [->|Hx].
  - rewrite Hf. cbn [app]. apply Permutation_app_head. assert (flat_map f l = flat_map g l) as ->; auto. rewrite !flat_map_concat_map. f_equal. apply map_ext_in. intros j Hj. apply HE; [right; auto|]. intros ->. contradiction.
  - destruct Hi as [->|Hi]; [congruence|]. rewrite (HE x) by (auto; left; auto). rewrite app_assoc. eapply Permutation_trans; [apply Permutation_app_head; apply IH; auto; intros; apply HE; auto; right; auto|]. rewrite !app_assoc. apply Permutation_app_tail. apply Permutation_app_comm.
Qed.

(* ---------- the queue *)
Lemma smi_lt_spec a b : smi_lt a b = true <-> slt (fst a) (fst b) \/ (fst a = fst b /\ fst (snd a) < fst (snd b)).
Proof.
  unfold smi_lt. rewrite <- scmp_eq. unfold slt. destruct (scmp (fst a) (fst b)); rewrite ?Z.ltb_lt; split; intros H; auto; try discriminate; destruct H as [H|[H1 H2]]; auto; discriminate.
Qed.
Lemma smi_ge a b : smi_lt b a = false <-> slt (fst a) (fst b) \/ (fst a = fst b /\ fst (snd a) <= fst (snd b)).
Proof.
  destruct (smi_lt b a) eqn:E.
  - apply smi_lt_spec in E. split; [discriminate|]. intros H. exfalso. destruct E as [E|[E E']], H as [H|[H H']]; [exact (slt_asym _ _ E H)|rewrite H in E; exact (slt_irr _ E)|rewrite E in H; exact (slt_irr _ H)|lia].
  - split; auto. intros _. destruct (slt_total (fst a) (fst b)) as [H|[H|H]]; auto.
    + right. split; auto. destruct (Z.le_gt_cases (fst (snd a)) (fst (snd b))); auto. exfalso. rewrite (proj2 (smi_lt_spec b a)) in E; [discriminate|]. right. split; auto; lia.
    + exfalso. rewrite (proj2 (smi_lt_spec b a)) in E; [discriminate|auto].
Qed.
Lemma smi_pre : preorder _ smi_lt.
Proof.
  unfold preorder, PQueue_Spec.le. split.
  - intros a b. rewrite !smi_ge. destruct (slt_total (fst a) (fst b)) as [H|[H|H]]; auto. rewrite H. destruct (Z.le_gt_cases (fst (snd a)) (fst (snd b))); [left|right]; right; split; auto; lia.
  - intros a b c. rewrite !smi_ge. intros [H1|[H1 H1']] [H2|[H2 H2']].
    + left. eapply slt_trans; eauto. + left. rewrite <- H2. auto. + left. rewrite H1. auto. + right. split; [congruence|lia].
Qed.
Notation SInv := (PInv qel smi_lt).
Notation sbase x := (fst (snd x)).
Notation sid x := (snd (snd x)).
Lemma pop_equal_ok capa t : forall fuel q m, SInv capa q m -> (forall y, In y m -> sle t (fst y)) -> (length (filter (fun y => seqb t (fst y)) m) <= fuel)%nat ->
  exists els q' m', pop_equal fuel t q = Some (map (fun x => sid x) els, q') /\ SInv capa q' m' /\ Permutation m (els ++ m') /\
    Forall (fun y => fst y = t) els /\ Forall (fun y => slt t (fst y)) m' /\ StronglySorted (fun a b => sbase a <= sbase b) els.
Proof.
  induction fuel as [|fuel IH]; intros q m HI Hge Hf.
  all: pose proof (pi_size _ _ _ _ _ HI) as Hs; unfold pop_equal; fold pop_equal; unfold pq_top; destruct (Nat.ltb_spec 0 (pq_size q)) as [Hp|Hp];
    [|cbn [obind]; assert (m = []) by (destruct m; [auto|cbn in Hs; lia]); subst m; exists [], q, []; splits; auto; constructor].
  all: destruct (top_elt _ smi_lt _ _ _ HI Hp) as ([t1 [b1 i1]] & m1 & Hx & Hm); pose proof (PInv_least _ _ smi_pre _ _ _ _ HI Hx Hp) as (Hin & Hl); apply elt_some in Hx; rewrite Hx; cbn [obind];
    destruct (seqb t t1) eqn:Et.
  2,4: exists [], q, m; splits; auto; try constructor; rewrite Forall_forall; intros y Hy; specialize (Hl y Hy); unfold PQueue_Spec.le in Hl; apply smi_ge in Hl; cbn [fst snd] in Hl;
    pose proof (Hge _ Hin) as Hg; cbn [fst] in Hg; apply sle_lteq in Hg; destruct Hg as [Hg|Hg]; [|subst t1; rewrite (proj2 (seqb_spec t t) eq_refl) in Et; discriminate]; destruct Hl as [Hl|[<- _]]; auto; eapply slt_trans; eauto.
  - exfalso. apply seqb_spec in Et. subst t1. assert (In (t, (b1, i1)) (filter (fun y => seqb t (fst y)) m)) by (apply filter_In; split; auto; apply seqb_spec; auto). destruct (filter _ m); [destruct H|cbn in Hf; lia].
  - apply seqb_spec in Et. subst t1. destruct (pop_ok _ _ smi_pre _ _ _ HI Hp) as (x & m' & q' & Ep & Hm' & Hleast & HI'). rewrite Ep. cbn [obind fst snd]. destruct x as [t2 [b2 i2]].
    assert (t2 = t).
    { destruct Hleast as (Hin2 & Hl2). specialize (Hl2 _ Hin). specialize (Hl _ Hin2). unfold PQueue_Spec.le in *. apply smi_ge in Hl, Hl2. cbn [fst snd] in *. destruct Hl as [Hl|[Hl _]]; auto. destruct Hl2 as [Hl2|[Hl2 _]]; auto. exfalso. exact (slt_asym _ _ Hl Hl2). }
    subst t2. assert (Hin' : forall y, In y m' -> In y m) by (intros y Hy; apply (Permutation_in _ (Permutation_sym Hm')); right; auto).
    destruct (IH q' m' HI') as (els & q2 & m2 & E2 & H1 & H2 & H3 & H4 & H5).
    { intros y Hy. auto. }
    { pose proof (Permutation_length (perm_filter (fun y : qel => seqb t (fst y)) _ _ Hm')) as HL. cbn [filter fst] in HL. rewrite (proj2 (seqb_spec t t) eq_refl) in HL. cbn [length] in HL. lia. }
    rewrite E2. cbn [obind fst snd]. exists ((t, (b2, i2)) :: els), q2, m2. cbn [map snd app]. splits; auto.
    + eapply Permutation_trans; [exact Hm'|]. apply perm_skip. auto.
    + constructor; auto. rewrite Forall_forall in *. intros y Hy. destruct Hleast as (_ & Hl2). specialize (Hl2 y). unfold PQueue_Spec.le in Hl2. rewrite smi_ge in Hl2. cbn [fst snd]. destruct Hl2 as [Hl2|[_ Hl2]]; auto.
      * apply Hin'. apply (Permutation_in _ (Permutation_sym H2)). apply in_or_app. auto.
      * rewrite (H3 y Hy) in Hl2. cbn [fst] in Hl2. exfalso. exact (slt_irr _ Hl2).
Qed.

(* ---------- the segments *)
Record cdat := mkC { c_s : mseg; c_x : min_; c_I : nat; c_k : nat; c_ds : list (Z * list entry) }.
Definition cok (c : cdat) : Prop :=
  (1 <= c_k c)%nat /\ mseg_ok (c_s c) /\ flaid (c_k c) [] [] (s_fs (c_s c)) (g_frq (i_seg (c_x c))) (g_prx (i_seg (c_x c))) (c_ds c) /\
  src_ok (mkSgm (c_I c) (Z.of_nat (c_k c)) (c_ds c)) (g_dict (i_seg (c_x c)), i_sfi (c_x c)) /\ i_max (c_x c) = s_max (c_s c) /\ i_del (c_x c) = s_del (c_s c).
Notation tpl := (list Z * list post)%type.
Definition UU (c : cdat) (n : Z) : list tpl := field_terms (s_fs (c_s c)) n.
Definition LL (c : cdat) (n : Z) : list entry := terms_of (c_ds c) n.
Lemma UL c n : cok c -> Forall2 (slot (c_k c) (g_frq (i_seg (c_x c))) (g_prx (i_seg (c_x c)))) (UU c n) (LL c n).
Proof.
  intros (_ & _ & (_ & H & _) & _). unfold UU, LL, field_terms, terms_of.
  pose proof (find_F2 _ (fun x => fst x =? n) (fun x => fst x =? n) _ _ (fun a b Hab => f_equal (fun z => z =? n) (proj1 Hab)) H) as HF.
  destruct (find (fun x : Z * list tpl => fst x =? n) (s_fs (c_s c))) as [[m l]|], (find (fun x : Z * list entry => fst x =? n) (c_ds c)) as [[m' l']|]; try contradiction; [|constructor]. apply HF.
Qed.
Lemma F2_nth {A B} (R : A -> B -> Prop) l l' : Forall2 R l l' -> forall p, match nth_error l p, nth_error l' p with Some a, Some b => R a b | None, None => True | _, _ => False end.
Proof. induction 1 as [|a b l l' H H2 IH]; intros [|p]; cbn [nth_error]; auto. apply IH. Qed.
Lemma skipn_cons {A} (l : list A) : forall p x r, skipn p l = x :: r -> nth_error l p = Some x /\ skipn (S p) l = r.
Proof. induction l as [|y l IH]; intros [|p] x r E; try discriminate. - cbn in E. injection E as -> ->. auto. - cbn [skipn] in E. apply IH in E. exact E. Qed.
Definition stands (c : cdat) (n : Z) (R : list tpl) (e : ste) : Prop :=
  R = [] \/ exists p, R = skipn p (UU c n) /\ (p < length (UU c n))%nat /\ at_ (Z.of_nat (c_k c)) n (LL c n) (S p) e.
Lemma U_ok c n : cok c -> Forall (fun x => term_ok (fst x) /\ plist_ok (snd x)) (UU c n) /\ StronglySorted (fun a b => slt (fst a) (fst b)) (UU c n) /\
  Forall (fun x => Forall (fun p => fst p < Z.of_nat (s_max (c_s c))) (snd x)) (UU c n).
Proof.
  intros (_ & ((HF & _) & HM) & _). unfold UU, field_terms. destruct (find (fun x : Z * list tpl => fst x =? n) (s_fs (c_s c))) as [[m l]|] eqn:E; [|splits; constructor].
  apply find_some in E. destruct E as (Hin & _). rewrite Forall_forall in HF, HM. destruct (HF _ Hin) as (_ & H1 & H2 & _). splits; auto. apply (HM _ Hin).
Qed.
Lemma postings_U c n t P : cok c -> In (t, P) (UU c n) -> postings (s_fs (c_s c)) n t = P.
Proof.
  intros Hc Hin. destruct (U_ok c n Hc) as (_ & HS & _). unfold UU, field_terms, postings in *. destruct (find (fun x : Z * list tpl => fst x =? n) (s_fs (c_s c))) as [[m l]|]; [|destruct Hin].
  induction HS as [|[t1 P1] l HS IH HF]; [destruct Hin|]. cbn [find fst]. destruct (seqb t1 t) eqn:E.
  - apply seqb_spec in E. subst t1. destruct Hin as [Hin|Hin]; [congruence|]. rewrite Forall_forall in HF. specialize (HF _ Hin). cbn [fst] in HF. exfalso. exact (slt_irr _ HF).
  - destruct Hin as [Hin|Hin]; auto. injection Hin as -> ->. rewrite (proj2 (seqb_spec t t) eq_refl) in E. discriminate.
Qed.
Lemma postings_none c n t : ~ In t (map fst (UU c n)) -> postings (s_fs (c_s c)) n t = [].
Proof.
  unfold UU, field_terms, postings. destruct (find (fun x : Z * list tpl => fst x =? n) (s_fs (c_s c))) as [[m l]|]; auto. intros Hn. destruct (find (fun x : tpl => seqb (fst x) t) l) as [[t1 P1]|] eqn:E; auto.
  apply find_some in E. destruct E as (Hin & E). apply seqb_spec in E. cbn [fst] in E. subst t1. exfalso. apply Hn. apply in_map_iff. exists (t, P1). auto.
Qed.
Lemma UL_len c n : cok c -> length (UU c n) = length (LL c n).
Proof. intros Hc. eapply Forall2_length. apply UL. auto. Qed.
Definition hd_term (R : list tpl) : option (list Z) := match R with [] => None | y :: _ => Some (fst y) end.
Lemma hd_nth c n p : cok c -> option_map fst (nth_error (LL c n) p) = hd_term (skipn p (UU c n)).
Proof.
  intros Hc. pose proof (F2_nth _ _ _ (UL c n Hc) p) as H. destruct (skipn p (UU c n)) as [|y r] eqn:E; cbn [hd_term].
  - assert (length (UU c n) <= p)%nat. { apply (f_equal (@length _)) in E. rewrite skipn_length in E. cbn in E. lia. } rewrite (proj2 (nth_error_None (UU c n) p)) in H by auto. destruct (nth_error (LL c n) p); [destruct H|reflexivity].
  - apply skipn_cons in E. destruct E as (E & _). rewrite E in H. destruct (nth_error (LL c n) p) as [b|]; [|destruct H]. destruct H as (H & _). cbn [option_map]. congruence.
Qed.
Lemma land_ok c n p e : cok c -> at_ (Z.of_nat (c_k c)) n (LL c n) (place (LL c n) p) e -> stands c n (skipn p (UU c n)) e.
Proof.
  intros Hc He. pose proof (UL_len c n Hc) as HL. unfold place in He. destruct (nth_error (LL c n) p) eqn:E.
  - right. exists p. assert (p < length (LL c n))%nat by (apply nth_error_Some; congruence). splits; auto. lia.
  - left. apply skipn_all2. apply nth_error_None in E. lia.
Qed.
Lemma stands_next c n x R e : cok c -> stands c n (x :: R) e -> exists e', ste_next (s_skip (i_sfi (c_x c))) e = Some (hd_term R, e') /\ stands c n R e'.
Proof.
  intros Hc [H|(p & Ep & Hp & He)]; [discriminate|]. symmetry in Ep. apply skipn_cons in Ep. destruct Ep as (_ & Ep). pose proof Hc as (_ & _ & _ & Hs & _).
  destruct (next_ok _ _ n (S p) e Hs He) as (e' & E1 & E2). cbn [g_skip g_fs snd] in *. fold (LL c n) in E1, E2. exists e'. rewrite E1. rewrite (hd_nth c n (S p) Hc), Ep. split; auto. rewrite <- Ep. apply land_ok; auto.
Qed.
Lemma stands_start c n e : cok c -> exists e', ste_next (s_skip (i_sfi (c_x c))) (ste_set_field (g_dict (i_seg (c_x c))) (i_sfi (c_x c)) e n) = Some (hd_term (UU c n), e') /\ stands c n (UU c n) e'.
Proof.
  intros Hc. pose proof Hc as (_ & _ & _ & Hs & _). pose proof (set_at _ _ e n Hs) as He. destruct (next_ok _ _ n O _ Hs He) as (e' & E1 & E2). cbn [g_skip g_fs fst snd] in *. fold (LL c n) in E1, E2. exists e'. rewrite E1. rewrite (hd_nth c n O Hc). split; auto. apply (land_ok c n O); auto.
Qed.
Lemma stands_size c n R e : cok c -> stands c n R e -> (length R <= Z.to_nat (e_size e))%nat.
Proof. intros Hc [->|(p & -> & Hp & (_ & Hz & _))]; [cbn; lia|]. rewrite Hz, <- (UL_len c n Hc), Nat2Z.id, skipn_length. lia. Qed.
Lemma stands_sorted c n R e : cok c -> stands c n R e -> StronglySorted (fun a b => slt (fst a) (fst b)) R /\ incl R (UU c n).
Proof.
  intros Hc [->|(p & -> & _)]; [split; [constructor|intros x []]|]. destruct (U_ok c n Hc) as (_ & HS & _). split.
  - revert p. induction HS as [|a l HS IH HF]; intros [|p]; cbn [skipn]; try constructor; auto.
  - intros x Hx. rewrite <- (firstn_skipn p (UU c n)). apply in_or_app. auto.
Qed.
(* the postings behind the term an enumerator stands on *)
Lemma stands_append c n t P R e k w d m base : cok c -> stands c n ((t, P) :: R) e -> m_in m = c_x c ->
  (forall d, 0 <= d < Z.of_nat (s_max (c_s c)) -> dead (c_s c) d = false -> new_doc m d = Some (Z.of_nat (base + rank (dead (c_s c)) (Z.to_nat d)))) ->
  rising (w_last w) (renum base (dead (c_s c)) P) ->
  let e1 := stpe_seek_ti (g_frq (i_seg (m_in m))) (g_prx (i_seg (m_in m))) (s_skip (i_sfi (m_in m))) d (Some (e_ti e)) in
  exists w' e', append_docs (S (Z.to_nat (p_df e1))) k m w e1 = Some (w', e') /\ pw_adds k w (renum base (dead (c_s c)) P) = Some w'.
Proof.
  intros Hc [H|(p & Ep & Hp & He)] Hm Hmap HR; [discriminate|]. symmetry in Ep. apply skipn_cons in Ep. destruct Ep as (Ep & _). pose proof (F2_nth _ _ _ (UL c n Hc) p) as HS. rewrite Ep in HS. destruct (nth_error (LL c n) p) as [en|] eqn:En; [|destruct HS].
  destruct HS as (_ & pre & tl & ppre & ptl & F1 & F2 & F3). cbn [snd] in *. rewrite Hm. pose proof Hc as (Hk & _ & _ & (Hsf & _) & Hmax & Hdel). destruct Hsf as (Hsk & _). cbn [g_skip] in Hsk.
  assert (Hd : dels (c_x c) = dead (c_s c)) by (unfold dels, dead; rewrite Hdel; reflexivity).
  destruct (U_ok c n Hc) as (HU & _ & HM). rewrite Forall_forall in HU, HM. pose proof (HU _ (nth_error_In _ _ Ep)) as (_ & HP). pose proof (HM _ (nth_error_In _ _ Ep)) as HMP. cbn [snd] in *.
  cbv zeta. rewrite F1, F2, <- Hd. rewrite <- Hm. apply append_seg_ok; auto.
  - intros q Hq. rewrite Hm, Hd. intros Hl. destruct HP as (HP1 & _). rewrite Forall_forall in HP1, HMP. destruct (HP1 q Hq) as (Hq0 & _). apply Hmap; auto. split; [lia|apply HMP; auto].
  - rewrite Hm. exact Hsk.
  - destruct He as (_ & _ & [(Hq & _ & _ & He & _)|(Hq & _)]); [|pose proof (UL_len c n Hc); lia]. rewrite (T_S _ _ _ En), F3 in He. exact He.
  - rewrite Hm, Hd. exact HR.
Qed.

(* ---------- the numbering of the merged segment *)
Lemma create_nth cs : Forall cok cs -> forall b j c, nth_error cs j = Some c -> exists m, nth_error (sm_create (Z.of_nat b) (map c_x cs)) j = Some m /\ m_in m = c_x c /\
  m_base m = Z.of_nat (b + total (firstn j (map c_s cs))) /\
  forall d, 0 <= d < Z.of_nat (s_max (c_s c)) -> dead (c_s c) d = false -> new_doc m d = Some (Z.of_nat (b + total (firstn j (map c_s cs)) + rank (dead (c_s c)) (Z.to_nat d))).
Proof.
  induction 1 as [|a cs Ha HF IH]; intros b j c E; [destruct j; discriminate|]. cbn [map sm_create]. pose proof (smi_new_ok (Z.of_nat b) (c_x a)) as (H1 & H2 & H3 & H4). pose proof Ha as (_ & _ & _ & _ & Hmax & Hdel).
  assert (Hd : dels (c_x a) = dead (c_s a)) by (unfold dels, dead; rewrite Hdel; reflexivity). rewrite Hd, Hmax in *. destruct j as [|j]; cbn [nth_error] in *.
  - apply some_inj in E. subst c. eexists. split; [reflexivity|]. cbn [firstn total fold_right]. rewrite Nat.add_0_r. splits; auto. intros d Hr Hl. rewrite H4 by auto. f_equal. lia.
  - rewrite H3. fold (live_docs (c_s a)). rewrite <- Nat2Z.inj_add. destruct (IH (b + live_docs (c_s a))%nat j c E) as (m & E1 & E2 & E3 & E4). exists m. cbn [firstn total fold_right]. rewrite E3. splits; auto.
    + f_equal. fold (total (firstn j (map c_s cs))). lia.
    + intros d Hr Hl. rewrite E4 by auto. fold (total (firstn j (map c_s cs))). do 2 f_equal. lia.
Qed.
Lemma total_mono ss : forall i j, (i <= j)%nat -> (total (firstn i ss) <= total (firstn j ss))%nat.
Proof. induction ss as [|s ss IH]; intros [|i] [|j] H; cbn [firstn total fold_right]; try lia. specialize (IH i j ltac:(lia)). unfold total in IH. lia. Qed.
Lemma total_step ss : forall i s, nth_error ss i = Some s -> total (firstn (S i) ss) = (total (firstn i ss) + live_docs s)%nat.
Proof.
  induction ss as [|a ss IH]; intros [|i] s E; try discriminate; cbn [nth_error] in E.
  - apply some_inj in E. subst a. cbn [firstn total fold_right]. lia.
  - specialize (IH i s E). rewrite !firstn_cons. cbn [total fold_right]. fold (total (firstn (S i) ss)) (total (firstn i ss)). rewrite IH. lia.
Qed.
Definition part (ss : list mseg) (n : Z) (t : list Z) (j : nat) : list post :=
  match nth_error ss j with Some s => renum (total (firstn j ss)) (dead s) (postings (s_fs s) n t) | None => [] end.
Lemma gather_parts n t : forall ss b, gather b ss n t = flat_map (fun j => match nth_error ss j with Some s => renum (b + total (firstn j ss)) (dead s) (postings (s_fs s) n t) | None => [] end) (seq 0 (length ss)).
Proof.
  induction ss as [|s ss IH]; intros b; [reflexivity|]. cbn [gather length]. rewrite IH. cbn [seq flat_map nth_error firstn total fold_right]. rewrite Nat.add_0_r. f_equal. rewrite <- seq_shift, !flat_map_concat_map, map_map. f_equal. apply map_ext.
  intros j. cbn [nth_error firstn total fold_right]. fold (total (firstn j ss)). destruct (nth_error ss j); auto. f_equal. lia.
Qed.
Lemma gather_part n t ss : gather O ss n t = flat_map (part ss n t) (seq 0 (length ss)).
Proof. exact (gather_parts n t ss O). Qed.

(* ---------- the loop *)
Section ALL.
  Variables I B kn : nat.
  Variable cs : list cdat.
  Hypothesis Hcs : Forall cok cs.
  Notation N := (length cs).
  Notation ss := (map c_s cs).
  Notation smis := (sm_create 0 (map c_x cs)).
  Notation base j := (total (firstn j ss)).
  Notation k := (Z.of_nat kn).
  Variable n : Z.

  Lemma cs_ok j c : nth_error cs j = Some c -> cok c.
  Proof. intros E. rewrite Forall_forall in Hcs. apply Hcs. eapply nth_error_In; eauto. Qed.
  Lemma cs_at j : (j < N)%nat -> exists c, nth_error cs j = Some c.
  Proof. intros H. destruct (nth_error cs j) eqn:E; eauto. apply nth_error_None in E. lia. Qed.
  Lemma smis_len : length smis = N.
  Proof. rewrite <- (map_length c_x cs). generalize 0. induction (map c_x cs); intros z; cbn [sm_create length]; auto. Qed.
  Definition out (pend : list nat) (j : nat) : bool := existsb (Nat.eqb j) pend.
  Lemma out_in pend j : out pend j = true <-> In j pend.
  Proof. unfold out. rewrite existsb_exists. split; [intros (x & Hx & E); apply Nat.eqb_eq in E; congruence|intros H; exists j; split; auto; apply Nat.eqb_refl]. Qed.
  Definition hdl (R : list tpl) (j : nat) : list qel := match R with [] => [] | y :: _ => [(fst y, (Z.of_nat (base j), j))] end.
  Definition hds (pend : list nat) (Rf : nat -> list tpl) : list qel := flat_map (fun j => if out pend j then [] else hdl (Rf j) j) (seq 0 N).
  Definition Sts (sts : states) (Rf : nat -> list tpl) : Prop :=
    length sts = N /\ forall j c, nth_error cs j = Some c -> exists e d, nth_error sts j = Some (e, d) /\ stands c n (Rf j) e.
  Definition Qs (pend : list nat) (q : pq qel) (Rf : nat -> list tpl) : Prop := exists m, SInv N q m /\ Permutation m (hds pend Rf).
  Definition setR (Rf : nat -> list tpl) (i : nat) (R : list tpl) : nat -> list tpl := fun j => if (j =? i)%nat then R else Rf j.

  Lemma hds_set pend Rf i R : (i < N)%nat -> ~ In i pend -> (out (i :: pend) i = true) -> Permutation (hds pend (setR Rf i R)) (hdl R i ++ hds (i :: pend) Rf).
  Proof.
    intros Hi Hn _. assert (E : out pend i = false). { destruct (out pend i) eqn:E; auto. apply out_in in E. contradiction. }
    assert (Eg : (fun j => if out pend j then [] else hdl (setR Rf i R j) j) i = hdl R i). { cbv beta. rewrite E. unfold setR. rewrite Nat.eqb_refl. reflexivity. }
    unfold hds. rewrite <- Eg. apply (flat_map_change (fun j => if out (i :: pend) j then [] else hdl (Rf j) j) (fun j => if out pend j then [] else hdl (setR Rf i R j) j) i).
    - apply seq_NoDup.
    - apply in_seq. lia.
    - intros j _ Hj. unfold setR, out. cbn [existsb]. rewrite (proj2 (Nat.eqb_neq j i) Hj). reflexivity.
    - unfold out. cbn [existsb]. rewrite Nat.eqb_refl. reflexivity.
  Qed.
  Lemma sts_set sts Rf i c e d R : Sts sts Rf -> nth_error cs i = Some c -> stands c n R e -> Sts (upd sts i (e, d)) (setR Rf i R).
  Proof.
    intros (L & H) Ec Hs. split; [rewrite upd_length; auto|]. intros j c' Ej. rewrite nth_error_upd. assert (i < N)%nat by (apply nth_error_Some; congruence). unfold setR. destruct (Nat.eqb_spec i j) as [->|Hj].
    - rewrite Nat.eqb_refl. destruct (Nat.ltb_spec j (length sts)); [|lia]. exists e, d. split; auto. congruence.
    - rewrite (proj2 (Nat.eqb_neq j i)) by auto. apply H. auto.
  Qed.
  Lemma push_hd q m i R : SInv N q m -> exists q', match hd_term R with Some t => pq_push _ smi_lt q (t, (Z.of_nat (base i), i)) | None => Some q end = Some q' /\ SInv N q' (hdl R i ++ m).
  Proof. intros H. destruct R as [|y R]; cbn [hd_term hdl app]; [exists q; auto|]. apply (push_ok _ _ smi_pre); auto. Qed.
  Lemma next_push_ok pend i q sts Rf x R : (i < N)%nat -> ~ In i pend -> Sts sts Rf -> Qs (i :: pend) q Rf -> Rf i = x :: R ->
    exists q' sts', next_push smis i q sts = Some (q', sts') /\ Sts sts' (setR Rf i R) /\ Qs pend q' (setR Rf i R).
  Proof.
    intros Hi Hn HS (m & HQ & HP) ER. destruct (cs_at i Hi) as (c & Ec). pose proof (cs_ok _ _ Ec) as Hc. pose proof HS as (L & H). destruct (H i c Ec) as (e & d & Ee & Hs). rewrite ER in Hs.
    destruct (create_nth cs Hcs O i c Ec) as (mm & E1 & E2 & E3 & _). change (Z.of_nat 0) with 0 in E1. cbn [Nat.add] in E3. destruct (stands_next c n x R e Hc Hs) as (e' & E4 & Hs').
    unfold next_push. rewrite E1. cbn [obind]. rewrite Ee. cbn [obind fst snd]. rewrite E2, E4. cbn [obind fst snd]. rewrite E3. destruct (push_hd q m i R HQ) as (q' & -> & HQ'). cbn [obind]. eexists _, _. split; [reflexivity|]. split.
    - eapply sts_set; eauto.
    - exists (hdl R i ++ m). split; auto. eapply Permutation_trans; [|apply Permutation_sym; apply hds_set; auto; apply out_in; left; auto]. apply Permutation_app_head. auto.
  Qed.
  Lemma Qs_ext pend q Rf Rf' : (forall j, (j < N)%nat -> Rf j = Rf' j) -> Qs pend q Rf -> Qs pend q Rf'.
  Proof.
    intros HE (m & H1 & H2). exists m. split; auto. assert (hds pend Rf = hds pend Rf') as <-; auto. unfold hds. rewrite !flat_map_concat_map. f_equal. apply map_ext_in. intros j Hj. apply in_seq in Hj. rewrite (HE j) by lia. reflexivity.
  Qed.
  Lemma Sts_ext sts Rf Rf' : (forall j, (j < N)%nat -> Rf j = Rf' j) -> Sts sts Rf -> Sts sts Rf'.
  Proof. intros HE (H1 & H2). split; auto. intros j c E. assert (j < N)%nat by (apply nth_error_Some; congruence). rewrite <- (HE j) by auto. auto. Qed.
  Definition tls (is : list nat) (Rf : nat -> list tpl) : nat -> list tpl := fun j => if out is j then tl (Rf j) else Rf j.
  Lemma restore_ok : forall is q sts Rf, NoDup is -> (forall i, In i is -> (i < N)%nat /\ Rf i <> []) -> Sts sts Rf -> Qs is q Rf ->
    exists q' sts', restore smis is q sts = Some (q', sts') /\ Sts sts' (tls is Rf) /\ Qs [] q' (tls is Rf).
  Proof.
    induction is as [|i is IH]; intros q sts Rf HN HR HS HQ.
    - exists q, sts. split; auto.
    - inversion HN as [|? ? Hn HN']; subst. destruct (HR i ltac:(left; auto)) as (Hi & Hne). destruct (Rf i) as [|x R] eqn:ER; [congruence|].
      destruct (next_push_ok is i q sts Rf x R Hi Hn HS HQ ER) as (q1 & s1 & E1 & HS1 & HQ1). cbn [restore]. rewrite E1. cbn [obind fst snd].
      assert (HR1 : forall j, In j is -> (j < N)%nat /\ setR Rf i R j <> []).
      { intros j Hj. destruct (HR j ltac:(right; auto)) as (Hj1 & Hj2). split; auto. unfold setR. destruct (Nat.eqb_spec j i) as [->|]; [contradiction|auto]. }
      destruct (IH q1 s1 _ HN' HR1 HS1 HQ1) as (q2 & s2 & E2 & HS2 & HQ2). exists q2, s2. split; auto.
      assert (HE : forall j, (j < N)%nat -> tls is (setR Rf i R) j = tls (i :: is) Rf j).
      { intros j _. unfold tls, setR, out. cbn [existsb]. destruct (Nat.eqb_spec j i) as [->|]; cbn [orb]; auto. rewrite ER. fold (out is i). destruct (out is i) eqn:Eo; auto. apply out_in in Eo. contradiction. }
      split; [eapply Sts_ext; eauto|eapply Qs_ext; eauto].
  Qed.
  Lemma start_ok : forall is q sts Rf, NoDup is -> (forall i, In i is -> (i < N)%nat /\ Rf i = []) -> Sts sts Rf -> Qs [] q Rf ->
    exists q' sts' Rf', start_all smis n is q sts = Some (q', sts') /\ Sts sts' Rf' /\ Qs [] q' Rf' /\ forall j c, nth_error cs j = Some c -> Rf' j = if out is j then UU c n else Rf j.
  Proof.
    induction is as [|i is IH]; intros q sts Rf HN HR HS HQ.
    - exists q, sts, Rf. split; auto.
    - inversion HN as [|? ? Hn HN']; subst. destruct (HR i ltac:(left; auto)) as (Hi & Hem). destruct (cs_at i Hi) as (c & Ec). pose proof (cs_ok _ _ Ec) as Hc. pose proof HS as (L & H). destruct (H i c Ec) as (e & d & Ee & _).
      destruct (create_nth cs Hcs O i c Ec) as (mm & E1 & E2 & E3 & _). change (Z.of_nat 0) with 0 in E1. cbn [Nat.add] in E3. destruct (stands_start c n e Hc) as (e' & E4 & Hs').
      cbn [start_all]. rewrite E1. cbn [obind]. rewrite Ee. cbn [obind fst snd]. cbv zeta. unfold next_push. rewrite E1. cbn [obind]. rewrite nth_error_upd, Nat.eqb_refl. destruct (Nat.ltb_spec i (length sts)); [|lia]. cbn [obind andb fst snd]. rewrite E2, E4. cbn [obind fst snd]. rewrite E3.
      destruct HQ as (m & HQ & HP). destruct (push_hd q m i (UU c n) HQ) as (q1 & -> & HQ1). cbn [obind fst snd]. rewrite upd_same.
      destruct (IH q1 (upd sts i (e', d)) (setR Rf i (UU c n)) HN') as (q2 & s2 & Rf2 & E5 & HS2 & HQ2 & HE2).
      + intros j Hj. destruct (HR j ltac:(right; auto)) as (Hj1 & Hj2). split; auto. unfold setR. destruct (Nat.eqb_spec j i) as [->|]; [contradiction|auto].
      + eapply sts_set; eauto.
      + exists (hdl (UU c n) i ++ m). split; auto. eapply Permutation_trans; [|apply Permutation_sym; apply hds_set; auto; apply out_in; left; auto]. apply Permutation_app_head.
        assert (hds [i] Rf = hds [] Rf) as ->; auto. unfold hds. rewrite !flat_map_concat_map. f_equal. apply map_ext. intros j. unfold out. cbn [existsb]. destruct (Nat.eqb_spec j i) as [->|]; cbn [orb]; auto. rewrite Hem. reflexivity.
      + exists q2, s2, Rf2. split; auto. split; auto. split; auto. intros j c' Ej. rewrite (HE2 j c' Ej). unfold setR, out. cbn [existsb]. destruct (Nat.eqb_spec j i) as [->|]; cbn [orb]; auto. replace c' with c by congruence. destruct (existsb (Nat.eqb i) is); reflexivity.
  Qed.

  (* ---------- the terms with the least text *)
  Definition starts (t : list Z) (R : list tpl) : bool := match R with y :: _ => seqb t (fst y) | [] => false end.
  Definition uni (Rf : nat -> list tpl) : list (list Z) := fold_right insert [] (map fst (concat (map Rf (seq 0 N)))).
  Lemma ins_in l x : In x (fold_right insert [] l) <-> In x l.
  Proof. induction l as [|y l IH]; cbn [fold_right In]; [tauto|]. rewrite insert_in, IH. intuition. Qed.
  Lemma ins_sorted l : StronglySorted slt (fold_right insert [] l).
  Proof. induction l; cbn [fold_right]; [constructor|apply insert_sorted; auto]. Qed.
  Lemma uni_in Rf x : In x (uni Rf) <-> exists j, (j < N)%nat /\ In x (map fst (Rf j)).
  Proof.
    unfold uni. rewrite ins_in, in_map_iff. split.
    - intros (y & <- & Hy). apply in_concat in Hy. destruct Hy as (l & Hl & Hy). apply in_map_iff in Hl. destruct Hl as (j & <- & Hj). apply in_seq in Hj. exists j. split; [lia|]. apply in_map. auto.
    - intros (j & Hj & Hx). apply in_map_iff in Hx. destruct Hx as (y & <- & Hy). exists y. split; auto. apply in_concat. exists (Rf j). split; auto. apply in_map. apply in_seq. lia.
  Qed.
  Lemma hds_in pend Rf y : In y (hds pend Rf) <-> exists j x r, (j < N)%nat /\ ~ In j pend /\ Rf j = x :: r /\ y = (fst x, (Z.of_nat (base j), j)).
  Proof.
    unfold hds. rewrite in_flat_map. split.
    - intros (j & Hj & Hy). apply in_seq in Hj. destruct (out pend j) eqn:E; [destruct Hy|]. destruct (Rf j) as [|x r] eqn:ER; [destruct Hy|]. destruct Hy as [<-|[]]. exists j, x, r. splits; auto; [lia|]. intros H. apply out_in in H. congruence.
    - intros (j & x & r & Hj & Hn & ER & ->). exists j. split; [apply in_seq; lia|]. destruct (out pend j) eqn:E; [apply out_in in E; contradiction|]. rewrite ER. left. auto.
  Qed.
  Lemma hds_starts t Rf : map (fun y => sid y) (filter (fun y : qel => seqb t (fst y)) (hds [] Rf)) = filter (fun j => starts t (Rf j)) (seq 0 N).
  Proof.
    unfold hds. induction (seq 0 N) as [|j l IH]; [reflexivity|]. cbn [flat_map]. change (out [] j) with false. cbn iota. rewrite filter_app, map_app, IH. destruct (Rf j) as [|x r] eqn:ER; cbn [hdl filter app map]; rewrite ER; cbn [starts]; [reflexivity|].
    cbn [fst]. destruct (seqb t (fst x)); reflexivity.
  Qed.
  Lemma hds_rest t Rf ms : (forall j, (j < N)%nat -> In j ms <-> starts t (Rf j) = true) -> filter (fun y : qel => negb (seqb t (fst y))) (hds [] Rf) = hds ms Rf.
  Proof.
    intros H. unfold hds. assert (HJ : forall j, In j (seq 0 N) -> (In j ms <-> starts t (Rf j) = true)) by (intros j Hj; apply in_seq in Hj; apply H; lia). clear H. revert HJ.
    induction (seq 0 N) as [|j l IH]; intros HJ; [reflexivity|]. cbn [flat_map]. rewrite filter_app, IH by (intros; apply HJ; right; auto). f_equal. change (out [] j) with false. cbn iota. pose proof (HJ j ltac:(left; auto)) as Hj.
    destruct (Rf j) as [|x r] eqn:ER; cbn [hdl filter]; cbn [starts] in Hj; [destruct (out ms j); reflexivity|]. cbn [fst]. destruct (seqb t (fst x)) eqn:E; cbn [negb].
    - rewrite (proj2 (out_in ms j)) by tauto. reflexivity.
    - destruct (out ms j) eqn:Eo; auto. apply out_in in Eo. apply Hj in Eo. discriminate.
  Qed.
  Lemma Sts_sorted sts Rf j : Sts sts Rf -> (j < N)%nat -> exists c, nth_error cs j = Some c /\ StronglySorted (fun a b => slt (fst a) (fst b)) (Rf j) /\ incl (Rf j) (UU c n).
  Proof. intros (_ & H) Hj. destruct (cs_at j Hj) as (c & Ec). destruct (H j c Ec) as (e & d & _ & Hs). exists c. split; auto. eapply stands_sorted; eauto. eapply cs_ok; eauto. Qed.
  (* the least text, once *)
  Lemma uni_step sts Rf ms t : Sts sts Rf -> (forall j, (j < N)%nat -> In j ms <-> starts t (Rf j) = true) -> (exists j, (j < N)%nat /\ In j ms) ->
    (forall y, In y (hds [] Rf) -> sle t (fst y)) -> uni Rf = t :: uni (tls ms Rf).
  Proof.
    intros HS Hms (i & Hi & Him) Hle. 
    assert (Hin : forall j x, (j < N)%nat -> In x (map fst (Rf j)) -> x = t \/ slt t x).
    { intros j x Hj Hx. destruct (Sts_sorted _ _ j HS Hj) as (c & _ & HSo & _). destruct (Rf j) as [|y r] eqn:ER; [destruct Hx|]. assert (Hy : sle t (fst y)). { specialize (Hle (fst y, (Z.of_nat (base j), j))). apply Hle. apply hds_in. exists j, y, r. splits; auto. }
      apply sle_lteq in Hy. destruct Hx as [<-|Hx].
      - destruct Hy; auto.
      - right. apply in_map_iff in Hx. destruct Hx as (z & <- & Hz). inversion HSo as [|? ? _ HF]; subst. rewrite Forall_forall in HF. specialize (HF z Hz). destruct Hy as [Hy| ->]; auto. eapply slt_trans; eauto. }
    assert (Htl : forall x, In x (uni (tls ms Rf)) <-> In x (uni Rf) /\ slt t x).
    { intros x. rewrite !uni_in. split.
      - intros (j & Hj & Hx). unfold tls in Hx. destruct (out ms j) eqn:Eo.
        + apply out_in in Eo. apply Hms in Eo; auto. destruct (Sts_sorted _ _ j HS Hj) as (c & _ & HSo & _). destruct (Rf j) as [|y r] eqn:ER; [discriminate|]. cbn [starts] in Eo. apply seqb_spec in Eo. cbn [tl] in Hx. split; [exists j; rewrite ER; split; auto; right; auto|].
          apply in_map_iff in Hx. destruct Hx as (z & <- & Hz). inversion HSo as [|? ? _ HF]; subst. rewrite Forall_forall in HF. apply (HF z Hz).
        + split; [exists j; auto|]. destruct (Hin j x Hj Hx) as [->|]; auto. exfalso. destruct (Sts_sorted _ _ j HS Hj) as (c & _ & HSo & _). destruct (Rf j) as [|y r] eqn:ER; [destruct Hx|]. assert (Hy : sle t (fst y)). { specialize (Hle (fst y, (Z.of_nat (base j), j))). apply Hle. apply hds_in. exists j, y, r. splits; auto. }
          assert (En : ~ In j ms) by (intros H; apply out_in in H; congruence). apply sle_lteq in Hy. destruct Hy as [Hy|Hy].
          * destruct Hx as [Hx|Hx]; [rewrite Hx in Hy; exact (slt_irr _ Hy)|]. apply in_map_iff in Hx. destruct Hx as (z & Ez & Hz). inversion HSo as [|? ? _ HF]; subst. rewrite Forall_forall in HF. specialize (HF z Hz). exact (slt_asym _ _ HF Hy).
          * apply En. apply Hms; auto. rewrite ER. cbn [starts]. apply seqb_spec. auto.
      - intros ((j & Hj & Hx) & Hlt). exists j. split; auto. unfold tls. destruct (out ms j) eqn:Eo; auto. apply out_in in Eo. apply Hms in Eo; auto. destruct (Rf j) as [|y r] eqn:ER; [destruct Hx|]. cbn [starts] in Eo. apply seqb_spec in Eo. cbn [tl]. destruct Hx as [Hx|Hx]; auto. exfalso. rewrite <- Hx, Eo in Hlt. exact (slt_irr _ Hlt). }
    apply (sorted_same slt).
    - exact slt_irr.
    - exact slt_trans.
    - apply ins_sorted.
    - constructor; [apply ins_sorted|]. apply Forall_forall. intros x Hx. apply Htl in Hx. tauto.
    - intros x. cbn [In]. rewrite Htl. split.
      + intros Hx. destruct (proj1 (uni_in _ _) Hx) as (j & Hj & Hx'). destruct (Hin j x Hj Hx') as [->|]; auto.
      + intros [<-|(Hx & _)]; auto. apply uni_in. exists i. split; auto. apply Hms in Him; auto. destruct (Rf i) as [|y r]; [discriminate|]. cbn [starts] in Him. apply seqb_spec in Him. left. auto.
  Qed.

  (* ---------- the postings of a term *)
  Lemma part_at j c t : nth_error cs j = Some c -> part ss n t j = renum (base j) (dead (c_s c)) (postings (s_fs (c_s c)) n t).
  Proof. intros E. unfold part. rewrite (map_nth_error c_s _ _ E). reflexivity. Qed.
  Lemma append_postings_ok t : forall ms sts w Rf, Sts sts Rf -> (forall j, In j ms -> (j < N)%nat /\ starts t (Rf j) = true) -> rising (w_last w) (flat_map (part ss n t) ms) ->
    exists w' sts', append_postings k smis ms sts w = Some (w', sts') /\ pw_adds k w (flat_map (part ss n t) ms) = Some w' /\ Sts sts' Rf /\ left_over sts' = left_over sts.
  Proof.
    induction ms as [|i ms IH]; intros sts w Rf HS Hms HR; [exists w, sts; auto|]. cbn [flat_map append_postings] in *. destruct (Hms i ltac:(left; auto)) as (Hi & Hst). destruct (cs_at i Hi) as (c & Ec). pose proof (cs_ok _ _ Ec) as Hc.
    pose proof HS as (L & H). destruct (H i c Ec) as (e & d & Ee & Hs). destruct (create_nth cs Hcs O i c Ec) as (m & E1 & E2 & E3 & E4). change (Z.of_nat 0) with 0 in E1. cbn [Nat.add] in E3, E4. rewrite E1. cbn [obind]. rewrite Ee. cbn [obind fst snd].
    destruct (Rf i) as [|[t' P] r] eqn:ER; [discriminate|]. cbn [starts fst] in Hst. apply seqb_spec in Hst. subst t'. apply rising_app in HR. destruct HR as (HR1 & HR2). rewrite (part_at i c t Ec) in *.
    destruct (stands_sorted c n _ e Hc Hs) as (_ & Hincl). rewrite (postings_U c n t P Hc (Hincl _ (or_introl eq_refl))) in *.
    destruct (stands_append c n t P r e k w d m (base i) Hc Hs E2 E4 HR1) as (w1 & e1 & F1 & F2). cbv zeta in *. rewrite F1. cbn [obind fst snd]. destruct (pw_adds_total k (renum (base i) (dead (c_s c)) P) w) as (w1' & F3 & F4). rewrite F2 in F3. apply some_inj in F3. subst w1'.
    destruct (IH (upd sts i (e, e1)) w1 Rf) as (w2 & s2 & G1 & G2 & G3 & G4).
    - eapply Sts_ext; [|eapply sts_set; eauto]. intros j _. unfold setR. destruct (Nat.eqb_spec j i) as [->|]; auto.
    - intros; apply Hms; right; auto.
    - rewrite F4. exact HR2.
    - exists w2, s2. rewrite pw_adds_app, F2. cbn [obind]. splits; auto. rewrite G4. clear -Ee. revert i Ee. induction sts as [|y sts IHs]; intros [|i] Ee; try discriminate; cbn [nth_error] in Ee.
      + apply some_inj in Ee. subst y. reflexivity.
      + cbn [upd left_over fold_right]. f_equal. apply (IHs i Ee).
  Qed.

  (* ---------- a round *)
  Hypothesis HI : (1 <= I)%nat.
  Hypothesis HB : ((I + 2) * B <= buf_size I + 1)%nat.
  Hypothesis HB2 : (B <= MAX_WORD_SIZE)%nat.
  Hypothesis Hlen : forall c, In c cs -> Forall (fun x => (length (fst x) + 1 <= B)%nat) (UU c n).
  Hypothesis Hrise : forall t, rising 0 (gather O ss n t).
  Lemma postings_in c t p : cok c -> In p (postings (s_fs (c_s c)) n t) -> 0 <= fst p < Z.of_nat (s_max (c_s c)).
  Proof.
    intros Hc Hp. destruct (in_dec (list_eq_dec Z.eq_dec) t (map fst (UU c n))) as [Hi|Hi].
    - apply in_map_iff in Hi. destruct Hi as ([t' P] & Ht & Hin). cbn [fst] in Ht. subst t'. rewrite (postings_U c n t P Hc Hin) in Hp. destruct (U_ok c n Hc) as (HU & _ & HM). rewrite Forall_forall in HU, HM. destruct (HU _ Hin) as (_ & HP & _). pose proof (HM _ Hin) as HMP. cbn [snd] in *.
      rewrite Forall_forall in HP, HMP. destruct (HP p Hp) as (H0 & _). specialize (HMP p Hp). lia.
    - rewrite (postings_none c n t Hi) in Hp. destruct Hp.
  Qed.
  Lemma part_live t j c : nth_error cs j = Some c -> part ss n t j <> [] -> (0 < live_docs (c_s c))%nat.
  Proof.
    intros Ec Hp. pose proof (cs_ok _ _ Ec) as Hc. rewrite (part_at j c t Ec) in Hp. unfold renum in Hp. destruct (filter _ (postings (s_fs (c_s c)) n t)) as [|p l] eqn:E; [cbn in Hp; congruence|].
    assert (Hin : In p (p :: l)) by (left; auto). rewrite <- E in Hin. apply filter_In in Hin. destruct Hin as (Hin & Hd). apply negb_true_iff in Hd. pose proof (postings_in c t p Hc Hin) as Hr. unfold live_docs.
    pose proof (rank_lt (dead (c_s c)) (Z.to_nat (fst p)) (s_max (c_s c)) ltac:(lia)) as H. rewrite Z2Nat.id in H by lia. specialize (H Hd). lia.
  Qed.
  Lemma base_order ms t : NoDup ms -> StronglySorted (fun i j => (base i <= base j)%nat) ms -> (forall j, In j ms -> (j < N)%nat) -> (forall j, (j < N)%nat -> ~ In j ms -> part ss n t j = []) -> flat_map (part ss n t) ms = gather O ss n t.
  Proof.
    intros H1 H2 H3 H4. rewrite gather_part, map_length. apply (in_base_order _ (fun j => base j)); auto.
    - intros i j H. apply total_mono. lia.
    - intros i j H Hp. destruct (cs_at i ltac:(lia)) as (c & Ec). pose proof (part_live t i c Ec Hp). pose proof (total_step ss i _ (map_nth_error c_s _ _ Ec)). pose proof (total_mono ss (S i) j ltac:(lia)). lia.
  Qed.
  Lemma pw_adds_df l : forall w w', pw_adds k w l = Some w' -> w_df w' = w_df w + Z.of_nat (length l).
  Proof.
    induction l as [|p l IH]; intros w w' E; cbn [pw_adds] in E; [apply some_inj in E; subst; cbn; lia|]. destruct (pw_add k w p) as [w1|] eqn:E1; cbn [obind] in E; [|discriminate]. rewrite (IH _ _ E). cbn [length].
    assert (w_df w1 = w_df w + 1); [|lia]. unfold pw_add in E1. destruct (if (w_df w + 1) mod k =? 0 then skip_buf_add w (w_last w) else Some w); cbn [obind] in E1; [|discriminate].
    destruct (enc_doc (w_last p0) p); cbn [obind] in E1; [|discriminate]. destruct (enc_pos 0 (snd p)); cbn [obind] in E1; [|discriminate]. apply some_inj in E1. subst w1. reflexivity.
  Qed.
  Definition Rem (Rf : nat -> list tpl) : list tpl := filter keep (map (fun t => (t, gather O ss n t)) (uni Rf)).
  Lemma uni_term sts Rf t : Sts sts Rf -> In t (uni Rf) -> (length t + 1 <= B)%nat /\ Forall (fun b => 0 < b < 256) t.
  Proof.
    intros HS Ht. apply uni_in in Ht. destruct Ht as (j & Hj & Ht). destruct (Sts_sorted _ _ j HS Hj) as (c & Ec & _ & Hincl). apply in_map_iff in Ht. destruct Ht as (x & <- & Hx). apply Hincl in Hx. pose proof (Hlen c (nth_error_In _ _ Ec)) as HL. rewrite Forall_forall in HL. split; [apply HL; auto|].
    destruct (U_ok c n (cs_ok _ _ Ec)) as (HU & _). rewrite Forall_forall in HU. apply (HU _ Hx).
  Qed.
  Lemma sorted_map {A A'} (R : A -> A -> Prop) (Q : A' -> A' -> Prop) (f : A -> A') l : (forall a b, In a l -> In b l -> R a b -> Q (f a) (f b)) -> StronglySorted R l -> StronglySorted Q (map f l).
  Proof. intros H HS. induction HS as [|a l HS IH HF]; cbn [map]; constructor; [apply IH; intros; apply H; auto; right; auto|]. rewrite Forall_forall in *. intros y Hy. apply in_map_iff in Hy. destruct Hy as (b & <- & Hb). apply H; [left; auto|right; auto|auto]. Qed.
  (* what a segment has passed is below what is left *)
  Definition Past (Rf : nat -> list tpl) : Prop := forall j c x y, nth_error cs j = Some c -> In x (map fst (UU c n)) -> ~ In x (map fst (Rf j)) -> In y (uni Rf) -> slt x y.
  Lemma Past_step Rf ms t : Past Rf -> (forall j, (j < N)%nat -> In j ms <-> starts t (Rf j) = true) -> uni Rf = t :: uni (tls ms Rf) -> Past (tls ms Rf).
  Proof.
    intros HP Hms Hu j c x y Ec Hx Hn Hy. assert (Hj : (j < N)%nat) by (apply nth_error_Some; congruence). destruct (in_dec (list_eq_dec Z.eq_dec) x (map fst (Rf j))) as [Hi|Hi].
    - unfold tls in Hn. destruct (out ms j) eqn:Eo; [|contradiction]. apply out_in in Eo. apply Hms in Eo; auto. destruct (Rf j) as [|z r]; [destruct Hi|]. cbn [tl] in Hn. cbn [starts] in Eo. apply seqb_spec in Eo. destruct Hi as [Hi|Hi]; [|contradiction].
      subst x t. pose proof (ins_sorted (map fst (concat (map Rf (seq 0 N))))) as HSo. fold (uni Rf) in HSo. rewrite Hu in HSo. inversion HSo as [|? ? _ HF]; subst. rewrite Forall_forall in HF. auto.
    - apply (HP j c x y Ec Hx Hi). rewrite Hu. right. auto.
  Qed.
  Lemma merge_term_ok Rf q sts frq prx w frq2 prx2 es W' : Past Rf -> Sts sts Rf -> Qs [] q Rf -> BInv I B w -> (0 < pq_size q)%nat ->
    write_terms k frq prx (Rem Rf) = Some (frq2, prx2, es) -> add_terms (m_tiw w) es = Some W' ->
    exists q' sts' frq1 prx1 es1 w' Rf', merge_term I k smis (mkMst q sts frq prx w) = Some (mkMst q' sts' frq1 prx1 w') /\ BInv I B w' /\ Past Rf' /\ Sts sts' Rf' /\ Qs [] q' Rf' /\
      (length (uni Rf) = S (length (uni Rf')))%nat /\ write_terms k frq1 prx1 (Rem Rf') = Some (frq2, prx2, es1) /\ add_terms (m_tiw w') es1 = Some W'.
  Proof.
    intros HPa HS (m & HQ & HP) HBI Hq HW HA. destruct (pop_ok _ _ smi_pre _ _ _ HQ Hq) as ([t [b i]] & m1 & q1 & Ep & Hm1 & (Hin & Hl) & HQ1). unfold merge_term. cbn [t_q t_sts t_frq t_prx t_w]. rewrite Ep. cbn [obind fst snd].
    assert (Hle : forall y, In y m -> sle t (fst y)). { intros y Hy. specialize (Hl y Hy). unfold PQueue_Spec.le in Hl. apply smi_ge in Hl. cbn [fst] in Hl. apply sle_lteq. tauto. }
    assert (Hcnt : (length (filter (fun y : qel => seqb t (fst y)) m1) <= length smis - 1)%nat).
    { rewrite smis_len. pose proof (Permutation_length (perm_filter (fun y : qel => seqb t (fst y)) _ _ (Permutation_trans (Permutation_sym HP) Hm1))) as HL. cbn [filter fst] in HL. rewrite (proj2 (seqb_spec t t) eq_refl) in HL. cbn [length] in HL.
      pose proof (f_equal (@length _) (hds_starts t Rf)) as HL2. rewrite map_length in HL2. pose proof (flen (fun j => starts t (Rf j)) (seq 0 N)) as HL3. rewrite seq_length in HL3. lia. }
    assert (Hin1 : forall y, In y m1 -> In y m) by (intros y Hy; apply (Permutation_in _ (Permutation_sym Hm1)); right; auto).
    destruct (pop_equal_ok N t _ q1 m1 HQ1 ltac:(auto) Hcnt) as (els & q2 & m2 & Ee & HQ2 & Hm2 & Heq & Hgt & Hso). rewrite Ee. cbn [obind fst snd].
    set (ms := i :: map (fun x => sid x) els).
    (* all of the queue *)
    assert (HA1 : Permutation (hds [] Rf) (((t, (b, i)) :: els) ++ m2)). { eapply Permutation_trans; [apply Permutation_sym; exact HP|]. eapply Permutation_trans; [exact Hm1|]. cbn [app]. apply perm_skip. exact Hm2. }
    assert (Hall : Forall (fun y : qel => fst y = t) ((t, (b, i)) :: els)) by (constructor; auto).
    assert (F1 : filter (fun y : qel => seqb t (fst y)) (((t, (b, i)) :: els) ++ m2) = (t, (b, i)) :: els).
    { rewrite filter_app. rewrite (fall (fun y : qel => seqb t (fst y)) ((t, (b, i)) :: els)) by (intros y Hy; rewrite Forall_forall in Hall; apply seqb_spec; symmetry; auto). rewrite (fnone (fun y : qel => seqb t (fst y)) m2), app_nil_r; auto.
      intros y Hy. rewrite Forall_forall in Hgt. specialize (Hgt y Hy). destruct (seqb t (fst y)) eqn:E; auto. apply seqb_spec in E. rewrite <- E in Hgt. exfalso. exact (slt_irr _ Hgt). }
    assert (F2 : filter (fun y : qel => negb (seqb t (fst y))) (((t, (b, i)) :: els) ++ m2) = m2).
    { rewrite filter_app. rewrite (fnone (fun y : qel => negb (seqb t (fst y))) ((t, (b, i)) :: els)) by (intros y Hy; rewrite Forall_forall in Hall; apply negb_false_iff, seqb_spec; symmetry; auto). rewrite (fall (fun y : qel => negb (seqb t (fst y))) m2); auto.
      intros y Hy. rewrite Forall_forall in Hgt. specialize (Hgt y Hy). destruct (seqb t (fst y)) eqn:E; auto. apply seqb_spec in E. rewrite <- E in Hgt. exfalso. exact (slt_irr _ Hgt). }
    assert (Hms : Permutation ms (filter (fun j => starts t (Rf j)) (seq 0 N))).
    { rewrite <- hds_starts. change ms with (map (fun y : qel => sid y) ((t, (b, i)) :: els)). rewrite <- F1. apply Permutation_map, perm_filter, Permutation_sym. exact HA1. }
    assert (HmsI : forall j, (j < N)%nat -> In j ms <-> starts t (Rf j) = true).
    { intros j Hj. split; intros H; [apply (Permutation_in _ Hms) in H; apply filter_In in H; tauto|]. apply (Permutation_in _ (Permutation_sym Hms)). apply filter_In. split; auto. apply in_seq. lia. }
    assert (HmsN : forall j, In j ms -> (j < N)%nat). { intros j H. apply (Permutation_in _ Hms) in H. apply filter_In in H. destruct H as (H & _). apply in_seq in H. lia. }
    assert (HmsD : NoDup ms). { apply (Permutation_NoDup (Permutation_sym Hms)). apply NoDup_filter, seq_NoDup. }
    assert (HQm : Qs ms q2 Rf). { exists m2. split; auto. rewrite <- (hds_rest t Rf ms HmsI), <- F2. apply perm_filter, Permutation_sym. exact HA1. }
    assert (Hb : forall y, In y ((t, (b, i)) :: els) -> sbase y = Z.of_nat (base (sid y))).
    { intros y Hy. assert (Hy2 : In y (hds [] Rf)) by (apply (Permutation_in _ (Permutation_sym HA1)); apply in_or_app; auto). apply hds_in in Hy2. destruct Hy2 as (j & x & r & _ & _ & _ & ->). reflexivity. }
    assert (HmsS : StronglySorted (fun a b => (base a <= base b)%nat) ms).
    { change ms with (map (fun y : qel => sid y) ((t, (b, i)) :: els)). apply (sorted_map (fun a b : qel => sbase a <= sbase b)).
      - intros a a' Ha Ha' H. rewrite (Hb a Ha), (Hb a' Ha') in H. lia.
      - constructor; auto. rewrite Forall_forall in *. intros y Hy. assert (Hy2 : In y m) by (apply Hin1; apply (Permutation_in _ (Permutation_sym Hm2)); apply in_or_app; auto). specialize (Hl y Hy2). unfold PQueue_Spec.le in Hl. apply smi_ge in Hl. cbn [fst snd] in Hl. rewrite (Heq y Hy) in Hl. destruct Hl as [Hl|[_ Hl]]; auto. exfalso. exact (slt_irr _ Hl). }
    assert (Hu : uni Rf = t :: uni (tls ms Rf)). { eapply uni_step; eauto. - exists i. split; [apply HmsN|]; left; auto. - intros y Hy. apply Hle. apply (Permutation_in _ (Permutation_sym HP)). auto. }
    assert (HG : flat_map (part ss n t) ms = gather O ss n t).
    { apply base_order; auto. intros j Hj Hn. destruct (Sts_sorted _ _ j HS Hj) as (c & Ec & HSo & _). rewrite (part_at j c t Ec). assert (postings (s_fs (c_s c)) n t = []) as ->; [|reflexivity]. apply postings_none. intros Ht.
      destruct (in_dec (list_eq_dec Z.eq_dec) t (map fst (Rf j))) as [Hi|Hi].
      - destruct (Rf j) as [|z r] eqn:ER; [destruct Hi|]. assert (Hz : sle t (fst z)). { apply (Hle (fst z, (Z.of_nat (base j), j))). apply (Permutation_in _ (Permutation_sym HP)). apply hds_in. exists j, z, r. splits; auto. }
        destruct Hi as [Hi|Hi]; [apply Hn, HmsI; auto; rewrite ER; cbn [starts]; apply seqb_spec; auto|]. apply in_map_iff in Hi. destruct Hi as (z2 & Ez & Hz2). inversion HSo as [|? ? _ HF]; subst. rewrite Forall_forall in HF. specialize (HF z2 Hz2). apply sle_lteq in Hz. destruct Hz as [Hz|Hz]; [exact (slt_asym _ _ HF Hz)|]. rewrite <- Hz in HF. exact (slt_irr _ HF).
      - assert (H : slt t t) by (apply (HPa j c t t Ec Ht Hi); rewrite Hu; left; auto). exact (slt_irr _ H). }
    unfold merge_term_info. cbn [t_q t_sts t_frq t_prx t_w].
    set (w0 := mkPw frq prx 0 0 [] 0 (os_pos frq) (os_pos prx)).
    destruct (append_postings_ok t ms sts w0 Rf HS) as (w1 & sts1 & A1 & A2 & A3 & _).
    { intros j Hj. split; [auto|]. apply HmsI; auto. }
    { rewrite HG. apply Hrise. }
    rewrite A1. cbn [obind fst snd]. rewrite HG in A2.
    assert (HT : In t (uni Rf)) by (rewrite Hu; left; auto). destruct (uni_term _ _ _ HS HT) as (HT1 & HT2).
    assert (HRem : Rem Rf = (if keep (t, gather O ss n t) then [(t, gather O ss n t)] else []) ++ Rem (tls ms Rf)).
    { unfold Rem. rewrite Hu. cbn [map filter]. destruct (keep (t, gather O ss n t)); reflexivity. }
    rewrite HRem in HW. pose proof (pw_adds_df _ _ _ A2) as Hdf. change (w_df w0) with 0 in Hdf.
    set (Ti := mkTi (w_df w1) (os_pos frq) (os_pos prx) (os_pos (w_frq w1) - os_pos frq)) in *.
    assert (HX : exists w' es1, (if 0 <? w_df w1 then mw_add I w t Ti else Some w) = Some w' /\ BInv I B w' /\ write_terms k (w_frq w1 ++ w_buf w1) (w_prx w1) (Rem (tls ms Rf)) = Some (frq2, prx2, es1) /\ add_terms (m_tiw w') es1 = Some W').
    { destruct (gather O ss n t) as [|p l] eqn:Eg; cbn [keep snd app] in HW.
      - cbn [pw_adds] in A2. apply some_inj in A2. subst w1. cbn [w_df w_frq w_buf w_prx]. rewrite app_nil_r. exists w, es. splits; auto.
      - cbn [length] in Hdf. destruct (Z.ltb_spec 0 (w_df w1)); [|lia]. cbn [write_terms] in HW. unfold write_term in HW. fold w0 in HW. rewrite A2 in HW. cbn [obind fst snd] in HW. fold Ti in HW.
        destruct (write_terms k (w_frq w1 ++ w_buf w1) (w_prx w1) (Rem (tls ms Rf))) as [[[f2 p2] es1]|] eqn:EW; cbn [obind fst snd] in HW; [|discriminate]. apply some_inj in HW. injection HW as -> -> <-. cbn [add_terms] in HA. destruct (tiw_add (m_tiw w) t Ti) as [W1|] eqn:ET; cbn [obind] in HA; [|discriminate].
        destruct (mw_add_ok I B HI HB HB2 w t Ti W1 HBI HT1 HT2 ET) as (w' & M1 & M2 & M3). exists w', es1. splits; auto. rewrite M2. exact HA. }
    destruct HX as (w' & es1 & X1 & X2 & X3 & X4). rewrite X1. cbn [obind t_q t_sts t_frq t_prx t_w].
    destruct (restore_ok (rev ms) q2 sts1 Rf) as (q3 & sts3 & R1 & R2 & R3).
    { apply NoDup_rev. exact HmsD. }
    { intros j Hj. apply in_rev in Hj. split; [auto|]. apply HmsI in Hj; auto. destruct (Rf j); [discriminate|congruence]. }
    { exact A3. }
    { destruct HQm as (mm & HQm1 & HQm2). exists mm. split; auto. assert (hds (rev ms) Rf = hds ms Rf) as ->; auto. unfold hds. rewrite !flat_map_concat_map. f_equal. apply map_ext. intros j. assert (out (rev ms) j = out ms j) as ->; auto.
      destruct (out ms j) eqn:Eo; [apply out_in; apply -> in_rev; apply out_in; auto|]. destruct (out (rev ms) j) eqn:Eo2; auto. apply out_in in Eo2. apply in_rev in Eo2. apply out_in in Eo2. congruence. }
    assert (HE : forall j, (j < N)%nat -> tls (rev ms) Rf j = tls ms Rf j).
    { intros j _. unfold tls. assert (out (rev ms) j = out ms j) as ->; auto. destruct (out ms j) eqn:Eo; [apply out_in; apply -> in_rev; apply out_in; auto|]. destruct (out (rev ms) j) eqn:Eo2; auto. apply out_in in Eo2. apply in_rev in Eo2. apply out_in in Eo2. congruence. }
    rewrite R1. cbn [obind fst snd]. exists q3, sts3, (w_frq w1 ++ w_buf w1), (w_prx w1), es1, w', (tls ms Rf). splits; auto.
    - eapply Past_step; eauto.
    - eapply Sts_ext; eauto.
    - eapply Qs_ext; eauto.
    - rewrite Hu. reflexivity.
  Qed.
  Lemma merge_loop_ok : forall fuel Rf q sts frq prx w frq2 prx2 es W', Past Rf -> Sts sts Rf -> Qs [] q Rf -> BInv I B w -> (length (uni Rf) < fuel)%nat ->
    write_terms k frq prx (Rem Rf) = Some (frq2, prx2, es) -> add_terms (m_tiw w) es = Some W' ->
    exists q' sts' w', merge_loop fuel I k smis (mkMst q sts frq prx w) = Some (mkMst q' sts' frq2 prx2 w') /\ m_tiw w' = W' /\ BInv I B w' /\ Sts sts' (fun _ => []) /\ Qs [] q' (fun _ => []).
  Proof.
    induction fuel as [|fuel IH]; intros Rf q sts frq prx w frq2 prx2 es W' HPa HS HQ HBI Hf HW HA; [lia|]. cbn [merge_loop t_q]. destruct (Nat.ltb_spec 0 (pq_size q)) as [Hq|Hq].
    - destruct (merge_term_ok Rf q sts frq prx w frq2 prx2 es W' HPa HS HQ HBI Hq HW HA) as (q1 & sts1 & frq1 & prx1 & es1 & w1 & Rf1 & E & B1 & P1 & S1 & Q1 & L1 & W1 & A1). rewrite E. cbn [obind]. apply (IH Rf1 q1 sts1 frq1 prx1 w1 frq2 prx2 es1 W'); auto. lia.
    - destruct HQ as (m & HQ & HP). pose proof (pi_size _ _ _ _ _ HQ) as Hs. assert (m = []) by (destruct m; [auto|cbn in Hs; lia]). subst m. apply Permutation_nil in HP.
      assert (HE : forall j, (j < N)%nat -> Rf j = []). { intros j Hj. destruct (Rf j) as [|x r] eqn:ER; auto. assert (H : In (fst x, (Z.of_nat (base j), j)) (hds [] Rf)) by (apply hds_in; exists j, x, r; splits; auto). rewrite HP in H. destruct H. }
      assert (Hu : uni Rf = []). { destruct (uni Rf) as [|x l] eqn:Eu; auto. assert (H : In x (uni Rf)) by (rewrite Eu; left; auto). apply uni_in in H. destruct H as (j & Hj & H). rewrite (HE j Hj) in H. destruct H. }
      unfold Rem in HW. rewrite Hu in HW. cbn [map filter write_terms] in HW. apply some_inj in HW. injection HW as -> -> <-. cbn [add_terms] in HA. apply some_inj in HA. exists q, sts, w. splits; auto.
      + eapply Sts_ext; [|eauto]. auto.
      + exists []. split; auto. rewrite <- HP. assert (hds [] Rf = hds [] (fun _ => [])) as ->; auto. unfold hds. rewrite !flat_map_concat_map. f_equal. apply map_ext_in. intros j Hj. apply in_seq in Hj. rewrite (HE j) by lia. auto.
  Qed.
End ALL.

(* ---------- the fields *)
Section FIELDS.
  Variables I B kn : nat.
  Hypothesis HI : (1 <= I)%nat.
  Hypothesis HB : ((I + 2) * B <= buf_size I + 1)%nat.
  Hypothesis HB2 : (B <= MAX_WORD_SIZE)%nat.
  Variable cs : list cdat.
  Hypothesis Hcs : Forall cok cs.
  Notation N := (length cs).
  Notation ss := (map c_s cs).
  Notation smis := (sm_create 0 (map c_x cs)).
  Notation k := (Z.of_nat kn).
  Hypothesis Hlen : forall n c, In c cs -> Forall (fun x => (length (fst x) + 1 <= B)%nat) (UU c n).
  Hypothesis Hrise : forall n t, rising 0 (gather O ss n t).
  Lemma ins_len l : (length (fold_right insert [] l) <= length l)%nat.
  Proof.
    assert (H : forall t m, (length (insert t m) <= S (length m))%nat). { intros t m. induction m as [|y m IH]; cbn [insert length]; [lia|]. destruct (scmp t y); cbn [length]; lia. }
    induction l as [|x l IH]; cbn [fold_right length]; [lia|]. specialize (H x (fold_right insert [] l)). lia.
  Qed.
  Lemma left_len n sts Rf : Sts cs n sts Rf -> (length (uni cs Rf) <= left_over sts)%nat.
  Proof.
    intros (L & H). unfold uni. eapply Nat.le_trans; [apply ins_len|]. rewrite map_length.
    assert (HS : forall j e d, nth_error sts j = Some (e, d) -> (length (Rf j) <= Z.to_nat (e_size e))%nat).
    { intros j e d E. assert (j < N)%nat by (rewrite <- L; apply nth_error_Some; congruence). destruct (cs_at cs j H0) as (c & Ec). destruct (H j c Ec) as (e' & d' & E' & Hs). rewrite E in E'. apply some_inj in E'. injection E' as <- <-. eapply stands_size; eauto. eapply cs_ok; eauto. }
    rewrite <- L. clear L H. assert (HG : forall b, (forall j e d, nth_error sts j = Some (e, d) -> (length (Rf (b + j)%nat) <= Z.to_nat (e_size e))%nat) -> (length (concat (map Rf (seq b (length sts)))) <= left_over sts)%nat).
    { clear HS. induction sts as [|[e d] sts IH]; intros b HS; [cbn; lia|]. cbn [length seq map concat left_over fold_right fst]. rewrite app_length. pose proof (HS O e d eq_refl) as H0. rewrite Nat.add_0_r in H0. specialize (IH (S b)). fold (left_over sts). assert (length (concat (map Rf (seq (S b) (length sts)))) <= left_over sts)%nat; [|lia]. apply IH. intros j e' d' E. specialize (HS (S j) e' d' E). rewrite Nat.add_succ_comm. exact HS. }
    apply (HG O). exact HS.
  Qed.
  Lemma full_terms Rf n : (forall j c, nth_error cs j = Some c -> Rf j = UU c n) -> map Rf (seq 0 N) = map (fun s => field_terms (s_fs s) n) ss.
  Proof.
    rewrite map_map. intros H. apply nth_ext_. intros j. destruct (nth_error cs j) as [c|] eqn:Ec.
    - assert (j < N)%nat by (apply nth_error_Some; congruence). rewrite (map_nth_error _ _ _ Ec). assert (E : nth_error (seq 0 N) j = Some j). { rewrite (nth_error_nth' _ O) by (rewrite seq_length; lia). rewrite seq_nth by lia. reflexivity. } rewrite (map_nth_error _ _ _ E), (H j c Ec). reflexivity.
    - rewrite (proj2 (nth_error_None (map (fun c => field_terms (s_fs (c_s c)) n) cs) j)); [|rewrite map_length; apply nth_error_None; auto]. apply nth_error_None. rewrite map_length, seq_length. apply nth_error_None; auto.
  Qed.
  Lemma merge_fields_ok : forall ns q sts frq prx w frq2 prx2 ds W', Sts cs 0 sts (fun _ => []) -> Qs cs [] q (fun _ => []) ->
    length (m_buf w) = buf_alloc I -> (m_ptr w <= buf_size I)%nat -> w_interval (m_tiw w) = Z.of_nat I ->
    write_fields k frq prx (map (fun n => (Z.of_nat n, merged_field ss (Z.of_nat n))) ns) = Some (frq2, prx2, ds) -> add_fields (m_tiw w) ds = Some W' ->
    exists q' sts' w', merge_fields I k smis ns (mkMst q sts frq prx w) = Some (mkMst q' sts' frq2 prx2 w') /\ m_tiw w' = W'.
  Proof.
    induction ns as [|n ns IH]; intros q sts frq prx w frq2 prx2 ds W' HS HQ H1 H2 H3 HW HA.
    - cbn [map write_fields] in HW. apply some_inj in HW. injection HW as -> -> <-. cbn [add_fields] in HA. apply some_inj in HA. exists q, sts, w. split; auto.
    - cbn [map write_fields merge_fields t_w t_q t_sts t_frq t_prx] in *. destruct (write_terms k frq prx (merged_field ss (Z.of_nat n))) as [[[f1 p1] es]|] eqn:EW; cbn [obind fst snd] in HW; [|discriminate].
      destruct (write_fields k f1 p1 _) as [[[f2 p2] ds1]|] eqn:EF; cbn [obind fst snd] in HW; [|discriminate]. apply some_inj in HW. injection HW as -> -> <-. cbn [add_fields] in HA. destruct (tiw_start_field (m_tiw w) (Z.of_nat n)) as [W1|] eqn:ES; cbn [obind] in HA; [|discriminate].
      destruct (add_terms W1 es) as [W2|] eqn:ET; cbn [obind] in HA; [|discriminate]. destruct (mw_field_ok I B w (Z.of_nat n) W1 H1 H2 H3 ES) as (w1 & M1 & M2 & M3). rewrite M1. cbn [obind].
      assert (HS' : Sts cs (Z.of_nat n) sts (fun _ => [])). { destruct HS as (L & HS). split; auto. intros j c Ec. destruct (HS j c Ec) as (e & d & Ee & _). exists e, d. split; auto. left. auto. }
      assert (Hsq : forall i, In i (seq 0 (length smis)) -> (i < N)%nat /\ (fun _ : nat => @nil tpl) i = []).
      { intros j Hj. rewrite smis_len in Hj. apply in_seq in Hj. split; [lia|auto]. }
      destruct (start_ok cs Hcs (Z.of_nat n) (seq 0 (length smis)) q sts _ (seq_NoDup _ _) Hsq HS' HQ) as (q1 & s1 & Rf & E1 & S1 & Q1 & HE).
      rewrite E1. cbn [obind fst snd].
      assert (HE' : forall j c, nth_error cs j = Some c -> Rf j = UU c (Z.of_nat n)). { intros j c Ec. rewrite (HE j c Ec), (proj2 (out_in _ _)); auto. rewrite smis_len. apply in_seq. assert (j < N)%nat by (apply nth_error_Some; congruence). lia. }
      assert (HRem : Rem cs (Z.of_nat n) Rf = merged_field ss (Z.of_nat n)). { unfold Rem, merged_field, uni, all_terms. rewrite (full_terms Rf (Z.of_nat n) HE'). reflexivity. }
      destruct (merge_loop_ok I B kn cs Hcs (Z.of_nat n) HI HB HB2 (Hlen _) (Hrise _) (S (left_over s1)) Rf q1 s1 frq prx w1 f1 p1 es W2) as (q2 & s2 & w2 & L1 & L2 & L3 & L4 & L5); auto.
      { intros j c x y Ec Hx Hn. rewrite (HE' j c Ec) in Hn. contradiction. }
      { apply Nat.lt_succ_r. eapply left_len; eauto. }
      { rewrite HRem. exact EW. }
      { rewrite M2. exact ET. }
      rewrite L1. cbn [obind]. destruct L3 as (B1 & B2 & B3 & _). rewrite <- L2 in HA. apply (IH q2 s2 f1 p1 w2 frq2 prx2 ds1 W'); auto.
      destruct L4 as (L & L4). split; auto. intros j c Ec. destruct (L4 j c Ec) as (e & d & Ee & _). exists e, d. split; auto. left. auto.
  Qed.
  Theorem merge_terms_ok nf buf0 g : length buf0 = buf_alloc I -> dw_flush (Z.of_nat I) k (merged nf ss) = Some g -> sm_merge_terms I k buf0 nf (map c_x cs) = Some g.
  Proof.
    intros Hb E. unfold dw_flush in E. destruct (write_fields k [] [] (merged nf ss)) as [[[f2 p2] ds]|] eqn:EW; cbn [obind fst snd] in E; [|discriminate]. unfold write_dict in E. destruct (add_fields (tiw_open (Z.of_nat I) k) ds) as [W'|] eqn:EA; cbn [obind] in E; [|discriminate].
    unfold sm_merge_terms. destruct (merge_fields_ok (seq 0 nf) (pq_new _ N) (map (fun x => (ste_new, tde_new (g_frq (i_seg x)) (g_prx (i_seg x)))) (map c_x cs)) [] [] (mkMw (tiw_open (Z.of_nat I) k) buf0 O None None) f2 p2 ds W') as (q' & s' & w' & M1 & M2); auto.
    - split; [rewrite !map_length; auto|]. intros j c Ec. rewrite map_map. eexists _, _. split; [apply map_nth_error with (f := fun c => (ste_new, tde_new (g_frq (i_seg (c_x c))) (g_prx (i_seg (c_x c))))); eauto|left; auto].
    - exists []. split; [apply new_ok|]. unfold hds. rewrite flat_map_concat_map. replace (map _ (seq 0 N)) with (map (fun _ : nat => @nil qel) (seq 0 N)); [|apply map_ext; intros; unfold out; cbn; auto]. induction (seq 0 N); cbn; auto.
    - cbn. lia.
    - rewrite map_length, M1. cbn [obind t_w t_frq t_prx]. rewrite M2. exact E.
  Qed.
End FIELDS.
