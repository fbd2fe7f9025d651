(* Sloppy phrases in which no term is asked for twice: a document matches exactly if every position of the phrase has an occurrence in one window of the slop's length. *)
From Coq Require Import Sorting.Permutation Sorting.Sorted.
From Verif Require Import Util PQueue_Model PQueue_Spec PQueue_Proofs Phrase_Model Phrase_Spec Ring Phrase_Proofs.
Open Scope Z_scope.

Lemma pp_less_pre l : preorder nat (pp_less l).
Proof.
  unfold preorder, PQueue_Spec.le, pp_less, key_less. set (k := fun i => nth i (map (fun p => (p_pos p, p_off p)) l) (0, 0)). split.
  - intros a b. fold (k a) (k b). destruct (k a) as (x & u), (k b) as (y & v). cbn [fst snd]. destruct (Z.eqb_spec x y), (Z.eqb_spec y x); try congruence; [destruct (Z.ltb_spec v u), (Z.ltb_spec u v)|destruct (Z.ltb_spec y x), (Z.ltb_spec x y)]; auto; lia.
  - intros a b c. fold (k a) (k b) (k c). destruct (k a) as (x & u), (k b) as (y & v), (k c) as (z & w). cbn [fst snd].
    destruct (Z.eqb_spec y x), (Z.eqb_spec z y), (Z.eqb_spec z x); try lia; rewrite ?Z.ltb_ge; lia.
Qed.
Lemma PInv_lt (lt lt' : nat -> nat -> bool) capa q m : (forall a b, In a m -> In b m -> lt a b = lt' a b) -> PInv nat lt capa q m -> PInv nat lt' capa q m.
Proof.
  intros H [P1 P2 P3 P4 P5]. split; auto. intros i Hi x y Hx Hy. specialize (P2 i Hi x y Hx Hy). unfold PQueue_Spec.le in *. assert (1 <= i / 2)%nat by (apply (Nat.div_le_lower_bound i 2 1); lia). pose proof (half_lt i ltac:(lia)). rewrite <- H; [exact P2| |].
  - apply (perm_elt_in nat _ _ m i y P4 P1 ltac:(lia) Hy).
  - apply (perm_elt_in nat _ _ m (i / 2) x P4 P1 ltac:(lia) Hx).
Qed.
Lemma upd_nth {A} (l : list A) k p a d : a <> k -> nth a (upd l k p) d = nth a l d.
Proof. revert k a. induction l as [|x l IH]; intros [|k] [|a] H; cbn; try reflexivity; try congruence. apply IH. congruence. Qed.
Lemma upd_map {A B} (f : A -> B) l k p : map f (upd l k p) = upd (map f l) k (f p).
Proof. revert k. induction l as [|x l IH]; intros [|k]; cbn; congruence. Qed.
Lemma less_upd l k p a b : a <> k -> b <> k -> pp_less (upd l k p) a b = pp_less l a b.
Proof. intros Ha Hb. unfold pp_less, key_less. rewrite upd_map, !upd_nth by assumption. reflexivity. Qed.
Lemma PInv_upd l k p capa q m : ~ In k m -> PInv nat (pp_less l) capa q m -> PInv nat (pp_less (upd l k p)) capa q m.
Proof. intros Hk. apply PInv_lt. intros a b Ha Hb. symmetry. apply less_upd; intros ->; contradiction. Qed.

Lemma F2s_nth l l' i p : Forall2 same l l' -> nth_error l i = Some p -> exists p', nth_error l' i = Some p' /\ same p p'.
Proof. intros H. revert i. induction H as [|a b l l' Hs H IH]; intros [|i] E; cbn in *; try discriminate; [apply some_inj in E; subst; eauto|auto]. Qed.
Lemma F2s_upd l i p p' : nth_error l i = Some p -> same p p' -> Forall2 same l (upd l i p').
Proof. revert i. induction l as [|a l IH]; intros [|i] E Hs; cbn in *; try discriminate; [apply some_inj in E; subst; constructor; [exact Hs|apply Forall2_same_refl]|constructor; [apply same_refl|eauto]]. Qed.
Lemma upd_len {A} (l : list A) i v : length (upd l i v) = length l.
Proof. revert i. induction l as [|a l IH]; intros [|i]; cbn; congruence. Qed.
Lemma upd_Forall {A} (P : A -> Prop) l i v : Forall P l -> P v -> Forall P (upd l i v).
Proof. intros H. revert i. induction H; intros [|i] Hv; cbn; constructor; auto. Qed.

(* every position has an occurrence in a window of length slop *)
Definition near (slop : Z) (l : list pp) : Prop := exists b, Forall (fun p => exists x, In x (bases p) /\ b <= x <= b + slop) l.

(* the window is made as small as possible *)
Lemma window_ok : forall n l k p next start, (length (p_left p) <= n)%nat -> nth_error l k = Some p -> reading p -> p_pos p <= next -> exists done st p',
  (forall f, (S n < f)%nat -> window f false k next (p_pos p) start l = Some (done, st, upd l k p')) /\ same p p' /\ In st (bases p) /\ st <= next /\
  (forall x, In x (bases p) -> x <= next -> x <= st) /\
  (if done : bool then forall x, In x (bases p) -> x <= next
   else reading p' /\ next < p_pos p' /\ (length (p_left p') < length (p_left p))%nat /\ forall x, In x (bases p') <-> In x (bases p) /\ next < x).
Proof.
  induction n as [|n IH]; intros l k p next start Hn Hk HR Hle; destruct (next_pos_ok p HR) as (p1 & Hs & H1); pose proof HR as (_ & _ & Hup); unfold bases in Hup |- *; destruct (p_left p) as [|x t] eqn:El; cbn [length] in Hn; try lia.
  - exists true, (p_pos p), p1. splits; auto.
    + intros [|[|f]] Hf; try lia. cbn [window]. destruct (Z.leb_spec (p_pos p) next); [|lia]. rewrite Hk. cbn [obind]. rewrite H1. cbn [obind fst snd]. reflexivity.
    + left. reflexivity.
    + intros y [<-|[]] _. lia.
    + intros y [<-|[]]. lia.
  - exists true, (p_pos p), p1. splits; auto.
    + intros [|[|f]] Hf; try lia. cbn [window]. destruct (Z.leb_spec (p_pos p) next); [|lia]. rewrite Hk. cbn [obind]. rewrite H1. cbn [obind fst snd]. reflexivity.
    + left. reflexivity.
    + intros y [<-|[]] _. lia.
    + intros y [<-|[]]. lia.
  - destruct H1 as (H1 & HR1 & HB1 & HL1). assert (Hnth : nth_error (upd l k p1) k = Some p1) by (apply upd_eq; apply nth_error_Some; congruence).
    apply up_inv in Hup. destruct Hup as (Hup & Hge). rewrite <- HB1 in Hup, Hge |- *. destruct (Z.leb_spec (p_pos p1) next) as [Hp1|Hp1].
    + destruct (IH (upd l k p1) k p1 next (p_pos p) ltac:(lia) Hnth HR1 Hp1) as (done & st & p' & HW & Hs' & Hin & Hst & Hmax & HD). exists done, st, p'. splits; auto.
      * intros [|f] Hf; [lia|]. cbn [window]. destruct (Z.leb_spec (p_pos p) next); [|lia]. rewrite Hk. cbn [obind]. rewrite H1. cbn [obind fst snd]. rewrite Hnth. cbn [obind]. rewrite (HW f ltac:(lia)). rewrite upd_same. reflexivity.
      * exact (same_trans _ _ _ Hs Hs').
      * right. exact Hin.
      * intros y [<-|Hy] Hn2; [apply Hge; exact Hin|apply Hmax; assumption].
      * destruct done.
        -- intros y [<-|Hy]; [exact Hle|apply HD; exact Hy].
        -- destruct HD as (D1 & D2 & D3 & D4). splits; auto; [cbn [length]; lia|]. intros y. rewrite D4. cbn [In]. split; [tauto|]. intros ([<-|Hy] & Hlt); [lia|auto].
    + exists false, (p_pos p), p1. splits; auto.
      * intros [|[|f]] Hf; try lia. cbn [window]. destruct (Z.leb_spec (p_pos p) next); [|lia]. rewrite Hk. cbn [obind]. rewrite H1. cbn [obind fst snd]. rewrite Hnth. cbn [obind]. destruct (Z.leb_spec (p_pos p1) next); [lia|]. reflexivity.
      * left. reflexivity.
      * intros y [<-|Hy] Hn2; [lia|]. pose proof (bases_ge p1 y HR1 Hy). lia.
      * cbn [length]. lia.
      * intros y. cbn [In]. split; [intros Hy; split; [right; exact Hy|pose proof (bases_ge p1 y HR1 Hy); lia]|]. intros ([<-|Hy] & Hlt); [lia|exact Hy].
Qed.
Lemma lefts_upd l k p p' : nth_error l k = Some p -> (length (p_left p') < length (p_left p))%nat -> (lefts (upd l k p') < lefts l)%nat.
Proof.
  revert k. induction l as [|a l IH]; intros [|k] E H; cbn in E; try discriminate; cbn [upd]; rewrite !lefts_cons; [apply some_inj in E; subst; lia|]. specialize (IH k E H). lia.
Qed.
Lemma lefts_nth l k p : nth_error l k = Some p -> (length (p_left p) <= lefts l)%nat.
Proof. revert k. induction l as [|a l IH]; intros [|k] E; cbn in E; try discriminate; rewrite lefts_cons; [apply some_inj in E; subst; lia|]. specialize (IH k E). lia. Qed.
Lemma in_upd {A} (l : list A) k v y : In y (upd l k v) -> y = v \/ exists j, j <> k /\ nth_error l j = Some y.
Proof.
  intros H. apply In_nth_error in H. destruct H as (j & Hj). destruct (Nat.eq_dec j k) as [->|Hne].
  - left. destruct (Nat.lt_ge_cases k (length l)) as [Hlt|Hge]; [rewrite upd_eq in Hj by exact Hlt; apply some_inj in Hj; auto|]. assert (nth_error (upd l k v) k = None) by (apply nth_error_None; rewrite upd_len; exact Hge). congruence.
  - right. exists j. split; [exact Hne|]. rewrite upd_neq in Hj by congruence. exact Hj.
Qed.
Lemma less_pos l i j p p' : PQueue_Spec.le nat (pp_less l) i j -> nth_error l i = Some p -> nth_error l j = Some p' -> p_pos p <= p_pos p'.
Proof.
  unfold PQueue_Spec.le, pp_less, key_less. intros H E1 E2. rewrite (nth_error_nth (map (fun p => (p_pos p, p_off p)) l) i (0, 0) (map_nth_error _ i l E1)), (nth_error_nth (map (fun p => (p_pos p, p_off p)) l) j (0, 0) (map_nth_error _ j l E2)) in H. cbn [fst snd] in H. destruct (Z.eqb_spec (p_pos p') (p_pos p)); [lia|]. apply Z.ltb_ge in H. lia.
Qed.

Lemma loop_ok slop : forall n l q m last lens, (lefts l <= n)%nat -> (2 <= length l)%nat -> Permutation m (seq 0 (length l)) -> PInv nat (pp_less l) (length l) q m -> Forall reading l ->
  (forall p, In p l -> p_pos p <= last) -> (exists p, In p l /\ p_pos p = last) -> exists ms l',
  (exists k, forall f, (k <= f)%nat -> sloppy_loop f false slop last lens l q = Some (lens ++ ms, l')) /\ Forall2 same l l' /\ (ms <> [] <-> near slop l).
Proof.
  induction n as [n IH] using lt_wf_ind. intros l q m last lens Hn H2 HP HI HR Hmax Hat.
  assert (Hsz : (0 < pq_size q)%nat) by (rewrite (pi_size _ _ _ _ _ HI), (Permutation_length HP), seq_length; lia).
  destruct (pop_ok nat _ (pp_less_pre l) _ _ _ HI Hsz) as (k & m' & q' & Epop & HPm & (Hkin & Hleast) & HI').
  assert (Hval : forall j, In j m <-> (j < length l)%nat) by (intros j; rewrite HP, in_seq; lia).
  assert (Hk : (k < length l)%nat) by (apply Hval; exact Hkin).
  assert (ND : NoDup (k :: m')) by (rewrite <- HPm, HP; apply seq_NoDup). inversion ND as [|? ? Hnk ND']; subst.
  assert (Hm' : forall j, In j m' <-> (j < length l)%nat /\ j <> k).
  { intros j. rewrite <- Hval, HPm. cbn [In]. split; [intros Hj; split; [auto|intros ->; contradiction]|intros ([->|Hj] & Hne); congruence]. }
  assert (Hsz' : (0 < pq_size q')%nat) by (rewrite (pi_size _ _ _ _ _ HI'); apply Permutation_length in HPm; apply Permutation_length in HP; rewrite seq_length in HP; cbn [length] in HPm; lia).
  destruct (top_elt nat (pp_less l) _ _ _ HI' Hsz') as (t & m2 & Et & HPt). pose proof (PInv_least nat _ (pp_less_pre l) _ _ _ _ HI' Et Hsz') as (Htin & Htleast).
  assert (Etop : pq_top nat q' = Some (Some t)) by (unfold pq_top; replace (0 <? pq_size q')%nat with true by (symmetry; apply Nat.ltb_lt; exact Hsz'); apply elt_some; exact Et).
  destruct (nth_error l k) as [p|] eqn:Ek; [|apply nth_error_None in Ek; lia]. assert (Htv : (t < length l)%nat /\ t <> k) by (apply Hm'; exact Htin). destruct Htv as (Htv & Htk). destruct (nth_error l t) as [top|] eqn:Ent; [|apply nth_error_None in Ent; lia].
  assert (Hp : reading p) by (rewrite Forall_forall in HR; apply HR; eapply nth_error_In; exact Ek).
  assert (Hkt : p_pos p <= p_pos top) by (apply (less_pos l k t); auto; apply Hleast; apply Hval; exact Htv).
  destruct (window_ok (length (p_left p)) l k p (p_pos top) (p_pos p) (le_n _) Ek Hp Hkt) as (done & st & p' & HW & Hs & Hin & Hst & Hmx & HD).
  pose proof (lefts_nth _ _ _ Ek) as Hlp.
  (* the largest position is that of another one *)
  assert (Hoth : exists j pj, j <> k /\ nth_error l j = Some pj /\ p_pos pj = last).
  { destruct Hat as (a & Ha & Ea). apply In_nth_error in Ha. destruct Ha as (j & Hj). destruct (Nat.eq_dec j k) as [->|Hne]; [|eauto]. exists t, top. rewrite Ek in Hj. apply some_inj in Hj. subst a. splits; auto. assert (p_pos top <= last) by (apply Hmax; eapply nth_error_In; exact Ent). lia. }
  assert (Hrest : forall j pj, j <> k -> nth_error l j = Some pj -> p_pos top <= p_pos pj <= last).
  { intros j pj Hne Hj. split; [|apply Hmax; eapply nth_error_In; exact Hj]. apply (less_pos l t j); auto. apply Htleast. apply Hm'. split; [apply nth_error_Some; congruence|exact Hne]. }
  assert (Hnth' : nth_error (upd l k p') k = Some p') by (apply upd_eq; exact Hk).
  destruct (push_ok nat _ (pp_less_pre (upd l k p')) _ _ _ k (PInv_upd l k p' _ _ _ Hnk HI')) as (q2 & Epush & HI2).
  set (ms1 := if last - st <=? slop then [last - st] else []).
  assert (Hsound : ms1 <> [] -> near slop l).
  { unfold ms1. destruct (Z.leb_spec (last - st) slop); [|congruence]. intros _. exists st. apply Forall_forall. intros y Hy. apply In_nth_error in Hy. destruct Hy as (j & Hj). destruct (Nat.eq_dec j k) as [->|Hne].
    - rewrite Ek in Hj. apply some_inj in Hj. subst y. exists st. split; [exact Hin|]. destruct Hoth as (j2 & p2 & G1 & G2 & G3). pose proof (Hrest _ _ G1 G2). lia.
    - exists (p_pos y). split; [left; reflexivity|]. pose proof (Hrest _ _ Hne Hj). lia. }
  assert (Hcompl : near slop l -> ms1 <> [] \/ (done = false /\ near slop (upd l k p'))).
  { intros (b & Hb). rewrite Forall_forall in Hb. destruct (Hb p (nth_error_In _ _ Ek)) as (x & Hx & Hbx). destruct (Z.le_gt_cases x (p_pos top)) as [Hxt|Hxt].
    - left. specialize (Hmx x Hx Hxt). destruct Hoth as (j2 & p2 & G1 & G2 & G3). destruct (Hb p2 (nth_error_In _ _ G2)) as (x2 & Hx2 & Hbx2). assert (Hr2 : reading p2) by (rewrite Forall_forall in HR; apply HR; eapply nth_error_In; exact G2). pose proof (bases_ge p2 x2 Hr2 Hx2). unfold ms1. destruct (Z.leb_spec (last - st) slop); [discriminate|lia].
    - right. destruct done; [specialize (HD x Hx); lia|]. split; [reflexivity|]. destruct HD as (_ & _ & _ & D4). exists b. apply Forall_forall. intros y Hy. apply in_upd in Hy. destruct Hy as [->|(j & Hne & Hj)]; [exists x; split; [apply D4; auto|exact Hbx]|apply Hb; eapply nth_error_In; exact Hj]. }
  assert (Estep : forall f, (S (length (p_left p)) < f)%nat -> sloppy_loop (S f) false slop last lens l q = (if done then Some (lens ++ ms1, upd l k p') else sloppy_loop f false slop (if last <? p_pos p' then p_pos p' else last) (lens ++ ms1) (upd l k p') q2)).
  { intros f Hf. cbn [sloppy_loop]. rewrite Epop. cbn [obind fst snd]. rewrite Ek. cbn [obind]. rewrite Etop. cbn [obind]. rewrite Ent. cbn [obind]. rewrite (HW f Hf). cbn [obind]. cbv zeta. rewrite Hnth'. cbn [obind]. rewrite Epush. cbn [obind]. unfold ms1. destruct (last - st <=? slop); rewrite ?app_nil_r; reflexivity. }
  destruct done.
  - exists ms1, (upd l k p'). splits.
    + exists (S (S (S (length (p_left p))))). intros [|f] Hf; [lia|]. apply Estep. lia.
    + apply (F2s_upd l k p p' Ek Hs).
    + split; [exact Hsound|]. intros G. destruct (Hcompl G) as [G1|(G1 & _)]; [exact G1|discriminate].
  - destruct HD as (D1 & D2 & D3 & D4). pose proof (lefts_upd l k p p' Ek D3) as Hl2.
    destruct (IH (lefts (upd l k p')) ltac:(lia) (upd l k p') q2 (k :: m') (if last <? p_pos p' then p_pos p' else last) (lens ++ ms1) (le_n _)) as (ms & l' & (kk & Ekk) & Hsm & Hms).
    + rewrite upd_len. exact H2.
    + rewrite upd_len. rewrite <- HPm. exact HP.
    + rewrite upd_len. exact HI2.
    + apply upd_Forall; assumption.
    + intros y Hy. apply in_upd in Hy. destruct (Z.ltb_spec last (p_pos p')); destruct Hy as [->|(j & Hne & Hj)]; try lia; pose proof (Hrest _ _ Hne Hj); lia.
    + destruct (Z.ltb_spec last (p_pos p')).
      * exists p'. split; [eapply nth_error_In; exact Hnth'|reflexivity].
      * destruct Hoth as (j2 & p2 & G1 & G2 & G3). exists p2. split; [|exact G3]. apply (nth_error_In _ j2). rewrite upd_neq by congruence. exact G2.
    + exists (ms1 ++ ms), l'. splits.
      * exists (S (Nat.max (S (S (length (p_left p)))) kk)). intros [|f] Hf; [lia|]. rewrite Estep by lia. rewrite (Ekk f ltac:(lia)), app_assoc. reflexivity.
      * exact (Forall2_same_trans _ _ _ (F2s_upd l k p p' Ek Hs) Hsm).
      * split.
        -- intros G. destruct ms1 as [|x1 ms1'] eqn:E1; [|apply Hsound; discriminate]. cbn [app] in G. apply Hms in G. destruct G as (b & Hb). exists b. rewrite Forall_forall in Hb. apply Forall_forall. intros y Hy. apply In_nth_error in Hy. destruct Hy as (j & Hj). destruct (Nat.eq_dec j k) as [->|Hne].
           ++ rewrite Ek in Hj. apply some_inj in Hj. subst y. destruct (Hb p' (nth_error_In _ _ Hnth')) as (x & Hx & Hbx). exists x. split; [apply D4; exact Hx|exact Hbx].
           ++ apply Hb. apply (nth_error_In _ j). rewrite upd_neq by congruence. exact Hj.
        -- intros G. destruct (Hcompl G) as [G1|(_ & G1)]; [destruct ms1; [congruence|discriminate]|]. apply Hms in G1. destruct ms1, ms; cbn; try congruence; discriminate.
Qed.

(* ---------- the first positions *)
Definition ready (p : pp) : Prop := p_open p = true /\ p_left p = p_all p /\ p_all p <> [] /\ up (p_all p).
Definition begun (p p' : pp) : Prop := same p p' /\ reading p' /\ bases p' = map (fun x => x - p_off p) (p_all p).
Lemma first_begun p : ready p -> exists p', pp_first_position p = Some (true, p') /\ begun p p'.
Proof.
  intros H. assert (HF : Forall (fun p => p_open p = true /\ p_left p = p_all p /\ p_all p <> [] /\ up (p_all p)) [p]) by (constructor; [exact H|constructor]). destruct (first_all_ok [p] HF) as (l' & E & G).
  inversion G as [|? p' ? ? G1 G2]; subst. inversion G2; subst. exists p'. split; [|exact G1]. cbn [first_all] in E. destruct H as (H1 & H2 & H3 & H4). unfold pp_first_position, pp_next_position in *. rewrite H1 in *. cbn [p_cnt p_left p_open p_all p_rest p_off p_doc p_pos] in *. rewrite H2 in *. destruct (p_all p) as [|x t]; [congruence|]. cbn [length] in *. destruct (Z.leb_spec 0 (Z.of_nat (S (length t)) - 1)); [|lia]. cbn [obind snd fst] in E. apply some_inj in E. apply (f_equal (hd p)) in E. cbn [hd] in E. rewrite E. reflexivity.
Qed.
Lemma first_ok fuel capa : forall todo pre pre0 q last, Forall ready todo -> Forall2 begun pre0 pre -> PInv nat (pp_less (pre ++ todo)) capa q (rev (seq 0 (length pre))) -> exists q' last' l',
  sloppy_first fuel false (length pre) (length todo) (pre ++ todo) q last = Some (Some (q', last'), l') /\ Forall2 begun (pre0 ++ todo) l' /\ PInv nat (pp_less l') capa q' (rev (seq 0 (length l'))) /\
  last <= last' /\ (forall i p, nth_error l' i = Some p -> (length pre <= i)%nat -> p_pos p <= last') /\ (last' = last \/ exists i p, nth_error l' i = Some p /\ (length pre <= i)%nat /\ p_pos p = last') /\ firstn (length pre) l' = pre.
Proof.
  induction todo as [|p todo IH]; intros pre pre0 q last HT HB HI.
  - exists q, last, (pre ++ []). rewrite !app_nil_r in *. cbn [length sloppy_first]. splits; auto; [lia| |apply firstn_all]. intros i p E Hi. assert (i < length pre)%nat by (apply nth_error_Some; congruence). lia.
  - inversion HT as [|? ? Hp HT']; subst. destruct (first_begun p Hp) as (p' & E & HB'). cbn [length sloppy_first].
    assert (En : nth_error (pre ++ p :: todo) (length pre) = Some p) by (rewrite nth_error_app2, Nat.sub_diag by lia; reflexivity). rewrite En. cbn [obind]. rewrite E. cbn [obind fst snd andb].
    assert (Eu : upd (pre ++ p :: todo) (length pre) p' = (pre ++ [p']) ++ todo) by (rewrite upd_mid, <- app_assoc; reflexivity). 
    assert (En' : nth_error ((pre ++ [p']) ++ todo) (length pre) = Some p') by (rewrite <- Eu; apply upd_eq; rewrite app_length; cbn [length]; lia).
    destruct (push_ok nat _ (pp_less_pre ((pre ++ [p']) ++ todo)) capa q (rev (seq 0 (length pre))) (length pre)) as (q1 & E1 & HI1).
    { rewrite <- Eu. apply PInv_upd; [|exact HI]. rewrite <- in_rev, in_seq. lia. }
    rewrite Eu, En'. cbn [obind]. rewrite E1. cbn [obind]. 
    assert (Hlen : length (pre ++ [p']) = S (length pre)) by (rewrite app_length; cbn [length]; lia).
    destruct (IH (pre ++ [p']) (pre0 ++ [p]) q1 (if last <? p_pos p' then p_pos p' else last) HT') as (q' & last' & l' & G1 & G2 & G3 & G4 & G5 & G6 & G7).
    + apply Forall2_app; [exact HB|constructor; [exact HB'|constructor]].
    + rewrite Hlen, seq_S, rev_app_distr. exact HI1.
    + rewrite Hlen in *. rewrite <- app_assoc in G2. cbn [app] in G2. 
      assert (Ep' : nth_error l' (length pre) = Some p') by (rewrite <- (firstn_skipn (S (length pre)) l'), G7, <- app_assoc; rewrite nth_error_app2, Nat.sub_diag by lia; reflexivity).
      exists q', last', l'. splits; auto.
      * destruct (Z.ltb_spec last (p_pos p')); lia.
      * intros i p0 Ei Hi. destruct (Nat.eq_dec i (length pre)) as [->|Hne]; [rewrite Ep' in Ei; apply some_inj in Ei; subst p0; destruct (Z.ltb_spec last (p_pos p')); lia|apply (G5 i p0 Ei); lia].
      * destruct G6 as [G6|(i & p0 & A1 & A2 & A3)]; [|right; exists i, p0; splits; auto; lia]. destruct (Z.ltb_spec last (p_pos p')); [right; exists (length pre), p'; auto|left; exact G6].
      * transitivity (firstn (length pre) (firstn (S (length pre)) l')); [rewrite firstn_firstn; f_equal; lia|]. rewrite G7. rewrite firstn_app, Nat.sub_diag, firstn_all. cbn. apply app_nil_r.
Qed.
Definition around (slop : Z) (l : list pp) : Prop := exists b, Forall (fun p => exists x, In x (p_all p) /\ b <= x - p_off p <= b + slop) l.
Lemma begun_near slop l l' : Forall2 begun l l' -> (near slop l' <-> around slop l).
Proof.
  intros H. unfold near, around. split; intros (b & Hb); exists b; induction H as [|p p' l l' (_ & _ & HB) H IH]; constructor; inversion Hb as [|? ? (x & Hx & Hbx) Hb']; subst; auto.
  - rewrite HB in Hx. apply in_map_iff in Hx. destruct Hx as (y & <- & Hy). eauto.
  - exists (x - p_off p). split; [rewrite HB; apply in_map_iff; eauto|exact Hbx].
Qed.
(* some occurrence of a position is not before the place the phrase would begin at *)
Definition placed (l : list pp) : Prop := exists p, In p l /\ forall x, In x (p_all p) -> p_off p <= x.
Lemma matches_ok slop l : (2 <= length l)%nat -> Forall ready l -> placed l -> exists ms l', (exists k, forall f, (k <= f)%nat -> sphsc_matches f false slop l = Some (ms, l')) /\ Forall2 same l l' /\ (ms <> [] <-> around slop l).
Proof.
  intros H2 HR (p0 & Hp0 & Hoff).
  assert (HF : forall fuel, exists q' last' l', sloppy_first fuel false 0 (length l) l (pq_new nat (length l)) 0 = Some (Some (q', last'), l') /\ Forall2 begun l l' /\ PInv nat (pp_less l') (length l) q' (rev (seq 0 (length l'))) /\ 0 <= last' /\ (forall p, In p l' -> p_pos p <= last') /\ (last' = 0 \/ exists p, In p l' /\ p_pos p = last')).
  { intros fuel. destruct (first_ok fuel (length l) l [] [] (pq_new nat (length l)) 0 HR (Forall2_nil _) (new_ok nat _ _)) as (q' & last' & l' & G1 & G2 & G3 & G4 & G5 & G6 & G7). exists q', last', l'. cbn [app length] in *. splits; auto.
    - intros p Hp. apply In_nth_error in Hp. destruct Hp as (i & Hi). apply (G5 i p Hi). lia.
    - destruct G6 as [G6|(i & p & A1 & A2 & A3)]; [left; exact G6|right; exists p; split; [eapply nth_error_In; exact A1|exact A3]]. }
  (* the first loop does not depend on the fuel *)
  assert (HX : forall fuel i n m q last, sloppy_first fuel false i n m q last = sloppy_first 0 false i n m q last).
  { clear. intros fuel i n. revert i. induction n as [|n IH]; intros i m q last; cbn [sloppy_first andb]; [reflexivity|]. destruct (nth_error m i) as [p|]; cbn [obind]; [|reflexivity]. destruct (pp_first_position p) as [r|]; cbn [obind]; [|reflexivity]. destruct (fst r); [|reflexivity]. cbn [fst snd]. destruct (nth_error (upd m i (snd r)) i); cbn [obind]; [|reflexivity]. destruct (pq_push nat _ q i); cbn [obind]; [|reflexivity]. apply IH. }
  destruct (HF 0%nat) as (q & last & l1 & E & HB & HI & H0 & Hmax & Hat).
  assert (Hlen : length l1 = length l) by (clear - HB; induction HB; cbn; congruence).
  assert (Hread : Forall reading l1) by (clear - HB; induction HB as [|? ? ? ? (_ & G & _)]; constructor; auto).
  assert (Hat' : exists p, In p l1 /\ p_pos p = last).
  { destruct Hat as [->|Hat]; [|exact Hat]. apply In_nth_error in Hp0. destruct Hp0 as (i & Hi). assert (G : exists p1, nth_error l1 i = Some p1 /\ begun p0 p1) by (clear - HB Hi; revert i Hi; induction HB as [|a b l l1 Hab H IH]; intros [|i] Hi; cbn in *; try discriminate; [apply some_inj in Hi; subst; eauto|auto]). destruct G as (p1 & Hi1 & (_ & _ & B)). exists p1. split; [eapply nth_error_In; exact Hi1|].
    assert (Hle : p_pos p1 <= 0) by (apply Hmax; eapply nth_error_In; exact Hi1). assert (Hin : In (p_pos p1) (bases p1)) by (left; reflexivity). rewrite B in Hin. apply in_map_iff in Hin. destruct Hin as (x & Ex & Hx). specialize (Hoff x Hx). lia. }
  destruct (loop_ok slop (lefts l1) l1 q (rev (seq 0 (length l1))) last [] (le_n _)) as (ms & l' & (k & Ek) & Hsm & Hms); auto.
  - lia.
  - symmetry. apply Permutation_rev.
  - rewrite Hlen at 1. exact HI.
  - exists ms, l'. splits.
    + exists k. intros f Hf. unfold sphsc_matches. rewrite HX, E. cbn [obind fst snd]. apply Ek. exact Hf.
    + refine (Forall2_same_trans _ _ _ _ Hsm). clear - HB. induction HB as [|? ? ? ? (G & _)]; constructor; auto.
    + rewrite Hms. apply begun_near. exact HB.
Qed.

(* ---------- windows and distances *)
Lemma pairs_window {A} (P : A -> Z -> Prop) slop : forall l, 0 <= slop \/ (2 <= length l)%nat -> (exists b, Forall (fun p => exists x, P p x /\ b <= x <= b + slop) l) <-> exists xs, Forall2 P l xs /\ apart slop xs.
Proof.
  intros l Hl. split.
  - intros (b & H). assert (G : exists xs, Forall2 P l xs /\ Forall (fun x => b <= x <= b + slop) xs).
    { clear Hl. induction H as [|p l (x & Hx & Hb) H (xs & IH1 & IH2)]; [exists []; split; constructor|]. exists (x :: xs). split; constructor; auto. }
    destruct G as (xs & G1 & G2). exists xs. split; [exact G1|]. unfold apart. clear G1 Hl H. induction G2 as [|x xs Hx G2 IH]; constructor; [|exact IH]. eapply Forall_impl; [|exact G2]. cbn. intros; lia.
  - intros (xs & H1 & H2). 
    assert (Hs : 0 <= slop \/ l = []). { destruct Hl as [Hl|Hl]; [left; exact Hl|]. inversion H1 as [|p x l' xs' Hp H1']; subst; [right; reflexivity|]. inversion H1' as [|p2 x2 l2 xs2 Hp2 H12]; subst; [cbn in Hl; lia|]. inversion H2 as [|? ? G _]; subst. inversion G; subst. left. lia. }
    clear Hl. destruct Hs as [Hs| ->]; [|exists 0; constructor].
    assert (Hm : xs = [] \/ exists b, In b xs /\ forall x, In x xs -> b <= x).
    { clear. induction xs as [|x xs IH]; [left; reflexivity|right]. destruct IH as [-> |(b & B1 & B2)]; [exists x; split; [left; reflexivity|intros y [<-|[]]; lia]|]. destruct (Z.le_gt_cases x b); [exists x; split; [left; reflexivity|intros y [<-|Hy]; [lia|specialize (B2 y Hy); lia]]|exists b; split; [right; exact B1|intros y [<-|Hy]; [lia|auto]]]. }
    destruct Hm as [-> |(b & B1 & B2)]; [inversion H1; subst; exists 0; constructor|]. exists b.
    assert (G : forall x, In x xs -> b <= x <= b + slop).
    { intros x Hx. split; [apply B2; exact Hx|]. destruct (ForallOrdPairs_In H2 b x B1 Hx) as [->|[G|G]]; lia. }
    clear H2 B1 B2. revert G. induction H1 as [|p x l xs Hp H1 IH]; intros G; constructor; [exists x; split; [exact Hp|apply G; left; reflexivity]|apply IH; intros; apply G; right; assumption].
Qed.
Definition win (slop : Z) (ph : phrase) (d : Z) : Prop := exists b, Forall (fun t : Z * list (Z * list Z) => exists ps x, In (d, ps) (snd t) /\ In x ps /\ b <= x - fst t <= b + slop) ph.
Lemma win_window slop ph d : 0 <= slop \/ (2 <= length ph)%nat -> win slop ph d <-> window_in slop ph d.
Proof.
  intros H. unfold win, window_in. rewrite <- (pairs_window (fun (t : Z * list (Z * list Z)) x => exists ps, In (d, ps) (snd t) /\ In (x + fst t) ps) slop ph H). split; intros (b & Hb); exists b; (eapply Forall_impl; [|exact Hb]); cbn beta.
  - intros t (ps & x & H1 & H2 & H3). exists (x - fst t). split; [|exact H3]. exists ps. replace (x - fst t + fst t) with x by lia. auto.
  - intros t (x & (ps & H1 & H2) & H3). exists ps, (x + fst t). replace (x + fst t - fst t) with x by lia. auto.
Qed.
(* without slop *)
Lemma window_exact ph d : phrase_in ph d <-> window_in 0 ph d.
Proof.
  rewrite <- win_window by (left; lia). unfold phrase_in, occurs_at, win. split; intros (b & Hb); exists b; (eapply Forall_impl; [|exact Hb]); cbn beta.
  - intros t (ps & H1 & H2). exists ps, (b + fst t). splits; auto; lia.
  - intros t (ps & x & H1 & H2 & H3). exists ps. replace (b + fst t) with x by lia. auto.
Qed.

(* ---------- the scorer *)
Section SCORER.
  Variable qsort : (pp -> pp -> Z) -> list pp -> list pp.
  Hypothesis Hsort : sorts qsort.
  Variable ph : phrase.
  Hypothesis Hph : phrase_ok ph.
  Hypothesis H2 : (2 <= length ph)%nat.
  Hypothesis Hbeg : begins ph.
  Variable slop : Z.
  Lemma around_zs zs D : zok ph zs -> doc_in zs D -> (around slop (map snd zs) <-> win slop ph D).
  Proof.
    intros HZ HD. unfold around, window_in.
    assert (G : forall b, Forall (fun p => exists x, In x (p_all p) /\ b <= x - p_off p <= b + slop) (map snd zs) <-> Forall (fun t : Z * list (Z * list Z) => exists ps x, In (D, ps) (snd t) /\ In x ps /\ b <= x - fst t <= b + slop) ph).
    { intros b. rewrite Forall_map. transitivity (Forall (fun t : Z * list (Z * list Z) => exists ps x, In (D, ps) (snd t) /\ In x ps /\ b <= x - fst t <= b + slop) (map fst zs)).
      - rewrite Forall_map. unfold doc_in in HD. rewrite Forall_forall in HD. rewrite !Forall_forall. split; intros H z Hz; specialize (H z Hz); destruct (zok_in ph _ _ HZ Hz) as (G1 & G2); destruct (pok_all ph Hph z G1 G2) as (_ & _ & _ & G3); pose proof G2 as (_ & G4 & _); rewrite (HD z Hz) in G3.
        + destruct H as (x & Hx & Hb). exists (p_all (snd z)), x. rewrite <- G4. splits; auto; try lia. apply G3. reflexivity.
        + destruct H as (ps & x & Hps & Hx & Hb). apply G3 in Hps. subst ps. exists x. rewrite G4. auto.
      - destruct HZ as (HP & _). split; intros H; [apply (Permutation_Forall HP); exact H|apply (Permutation_Forall (Permutation_sym HP)); exact H]. }
    split; intros (b & Hb); exists b; apply G; exact Hb.
  Qed.
  Lemma sloppy_pf zs D idx : zok ph zs -> doc_in zs D -> Forall fresh zs -> (idx < length zs)%nat -> exists fr idx' zs', (exists k, forall f, (k <= f)%nat -> sloppy_freq false slop f idx (map snd zs) = Some (fr, idx', map snd zs')) /\
    zok ph zs' /\ doc_in zs' D /\ length zs' = length zs /\ (idx' < length zs')%nat /\ list_sum (map (fun z => length (p_rest (snd z))) zs') = list_sum (map (fun z => length (p_rest (snd z))) zs) /\ 0 <= fr /\ (0 < fr <-> win slop ph D) /\ True.
  Proof.
    intros HZ HD HF Hidx.
    assert (Hl : Forall ready (map snd zs)).
    { apply Forall_map. apply Forall_forall. intros z Hz. destruct (zok_in ph _ _ HZ Hz) as (G1 & G2). destruct (pok_all ph Hph z G1 G2) as (G3 & G4 & _). rewrite Forall_forall in HF. unfold ready. splits; auto; [exact (proj1 G2)|apply HF; exact Hz]. }
    assert (Hlen : length (map snd zs) = length ph) by (rewrite map_length, <- (map_length fst zs); apply Permutation_length; exact (proj1 HZ)).
    assert (Hpl : placed (map snd zs)).
    { unfold begins in Hbeg. apply Exists_exists in Hbeg. destruct Hbeg as (t & Ht & G). apply (Permutation_in _ (Permutation_sym (proj1 HZ))) in Ht. apply in_map_iff in Ht. destruct Ht as (z & <- & Hz). exists (snd z). split; [apply in_map; exact Hz|]. destruct (zok_in ph _ _ HZ Hz) as (G1 & (_ & G2 & pre & G3)). rewrite G2. intros x Hx. rewrite Forall_forall in G. assert (Gin : In (p_doc (snd z), p_all (snd z)) (snd (fst z))) by (rewrite G3; apply in_or_app; right; left; reflexivity). specialize (G _ Gin). cbn [snd] in G. rewrite Forall_forall in G. apply G. exact Hx. }
    destruct (matches_ok slop (map snd zs) ltac:(lia) Hl Hpl) as (ms & l' & (k & Ek) & Hsm & Hms). destruct (lift_same zs l' Hsm) as (zs' & -> & Ef & Hp & Ed & Er). exists (Z.of_nat (length ms)), idx, zs'.
    assert (Hlz : length zs' = length zs) by (rewrite <- (map_length fst zs'), Ef, map_length; reflexivity). splits; auto.
    - exists k. intros f Hf. unfold sloppy_freq. rewrite (Ek f Hf). reflexivity.
    - split; [rewrite Ef; exact (proj1 HZ)|apply Hp; exact (proj2 HZ)].
    - unfold doc_in in *. apply Forall_forall. intros z Hz. assert (G : In (p_doc (snd z)) (map (fun z => p_doc (snd z)) zs)) by (rewrite <- Ed; apply (in_map (fun z => p_doc (snd z))); exact Hz). apply in_map_iff in G. destruct G as (w & <- & Hw). rewrite Forall_forall in HD. apply HD. exact Hw.
    - lia.
    - rewrite <- (map_map (fun z => p_rest (snd z)) (@length (Z * list Z)) zs'), <- (map_map (fun z => p_rest (snd z)) (@length (Z * list Z)) zs), Er. reflexivity.
    - lia.
    - rewrite <- (around_zs zs D HZ HD), <- Hms. destruct ms; cbn [length]; split; intros; try congruence; try lia; discriminate.
  Qed.
  Theorem sloppy_phrase s cur op : reached (sloppy_run qsort false slop) (phsc_new ph) s cur -> beyond cur op -> exists b s', gives (sloppy_run qsort false slop) op s (b, s') /\
    if b then after cur op (h_doc s') /\ window_in slop ph (h_doc s') /\ (forall d, after cur op d -> window_in slop ph d -> h_doc s' <= d) /\ 0 < h_freq s' /\ True
    else forall d, after cur op d -> ~ window_in slop ph d.
  Proof.
    refine (run_phrase qsort Hsort ph Hph (sloppy_freq false slop) (window_in slop ph) (fun _ _ => True) _ _ s cur op).
    - intros zs D idx HZ HD HF Hi. destruct (sloppy_pf zs D idx HZ HD HF Hi) as (fr & idx' & zs' & A1 & A2 & A3 & A4 & A5 & A6 & A7 & A8 & A9). exists fr, idx', zs'. splits; auto. rewrite <- (win_window slop ph D) by (right; exact H2). exact A8.
    - intros x t (xs & Hxs & _) Ht. clear - Hxs Ht. induction Hxs as [|u y l xs (ps & Hps & _) Hxs IH]; [destruct Ht|]. destruct Ht as [<-|Ht]; [apply in_map_iff; exists (x, ps); auto|auto].
  Qed.
End SCORER.
