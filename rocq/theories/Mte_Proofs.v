(* MultiTermEnum is a sorted merge. *)
From Coq Require Import Sorting.Permutation.
From Verif Require Import Util Codec_Spec Strcmp Dict_Model Dict_Spec Dict_Proofs DictCursor_Proofs PQueue_Model PQueue_Spec PQueue_Proofs Multi_Model Mte_Model Mte_Spec.
Open Scope Z_scope.

(* ---------- the queue *)
Lemma tew_lt_spec a b : tew_lt a b = true <-> slt (fst a) (fst b) \/ (fst a = fst b /\ (snd a < snd b)%nat).
Proof.
  unfold tew_lt. rewrite <- scmp_eq. unfold slt. destruct (scmp (fst a) (fst b)); rewrite ?Nat.ltb_lt; split; intros H; auto; try discriminate; destruct H as [H|[H1 H2]]; auto; discriminate.
Qed.
Lemma tew_pre : preorder _ tew_lt.
Proof.
  unfold preorder, PQueue_Spec.le. split.
  - intros a b. destruct (tew_lt b a) eqn:E1; auto. right. destruct (tew_lt a b) eqn:E2; auto. apply tew_lt_spec in E1, E2.
    destruct E1 as [E1|[E1 H1]], E2 as [E2|[E2 H2]].
    + exfalso. exact (slt_asym _ _ E1 E2). + rewrite E2 in E1. exfalso. exact (slt_irr _ E1). + rewrite E1 in E2. exfalso. exact (slt_irr _ E2). + lia.
  - intros a b c H1 H2. destruct (tew_lt c a) eqn:E; auto. exfalso. apply tew_lt_spec in E.
    assert (N1 : ~ (slt (fst b) (fst a) \/ fst b = fst a /\ (snd b < snd a)%nat)) by (rewrite <- tew_lt_spec; congruence).
    assert (N2 : ~ (slt (fst c) (fst b) \/ fst c = fst b /\ (snd c < snd b)%nat)) by (rewrite <- tew_lt_spec; congruence).
    destruct (slt_total (fst a) (fst b)) as [G|[G|G]], (slt_total (fst b) (fst c)) as [G'|[G'|G']]; try tauto.
    + destruct E as [E|[E _]]; [exact (slt_asym _ _ (slt_trans _ _ _ G G') E)|]. rewrite E in G'. exact (slt_asym _ _ G G').
    + rewrite G' in G. destruct E as [E|[E _]]; [exact (slt_asym _ _ G E)|rewrite E in G; exact (slt_irr _ G)].
    + rewrite <- G in G'. destruct E as [E|[E _]]; [exact (slt_asym _ _ G' E)|rewrite E in G'; exact (slt_irr _ G')].
    + rewrite <- G in G'. destruct E as [E|[E H]]; [rewrite G' in E; exact (slt_irr _ E)|]. assert (~ (snd b < snd a)%nat) by (intros X; apply N1; right; split; auto). assert (~ (snd c < snd b)%nat) by (intros X; apply N2; right; split; congruence). lia.
Qed.
Notation QInv := (PInv _ tew_lt).
Lemma emptied_ok capa q m : QInv capa q m -> QInv capa (emptied q) [].
Proof. intros [P1 P2 P3 P4 P5]. constructor; cbn [emptied pq_heap pq_size pq_capa]; auto; [intros i Hi; lia|lia]. Qed.
Lemma top_any capa q m : QInv capa q m -> exists r, pq_top _ q = Some r /\ match r with None => m = [] | Some x => In x m end.
Proof.
  intros HI. pose proof (pi_size _ _ _ _ _ HI) as Hs. unfold pq_top. destruct (Nat.ltb_spec 0 (pq_size q)) as [H|H].
  - destruct (top_elt _ tew_lt _ _ _ HI H) as (x & m' & Hx & Hp). apply elt_some in Hx. rewrite Hx. exists (Some x). split; auto. apply (Permutation_in _ (Permutation_sym Hp)). left. reflexivity.
  - exists None. split; auto. destruct m; auto. cbn in Hs. lia.
Qed.
Lemma top_pop capa q m x : QInv capa q m -> In x m -> (forall y, In y m -> y <> x -> tew_lt x y = true) ->
  pq_top _ q = Some (Some x) /\ exists m' q', pq_pop _ tew_lt q = Some (Some x, q') /\ Permutation m (x :: m') /\ QInv capa q' m'.
Proof.
  intros HI Hin Hmin. pose proof (pi_size _ _ _ _ _ HI) as Hs.
  assert (Hpos : (0 < pq_size q)%nat) by (rewrite Hs; destruct m; [destruct Hin|cbn; lia]).
  assert (U : forall y, least _ tew_lt y m -> y = x).
  { intros y (Hy & Hl). assert (D : {y = x} + {y <> x}) by (repeat decide equality). destruct D as [|D]; auto. exfalso. specialize (Hl x Hin). unfold PQueue_Spec.le in Hl. rewrite (Hmin y Hy D) in Hl. discriminate. }
  split.
  - destruct (top_elt _ tew_lt _ _ _ HI Hpos) as (y & m' & Hy & Hp). pose proof (PInv_least _ tew_lt tew_pre _ _ _ _ HI Hy Hpos) as Hl. rewrite (U y Hl) in Hy. apply elt_some in Hy.
    unfold pq_top. destruct (Nat.ltb_spec 0 (pq_size q)); [|lia]. rewrite Hy. reflexivity.
  - destruct (pop_ok _ tew_lt tew_pre _ _ _ HI Hpos) as (y & m' & q' & E & Hp & Hl & HI'). rewrite (U y Hl) in *. exists m', q'. auto.
Qed.

(* ---------- sorted lists of terms *)
Definition ssorted (l : list (list Z)) : Prop := StronglySorted slt l.
Lemma insert_in t l x : In x (insert t l) <-> x = t \/ In x l.
Proof.
  induction l as [|y l IH]; cbn [insert In]; [intuition|]. destruct (scmp t y) eqn:E; cbn [In]; [|intuition|].
  - apply scmp_eq in E. subst y. intuition.
  - rewrite IH. intuition.
Qed.
Lemma insert_sorted t l : ssorted l -> ssorted (insert t l).
Proof.
  unfold ssorted. induction 1 as [|y l HS IH HF]; cbn [insert]; [repeat constructor|]. destruct (scmp t y) eqn:E.
  - constructor; auto.
  - constructor; [constructor; auto|]. constructor; [exact E|]. eapply Forall_impl; [|exact HF]. intros a Ha. eapply slt_trans; [exact E|exact Ha].
  - apply slt_gt in E. constructor; auto. rewrite Forall_forall in *. intros x Hx. apply insert_in in Hx. destruct Hx as [->|Hx]; auto.
Qed.
Lemma union_sorted ls : ssorted (union ls).
Proof. unfold union. induction (map fst (concat ls)); cbn [fold_right]; [constructor|apply insert_sorted; auto]. Qed.
Lemma union_in ls x : In x (union ls) <-> In x (map fst (concat ls)).
Proof. unfold union. induction (map fst (concat ls)) as [|y l IH]; cbn [fold_right In]; [tauto|]. rewrite insert_in, IH. intuition. Qed.
Lemma sorted_lt M : ssorted M -> forall j k x y, nth_error M j = Some x -> nth_error M k = Some y -> (j < k)%nat -> slt x y.
Proof.
  induction 1 as [|a M HS IH HF]; intros j k x y Hx Hy Hjk; [destruct j; discriminate|]. rewrite Forall_forall in HF. destruct j, k; cbn [nth_error] in *; try lia.
  - apply some_inj in Hx. subst x. apply HF. eapply nth_error_In; eauto.
  - eapply IH; eauto. lia.
Qed.
Definition lt_b (x : list Z) (b : option (list Z)) : bool := match b with Some t => sltb x t | None => true end.
Lemma lt_b_nth M j x p : ssorted M -> nth_error M j = Some x -> lt_b x (nth_error M p) = (j <? p)%nat.
Proof.
  intros HS Hx. destruct (nth_error M p) as [t|] eqn:E; cbn [lt_b].
  - destruct (Nat.ltb_spec j p) as [H|H].
    + apply sltb_spec. eapply sorted_lt; eauto.
    + apply sltb_ge. destruct (Nat.eq_dec j p) as [->|]; [rewrite E in Hx; apply some_inj in Hx; subst; apply sle_refl|]. apply slt_le. eapply sorted_lt; [exact HS|exact E|exact Hx|lia].
  - apply nth_error_None in E. symmetry. apply Nat.ltb_lt. assert (j < length M)%nat by (apply nth_error_Some; congruence). lia.
Qed.
Lemma below_nth M j x t : ssorted M -> nth_error M j = Some x -> sltb x t = (j <? below M t)%nat.
Proof.
  unfold below. intros HS. revert j. induction HS as [|a M HS IH HF]; intros j Hx; [destruct j; discriminate|]. cbn [filter]. destruct (sltb a t) eqn:E.
  - destruct j as [|j]; cbn [nth_error length] in *; [apply some_inj in Hx; subst; rewrite E; reflexivity|]. rewrite (IH j Hx). reflexivity.
  - assert (Hn : filter (fun y => sltb y t) M = []).
    { apply sltb_ge in E. clear -HF E. induction HF as [|b M Hb HF IH]; cbn [filter]; auto. rewrite (proj2 (sltb_ge b t)); auto. apply slt_le. eapply sle_lt_trans; eauto. }
    rewrite Hn. cbn [length]. destruct j as [|j]; cbn [nth_error] in *; [apply some_inj in Hx; subst; rewrite E; reflexivity|].
    apply sltb_ge. apply sltb_ge in E. apply slt_le. eapply sle_lt_trans; [exact E|]. rewrite Forall_forall in HF. apply HF. eapply nth_error_In; eauto.
Qed.
(* how many terms of a list are behind the cursor *)
Definition cnt (L : list entry) (b : option (list Z)) : nat := length (filter (fun e => lt_b (fst e) b) L).
Lemma cnt_ext L (f g : entry -> bool) : (forall e, In e L -> f e = g e) -> length (filter f L) = length (filter g L).
Proof. intros H. rewrite (filter_ext_in f g L H). reflexivity. Qed.
Lemma sorted_nth L : sorted_terms L -> forall j k x y, nth_error L j = Some x -> nth_error L k = Some y -> (j < k)%nat -> slt (fst x) (fst y).
Proof.
  induction 1 as [|a L HS IH HF]; intros j k x y Hx Hy Hjk; [destruct j; discriminate|]. rewrite Forall_forall in HF. destruct j, k; cbn [nth_error] in *; try lia.
  - apply some_inj in Hx. subst x. apply HF. eapply nth_error_In; eauto.
  - eapply IH; eauto. lia.
Qed.
Definition holds (L : list entry) (t : list Z) : bool := existsb (fun e => seqb (fst e) t) L.
Lemma in_index M (x : list Z) : In x M -> exists j, nth_error M j = Some x.
Proof. apply In_nth_error. Qed.
Lemma cnt_zero M L : ssorted M -> (forall e, In e L -> In (fst e) M) -> cnt L (nth_error M 0) = 0%nat.
Proof.
  intros HS HL. unfold cnt. rewrite (cnt_ext L _ (fun _ => false)).
  - clear. induction L; cbn [filter]; auto.
  - intros e He. destruct (in_index _ _ (HL e He)) as (j & Hj). rewrite (lt_b_nth M j); auto.
Qed.
Lemma cnt_below M L t : ssorted M -> (forall e, In e L -> In (fst e) M) -> cnt L (nth_error M (below M t)) = first_ge L t.
Proof.
  intros HS HL. apply cnt_ext. intros e He. destruct (in_index _ _ (HL e He)) as (j & Hj). rewrite (lt_b_nth M j), (below_nth M j); auto.
Qed.
Lemma cnt_at L t : cnt L (Some t) = first_ge L t.
Proof. reflexivity. Qed.
Lemma cnt_next M L p t : ssorted M -> (forall e, In e L -> In (fst e) M) -> sorted_terms L -> nth_error M p = Some t ->
  cnt L (nth_error M (S p)) = if holds L t then S (first_ge L t) else first_ge L t.
Proof.
  intros HS HL HSL Hp. unfold cnt. rewrite (cnt_ext L _ (fun e => sltb (fst e) t || seqb (fst e) t)).
  - unfold first_ge, holds. clear -HSL. induction HSL as [|a L HSL IH HF]; cbn [filter existsb]; auto. destruct (sltb (fst a) t) eqn:E1; cbn [orb length].
    + assert (seqb (fst a) t = false) as ->. { destruct (seqb (fst a) t) eqn:E; auto. apply seqb_spec in E. apply sltb_spec in E1. rewrite E in E1. exfalso. exact (slt_irr _ E1). }
      cbn [orb]. rewrite IH. destruct (existsb _ L); reflexivity.
    + destruct (seqb (fst a) t) eqn:E2; cbn [orb length]; [|exact IH]. apply seqb_spec in E2. f_equal. f_equal.
      rewrite Forall_forall in HF. assert (G : forall l, (forall x, In x l -> slt t (fst x)) -> filter (fun e : entry => sltb (fst e) t || seqb (fst e) t) l = [] /\ filter (fun e : entry => sltb (fst e) t) l = []).
      { induction l as [|b l IHl]; intros Hl; [split; reflexivity|]. cbn [filter]. specialize (Hl b (or_introl eq_refl)) as Hb. rewrite (proj2 (sltb_ge (fst b) t)) by (apply slt_le; auto).
        assert (seqb (fst b) t = false) as ->. { destruct (seqb (fst b) t) eqn:E; auto. apply seqb_spec in E. rewrite E in Hb. exfalso. exact (slt_irr _ Hb). }
        cbn [orb]. apply IHl. intros x Hx. apply Hl. right. auto. }
      destruct (G L) as [G1 G2]; [intros x Hx; rewrite <- E2; apply HF; auto|]. rewrite G1, G2. reflexivity.
  - intros e He. destruct (in_index _ _ (HL e He)) as (j & Hj). rewrite (lt_b_nth M j) by auto. pose proof (lt_b_nth M j (fst e) p HS Hj) as H. rewrite Hp in H. cbn [lt_b] in H. rewrite H.
    destruct (seqb (fst e) t) eqn:E.
    + apply seqb_spec in E. rewrite E in Hj. assert (j = p). { destruct (lt_eq_lt_dec j p) as [[G|G]|G]; auto; exfalso; [apply (slt_irr t); exact (sorted_lt M HS _ _ _ _ Hj Hp G)|apply (slt_irr t); exact (sorted_lt M HS _ _ _ _ Hp Hj G)]. }
      subst j. rewrite orb_true_r. apply Nat.ltb_lt. lia.
    + rewrite orb_false_r. assert (j <> p). { intros ->. rewrite Hp in Hj. apply some_inj in Hj. rewrite Hj, (proj2 (seqb_spec _ _) eq_refl) in E. discriminate. }
      destruct (Nat.ltb_spec j p), (Nat.ltb_spec j (S p)); auto; lia.
Qed.
Lemma holds_nth L t : sorted_terms L -> holds L t = true <-> exists e, nth_error L (first_ge L t) = Some e /\ fst e = t /\ find (fun e => seqb (fst e) t) L = Some e.
Proof.
  intros HS. unfold holds. pose proof (find_first_ge L t HS) as HF. split.
  - intros H. apply existsb_exists in H. destruct H as (x & Hx & Ex). destruct (find (fun e : entry => seqb (fst e) t) L) as [e|] eqn:E; [|apply find_none with (x := x) in E; auto; congruence].
    destruct (nth_error L (first_ge L t)) as [c|]; [|discriminate]. destruct (seqb (fst c) t) eqn:Ec; [|discriminate]. apply some_inj in HF. subst c. exists e. split; auto. split; auto. apply seqb_spec. auto.
  - intros (e & H1 & H2 & H3). apply find_some in H3. apply existsb_exists. exists e. tauto.
Qed.

(* ---------- the segments *)
Definition src_ok (x : sgm) (s : src) : Prop := okfs (g_int x) (g_skip x) (g_fs x) (fst s) (snd s) /\ (1 <= g_int x)%nat /\ forall n, field_ok (terms_of (g_fs x) n).
Lemma field_ok_nil : field_ok [].
Proof. split; [constructor|]. split; [constructor|]. split; [constructor|]. cbn. lia. Qed.
Lemma field_ok_of fs n : dict_ok fs -> field_ok (terms_of fs n).
Proof.
  intros (HF & _). unfold terms_of. destruct (find _ fs) as [[m l]|] eqn:Ef; [|apply field_ok_nil]. apply find_some in Ef. destruct Ef as [Hin _]. rewrite Forall_forall in HF. exact (proj2 (HF _ Hin)).
Qed.
Lemma open_src x : sgm_ok x -> exists f s, write_dict (Z.of_nat (g_int x)) (g_skip x) (g_fs x) = Some f /\ sfi_open f = Some s /\ src_ok x (f, s).
Proof.
  intros (HI & HI2 & HK & Hok). destruct (write_read (g_int x) (g_skip x) HI (g_fs x) Hok) as (f & s & E1 & E2 & E3 & E4 & E5 & E6 & E7). exists f, s. split; [exact E1|]. split; [apply E2; auto|].
  split; [|split; [auto|intros n; apply field_ok_of; auto]]. split; [auto|]. intros n. apply (fld_of (g_int x) (g_skip x) HI); auto.
Qed.
Lemma set_at x s e n : src_ok x s -> at_ (g_skip x) n (terms_of (g_fs x) n) O (ste_set_field (fst s) (snd s) e n).
Proof.
  intros (Hfs & HI & _). destruct Hfs as (Hk & Hok). unfold ste_set_field. pose proof (Hok n) as Hg. destruct (h_get_int (s_dict (snd s)) n) as [y|].
  - destruct Hg as (base & HF). split; [reflexivity|]. split; [exact (fl_size _ _ _ _ _ _ _ HF)|]. left. cbn [e_pos e_term e_ti e_in]. split; [lia|]. split; [lia|]. split; [reflexivity|].
    split; [repeat split; auto|]. rewrite (fl_ptr _ _ _ _ _ _ _ HF). destruct (fl_tis _ _ _ _ _ _ _ HF) as (post & Hp). exists post. specialize (Hp O ltac:(lia)). unfold Dict_Proofs.off in Hp. cbn [firstn DictCodec_Proofs.blk length] in Hp. rewrite Nat.add_0_r in Hp. exact Hp.
  - rewrite Hg. split; [reflexivity|]. split; [reflexivity|]. left. cbn [e_pos e_term e_ti e_in length]. split; [lia|]. split; [lia|]. split; [reflexivity|]. split; [repeat split; auto|]. exists (e_in e). reflexivity.
Qed.
Lemma next_ok x s n p e : src_ok x s -> at_ (g_skip x) n (terms_of (g_fs x) n) p e ->
  exists e', ste_next (s_skip (snd s)) e = Some (option_map fst (nth_error (terms_of (g_fs x) n) p), e') /\ at_ (g_skip x) n (terms_of (g_fs x) n) (place (terms_of (g_fs x) n) p) e'.
Proof.
  intros (Hfs & HI & HF) He. destruct Hfs as (Hk & _). rewrite Hk. exact (next_at (g_int x) (g_skip x) HI n _ p e (HF n) He).
Qed.
(* the place behind c terms that lie below a bound *)
Lemma place_cnt L c : (c <= length L)%nat -> place L c = S c.
Proof. intros H. unfold place. destruct (nth_error L c) eqn:E; auto. apply nth_error_None in E. lia. Qed.
Lemma scan_ok x s n p e t : src_ok x s -> at_ (g_skip x) n (terms_of (g_fs x) n) p e ->
  let L := terms_of (g_fs x) n in
  exists e' p', ste_scan_to (fst s) (snd s) e t = Some (option_map fst (nth_error L (first_ge L t)), e') /\ at_ (g_skip x) n L p' e' /\ (L <> [] -> p' = S (first_ge L t)) /\ (L = [] -> (p' <= 1)%nat /\ e' = e).
Proof.
  intros (Hfs & HI & HF) He L. destruct (step_sim (g_int x) (g_skip x) HI (g_fs x) (fst s) (snd s) n p e (DScan t) Hfs He) as (r & e' & Er & Hd & He').
  cbn [ste_step] in Er. destruct (ste_scan_to (fst s) (snd s) e t) as [[r0 e0]|] eqn:Es; cbn [obind fst snd] in Er; [|discriminate]. apply some_inj in Er. injection Er as <- <-.
  cbn [spec_step] in Hd, He'. fold L in Hd, He'. exists e0. destruct (length L =? 0)%nat eqn:El.
  - apply Nat.eqb_eq in El. assert (L = []) as HL0 by (destruct L; [auto|discriminate]). cbn [fst snd] in *. rewrite HL0 in *. cbn in Hd. exists p. split; [f_equal; f_equal; cbn; congruence|]. split; [rewrite <- HL0; exact He'|]. split; [congruence|].
    intros _. split; [eapply (at_empty (g_int x) (g_skip x) HI n p e0); rewrite <- HL0; exact He'|]. unfold ste_scan_to in Es. destruct He as (E1 & _). rewrite E1 in Es. destruct Hfs as (_ & Hok). specialize (Hok n). destruct (h_get_int (s_dict (snd s)) n) as [y|]; [|apply some_inj in Es; congruence].
    destruct Hok as (base & HFl). rewrite (fl_size _ _ _ _ _ _ _ HFl) in Es. fold L in Es. rewrite HL0 in Es. cbn in Es. congruence.
  - apply Nat.eqb_neq in El. exists (S (first_ge L t)). destruct (nth_error L (first_ge L t)) as [c|] eqn:Ec; cbn [fst snd option_map dres_eq] in *.
    + split; [f_equal; f_equal; congruence|]. split; [exact He'|]. split; [auto|]. intros ->. cbn in El. lia.
    + split; [f_equal; f_equal; congruence|]. assert (first_ge L t = length L) as ->. { apply nth_error_None in Ec. pose proof (first_ge_le L t). lia. }
      split; [exact He'|]. split; [auto|]. intros ->. cbn in El. lia.
Qed.

Ltac splits := repeat match goal with |- _ /\ _ => split end.
Section M.
  Variables (mp : option (list (list Z))) (xs : list sgm) (srcs : list src).
  Hypothesis Hsrc : Forall2 src_ok xs srcs.
  Notation n := (length srcs).
  Lemma n_xs : length xs = n.
  Proof. exact (Forall2_length _ _ _ Hsrc). Qed.
  Variable f : Z.
  Hypothesis Hf : field_in mp n f.
  Notation ls := (lists mp f O xs).
  Definition Ls (i : nat) : list entry := nth i ls [].
  Lemma lists_nth : forall ys k i x, nth_error ys i = Some x -> nth i (lists mp f k ys) [] = terms_in mp f (k + i) x.
  Proof.
    induction ys as [|y ys IH]; intros k [|i] x H; cbn [nth_error lists nth] in *; try discriminate.
    - apply some_inj in H. subst. rewrite Nat.add_0_r. reflexivity.
    - rewrite (IH (S k) i x H). f_equal. lia.
  Qed.
  Lemma fnum_in i : (i < n)%nat -> exists m, fnum mp i f = Some m.
  Proof.
    intros Hi. unfold fnum, field_in in *. destruct mp as [rows|]; [|eauto]. destruct Hf as (Hl & HF). destruct (nth_error rows i) as [r|] eqn:E; [|apply nth_error_None in E; lia].
    apply nth_error_In in E. rewrite Forall_forall in HF. specialize (HF r E). cbn [obind]. rewrite (proj2 (Z.ltb_ge f 0)) by lia. destruct (nth_error r (Z.to_nat f)) eqn:E2; [eauto|]. apply nth_error_None in E2. lia.
  Qed.
  (* segment i: its data, its files, its number for the field, its list *)
  Record sinfo (i : nat) (x : sgm) (s : src) (m : Z) : Prop := {
    i_x : nth_error xs i = Some x; i_s : nth_error srcs i = Some s; i_ok : src_ok x s; i_f : fnum mp i f = Some m;
    i_L : Ls i = if 0 <=? m then terms_of (g_fs x) m else [] }.
  Lemma info i : (i < n)%nat -> exists x s m, sinfo i x s m.
  Proof.
    intros Hi. destruct (nth_error xs i) as [x|] eqn:Ex; [|apply nth_error_None in Ex; rewrite n_xs in Ex; lia]. destruct (nth_error srcs i) as [s|] eqn:Es; [|apply nth_error_None in Es; lia].
    destruct (fnum_in i Hi) as (m & Em). exists x, s, m. constructor; auto; [exact (Forall2_nth_error _ _ _ Hsrc i x s Ex Es)|]. unfold Ls. rewrite (lists_nth xs O i x Ex). unfold terms_in. cbn [Nat.add]. rewrite Em. reflexivity.
  Qed.
  Lemma Ls_sorted i : sorted_terms (Ls i).
  Proof.
    destruct (lt_dec i n) as [Hi|Hi].
    - destruct (info i Hi) as (x & s & m & Hx). rewrite (i_L _ _ _ _ Hx). destruct (0 <=? m); [|constructor]. destruct (i_ok _ _ _ _ Hx) as (_ & _ & HF). destruct (HF m) as (_ & HS & _). exact HS.
    - unfold Ls. rewrite nth_overflow; [constructor|]. assert (forall ys k, length (lists mp f k ys) = length ys) by (induction ys; intros; cbn [lists length]; auto). rewrite H, n_xs. lia.
  Qed.
  Lemma Ls_union i e : In e (Ls i) -> In (fst e) (union ls).
  Proof.
    intros H. apply union_in. apply in_map. unfold Ls in H. apply in_concat. destruct (le_lt_dec (length ls) i) as [Hi|Hi]; [rewrite nth_overflow in H by auto; destruct H|]. exists (nth i ls []). split; auto. apply nth_In. auto.
  Qed.
  (* sub-enumerator i has c terms behind it and stands on the next *)
  Definition sok (i c : nat) (e : ste) : Prop :=
    forall x s m, sinfo i x s m -> if 0 <=? m then exists p, at_ (g_skip x) m (Ls i) p e /\ (Ls i <> [] -> p = S c) else e_field e < 0.
  Definition hd (i c : nat) : list (list Z * nat) := match nth_error (Ls i) c with Some x => [(fst x, i)] | None => [] end.
  Definition heads (c : nat -> nat) : list (list Z * nat) := flat_map (fun i => hd i (c i)) (seq 0 n).
  Definition subs_ok (c : nat -> nat) (subs : list ste) : Prop := length subs = n /\ forall i, (i < n)%nat -> exists e, nth_error subs i = Some e /\ sok i (c i) e.

  Lemma each_ok move (c : nat -> nat) capa : forall srcs' subs k q m,
    length subs = length srcs' -> QInv capa q m ->
    (forall j s e, nth_error srcs' j = Some s -> nth_error subs j = Some e -> exists e', move (k + j)%nat s e = Some (option_map fst (nth_error (Ls (k + j)) (c (k + j)%nat)), e') /\ sok (k + j) (c (k + j)%nat) e') ->
    exists q' subs' m', each move k srcs' subs q = Some (q', subs') /\ QInv capa q' m' /\ Permutation m' (flat_map (fun i => hd i (c i)) (seq k (length srcs')) ++ m) /\
      length subs' = length srcs' /\ forall j, (j < length srcs')%nat -> exists e, nth_error subs' j = Some e /\ sok (k + j) (c (k + j)%nat) e.
  Proof.
    induction srcs' as [|s srcs' IH]; intros [|e subs] k q m Hl HI Hm; cbn [length] in *; try discriminate.
    - exists q, [], m. cbn [each flat_map seq app]. splits; auto. intros j Hj. lia.
    - destruct (Hm O s e eq_refl eq_refl) as (e' & Em & He'). rewrite Nat.add_0_r in *. cbn [each]. rewrite Em. cbn [obind fst snd].
      set (t := nth_error (Ls k) (c k)) in *. assert (Hq : exists q2, match option_map fst t with Some t0 => pq_push (list Z * nat) tew_lt q (t0, k) | None => Some q end = Some q2 /\ QInv capa q2 (hd k (c k) ++ m)).
      { unfold hd. fold t. destruct t as [y|]; cbn [option_map app]; [|eauto]. apply (push_ok _ tew_lt tew_pre). exact HI. }
      destruct Hq as (q2 & -> & HI2). cbn [obind]. destruct (IH subs (S k) q2 (hd k (c k) ++ m)) as (q' & subs' & m' & E & HI' & Hp & Hl' & Hs); [lia|exact HI2| |].
      { intros j s0 e0 H1 H2. specialize (Hm (S j) s0 e0 H1 H2). rewrite Nat.add_succ_r in Hm. exact Hm. }
      rewrite E. cbn [obind fst snd]. exists q', (e' :: subs'), m'. splits; auto; [|cbn [length]; lia|].
      + rewrite Hp. cbn [seq flat_map]. rewrite <- app_assoc. apply Permutation_app_middle || (rewrite !app_assoc; apply Permutation_app_tail; apply Permutation_app_comm).
      + intros [|j] Hj; [exists e'; rewrite Nat.add_0_r; auto|]. rewrite Nat.add_succ_r. apply Hs. lia.
  Qed.

  Lemma hd_in i c y : In y (hd i c) <-> exists x, nth_error (Ls i) c = Some x /\ y = (fst x, i).
  Proof. unfold hd. destruct (nth_error (Ls i) c) as [x|]; cbn [In]; split; [intros [<-|[]]; eauto|intros (x' & H & ->); apply some_inj in H; subst; auto|tauto|intros (x' & H & _); discriminate]. Qed.
  Lemma heads_in c y : In y (heads c) <-> exists i x, (i < n)%nat /\ nth_error (Ls i) (c i) = Some x /\ y = (fst x, i).
  Proof.
    unfold heads. rewrite in_flat_map. split.
    - intros (i & Hi & Hy). apply in_seq in Hi. apply hd_in in Hy. destruct Hy as (x & Hx & ->). exists i, x. split; [lia|auto].
    - intros (i & x & Hi & Hx & ->). exists i. split; [apply in_seq; lia|apply hd_in; eauto].
  Qed.
  Lemma heads_upd c c' i : (i < n)%nat -> (forall j, j <> i -> c' j = c j) -> exists R, Permutation (heads c) (hd i (c i) ++ R) /\ Permutation (heads c') (hd i (c' i) ++ R).
  Proof.
    intros Hi Hc. unfold heads. assert (Hin : In i (seq 0 n)) by (apply in_seq; lia). destruct (in_split _ _ Hin) as (l1 & l2 & E). pose proof (seq_NoDup n 0) as Hnd. rewrite E in Hnd. apply NoDup_remove_2 in Hnd. rewrite E, !flat_map_app. cbn [flat_map].
    assert (G : forall l, ~ In i l -> flat_map (fun i => hd i (c' i)) l = flat_map (fun i => hd i (c i)) l).
    { induction l as [|a l IH]; intros Hn; cbn [flat_map]; auto. rewrite IH by (intros X; apply Hn; right; auto). rewrite Hc; auto. intros ->. apply Hn. left. auto. }
    rewrite in_app_iff in Hnd. rewrite !G by tauto. exists (flat_map (fun i => hd i (c i)) l1 ++ flat_map (fun i => hd i (c i)) l2).
    assert (P : forall (a b d : list (list Z * nat)), Permutation (a ++ b ++ d) (b ++ a ++ d)) by (intros; rewrite !app_assoc; apply Permutation_app_tail, Permutation_app_comm).
    split; apply P.
  Qed.
  Lemma subs_upd c c' subs i e : subs_ok c subs -> (i < n)%nat -> (forall j, j <> i -> c' j = c j) -> sok i (c' i) e -> subs_ok c' (upd subs i e).
  Proof.
    intros (Hl & Hs) Hi Hc He. split; [rewrite upd_length; auto|]. intros j Hj. destruct (Nat.eq_dec j i) as [->|Hne].
    - exists e. split; auto. rewrite upd_eq; auto. lia.
    - rewrite upd_neq by auto. rewrite Hc by auto. apply Hs. auto.
  Qed.
  Lemma subs_ext c c' subs : (forall j, (j < n)%nat -> c' j = c j) -> subs_ok c subs -> subs_ok c' subs.
  Proof. intros Hc (Hl & Hs). split; auto. intros i Hi. rewrite Hc by auto. apply Hs; auto. Qed.
  Lemma heads_ext c c' : (forall j, (j < n)%nat -> c' j = c j) -> heads c' = heads c.
  Proof. intros Hc. unfold heads. assert (H : forall i, In i (seq 0 n) -> (i < n)%nat) by (intros i Hi; apply in_seq in Hi; lia). induction (seq 0 n) as [|a l IH]; auto. cbn [flat_map]. rewrite IH by (intros; apply H; right; auto). rewrite Hc; auto. apply H. left. auto. Qed.

  (* ---------- one term *)
  Section T.
    Variable t : list Z.
    Definition fg (i : nat) : nat := first_ge (Ls i) t.
    Definition hs : list nat := filter (fun i => holds (Ls i) t) (seq 0 n).
    Definition cD (D : list nat) (i : nat) : nat := if existsb (Nat.eqb i) D then S (fg i) else fg i.
    Lemma hs_in i : In i hs <-> (i < n)%nat /\ holds (Ls i) t = true.
    Proof. unfold hs. rewrite filter_In, in_seq. split; intros [H1 H2]; split; auto; lia. Qed.
    Lemma memb_in i D : existsb (Nat.eqb i) D = true <-> In i D.
    Proof. rewrite existsb_exists. split; [intros (x & Hx & E); apply Nat.eqb_eq in E; subst; auto|intros H; exists i; split; auto; apply Nat.eqb_refl]. Qed.
    Lemma hs_sorted : StronglySorted lt hs.
    Proof.
      unfold hs. assert (G : forall m a, StronglySorted lt (filter (fun i => holds (Ls i) t) (seq a m)) /\ Forall (fun i => (a <= i)%nat) (filter (fun i => holds (Ls i) t) (seq a m))).
      { induction m as [|m IH]; intros a; cbn [seq filter]; [split; constructor|]. destruct (IH (S a)) as [H1 H2]. assert (H3 : Forall (fun i => (a <= i)%nat) (filter (fun i => holds (Ls i) t) (seq (S a) m))) by (eapply Forall_impl; [|exact H2]; cbn; intros; lia).
        destruct (holds (Ls a) t); auto. split; constructor; auto. }
      apply G.
    Qed.
    (* the heads around t *)
    Lemma head_ge D i x : nth_error (Ls i) (cD D i) = Some x -> (holds (Ls i) t = true -> fst x = t -> existsb (Nat.eqb i) D = false) /\ (fst x = t -> holds (Ls i) t = true) /\ (fst x <> t -> slt t (fst x)).
    Proof.
      intros Hx. pose proof (Ls_sorted i) as HS. assert (HB : forall k y, nth_error (Ls i) k = Some y -> (first_ge (Ls i) t <= k)%nat -> sle t (fst y)) by (intros k y Hy Hk; apply sltb_ge; destruct (sltb (fst y) t) eqn:E; auto; apply (first_ge_spec (Ls i) t HS k y Hy) in E; lia). unfold cD, fg in Hx. destruct (existsb (Nat.eqb i) D) eqn:ED.
      - assert (G : slt t (fst x)).
        { assert (Hlt : (first_ge (Ls i) t < length (Ls i))%nat) by (assert (S (first_ge (Ls i) t) < length (Ls i))%nat by (apply nth_error_Some; congruence); lia).
          destruct (nth_error (Ls i) (first_ge (Ls i) t)) as [y|] eqn:Ey; [|apply nth_error_None in Ey; lia]. specialize (HB _ y Ey (Nat.le_refl _)). eapply sle_lt_trans; [exact HB|]. eapply sorted_nth; [exact HS|exact Ey|exact Hx|lia]. }
        split; [intros _ E; rewrite E in G; exfalso; exact (slt_irr _ G)|]. split; [intros E; rewrite E in G; exfalso; exact (slt_irr _ G)|auto].
      - split; [auto|]. specialize (HB _ x Hx (Nat.le_refl _)). split.
        + intros E. unfold holds. apply existsb_exists. exists x. split; [eapply nth_error_In; eauto|]. apply seqb_spec. auto.
        + intros E. apply sle_lteq in HB. destruct HB as [HB|HB]; auto. congruence.
    Qed.
    Definition tirel (i : nat) (r : nat * ti) : Prop := fst r = i /\ exists x e, nth_error xs i = Some x /\ find (fun e => seqb (fst e) t) (Ls i) = Some e /\ same_ti (g_skip x) (snd r) (snd e).
    Definition fsum (l : list nat) : Z := fold_right (fun i z => freq_in (Ls i) t + z) 0 l.
    Lemma loop_ok capa : forall todo done fuel q subs df tis m, done ++ todo = hs -> (length todo < fuel)%nat -> subs_ok (cD done) subs -> QInv capa q m -> Permutation m (heads (cD done)) ->
      exists q' subs' tl m', next_loop fuel srcs t q subs df tis = Some (q', subs', df + fsum todo, tis ++ tl) /\ subs_ok (cD hs) subs' /\ QInv capa q' m' /\ Permutation m' (heads (cD hs)) /\ Forall2 tirel todo tl.
    Proof.
      induction todo as [|i todo IH]; intros done [|fuel] q subs df tis m HD Hfu Hs HI HP; cbn [length] in Hfu; try lia.
      - rewrite app_nil_r in HD. subst done. cbn [next_loop]. destruct (top_any _ _ _ HI) as (r & Er & Hr). rewrite Er. cbn [obind]. exists q, subs, [], m. cbn [fsum fold_right]. rewrite app_nil_r, Z.add_0_r.
        assert (H : match r with None => Some (q, subs, df, tis) | Some (t0, _) => if seqb t t0 then None else Some (q, subs, df, tis) end = Some (q, subs, df, tis)).
        { destruct r as [[t0 j]|]; auto. destruct (seqb t t0) eqn:E; auto. exfalso. apply seqb_spec in E. apply (Permutation_in _ HP) in Hr. apply heads_in in Hr. destruct Hr as (i & x & Hi & Hx & Eq). injection Eq as E2 _.
          destruct (head_ge _ _ _ Hx) as (G1 & G2 & _). specialize (G2 ltac:(congruence)). specialize (G1 G2 ltac:(congruence)). rewrite (proj2 (memb_in i hs)) in G1; [discriminate|]. apply hs_in. auto. }
        split; [destruct r as [[t0 j]|]; auto; destruct (seqb t t0); [discriminate|reflexivity]|]. splits; auto.
      - assert (Hin : In i hs) by (rewrite <- HD; apply in_or_app; right; left; auto). apply hs_in in Hin. destruct Hin as (Hi & Hh). pose proof hs_sorted as HSS. rewrite <- HD in HSS.
        assert (Hnd : ~ In i done /\ (forall j, In j todo -> (i < j)%nat)).
        { clear -HSS. induction done as [|a done IHd]; cbn [app] in HSS; inversion HSS as [|? ? H1 H2]; subst.
          - split; [tauto|]. rewrite Forall_forall in H2. exact H2.
          - destruct (IHd H1) as [G1 G2]. split; auto. rewrite Forall_forall in H2. intros [->|G]; [|auto]. specialize (H2 i ltac:(apply in_or_app; right; left; auto)). lia. }
        destruct Hnd as (Hnd & Hgt). assert (Em : existsb (Nat.eqb i) done = false) by (destruct (existsb (Nat.eqb i) done) eqn:E; auto; apply memb_in in E; tauto).
        destruct (proj1 (holds_nth _ t (Ls_sorted i)) Hh) as (e0 & He0 & Et & Hfind).
        assert (Hc0 : cD done i = fg i) by (unfold cD; rewrite Em; reflexivity).
        assert (Hm : In (t, i) m). { apply (Permutation_in _ (Permutation_sym HP)). apply heads_in. exists i, e0. split; auto. split; [rewrite Hc0; exact He0|congruence]. }
        assert (Hmin : forall y, In y m -> y <> (t, i) -> tew_lt (t, i) y = true).
        { intros y Hy Hne. apply (Permutation_in _ HP) in Hy. apply heads_in in Hy. destruct Hy as (j & x & Hj & Hx & ->). apply tew_lt_spec. cbn [fst snd]. destruct (head_ge _ _ _ Hx) as (G1 & G2 & G3).
          destruct (seqb (fst x) t) eqn:Es; [|left; apply G3; intros E; rewrite E, (proj2 (seqb_spec _ _) eq_refl) in Es; discriminate]. apply seqb_spec in Es. right. split; auto. specialize (G2 Es). specialize (G1 G2 Es).
          assert (Hjh : In j hs) by (apply hs_in; auto). rewrite <- HD in Hjh. apply in_app_or in Hjh. destruct Hjh as [Hjh|[Hjh|Hjh]]; [apply memb_in in Hjh; congruence|subst j; rewrite Es in Hne; congruence|apply Hgt; auto]. }
        destruct (top_pop _ _ _ _ HI Hm Hmin) as (Etop & m1 & q1 & Epop & HPm & HI1). cbn [next_loop]. rewrite Etop. cbn [obind]. rewrite (proj2 (seqb_spec t t) eq_refl), Epop. cbn [obind fst snd].
        destruct Hs as (Hsl & Hsub). destruct (Hsub i Hi) as (e & Ee & Hsok). rewrite Ee. cbn [obind]. destruct (info i Hi) as (x & s & k & Hinf). rewrite (i_s _ _ _ _ Hinf). cbn [obind].
        pose proof (Hsok x s k Hinf) as Hat. pose proof (i_L _ _ _ _ Hinf) as EL. destruct (0 <=? k) eqn:Ek; [|rewrite EL in He0; destruct (fg i); destruct (first_ge [] t); discriminate].
        rewrite Hc0 in Hat. destruct Hat as (pp & Hat & Hpp). rewrite Hpp in Hat by (intros X; rewrite X in He0; destruct (first_ge [] t); discriminate). clear pp Hpp. rewrite EL in Hat. destruct (next_ok x s k (S (fg i)) e (i_ok _ _ _ _ Hinf) Hat) as (e' & En & Hat'). rewrite <- EL in En, Hat, Hat'. rewrite En. cbn [obind fst snd].
        assert (Hlen : (S (fg i) <= length (Ls i))%nat) by (apply nth_error_Some; unfold fg; congruence). rewrite place_cnt in Hat' by auto.
        assert (Hc1 : cD (done ++ [i]) i = S (fg i)) by (unfold cD; rewrite existsb_app; cbn [existsb]; rewrite Nat.eqb_refl, orb_true_r; reflexivity).
        assert (Hcj : forall j, j <> i -> cD (done ++ [i]) j = cD done j) by (intros j Hj; unfold cD; rewrite existsb_app; cbn [existsb]; rewrite (proj2 (Nat.eqb_neq j i) Hj), !orb_false_r; reflexivity).
        destruct (heads_upd (cD done) (cD (done ++ [i])) i Hi Hcj) as (R & HR1 & HR2). rewrite Hc0 in HR1. rewrite Hc1 in HR2.
        assert (HmR : Permutation m1 R). { apply (Permutation_cons_inv (a := (t, i))). rewrite <- HPm, HP, HR1. unfold hd, fg. rewrite He0, Et. reflexivity. }
        assert (Hq : exists q2, match option_map fst (nth_error (Ls i) (S (fg i))) with Some t2 => pq_push (list Z * nat) tew_lt q1 (t2, i) | None => Some q1 end = Some q2 /\ QInv capa q2 (hd i (S (fg i)) ++ m1)).
        { unfold hd. destruct (nth_error (Ls i) (S (fg i))) as [y|]; cbn [option_map app]; [|eauto]. apply (push_ok _ tew_lt tew_pre). exact HI1. }
        destruct Hq as (q2 & Eq2 & HI2). rewrite Eq2. cbn [obind].
        assert (Hti : same_ti (g_skip x) (e_ti e) (snd e0)).
        { destruct Hat as (_ & _ & [(_ & _ & _ & H & _)|(Hx & _)]); [|exfalso; lia]. unfold fg in H. rewrite (T_S _ _ _ He0) in H. exact H. }
        destruct (IH (done ++ [i]) fuel q2 (upd subs i e') (df + ti_df (e_ti e)) (tis ++ [(i, e_ti e)]) (hd i (S (fg i)) ++ m1)) as (q' & subs' & tl & m' & EQ & Hs' & HI' & HP' & HF'); auto.
        + rewrite <- app_assoc. exact HD.
        + lia.
        + apply (subs_upd (cD done)); auto; [split; auto|]. rewrite Hc1. intros x' s' k' Hinf'. pose proof (i_x _ _ _ _ Hinf). pose proof (i_x _ _ _ _ Hinf'). pose proof (i_f _ _ _ _ Hinf). pose proof (i_f _ _ _ _ Hinf'). assert (x' = x) by congruence. assert (k' = k) by congruence. subst x' k'. rewrite Ek. exists (S (S (fg i))). split; auto.
        + rewrite HR2. apply Permutation_app_head. exact HmR.
        + rewrite EQ. exists q', subs', ((i, e_ti e) :: tl), m'. split.
          * f_equal. f_equal; [f_equal|]; [|rewrite <- app_assoc; reflexivity]. cbn [fsum fold_right]. fold (fsum todo). unfold freq_in at 1. rewrite Hfind. destruct Hti as (Hdf & _). rewrite Hdf. lia.
          * split; [exact Hs'|]. split; [exact HI'|]. split; [exact HP'|]. constructor; auto. split; [reflexivity|]. exists x, e0. split; [exact (i_x _ _ _ _ Hinf)|]. split; auto.
    Qed.
    Lemma fsum_hs : fsum hs = freq_sum ls t.
    Proof.
      assert (G : forall l a, fold_right (fun i z => freq_in (nth (i - a) l []) t + z) 0 (filter (fun i => holds (nth (i - a) l []) t) (seq a (length l))) = freq_sum l t).
      { induction l as [|y l IH]; intros a; [reflexivity|]. cbn [length seq filter freq_sum fold_right]. rewrite Nat.sub_diag. change (nth 0 (y :: l) []) with y. fold (freq_sum l t).
        assert (E : forall k, In k (seq (S a) (length l)) -> nth (k - a) (y :: l) [] = nth (k - S a) l []). { intros k Hk. apply in_seq in Hk. replace (k - a)%nat with (S (k - S a)) by lia. reflexivity. }
        assert (E2 : fold_right (fun i z => freq_in (nth (i - a) (y :: l) []) t + z) 0 (filter (fun i => holds (nth (i - a) (y :: l) []) t) (seq (S a) (length l))) = freq_sum l t).
        { rewrite <- (IH (S a)). clear IH. induction (seq (S a) (length l)) as [|k ks IHk]; [reflexivity|]. cbn [filter]. rewrite (E k) by (left; auto). specialize (IHk (fun k Hk => E k (or_intror Hk))). destruct (holds (nth (k - S a) l []) t); cbn [fold_right]; rewrite IHk; auto. rewrite (E k) by (left; auto). reflexivity. }
        destruct (holds y t) eqn:Eh; cbn [fold_right]; [rewrite Nat.sub_diag; change (nth 0 (y :: l) []) with y; rewrite E2; reflexivity|]. rewrite E2. unfold freq_in. destruct (find (fun e : entry => seqb (fst e) t) y) as [e|] eqn:Ef; [|lia]. apply find_some in Ef. destruct Ef as [H1 H2]. exfalso. unfold holds in Eh. assert (existsb (fun e : entry => seqb (fst e) t) y = true) by (apply existsb_exists; eauto). congruence. }
      rewrite <- (G ls O). assert (length ls = n) as ->. { assert (forall ys k, length (lists mp f k ys) = length ys) by (induction ys; intros; cbn [lists length]; auto). rewrite H. apply n_xs. }
      unfold fsum, hs, Ls. assert (forall l, filter (fun i => holds (nth i ls []) t) l = filter (fun i => holds (nth (i - 0) ls []) t) l) as -> by (intros l; apply filter_ext; intros a; rewrite Nat.sub_0_r; reflexivity).
      induction (filter _ _) as [|k ks IHk]; auto. cbn [fold_right]. rewrite IHk, Nat.sub_0_r. reflexivity.
    Qed.
    Lemma hs_le : (length hs <= n)%nat.
    Proof. unfold hs. rewrite <- (seq_length n 0) at 2. generalize (seq 0 n). induction l as [|a l IH]; cbn [filter length]; auto. destruct (holds (Ls a) t); cbn [length]; lia. Qed.
  End T.

  (* ---------- states *)
  Definition cb (b : option (list Z)) (i : nat) : nat := cnt (Ls i) b.
  Definition inv (capa : nat) (b : option (list Z)) (m : mte) : Prop :=
    subs_ok (cb b) (q_subs m) /\ exists qm, QInv capa (q_te m) qm /\ Permutation qm (heads (cb b)).
  Notation M := (union ls).
  Lemma next_inv capa p m : inv capa (nth_error M p) m ->
    match nth_error M p with
    | Some t => exists m', mte_next srcs m = Some (Some t, m') /\ inv capa (nth_error M (S p)) m' /\ q_df m' = freq_sum ls t /\ q_term m' = t /\ Forall2 (tirel t) (hs t) (q_tis m')
    | None => exists m', mte_next srcs m = Some (None, m') /\ inv capa None m' /\ q_term m' = []
    end.
  Proof.
    intros (Hs & qm & HI & HP). pose proof (union_sorted ls) as HSM. unfold mte_next. destruct (nth_error M p) as [t|] eqn:Ep.
    - assert (E0 : forall i, (i < n)%nat -> cD t [] i = cb (Some t) i) by (intros i _; reflexivity).
      (* some segment holds t *)
      assert (Hne : hs t <> []).
      { pose proof (nth_error_In _ _ Ep) as Hin. apply union_in in Hin. apply in_map_iff in Hin. destruct Hin as (e & Ee & He). apply in_concat in He. destruct He as (L & HL & He). apply (In_nth _ _ []) in HL. destruct HL as (i & Hi & HL).
        assert (length ls = n) as Hln. { assert (forall ys k, length (lists mp f k ys) = length ys) by (induction ys; intros; cbn [lists length]; auto). rewrite H. apply n_xs. }
        intros Hn. assert (In i (hs t)) as Hx; [|rewrite Hn in Hx; destruct Hx]. apply hs_in. split; [lia|]. unfold holds, Ls. rewrite HL. apply existsb_exists. exists e. split; auto. apply seqb_spec. auto. }
      destruct (hs t) as [|i hr] eqn:Eh; [congruence|]. clear Hne.
      assert (Hi : In i (hs t)) by (rewrite Eh; left; auto). pose proof Hi as Hi2. apply hs_in in Hi2. destruct Hi2 as (Hi2 & Hh). destruct (proj1 (holds_nth _ t (Ls_sorted i)) Hh) as (e0 & He0 & Et & _).
      assert (Hm : In (t, i) qm). { apply (Permutation_in _ (Permutation_sym HP)). apply heads_in. exists i, e0. split; auto. split; [exact He0|congruence]. }
      destruct (top_pop _ _ _ (t, i) HI Hm) as (Etop & _).
      { intros y Hy Hney. apply (Permutation_in _ HP) in Hy. apply heads_in in Hy. destruct Hy as (j & x & Hj & Hx & ->). apply tew_lt_spec. cbn [fst snd]. destruct (head_ge t [] j x Hx) as (G1 & G2 & G3).
        destruct (seqb (fst x) t) eqn:Es; [|left; apply G3; intros E; rewrite E, (proj2 (seqb_spec _ _) eq_refl) in Es; discriminate]. apply seqb_spec in Es. right. split; auto.
        assert (Hjh : In j (hs t)) by (apply hs_in; auto). rewrite Eh in Hjh. pose proof (hs_sorted t) as HSS. rewrite Eh in HSS. inversion HSS as [|? ? H1 H2]; subst. destruct Hjh as [->|Hjh]; [congruence|]. rewrite Forall_forall in H2. apply H2. auto. }
      rewrite Etop. cbn [obind]. destruct (loop_ok t capa (hs t) [] (S n) (q_te m) (q_subs m) 0 [] qm) as (q' & subs' & tl & m' & EQ & Hs' & HI' & HP' & HF'); auto.
      { pose proof (hs_le t). lia. }
      rewrite EQ. cbn [obind]. cbn [app]. eexists. split; [reflexivity|]. cbn [q_te q_subs q_df q_term q_tis]. rewrite fsum_hs. rewrite <- Eh.
      assert (EC : forall j, (j < n)%nat -> cb (nth_error M (S p)) j = cD t (hs t) j).
      { intros j Hj. unfold cb. rewrite (cnt_next M (Ls j) p t HSM (Ls_union j) (Ls_sorted j) Ep). unfold cD, fg. destruct (holds (Ls j) t) eqn:Ehj.
        - rewrite (proj2 (memb_in j (hs t))); auto. apply hs_in. auto.
        - destruct (existsb (Nat.eqb j) (hs t)) eqn:E; auto. apply memb_in in E. apply hs_in in E. destruct E. congruence. }
      split; [|auto]. split; cbn [q_subs q_te].
      + apply (subs_ext (cD t (hs t))); auto.
      + exists m'. split; auto. rewrite (heads_ext _ _ EC). exact HP'.
    - assert (HE : heads (cb None) = []).
      { destruct (heads (cb None)) as [|y l] eqn:E; auto. exfalso. assert (Hy : In y (heads (cb None))) by (rewrite E; left; auto). apply heads_in in Hy. destruct Hy as (i & x & _ & Hx & _).
        assert (cb None i < length (Ls i))%nat by (apply nth_error_Some; congruence). unfold cb, cnt in H. cbn [lt_b] in H. assert (forall (l : list entry), filter (fun _ => true) l = l) by (induction l0; cbn [filter]; congruence). rewrite H0 in H. lia. }
      rewrite HE in HP. apply Permutation_sym, Permutation_nil in HP. subst qm. destruct (top_any _ _ _ HI) as (r & Er & Hr). rewrite Er. destruct r; [destruct Hr|]. cbn [obind]. eexists. split; [reflexivity|]. split; [|reflexivity]. split; cbn [q_subs q_te]; auto. exists []. rewrite HE. auto.
  Qed.
  Lemma set_ok capa q qm subs : length subs = n -> QInv capa q qm -> exists q' subs', each (set_move mp f) O srcs subs (emptied q) = Some (q', subs') /\ forall tm df tis, inv capa (nth_error M O) (mkMte q' subs' tm df tis).
  Proof.
    intros Hl HI. destruct (each_ok (set_move mp f) (fun _ => O) capa srcs subs O (emptied q) []) as (q' & subs' & m' & E & HI' & HP & Hl' & Hs); auto.
    - eapply emptied_ok. exact HI.
    - intros j s e Hs He. cbn [Nat.add]. assert (Hj : (j < n)%nat) by (apply nth_error_Some; congruence). destruct (info j Hj) as (x & s' & k & Hinf). pose proof (i_s _ _ _ _ Hinf) as Es. rewrite Hs in Es. apply some_inj in Es. subst s'.
      unfold set_move. rewrite (i_f _ _ _ _ Hinf). cbn [obind]. pose proof (i_L _ _ _ _ Hinf) as EL. destruct (0 <=? k) eqn:Ek.
      + destruct (next_ok x s k O (ste_set_field (fst s) (snd s) e k) (i_ok _ _ _ _ Hinf) (set_at x s e k (i_ok _ _ _ _ Hinf))) as (e' & En & Hat). rewrite <- EL in En, Hat. rewrite En. exists e'. split; auto. rewrite place_cnt in Hat by lia.
        intros x' s' k' Hinf'. pose proof (i_x _ _ _ _ Hinf). pose proof (i_x _ _ _ _ Hinf'). pose proof (i_f _ _ _ _ Hinf). pose proof (i_f _ _ _ _ Hinf'). assert (x' = x) by congruence. assert (k' = k) by congruence. subst x' k'. rewrite Ek. exists 1%nat. split; auto.
      + exists (switch_off e). rewrite EL. split; [reflexivity|]. intros x' s' k' Hinf'. pose proof (i_f _ _ _ _ Hinf). pose proof (i_f _ _ _ _ Hinf'). assert (k' = k) by congruence. subst k'. rewrite Ek. cbn. lia.
    - exists q', subs'. split; auto. intros tm df tis. rewrite app_nil_r in HP.
      assert (EC : forall j, (j < n)%nat -> cb (nth_error M O) j = (fun _ => O) j) by (intros j _; apply cnt_zero; [apply union_sorted|apply Ls_union]).
      split; cbn [q_subs q_te]; [apply (subs_ext (fun _ => O)); auto; split; auto|]. exists m'. split; auto. rewrite (heads_ext _ _ EC). exact HP.
  Qed.
  Lemma skip_ok capa b m t : inv capa b m -> exists q' subs', each (skip_move t) O srcs (q_subs m) (emptied (q_te m)) = Some (q', subs') /\ forall tm df tis, inv capa (nth_error M (below M t)) (mkMte q' subs' tm df tis).
  Proof.
    intros ((Hl & Hsub) & qm & HI & HP0). destruct (each_ok (skip_move t) (fg t) capa srcs (q_subs m) O (emptied (q_te m)) []) as (q' & subs' & m' & E & HI' & HP & Hl' & Hs); auto.
    - eapply emptied_ok. exact HI.
    - intros j s e Hs He. cbn [Nat.add]. assert (Hj : (j < n)%nat) by (apply nth_error_Some; congruence). destruct (info j Hj) as (x & s' & k & Hinf). pose proof (i_s _ _ _ _ Hinf) as Es. rewrite Hs in Es. apply some_inj in Es. subst s'.
      destruct (Hsub j Hj) as (e1 & Ee1 & Hsok). rewrite He in Ee1. apply some_inj in Ee1. subst e1. specialize (Hsok x s k Hinf). unfold skip_move. pose proof (i_L _ _ _ _ Hinf) as EL. destruct (0 <=? k) eqn:Ek.
      + destruct Hsok as (pp & Hsok & Hpp). assert (e_field e = k) as -> by (destruct Hsok; auto). rewrite Ek. rewrite EL in Hsok. destruct (scan_ok x s k _ e t (i_ok _ _ _ _ Hinf) Hsok) as (e' & p' & En & Hat & Hp1 & Hp2). rewrite <- EL in En, Hat, Hp1, Hp2, Hsok. exists e'. split; [exact En|].
        intros x' s' k' Hinf'. pose proof (i_x _ _ _ _ Hinf). pose proof (i_x _ _ _ _ Hinf'). pose proof (i_f _ _ _ _ Hinf). pose proof (i_f _ _ _ _ Hinf'). assert (x' = x) by congruence. assert (k' = k) by congruence. subst x' k'. rewrite Ek.
        exists p'. split; auto.
      + assert (0 <=? e_field e = false) as -> by (apply Z.leb_gt; exact Hsok). exists e. rewrite EL. split; [destruct (fg t j); reflexivity|]. intros x' s' k' Hinf'. pose proof (i_f _ _ _ _ Hinf). pose proof (i_f _ _ _ _ Hinf'). assert (k' = k) by congruence. subst k'. rewrite Ek. exact Hsok.
    - exists q', subs'. split; auto. intros tm df tis. rewrite app_nil_r in HP.
      assert (EC : forall j, (j < n)%nat -> cb (nth_error M (below M t)) j = fg t j) by (intros j _; apply cnt_below; [apply union_sorted|apply Ls_union]).
      split; cbn [q_subs q_te]; [apply (subs_ext (fg t)); auto; split; auto|]. exists m'. split; auto. rewrite (heads_ext _ _ EC). exact HP.
  Qed.
  (* mte_new *)
  Lemma new_ok_none : exists m, mte_new srcs mp f None = Some (None, m) /\ inv n (nth_error M O) m.
  Proof.
    unfold mte_new. destruct (each_ok (new_move mp f None) (fun _ => O) n srcs (map (fun _ => ste_new) srcs) O (pq_new _ n) []) as (q' & subs' & m' & E & HI' & HP & Hl' & Hs).
    - apply map_length.
    - apply PQueue_Proofs.new_ok.
    - intros j s e Hs He. cbn [Nat.add]. assert (Hj : (j < n)%nat) by (apply nth_error_Some; congruence). destruct (info j Hj) as (x & s' & k & Hinf). pose proof (i_s _ _ _ _ Hinf) as Es. rewrite Hs in Es. apply some_inj in Es. subst s'.
      unfold new_move. rewrite (i_f _ _ _ _ Hinf). cbn [obind]. pose proof (i_L _ _ _ _ Hinf) as EL. destruct (0 <=? k) eqn:Ek.
      + destruct (next_ok x s k O (ste_set_field (fst s) (snd s) e k) (i_ok _ _ _ _ Hinf) (set_at x s e k (i_ok _ _ _ _ Hinf))) as (e' & En & Hat). rewrite <- EL in En, Hat. rewrite En. exists e'. split; auto. rewrite place_cnt in Hat by lia.
        intros x' s' k' Hinf'. pose proof (i_x _ _ _ _ Hinf). pose proof (i_x _ _ _ _ Hinf'). pose proof (i_f _ _ _ _ Hinf). pose proof (i_f _ _ _ _ Hinf'). assert (x' = x) by congruence. assert (k' = k) by congruence. subst x' k'. rewrite Ek. exists 1%nat. split; auto.
      + eexists. rewrite EL. split; [reflexivity|]. intros x' s' k' Hinf'. pose proof (i_f _ _ _ _ Hinf). pose proof (i_f _ _ _ _ Hinf'). assert (k' = k) by congruence. subst k'. rewrite Ek. cbn. lia.
    - rewrite E. cbn [obind fst snd]. eexists. split; [reflexivity|]. rewrite app_nil_r in HP.
      assert (EC : forall j, (j < n)%nat -> cb (nth_error M O) j = (fun _ => O) j) by (intros j _; apply cnt_zero; [apply union_sorted|apply Ls_union]).
      split; cbn [q_subs q_te]; [apply (subs_ext (fun _ => O)); auto; split; auto|]. exists m'. split; auto. rewrite (heads_ext _ _ EC). exact HP.
  Qed.
  Lemma new_ok_from t : t <> [] \/ ~ In [] M -> exists m, mte_new srcs mp f (Some t) = Some (nth_error M (below M t), m) /\ inv n (nth_error M (S (below M t))) m /\ (nth_error M (below M t) <> None -> q_df m = freq_sum ls (nth (below M t) M [])) /\ q_term m = nth (below M t) M [].
  Proof.
    intros Ht. unfold mte_new. destruct (each_ok (new_move mp f (Some t)) (fg t) n srcs (map (fun _ => ste_new) srcs) O (pq_new _ n) []) as (q' & subs' & m' & E & HI' & HP & Hl' & Hs).
    - apply map_length.
    - apply PQueue_Proofs.new_ok.
    - intros j s e Hs He. cbn [Nat.add]. assert (Hj : (j < n)%nat) by (apply nth_error_Some; congruence). destruct (info j Hj) as (x & s' & k & Hinf). pose proof (i_s _ _ _ _ Hinf) as Es. rewrite Hs in Es. apply some_inj in Es. subst s'.
      unfold new_move. rewrite (i_f _ _ _ _ Hinf). cbn [obind]. pose proof (i_L _ _ _ _ Hinf) as EL. destruct (0 <=? k) eqn:Ek.
      + destruct (scan_ok x s k _ _ t (i_ok _ _ _ _ Hinf) (set_at x s e k (i_ok _ _ _ _ Hinf))) as (e' & p' & En & Hat & Hp1 & Hp2). rewrite En. cbn [obind fst snd]. rewrite <- EL in Hat, Hp1, Hp2. exists e'. split.
        * f_equal. f_equal. unfold fg. destruct (Ls j) as [|y L'] eqn:EJ.
          -- destruct (Hp2 eq_refl) as (_ & ->). pose proof (set_at x s e k (i_ok _ _ _ _ Hinf)) as (_ & _ & [(_ & _ & H & _)|(_ & _ & H)]); rewrite H; destruct (first_ge [] t); reflexivity.
          -- rewrite <- EJ in *. specialize (Hp1 ltac:(rewrite EJ; discriminate)). subst p'. destruct (nth_error (Ls j) (first_ge (Ls j) t)) as [c|] eqn:Ec; cbn [option_map].
             ++ assert (Hlt : (first_ge (Ls j) t < length (Ls j))%nat) by (apply nth_error_Some; congruence).
                destruct Hat as (_ & _ & [(_ & _ & H & _)|(H & _)]); [|exfalso; lia]. rewrite (T_S _ _ _ Ec) in H. rewrite H. destruct (head_ge t [] j c Ec) as (_ & _ & G3).
                destruct (fst c) as [|b r] eqn:Ef; auto. exfalso. destruct Ht as [Ht|Ht]; [|apply Ht; rewrite <- Ef; apply (Ls_union j); apply nth_error_In with (1 := Ec)]. destruct (seqb [] t) eqn:Es; [apply seqb_spec in Es; congruence|]. assert (G : slt t []) by (apply G3; congruence). destruct t; [congruence|discriminate].
             ++ apply nth_error_None in Ec. destruct Hat as (_ & _ & [(H & _)|(_ & _ & H)]); [exfalso; lia|]. rewrite H. reflexivity.
        * intros x' s' k' Hinf'. pose proof (i_x _ _ _ _ Hinf). pose proof (i_x _ _ _ _ Hinf'). pose proof (i_f _ _ _ _ Hinf). pose proof (i_f _ _ _ _ Hinf'). assert (x' = x) by congruence. assert (k' = k) by congruence. subst x' k'. rewrite Ek. exists p'. split; auto.
      + eexists. rewrite EL. split; [destruct (fg t j); reflexivity|]. intros x' s' k' Hinf'. pose proof (i_f _ _ _ _ Hinf). pose proof (i_f _ _ _ _ Hinf'). assert (k' = k) by congruence. subst k'. rewrite Ek. cbn. lia.
    - rewrite E. cbn [obind fst snd]. rewrite app_nil_r in HP.
      assert (EC : forall j, (j < n)%nat -> cb (nth_error M (below M t)) j = fg t j) by (intros j _; apply cnt_below; [apply union_sorted|apply Ls_union]).
      assert (HV : inv n (nth_error M (below M t)) (mkMte q' subs' [] 0 [])).
      { split; cbn [q_subs q_te]; [apply (subs_ext (fg t)); auto; split; auto|]. exists m'. split; auto. rewrite (heads_ext _ _ EC). exact HP. }
      pose proof (next_inv _ _ _ HV) as HN. destruct (nth_error M (below M t)) as [u|] eqn:Eu.
      + destruct HN as (m2 & E2 & HV2 & Hdf & Htm & _). exists m2. split; [|split; [auto|rewrite (nth_error_nth _ _ _ Eu); auto]].
        destruct (0 <? pq_size q')%nat eqn:Es; auto. exfalso. apply Nat.ltb_ge in Es. unfold mte_next, pq_top in E2. cbn [q_te] in E2. rewrite (proj2 (Nat.ltb_ge 0 (pq_size q')) Es) in E2. cbn [obind] in E2. discriminate.
      + destruct HN as (m2 & E2 & HV2 & Htm). rewrite (nth_overflow _ _ (proj1 (nth_error_None _ _) Eu)). assert (ES : nth_error M (S (below M t)) = None) by (apply nth_error_None; apply nth_error_None in Eu; lia). rewrite ES. destruct (0 <? pq_size q')%nat.
        * exists m2. split; auto. split; auto. split; [congruence|exact Htm].
        * eexists. split; [reflexivity|]. split; auto. split; [congruence|reflexivity].
  Qed.
End M.

(* ---------- histories *)
Section R.
  Variables (mp : option (list (list Z))) (xs : list sgm) (srcs : list src).
  Hypothesis Hsrc : Forall2 src_ok xs srcs.
  Notation n := (length srcs).
  Definition cinv (c : Z * nat) (m : mte) : Prop := field_in mp n (fst c) /\ exists capa, inv mp xs srcs (fst c) capa (nth_error (union (lists mp (fst c) O xs)) (snd c)) m.
  Lemma go_ok f p m : cinv (f, p) m -> exists r, mte_next srcs m = Some r /\ seen r = fst (go (lists mp f O xs) f p) /\ cinv (snd (go (lists mp f O xs) f p)) (snd r).
  Proof.
    intros (Hf & capa & HV). cbn [fst snd] in *. pose proof (next_inv mp xs srcs Hsrc f Hf capa p m HV) as HN. unfold go. destruct (nth_error (union (lists mp f 0 xs)) p) as [t|] eqn:E.
    - destruct HN as (m' & E2 & HV' & Hdf & _). exists (Some t, m'). split; auto. unfold seen. cbn [fst snd]. rewrite Hdf. split; auto. split; auto. exists capa. exact HV'.
    - destruct HN as (m' & E2 & HV' & _). exists (None, m'). split; auto. split; [reflexivity|]. cbn [fst snd]. split; auto. exists capa. cbn [fst snd]. rewrite (proj2 (nth_error_None _ _)) by lia. exact HV'.
  Qed.
  Lemma qstep_ok c m o : cinv c m -> qop_ok mp n o -> exists m', mte_step srcs mp m o = Some (fst (qspec_step mp xs c o), m') /\ cinv (snd (qspec_step mp xs c o)) m'.
  Proof.
    destruct c as [f p]. intros HC Ho. pose proof HC as (Hf & capa & HV). cbn [fst snd] in *. destruct o as [g| |t]; cbn [mte_step qspec_step fst snd qop_ok] in *.
    - destruct HV as ((Hl & _) & qm & HI & _). destruct (set_ok mp xs srcs Hsrc g Ho capa _ _ _ Hl HI) as (q' & subs' & E & HV). unfold mte_set_field. rewrite E. cbn [obind fst snd]. eexists. split; [reflexivity|]. split; auto. exists capa. apply HV.
    - destruct (go_ok f p m HC) as (r & E & Hs & HC'). rewrite E. cbn [obind]. exists (snd r). rewrite Hs. auto.
    - destruct (skip_ok mp xs srcs Hsrc f Hf capa _ m t HV) as (q' & subs' & E & HV'). unfold mte_skip_to. rewrite E. cbn [obind fst snd].
      destruct (go_ok f (below (union (lists mp f 0 xs)) t) (mkMte q' subs' (q_term m) (q_df m) (q_tis m))) as (r & E2 & Hs & HC'); [split; auto; exists capa; apply HV'|].
      rewrite E2. cbn [obind]. exists (snd r). rewrite Hs. auto.
  Qed.
  Lemma qrun_ok os : forall c m, cinv c m -> Forall (qop_ok mp n) os -> mte_run srcs mp m os = Some (qspec_run mp xs c os).
  Proof.
    induction os as [|o os IH]; intros c m HC HO; [reflexivity|]. inversion HO as [|? ? H1 H2]; subst. destruct (qstep_ok c m o HC H1) as (m' & E & HC'). cbn [mte_run qspec_run]. rewrite E. cbn [obind fst snd].
    destruct (qspec_step mp xs c o) as [r c'] eqn:Es. cbn [fst snd] in *. rewrite (IH c' m' HC' H2). reflexivity.
  Qed.
End R.

(* ---------- written and opened *)
Lemma opened_ok x s : sgm_ok x -> opened x s -> src_ok x s.
Proof.
  intros Hx (E1 & E2). destruct (open_src x Hx) as (f & d & F1 & F2 & Hok). rewrite E1 in F1. apply some_inj in F1. destruct s as [a b]. cbn [fst snd] in *. subst a. rewrite E2 in F2. apply some_inj in F2. subst b. exact Hok.
Qed.
Lemma opened_all xs : Forall sgm_ok xs -> exists srcs, Forall2 opened xs srcs.
Proof.
  induction 1 as [|x xs Hx _ (srcs & IH)]; [exists []; constructor|]. destruct (open_src x Hx) as (f & d & F1 & F2 & _). exists ((f, d) :: srcs). constructor; auto. split; auto.
Qed.
Lemma srcs_ok xs srcs : Forall sgm_ok xs -> Forall2 opened xs srcs -> Forall2 src_ok xs srcs.
Proof. intros HF H. induction H; constructor; inversion HF; subst; auto. apply opened_ok; auto. Qed.

Theorem merged_terms mp xs srcs f os : Forall sgm_ok xs -> Forall2 opened xs srcs -> field_in mp (length xs) f -> Forall (qop_ok mp (length xs)) os ->
  exists m, mte_new srcs mp f None = Some (None, m) /\ mte_run srcs mp m os = Some (qspec_run mp xs (f, O) os).
Proof.
  intros HF HO Hf Hos. pose proof (srcs_ok _ _ HF HO) as Hsrc. rewrite (n_xs _ _ Hsrc) in *. destruct (new_ok_none mp xs srcs Hsrc f Hf) as (m & E & HV). exists m. split; auto. apply qrun_ok; auto. split; auto. exists (length srcs). exact HV.
Qed.
Theorem merged_from mp xs srcs f t os : Forall sgm_ok xs -> Forall2 opened xs srcs -> field_in mp (length xs) f -> Forall (qop_ok mp (length xs)) os -> (t <> [] \/ ~ In [] (union (lists mp f O xs))) ->
  exists r, mte_new srcs mp f (Some t) = Some r /\ option_map (cons (seen r)) (mte_run srcs mp (snd r) os) = Some (qspec_run mp xs (f, O) (QScan t :: os)).
Proof.
  intros HF HO Hf Hos Ht. pose proof (srcs_ok _ _ HF HO) as Hsrc. rewrite (n_xs _ _ Hsrc) in *. destruct (new_ok_from mp xs srcs Hsrc f Hf t Ht) as (m & E & HV & Hdf & _). eexists. split; [exact E|]. cbn [snd qspec_run qspec_step fst].
  set (ls := lists mp f 0 xs) in *. unfold go. unfold seen. cbn [fst snd]. destruct (nth_error (union ls) (below (union ls) t)) as [u|] eqn:Eu.
  - rewrite Hdf by discriminate. rewrite (nth_error_nth _ _ _ Eu). rewrite (qrun_ok mp xs srcs Hsrc os (f, S (below (union ls) t)) m); auto. split; auto. exists (length srcs). exact HV.
  - rewrite (qrun_ok mp xs srcs Hsrc os (f, S (length (union ls))) m); auto. split; auto. exists (length srcs). cbn [fst snd]. fold ls. rewrite (proj2 (nth_error_None _ _)) by lia. rewrite (proj2 (nth_error_None (union ls) (S (below (union ls) t)))) in HV by (apply nth_error_None in Eu; lia). exact HV.
Qed.
(* what the merged list is *)
Theorem union_spec ls : StronglySorted slt (union ls) /\ forall t, In t (union ls) <-> exists l, In l ls /\ In t (map fst l).
Proof.
  split; [apply union_sorted|]. intros t. rewrite union_in, in_map_iff. split.
  - intros (e & <- & H). apply in_concat in H. destruct H as (l & Hl & He). exists l. split; auto. apply in_map. auto.
  - intros (l & Hl & H). apply in_map_iff in H. destruct H as (e & <- & He). exists e. split; auto. apply in_concat. eauto.
Qed.
Lemma doc_freq_ok mp f t : forall xs srcs k, Forall2 src_ok xs srcs -> (forall i, (i < length xs)%nat -> fnum mp (k + i) f <> None) -> mr_doc_freq k srcs mp f t = Some (freq_sum (lists mp f k xs) t).
Proof.
  intros xs srcs k H. revert k. induction H as [|x s xs srcs Hx H IH]; intros k Hn; [reflexivity|]. cbn [mr_doc_freq lists freq_sum fold_right]. pose proof (Hn O ltac:(cbn; lia)) as H0. rewrite Nat.add_0_r in H0. destruct (fnum mp k f) as [m|] eqn:Ef; [|congruence]. cbn [obind].
  assert (Hd : (if 0 <=? m then do x0 <- tir_get_ti (fst s) (snd s) (ste_set_field (fst s) (snd s) ste_new m) t; Some (match fst x0 with Some j => ti_df j | None => 0 end) else Some 0) = Some (freq_in (terms_in mp f k x) t)).
  { unfold terms_in. rewrite Ef. destruct (0 <=? m); [|reflexivity]. pose proof Hx as (Hfs & HI & HF).
    destruct (step_sim (g_int x) (g_skip x) HI (g_fs x) (fst s) (snd s) m O _ (DLookup t) Hfs (set_at x s ste_new m Hx)) as (r & e' & Er & Hdr & _). cbn [ste_step] in Er. destruct (tir_get_ti (fst s) (snd s) (ste_set_field (fst s) (snd s) ste_new m) t) as [[r0 e0]|]; cbn [obind fst snd] in *; [|discriminate]. apply some_inj in Er. injection Er as <- <-.
    cbn [spec_step fst snd] in Hdr. unfold freq_in. destruct (find (fun e : entry => seqb (fst e) t) (terms_of (g_fs x) m)) as [c|]; cbn [option_map dres_eq] in Hdr; destruct r0 as [j|]; try (exfalso; exact Hdr); try discriminate; auto. destruct Hdr as (Hdf & _). rewrite Hdf. reflexivity. }
  rewrite Hd. cbn [obind]. rewrite (IH (S k)); [reflexivity|]. intros i Hi. specialize (Hn (S i) ltac:(cbn; lia)). rewrite Nat.add_succ_r in Hn. exact Hn.
Qed.
Theorem merged_doc_freq mp xs srcs f t : Forall sgm_ok xs -> Forall2 opened xs srcs -> field_in mp (length xs) f -> mr_doc_freq O srcs mp f t = Some (freq_sum (lists mp f O xs) t).
Proof.
  intros HF HO Hf. pose proof (srcs_ok _ _ HF HO) as Hsrc. apply doc_freq_ok; auto. intros i Hi. rewrite (n_xs _ _ Hsrc) in *. destruct (fnum_in mp srcs f Hf i Hi) as (m & E). cbn [Nat.add]. congruence.
Qed.
