(* Proofs about Ferret::Index::Index: each method from the states an object can be in. *)
From Coq Require Import List ZArith Bool Arith Permutation Lia.
From Verif Require Import Util Idx_Model Idx_Spec.
Import ListNotations.

Lemma bind_ok : forall A B (m : M A) (k : A -> M B) s a s', m s = (Ok a, s') -> bind m k s = k a s'.
Proof. intros A B m k s a s' H. unfold bind. rewrite H. reflexivity. Qed.

Ltac comp := lazy beta iota zeta delta [bind get set_wr set_rd set_sc set_dir ret raise publish open_reader obj dr o_open o_wr o_rd o_sc o_next];
  reflexivity.

(* lists of cells ---------------------------------------------------------------------------------------------------------- *)

Lemma live_app : forall a b, live (a ++ b) = live a ++ live b.
Proof. intros a b. unfold live. rewrite filter_app, map_app. reflexivity. Qed.
Lemma live_one : forall x, live [(x, true)] = [x].
Proof. reflexivity. Qed.
Lemma live_kill_where : forall p l, live (kill_where p l) = without p (live l).
Proof.
  intros p l. induction l as [|[x b] l IH]; [reflexivity|].
  unfold live, kill_where, without in *. cbn [map fst snd filter].
  destruct b; cbn [andb filter map fst snd].
  - destruct (p x); cbn [negb filter map fst]; rewrite IH; reflexivity.
  - exact IH.
Qed.
Lemma without_ext : forall p q l, (forall x, p x = q x) -> without p l = without q l.
Proof. intros p q l H. unfold without. apply filter_ext. intros x. rewrite H. reflexivity. Qed.
Lemma without_none : forall p l, existsb p l = false -> without p l = l.
Proof.
  intros p l. induction l as [|x l IH]; intros H; [reflexivity|].
  cbn [existsb] in H. apply orb_false_iff in H. destruct H as [H1 H2].
  unfold without in *. cbn [filter]. rewrite H1. cbn [negb]. rewrite IH by exact H2. reflexivity.
Qed.
Lemma existsb_live : forall p l, existsb (fun c : cell => snd c && p (fst c)) l = existsb p (live l).
Proof.
  intros p l. induction l as [|[x b] l IH]; [reflexivity|].
  unfold live in *. cbn [existsb filter fst snd map]. destruct b; cbn [andb map fst existsb orb]; rewrite IH; reflexivity.
Qed.
Lemma live_filter : forall l, live (filter snd l) = live l.
Proof.
  intros l. unfold live. f_equal. induction l as [|[x b] l IH]; [reflexivity|].
  cbn [filter snd]. destruct b; cbn [filter snd]; rewrite ?IH; reflexivity.
Qed.
Lemma filter_snd_live : forall l, filter snd l = map (fun x => (x, true)) (live l).
Proof.
  intros l. unfold live. induction l as [|[x b] l IH]; [reflexivity|].
  cbn [filter snd]. destruct b; cbn [map fst]; rewrite <- IH; reflexivity.
Qed.
Lemma all_live : forall l : list cell, forallb snd l = true -> l = map (fun x => (x, true)) (live l).
Proof.
  intros l. unfold live. induction l as [|[x b] l IH]; intros H; [reflexivity|].
  cbn [forallb snd] in H. apply andb_true_iff in H. destruct H as [Hb H]. subst b.
  cbn [filter snd map fst]. rewrite <- IH by exact H. reflexivity.
Qed.
Lemma existsb_dead : forall l : list cell, existsb (fun c => negb (snd c)) l = negb (forallb snd l).
Proof.
  intros l. induction l as [|[x b] l IH]; [reflexivity|].
  cbn [existsb forallb snd]. rewrite IH. destruct b; reflexivity.
Qed.
Lemma kill_at_length : forall n l, length (kill_at n l) = length l.
Proof. intros n l. revert n. induction l as [|c l IH]; intros [|n]; cbn [kill_at length]; rewrite ?IH; reflexivity. Qed.
Lemma kill_at_far : forall n l, length l <= n -> kill_at n l = l.
Proof.
  intros n l. revert n. induction l as [|c l IH]; intros [|n] H; cbn [kill_at length] in *; try reflexivity.
  - lia.
  - rewrite IH by lia. reflexivity.
Qed.
Lemma kills_length : forall ns l, length (kills ns l) = length l.
Proof.
  intros ns. unfold kills. induction ns as [|n ns IH]; intros l; [reflexivity|].
  cbn [fold_left]. rewrite IH. apply kill_at_length.
Qed.
Lemma kill_at_nth : forall n l m,
  nth_error (kill_at n l) m = match nth_error l m with
                              | Some c => Some (fst c, if m =? n then false else snd c)
                              | None => None
                              end.
Proof.
  intros n l. revert n. induction l as [|[x b] l IH]; intros [|n] [|m]; cbn [kill_at nth_error fst snd Nat.eqb]; try reflexivity.
  - destruct (nth_error l m) as [[y b']|]; reflexivity.
  - apply IH.
Qed.
Lemma kills_nth : forall ns l m,
  nth_error (kills ns l) m = match nth_error l m with
                             | Some c => Some (fst c, snd c && negb (existsb (Nat.eqb m) ns))
                             | None => None
                             end.
Proof.
  intros ns. unfold kills. induction ns as [|n ns IH]; intros l m; cbn [fold_left existsb].
  - destruct (nth_error l m) as [[y b]|]; cbn [negb fst snd]; rewrite ?andb_true_r; reflexivity.
  - rewrite IH, kill_at_nth. destruct (nth_error l m) as [[y b]|]; [|reflexivity].
    cbn [fst snd]. destruct (m =? n); destruct b; cbn [orb negb andb]; reflexivity.
Qed.
Lemma nth_ext : forall (a b : list cell), (forall n, nth_error a n = nth_error b n) -> a = b.
Proof.
  intros a. induction a as [|x a IH]; intros [|y b] H.
  - reflexivity.
  - specialize (H 0). discriminate H.
  - specialize (H 0). discriminate H.
  - pose proof (H 0) as H0. cbn [nth_error] in H0. apply some_inj in H0. subst y. f_equal. apply IH. intros n. exact (H (S n)).
Qed.

(* what a query finds *)
Lemma found_in : forall q l k n x,
  In (n, x) (found k q l) <-> k <= n /\ nth_error l (n - k) = Some (x, true) /\ q x = true.
Proof.
  intros q l. induction l as [|[y b] l IH]; intros k n x; cbn [found fst snd].
  - split; [intros []|]. intros (_ & H & _). destruct (n - k); discriminate H.
  - assert (IH' : In (n, x) (found (S k) q l) <-> S k <= n /\ nth_error l (n - S k) = Some (x, true) /\ q x = true) by apply IH.
    destruct (b && q y) eqn:E.
    + apply andb_true_iff in E. destruct E as [Eb Eq]. subst b. cbn [In]. rewrite IH'. split.
      * intros [H|(H1 & H2 & H3)].
        { apply pair_equal_spec in H. destruct H as [H1 H2]. subst n y. rewrite Nat.sub_diag. cbn [nth_error].
          repeat split; [lia|exact Eq]. }
        { split; [lia|]. replace (n - k) with (S (n - S k)) by lia. cbn [nth_error]. split; assumption. }
      * intros (H1 & H2 & H3). destruct (Nat.eq_dec n k) as [->|Hn].
        { rewrite Nat.sub_diag in H2. cbn [nth_error] in H2. apply some_inj in H2. apply pair_equal_spec in H2.
          destruct H2 as [-> _]. left. reflexivity. }
        { right. split; [lia|]. replace (n - k) with (S (n - S k)) in H2 by lia. cbn [nth_error] in H2. split; assumption. }
    + rewrite IH'. split.
      * intros (H1 & H2 & H3). split; [lia|]. replace (n - k) with (S (n - S k)) by lia. cbn [nth_error]. split; assumption.
      * intros (H1 & H2 & H3). destruct (Nat.eq_dec n k) as [->|Hn].
        { rewrite Nat.sub_diag in H2. cbn [nth_error] in H2. apply some_inj in H2. apply pair_equal_spec in H2.
          destruct H2 as [-> ->]. rewrite H3 in E. discriminate E. }
        { split; [lia|]. replace (n - k) with (S (n - S k)) in H2 by lia. cbn [nth_error] in H2. split; assumption. }
Qed.
Lemma found_nodup : forall q l k, NoDup (map fst (found k q l)).
Proof.
  intros q l. induction l as [|[y b] l IH]; intros k; cbn [found fst snd]; [constructor|].
  destruct (b && q y); [|apply IH]. cbn [map fst]. constructor; [|apply IH].
  intros H. apply in_map_iff in H. destruct H as ([n x] & H1 & H2). cbn [fst] in H1. subst n.
  apply found_in in H2. lia.
Qed.
Lemma found_docs : forall q l k, map snd (found k q l) = filter q (live l).
Proof.
  intros q l. unfold live. induction l as [|[y b] l IH]; intros k; cbn [found fst snd filter]; [reflexivity|].
  destruct b; cbn [andb map fst filter].
  - destruct (q y); cbn [map snd]; rewrite IH; reflexivity.
  - apply IH.
Qed.
Lemma kill_where_nth : forall q l n,
  nth_error (kill_where q l) n = match nth_error l n with
                                 | Some c => Some (fst c, snd c && negb (q (fst c)))
                                 | None => None
                                 end.
Proof.
  intros q l. induction l as [|c l IH]; intros [|n]; cbn [kill_where map nth_error]; try reflexivity. apply IH.
Qed.
Lemma kills_hits : forall pol q l,
  (forall h, Permutation (p_rank pol h) h) -> kills (map fst (hits pol q l)) l = kill_where q l.
Proof.
  intros pol q l HP. apply nth_ext. intros n. rewrite kills_nth, kill_where_nth.
  destruct (nth_error l n) as [[x b]|] eqn:E; [|reflexivity]. cbn [fst snd]. f_equal. f_equal.
  destruct b; [|reflexivity]. cbn [andb]. f_equal.
  apply eq_true_iff_eq. rewrite existsb_exists. split.
  - intros (m & H1 & H2). apply Nat.eqb_eq in H2. subst m.
    apply in_map_iff in H1. destruct H1 as ([m y] & H1 & H2). cbn [fst] in H1. subst m.
    unfold hits in H2. apply (Permutation_in _ (HP _)) in H2. apply found_in in H2. rewrite Nat.sub_0_r in H2.
    destruct H2 as (_ & H2 & H3). rewrite E in H2. apply some_inj in H2. apply pair_equal_spec in H2. destruct H2 as [-> _]. exact H3.
  - intros H. exists n. split; [|apply Nat.eqb_refl]. apply in_map_iff. exists (n, x). split; [reflexivity|].
    unfold hits. apply (Permutation_in _ (Permutation_sym (HP _))). apply found_in. rewrite Nat.sub_0_r.
    repeat split; [lia|exact E|exact H].
Qed.

Section Object.
  Variable pol : policy.
  Variable opt : options.
  Variable me : nat.
  Hypothesis merge_ok : forall l, live (p_merge pol l) = live l.
  Hypothesis segs_ok : forall l, 1 <= p_segs pol l.
  Hypothesis rank_ok : forall l, Permutation (p_rank pol l) l.

  (* how the directory goes on *)
  Definition onward (d d' : dir) : Prop :=
    d_ver d <= d_ver d' /\ (d_ver d' = d_ver d -> d_cells d' = d_cells d /\ d_segs d' = d_segs d) /\
    (1 <= d_segs d -> 1 <= d_segs d').
  Lemma onward_refl : forall d, onward d d.
  Proof. intros d. unfold onward. repeat split; lia. Qed.
  Ltac onw := unfold onward; cbn [dr d_ver d_segs d_cells]; split; [lia|]; split; [intros; exfalso; lia|intros; try apply segs_ok; lia].
  Lemma onward_trans : forall a b c, onward a b -> onward b c -> onward a c.
  Proof.
    intros a b c (H1 & H2 & H3) (G1 & G2 & G3). unfold onward. split; [lia|]. split; [|intros H; apply G3, H3, H].
    intros H. destruct G2 as [G2 G4]; [lia|]. destruct H2 as [H2 H4]; [lia|]. split; congruence.
  Qed.
  Lemma onward_lock : forall d x l, onward d (mkDir (d_cells x) (d_ver x) (d_segs x) l) <-> onward d x.
  Proof. intros d x l. unfold onward. cbn [d_cells d_ver d_segs]. reflexivity. Qed.

  (* the states of an object between calls and during one *)
  Definition W (s : st) (w : writer) : Prop :=
    exists n d, s = mkSt (mkIdx true (Some w) None None n) d /\ d_lock d = Some me /\
                (wr_dirty w = false -> d_cells d = wr_cells w).
  Definition held (r : reader) (d : dir) : Prop :=
    rd_ver r = d_ver d /\ rd_segs r = d_segs d /\
    ((rd_lock r = true /\ rd_dirty r = true /\ d_lock d = Some me) \/
     (rd_lock r = false /\ rd_dirty r = false /\ d_lock d = None /\ rd_cells r = d_cells d)).
  Definition matching (sc : option searcher) (r : reader) : Prop := sc = None \/ sc = Some (mkSc (rd_id r) true).
  (* a reader that is up to date *)
  Definition R (s : st) (r : reader) (sc : option searcher) : Prop :=
    exists n d, s = mkSt (mkIdx true None (Some r) sc n) d /\ held r d.
  Definition N (s : st) : Prop := exists n d, s = mkSt (mkIdx true None None None n) d /\ d_lock d = None.
  (* a reader that others have overtaken *)
  Definition O (s : st) (r : reader) (sc : option searcher) : Prop :=
    exists n d, s = mkSt (mkIdx true None (Some r) sc n) d /\ d_lock d = None /\
                rd_lock r = false /\ rd_dirty r = false /\ rd_ver r < d_ver d /\ rd_segs r <> 0.

  Lemma W_wr : forall s w, W s w -> o_wr (obj s) = Some w.
  Proof. intros s w (n & d & -> & _). reflexivity. Qed.
  Lemma W_rd : forall s w, W s w -> o_rd (obj s) = None.
  Proof. intros s w (n & d & -> & _). reflexivity. Qed.
  Lemma W_open : forall s w, W s w -> o_open (obj s) = true.
  Proof. intros s w (n & d & -> & _). reflexivity. Qed.

  Inductive inv (s : st) : abs -> Prop :=
    | inv_W w : W s w -> inv s (mkAbs (wr_cells w) (negb (wr_dirty w)))
    | inv_R r sc : R s r sc -> matching sc r -> inv s (mkAbs (rd_cells r) true)
    | inv_N : N s -> inv s (mkAbs (d_cells (dr s)) true)
    | inv_O r sc : O s r sc -> matching sc r -> inv s (mkAbs (d_cells (dr s)) true).
  (* not overtaken while a searcher is there *)
  Definition timely (s : st) : Prop := forall r sc, O s r sc -> sc = None.

  (* the writer ----------------------------------------------------------------------------------------------------------- *)

  Lemma publish_W : forall s w cells, W s w ->
    exists s' w', publish pol cells s = (Ok tt, s') /\ W s' w' /\ wr_cells w' = p_merge pol cells /\ wr_dirty w' = false /\
                  onward (dr s) (dr s').
  Proof.
    intros s w cells (n & d & -> & HL & HD). eexists. eexists. split; [comp|]. split.
    { exists n. eexists. split; [reflexivity|]. cbn. split; [exact HL|reflexivity]. }
    cbn [wr_cells wr_dirty dr]. split; [reflexivity|]. split; [reflexivity|]. onw.
  Qed.
  Lemma writer_commit_W : forall s w, W s w ->
    exists s' w', writer_commit pol s = (Ok tt, s') /\ W s' w' /\ live (wr_cells w') = live (wr_cells w) /\ wr_dirty w' = false /\
                  (wr_dirty w = false -> w' = w) /\ onward (dr s) (dr s').
  Proof.
    intros s w HW. pose proof HW as (n & d & Hs & HL & HD).
    unfold writer_commit. erewrite bind_ok by (unfold get; reflexivity). cbv beta. rewrite (W_wr _ _ HW). cbv zeta.
    unfold when. destruct (wr_dirty w) eqn:E.
    - destruct (publish_W s w (wr_cells w) HW) as (s' & w' & H1 & H2 & H3 & H4 & H5).
      exists s', w'. split; [exact H1|]. split; [exact H2|]. split; [rewrite H3; apply merge_ok|]. split; [exact H4|].
      split; [discriminate|exact H5].
    - exists s, w. split; [reflexivity|]. split; [exact HW|]. split; [reflexivity|]. split; [exact E|].
      split; [reflexivity|apply onward_refl].
  Qed.
  Lemma writer_close_W : forall s w, W s w ->
    exists s', (writer_close pol ;; set_wr None) s = (Ok tt, s') /\ N s' /\ live (d_cells (dr s')) = live (wr_cells w) /\
               (wr_dirty w = false -> d_cells (dr s') = wr_cells w) /\ onward (dr s) (dr s').
  Proof.
    intros s w HW. destruct (writer_commit_W s w HW) as (s1 & w1 & H1 & H2 & H3 & H4 & H5 & H6).
    pose proof H2 as (n & d & Hs & HL & HD). eexists. split.
    { erewrite bind_ok; [comp|]. unfold writer_close. erewrite bind_ok by exact H1.
      erewrite bind_ok by (unfold get; reflexivity). comp. }
    rewrite Hs in *. cbn [dr obj o_open o_wr o_rd o_sc o_next fst snd d_cells d_ver d_segs] in *.
    split; [exists n; eexists; split; [reflexivity|reflexivity]|].
    split; [rewrite (HD H4); exact H3|]. split; [intros H; rewrite (HD H4), (H5 H); reflexivity|].
    apply (proj2 (onward_lock (dr s) d None)). exact H6.
  Qed.
  Lemma writer_add_W : forall s w x, W s w ->
    exists s' w', writer_add pol x s = (Ok tt, s') /\ W s' w' /\ live (wr_cells w') = live (wr_cells w) ++ [x] /\ onward (dr s) (dr s').
  Proof.
    intros s w x HW. pose proof HW as (n & d & Hs & HL & HD).
    unfold writer_add. erewrite bind_ok by (unfold get; reflexivity). cbv beta. rewrite (W_wr _ _ HW). cbv zeta.
    destruct (p_flush pol (wr_cells w ++ [(x, true)])).
    - destruct (publish_W s w (wr_cells w ++ [(x, true)]) HW) as (s' & w' & H1 & H2 & H3 & H4 & H5).
      exists s', w'. split; [exact H1|]. split; [exact H2|]. split; [|exact H5]. rewrite H3, merge_ok, live_app. reflexivity.
    - rewrite Hs. eexists. eexists. split; [comp|]. split.
      { exists n, d. split; [reflexivity|]. split; [exact HL|]. discriminate. }
      cbn [wr_cells dr]. split; [rewrite live_app; reflexivity|apply onward_refl].
  Qed.
  Lemma writer_adds_W : forall xs s w, W s w ->
    exists s' w', writer_adds pol xs s = (Ok tt, s') /\ W s' w' /\ live (wr_cells w') = live (wr_cells w) ++ xs /\ onward (dr s) (dr s').
  Proof.
    intros xs. induction xs as [|x xs IH]; intros s w HW.
    - exists s, w. split; [reflexivity|]. split; [exact HW|]. split; [rewrite app_nil_r; reflexivity|apply onward_refl].
    - destruct (writer_add_W s w x HW) as (s1 & w1 & H1 & H2 & H3 & H4).
      destruct (IH s1 w1 H2) as (s2 & w2 & G1 & G2 & G3 & G4).
      exists s2, w2. cbn [writer_adds]. erewrite bind_ok by exact H1. split; [exact G1|]. split; [exact G2|].
      split; [rewrite G3, H3, <- app_assoc; reflexivity|]. eapply onward_trans; eassumption.
  Qed.
  Lemma writer_delete_W : forall s w f ts, W s w ->
    exists s' w', writer_delete pol f ts s = (Ok tt, s') /\ W s' w' /\ wr_dirty w' = false /\
                  live (wr_cells w') = without (fun y => existsb (fun t => has_term f t y) ts) (live (wr_cells w)) /\
                  onward (dr s) (dr s').
  Proof.
    intros s w f ts HW. destruct (writer_commit_W s w HW) as (s1 & w1 & H1 & H2 & H3 & H4 & H5 & H6).
    pose proof H2 as (n & d & Hs & HL & HD). unfold writer_delete. erewrite bind_ok by exact H1.
    erewrite bind_ok by (unfold get; reflexivity). cbv beta. rewrite (W_wr _ _ H2). cbv zeta.
    set (p := fun x => existsb (fun t => has_term f t x) ts).
    destruct (existsb (fun c => snd c && existsb (fun t => has_term f t (fst c)) ts) (wr_cells w1)) eqn:E.
    - rewrite Hs in *. eexists. eexists. split; [comp|]. split.
      { exists n. eexists. split; [reflexivity|]. cbn. split; [exact HL|reflexivity]. }
      cbn [wr_dirty wr_cells dr obj fst snd]. split; [reflexivity|]. split; [rewrite live_kill_where, H3; reflexivity|].
      eapply onward_trans; [exact H6|]. onw.
    - exists s1, w1. split; [reflexivity|]. split; [exact H2|]. split; [exact H4|]. split; [|exact H6].
      change (existsb (fun c => snd c && p (fst c)) (wr_cells w1) = false) in E. rewrite existsb_live, H3 in E. rewrite H3. symmetry. apply without_none. exact E.
  Qed.
  Lemma writer_optimize_W : forall s w, W s w ->
    exists s' w', writer_optimize pol s = (Ok tt, s') /\ W s' w' /\ wr_dirty w' = false /\
                  wr_cells w' = map (fun x => (x, true)) (live (wr_cells w)) /\ onward (dr s) (dr s').
  Proof.
    intros s w HW. destruct (writer_commit_W s w HW) as (s1 & w1 & H1 & H2 & H3 & H4 & H5 & H6).
    pose proof H2 as (n & d & Hs & HL & HD). unfold writer_optimize. erewrite bind_ok by exact H1.
    erewrite bind_ok by (unfold get; reflexivity). cbv beta. rewrite (W_wr _ _ H2). cbv zeta.
    destruct ((1 <? wr_segs w1) || existsb (fun c => negb (snd c)) (wr_cells w1)) eqn:E.
    - rewrite Hs in *. eexists. eexists. split; [comp|]. split.
      { exists n. eexists. split; [reflexivity|]. cbn. split; [exact HL|reflexivity]. }
      cbn [wr_dirty wr_cells dr obj fst snd]. split; [reflexivity|]. split; [rewrite filter_snd_live, H3; reflexivity|].
      eapply onward_trans; [exact H6|]. onw.
    - exists s1, w1. split; [reflexivity|]. split; [exact H2|]. split; [exact H4|]. split; [|exact H6].
      apply orb_false_iff in E. destruct E as [_ E]. rewrite existsb_dead in E. apply negb_false_iff in E.
      rewrite <- H3. apply all_live. exact E.
  Qed.
  Lemma writer_add_readers_W : forall s w others, W s w ->
    exists s' w', writer_add_readers pol others s = (Ok tt, s') /\ W s' w' /\
                  live (wr_cells w') = live (wr_cells w) ++ live (concat others) /\ onward (dr s) (dr s').
  Proof.
    intros s w others HW. destruct (writer_optimize_W s w HW) as (s1 & w1 & H1 & H2 & H3 & H4 & H6).
    pose proof H2 as (n & d & Hs & HL & HD). unfold writer_add_readers. erewrite bind_ok by exact H1.
    erewrite bind_ok by (unfold get; reflexivity). cbv beta. rewrite (W_wr _ _ H2). cbv zeta.
    rewrite Hs in *. eexists. eexists. split; [comp|]. split.
    { exists n. eexists. split; [reflexivity|]. cbn. split; [exact HL|reflexivity]. }
    cbn [wr_dirty wr_cells dr obj fst snd]. split.
    { rewrite live_app, live_filter, H4. f_equal. rewrite <- filter_snd_live. apply live_filter. }
    eapply onward_trans; [exact H6|]. onw.
  Qed.

  (* the reader ------------------------------------------------------------------------------------------------------------ *)

  Lemma reader_delete_R : forall s r sc n, R s r sc ->
    exists s' r', reader_delete me n s = (Ok tt, s') /\ R s' r' sc /\ rd_id r' = rd_id r /\ rd_cells r' = kill_at n (rd_cells r) /\
                  onward (dr s) (dr s').
  Proof.
    intros s r sc n (k & d & Hs & HV & HG & HH). unfold reader_delete.
    erewrite bind_ok by (unfold get; reflexivity). cbv beta.
    assert (E0 : o_rd (obj s) = Some r) by (rewrite Hs; reflexivity). assert (E1 : dr s = d) by (rewrite Hs; reflexivity). rewrite E0. cbv zeta.
    destruct (n <? length (rd_cells r)) eqn:E.
    - destruct HH as [(L1 & L2 & L3)|(L1 & L2 & L3 & L4)]; rewrite L1.
      + rewrite Hs. eexists. eexists. split; [comp|]. split.
        { exists k, d. split; [reflexivity|]. unfold held. cbn. split; [exact HV|]. split; [exact HG|]. left. auto. }
        cbn [rd_id rd_cells dr]. split; [reflexivity|]. split; [reflexivity|apply onward_refl].
      + rewrite E1, L3, HV, Nat.ltb_irrefl. clear E0 E1.
        rewrite Hs. eexists. eexists. split; [comp|]. split.
        { exists k. eexists. split; [reflexivity|]. unfold held. cbn. split; [first [exact HV|reflexivity]|]. split; [exact HG|]. left. auto. }
        cbn [rd_id rd_cells dr obj fst snd]. split; [reflexivity|]. split; [reflexivity|]. apply onward_lock. apply onward_refl.
    - exists s, r. split; [reflexivity|]. split; [exists k, d; repeat split; assumption|]. split; [reflexivity|].
      split; [|apply onward_refl]. apply Nat.ltb_ge in E. symmetry. apply kill_at_far. exact E.
  Qed.
  Lemma reader_deletes_R : forall ns s r sc, R s r sc ->
    exists s' r', reader_deletes me ns s = (Ok tt, s') /\ R s' r' sc /\ rd_id r' = rd_id r /\ rd_cells r' = kills ns (rd_cells r) /\
                  onward (dr s) (dr s').
  Proof.
    intros ns. induction ns as [|n ns IH]; intros s r sc HR.
    - exists s, r. split; [reflexivity|]. split; [exact HR|]. split; [reflexivity|]. split; [reflexivity|apply onward_refl].
    - destruct (reader_delete_R s r sc n HR) as (s1 & r1 & H1 & H2 & H3 & H4 & H5).
      destruct (IH s1 r1 sc H2) as (s2 & r2 & G1 & G2 & G3 & G4 & G5).
      exists s2, r2. cbn [reader_deletes]. erewrite bind_ok by exact H1. split; [exact G1|]. split; [exact G2|].
      split; [congruence|]. split; [rewrite G4, H4; reflexivity|]. eapply onward_trans; eassumption.
  Qed.

  (* commit of a reader that is up to date *)
  Lemma rd_commit_held : forall r d, held r d ->
    let r' := fst (rd_commit r d) in let d' := snd (rd_commit r d) in
    held r' d' /\ rd_lock r' = false /\ d_lock d' = None /\ rd_id r' = rd_id r /\ rd_cells r' = rd_cells r /\ d_cells d' = rd_cells r /\
    onward d d'.
  Proof.
    intros r d (HV & HG & [(L1 & L2 & L3)|(L1 & L2 & L3 & L4)]); unfold rd_commit; rewrite L2; cbv zeta; cbn [fst snd].
    - rewrite L1. unfold held, onward. cbn.
      split; [split; [reflexivity|]; split; [reflexivity|]; right; auto|].
      do 5 (split; [reflexivity|]). split; [lia|]. split; [intros; exfalso; lia|lia].
    - split; [unfold held; auto 10|]. do 4 (split; [auto|]). split; [congruence|]. apply onward_refl.
  Qed.

  Lemma flush_R : forall s r sc, R s r sc -> matching sc r ->
    exists s' r', flush pol s = (Ok tt, s') /\ R s' r' None /\ rd_lock r' = false /\ rd_cells r' = rd_cells r /\ onward (dr s) (dr s').
  Proof.
    intros s r sc (n & d & Hs & HH) HM. destruct (rd_commit_held r d HH) as (H1 & H2 & H3 & H4 & H5 & H6 & H7).
    destruct (rd_commit r d) as [r' d'] eqn:E. cbn [fst snd] in *.
    exists (mkSt (mkIdx true None (Some r') None n) d'), r'. split.
    { rewrite Hs. unfold flush. erewrite bind_ok by (unfold get; reflexivity). cbn [obj o_rd o_wr].
      destruct HM as [->| ->].
      - unfold searcher_close, reader_commit, bind, get, set_sc, set_dir, set_rd, ret. cbn -[rd_commit]. rewrite E. reflexivity.
      - unfold searcher_close, reader_commit, bind, get, set_sc, set_dir, set_rd, ret. cbn -[rd_commit]. rewrite E. reflexivity. }
    split; [exists n, d'; split; [reflexivity|exact H1]|]. split; [exact H2|]. split; [exact H5|].
    rewrite Hs. exact H7.
  Qed.
  Lemma flush_W : forall s w, W s w ->
    exists s', flush pol s = (Ok tt, s') /\ N s' /\ live (d_cells (dr s')) = live (wr_cells w) /\ onward (dr s) (dr s').
  Proof.
    intros s w HW. destruct (writer_close_W s w HW) as (s' & H1 & H2 & H3 & H4 & H5). exists s'.
    pose proof HW as (n & d & Hs & _). unfold flush. erewrite bind_ok by (unfold get; reflexivity). cbv beta. rewrite (W_rd _ _ HW), (W_wr _ _ HW). split; [exact H1|]. auto.
  Qed.

  (* ensure_ ... ------------------------------------------------------------------------------------------------------------ *)

  Lemma open_writer_N : forall s, N s ->
    exists s' w, open_writer me s = (Ok tt, s') /\ W s' w /\ wr_cells w = d_cells (dr s) /\ wr_dirty w = false /\ onward (dr s) (dr s').
  Proof.
    intros s (n & d & Hs & HL). rewrite Hs. unfold open_writer. erewrite bind_ok by (unfold get; reflexivity). cbn [dr]. rewrite HL.
    eexists. eexists. split; [comp|]. split.
    { exists n. eexists. split; [reflexivity|]. cbn. split; [reflexivity|reflexivity]. }
    cbn [wr_cells wr_dirty dr obj fst snd]. split; [reflexivity|]. split; [reflexivity|]. apply onward_lock. apply onward_refl.
  Qed.
  Lemma closing : forall s r sc, R s r sc -> matching sc r ->
    exists s', (searcher_close ;; reader_close ;; set_rd None ;; set_sc None) s = (Ok tt, s') /\ N s' /\ d_cells (dr s') = rd_cells r /\
               onward (dr s) (dr s').
  Proof.
    intros s r sc (n & d & Hs & HH) HM. destruct (rd_commit_held r d HH) as (H1 & H2 & H3 & H4 & H5 & H6 & H7).
    rewrite Hs. exists (mkSt (mkIdx true None None None n) (snd (rd_commit r d))). split; [destruct HM as [->| ->]; reflexivity|].
    split; [exists n; eexists; split; [reflexivity|exact H3]|]. split; [exact H6|exact H7].
  Qed.
  Lemma closing_O : forall s r sc, O s r sc -> matching sc r ->
    exists s', (searcher_close ;; reader_close ;; set_rd None ;; set_sc None) s = (Ok tt, s') /\ N s' /\ dr s' = dr s.
  Proof.
    intros s r sc (n & d & Hs & L & L1 & L2 & L3 & L4) HM. rewrite Hs. exists (mkSt (mkIdx true None None None n) d). split.
    { destruct HM as [->| ->]; unfold searcher_close, reader_close, bind, get, set_rd, set_sc, set_dir, ret, rd_commit;
      cbn; rewrite L2; reflexivity. }
    split; [exists n, d; split; [reflexivity|exact L]|reflexivity].
  Qed.

  Lemma ensure_writer_open_ok : forall s a, inv s a ->
    exists s' w, ensure_writer_open me s = (Ok tt, s') /\ W s' w /\ wr_cells w = nums a /\ (settled a = true -> wr_dirty w = false) /\
                 onward (dr s) (dr s').
  Proof.
    intros s a H. unfold ensure_writer_open. erewrite bind_ok by (unfold get; reflexivity). cbv beta.
    destruct H as [w HW|r sc HR HM|HN|r sc HO HM]; cbn [nums settled].
    - pose proof HW as (n & d & Hs & _). exists s, w.
      split; [rewrite Hs; reflexivity|]. split; [exact HW|]. split; [reflexivity|]. split; [intros H; apply negb_true_iff; exact H|apply onward_refl].
    - pose proof HR as (n & d & Hs & _). destruct (closing s r sc HR HM) as (s1 & H1 & H2 & H3 & H4).
      destruct (open_writer_N s1 H2) as (s2 & w & G1 & G2 & G3 & G4 & G5). exists s2, w.
      split; [|split; [exact G2|]; split; [congruence|]; split; [auto|eapply onward_trans; eassumption]].
      rewrite Hs. cbn [obj o_open o_wr o_rd negb]. rewrite <- Hs. erewrite bind_ok by exact H1. exact G1.
    - pose proof HN as (n & d & Hs & _). destruct (open_writer_N s HN) as (s2 & w & G1 & G2 & G3 & G4 & G5). exists s2, w.
      split; [|split; [exact G2|]; split; [congruence|]; split; [auto|assumption]].
      rewrite Hs. cbn [obj o_open o_wr o_rd negb]. rewrite <- Hs. erewrite bind_ok by reflexivity. exact G1.
    - pose proof HO as (n & d & Hs & _). destruct (closing_O s r sc HO HM) as (s1 & H1 & H2 & H3).
      destruct (open_writer_N s1 H2) as (s2 & w & G1 & G2 & G3 & G4 & G5). rewrite H3 in G3, G5. exists s2, w.
      split; [|split; [exact G2|]; split; [congruence|]; split; [auto|assumption]].
      rewrite Hs. cbn [obj o_open o_wr o_rd negb]. rewrite <- Hs. erewrite bind_ok by exact H1. exact G1.
  Qed.

  Lemma open_reader_N : forall n d sc, d_lock d = None ->
    exists s' r, open_reader (mkSt (mkIdx true None None sc n) d) = (Ok tt, s') /\ R s' r sc /\ rd_cells r = d_cells d /\ rd_lock r = false /\ dr s' = d.
  Proof.
    intros n d sc HL. eexists. eexists. split; [comp|]. split.
    { exists (S n). eexists. split; [reflexivity|]. unfold held. cbn. split; [reflexivity|]. split; [reflexivity|]. right. auto. }
    cbn. auto.
  Qed.

  Lemma held_latest : forall r d, held r d -> latest r d = true.
  Proof. intros r d (H & _). unfold latest. rewrite H, Nat.eqb_refl. apply orb_true_r. Qed.
  Lemma overtaken : forall r d, rd_ver r < d_ver d -> rd_segs r <> 0 -> latest r d = false.
  Proof.
    intros r d H1 H2. unfold latest. apply orb_false_iff. split; apply Nat.eqb_neq; lia.
  Qed.

  (* b: a new reader was opened; then a searcher left from before is closed *)
  Lemma ensure_reader_open_ok : forall s a, inv s a ->
    exists b s' r sc, ensure_reader_open pol true s = (Ok b, s') /\ R s' r sc /\
      live (rd_cells r) = docs a /\ (settled a = true -> rd_cells r = nums a) /\
      (timely s -> matching sc r) /\ (b = false -> matching sc r) /\ (d_lock (dr s) = None -> d_lock (dr s') = None) /\
      (o_sc (obj s) = None -> sc = None) /\ onward (dr s) (dr s').
  Proof.
    intros s a H. unfold ensure_reader_open. erewrite bind_ok by (unfold get; reflexivity). cbv beta.
    destruct H as [w HW|r sc HR HM|HN|r sc HO HM]; unfold docs; cbn [nums settled].
    - pose proof HW as (n & d & Hs & HL & HD). destruct (writer_close_W s w HW) as (s1 & H1 & H2 & H3 & H4 & H5).
      destruct H2 as (n1 & d1 & Hs1 & HL1). destruct (open_reader_N n1 d1 None HL1) as (s2 & r & G1 & G2 & G3 & G4 & G5).
      exists true, s2, r, None. split.
      { rewrite Hs. cbn [obj o_open o_wr o_rd negb]. rewrite <- Hs. erewrite bind_ok by exact H1.
        rewrite Hs1. erewrite bind_ok by exact G1. reflexivity. }
      split; [exact G2|]. rewrite Hs1 in H3, H4, H5. cbn [dr] in H3, H4, H5. split; [rewrite G3; exact H3|].
      split; [intros H; rewrite G3; apply H4; apply negb_true_iff; exact H|].
      split; [left; reflexivity|]. split; [discriminate|]. rewrite G5. split; [auto|]. split; [auto|exact H5].
    - pose proof HR as (n & d & Hs & HH). exists false, s, r, sc. split.
      { rewrite Hs. cbn [obj o_open o_wr o_rd negb dr]. rewrite (held_latest r d HH). reflexivity. }
      split; [exact HR|]. split; [reflexivity|]. split; [reflexivity|]. split; [auto|]. split; [auto|]. split; [auto|]. split; [rewrite Hs; auto|apply onward_refl].
    - pose proof HN as (n & d & Hs & HL). destruct (open_reader_N n d None HL) as (s2 & r & G1 & G2 & G3 & G4 & G5).
      exists true, s2, r, None. rewrite Hs. split.
      { cbn [obj o_open o_wr o_rd negb]. erewrite bind_ok by reflexivity. erewrite bind_ok by exact G1. reflexivity. }
      split; [exact G2|]. cbn [dr]. split; [rewrite G3; reflexivity|]. split; [intros _; exact G3|].
      split; [left; reflexivity|]. split; [discriminate|]. rewrite G5. split; [auto|]. split; [auto|apply onward_refl].
    - pose proof HO as (n & d & Hs & L & L1 & L2 & L3 & L4).
      set (sc' := match sc with None => None | Some c => Some (mkSc (sc_reader c) false) end).
      exists true, (mkSt (mkIdx true None (Some (mkRd n (d_cells d) (d_ver d) (d_segs d) false false)) sc' (S n)) d),
        (mkRd n (d_cells d) (d_ver d) (d_segs d) false false), sc'.
      rewrite Hs. split.
      { cbn [obj o_open o_wr o_rd negb dr]. rewrite (overtaken r d L3 L4). cbn [negb andb].
        destruct HM as [->| ->]; unfold searcher_close, reader_close, open_reader, bind, get, set_rd, set_sc, set_dir, ret, rd_commit;
        cbn; rewrite L2; reflexivity. }
      split.
      { exists (S n), d. split; [reflexivity|]. unfold held. cbn. split; [reflexivity|]. split; [reflexivity|]. right. auto. }
      cbn [rd_cells dr]. split; [reflexivity|]. split; [reflexivity|]. split.
      { intros HT. left. unfold sc'. rewrite (HT r sc); [reflexivity|]. exists n, d. auto 10. }
      split; [discriminate|]. split; [auto|]. split; [|apply onward_refl].
      cbn [obj o_sc]. intros E. unfold sc'. rewrite E. reflexivity.
  Qed.
  (* the same for an object that holds a writer or nothing *)
  Lemma timely_W : forall s w, W s w -> timely s.
  Proof. intros s w (n & d & -> & _) r sc (n' & d' & H & _). discriminate H. Qed.
  Lemma timely_R : forall s r sc, R s r sc -> timely s.
  Proof.
    intros s r sc (n & d & -> & HV & _) r' sc' (n' & d' & H & _ & _ & _ & L & _).
    assert (r' = r /\ d' = d) as [-> ->] by (inversion H; auto). lia.
  Qed.
  Lemma timely_N : forall s, N s -> timely s.
  Proof. intros s (n & d & -> & _) r sc (n' & d' & H & _). discriminate H. Qed.

  Lemma ensure_searcher_open_ok : forall s a, inv s a ->
    exists s' r, ensure_searcher_open pol s = (Ok tt, s') /\ R s' r (Some (mkSc (rd_id r) true)) /\
      live (rd_cells r) = docs a /\ (settled a = true -> rd_cells r = nums a) /\ (d_lock (dr s) = None -> d_lock (dr s') = None) /\
      onward (dr s) (dr s').
  Proof.
    intros s a H. destruct (ensure_reader_open_ok s a H) as (b & s1 & r & sc & H1 & H2 & H3 & H4 & H5 & H6 & H7 & _ & H8).
    assert (Ho : o_open (obj s) = true).
    { destruct H as [w (n & d & Hs & _)|? ? (n & d & Hs & _) _|(n & d & Hs & _)|? ? (n & d & Hs & _) _]; rewrite Hs; reflexivity. }
    destruct H2 as (n & d & Hs1 & HH). exists (mkSt (mkIdx true None (Some r) (Some (mkSc (rd_id r) true)) n) d), r.
    split.
    { unfold ensure_searcher_open. erewrite bind_ok by (unfold get; reflexivity). rewrite Ho. cbn [negb].
      erewrite bind_ok by exact H1. erewrite bind_ok by (unfold get; reflexivity). rewrite Hs1. cbn [obj o_sc o_rd].
      destruct sc as [c|]; [|reflexivity]. destruct b; [reflexivity|].
      destruct (H6 eq_refl) as [Hc|Hc]; [discriminate Hc|]. rewrite Hc. reflexivity. }
    split; [exists n, d; split; [reflexivity|exact HH]|].
    split; [exact H3|]. split; [exact H4|]. rewrite Hs1 in H7, H8. cbn [dr] in *. split; assumption.
  Qed.
  Lemma searcher_reader_R : forall s r, R s r (Some (mkSc (rd_id r) true)) -> searcher_reader s = (Ok r, s).
  Proof.
    intros s r (n & d & Hs & _). rewrite Hs. unfold searcher_reader, bind, get. cbn [obj o_sc o_rd sc_open sc_reader].
    rewrite Nat.eqb_refl. reflexivity.
  Qed.
  Lemma the_reader_R : forall s r sc, R s r sc -> the_reader s = (Ok r, s).
  Proof. intros s r sc (n & d & Hs & _). rewrite Hs. reflexivity. Qed.

  (* what a call leaves besides the documents ------------------------------------------------------------------------------ *)

  Definition quiet (s : st) : Prop := d_lock (dr s) = None.
  Definition current (s : st) : Prop := forall r sc, ~ O s r sc.
  Definition unsearched (s : st) : Prop := o_sc (obj s) = None.

  Lemma current_W : forall s w, W s w -> current s.
  Proof. intros s w (n & d & -> & _) r sc (n' & d' & H & _). discriminate H. Qed.
  Lemma current_R : forall s r sc, R s r sc -> current s.
  Proof.
    intros s r sc (n & d & -> & HV & _) r' sc' (n' & d' & H & _ & _ & _ & L & _).
    assert (r' = r /\ d' = d) as [-> ->] by (inversion H; auto). lia.
  Qed.
  Lemma current_N : forall s, N s -> current s.
  Proof. intros s (n & d & -> & _) r sc (n' & d' & H & _). discriminate H. Qed.
  Lemma current_timely : forall s, current s -> timely s.
  Proof. intros s H r sc HO. destruct (H r sc HO). Qed.
  Lemma inv_timely : forall s w, W s w -> inv s (mkAbs (wr_cells w) (negb (wr_dirty w))) /\ timely s.
  Proof. intros s w H. split; [apply inv_W; exact H|eapply timely_W; exact H]. Qed.

  (* flush() if @auto_flush *)
  Lemma auto_W : forall s w, W s w ->
    exists s' b, auto pol opt s = (Ok tt, s') /\ inv s' b /\ docs b = live (wr_cells w) /\ current s' /\ unsearched s' /\
                 (auto_flush opt = true -> quiet s') /\ onward (dr s) (dr s').
  Proof.
    intros s w HW. unfold auto, when. destruct (auto_flush opt).
    - destruct (flush_W s w HW) as (s' & H1 & H2 & H3 & H4). exists s'. eexists. split; [exact H1|].
      split; [apply inv_N; exact H2|]. split; [exact H3|]. split; [eapply current_N; exact H2|].
      destruct H2 as (n & d & -> & HL). split; [reflexivity|]. split; [intros _; exact HL|exact H4].
    - exists s. eexists. split; [reflexivity|]. split; [apply inv_W; exact HW|]. split; [reflexivity|].
      split; [eapply current_W; exact HW|]. destruct HW as (n & d & -> & _). split; [reflexivity|].
      split; [discriminate|apply onward_refl].
  Qed.
  Lemma auto_R : forall s r sc, R s r sc -> matching sc r ->
    exists s' r' sc', auto pol opt s = (Ok tt, s') /\ R s' r' sc' /\ matching sc' r' /\ rd_cells r' = rd_cells r /\
                      (auto_flush opt = true -> quiet s' /\ unsearched s') /\ onward (dr s) (dr s').
  Proof.
    intros s r sc HR HM. unfold auto, when. destruct (auto_flush opt).
    - destruct (flush_R s r sc HR HM) as (s' & r' & H1 & H2 & H3 & H4 & H5). exists s', r', None. split; [exact H1|].
      split; [exact H2|]. split; [left; reflexivity|]. split; [exact H4|]. split; [|exact H5]. intros _.
      destruct H2 as (n & d & -> & _ & _ & [(L & _)|(_ & _ & L & _)]); [congruence|]. split; [exact L|reflexivity].
    - exists s, r, sc. split; [reflexivity|]. split; [exact HR|]. split; [exact HM|]. split; [reflexivity|].
      split; [discriminate|apply onward_refl].
  Qed.

  (* query_delete, add_document, ... --------------------------------------------------------------------------------------- *)

  Lemma read_to : forall a r, live (rd_cells r) = docs a -> (settled a = true -> rd_cells r = nums a) ->
    read a (mkAbs (rd_cells r) true).
  Proof. intros a r H1 H2. unfold read, docs at 1. cbn [settled nums]. auto. Qed.

  (* the writer is opened and then a searcher: the numbers given out before stay *)
  Lemma writer_then_searcher : forall s a, inv s a ->
    exists s' r, (ensure_writer_open me ;; ensure_searcher_open pol) s = (Ok tt, s') /\ R s' r (Some (mkSc (rd_id r) true)) /\
                 read a (mkAbs (rd_cells r) true) /\ onward (dr s) (dr s').
  Proof.
    intros s a H. destruct (ensure_writer_open_ok s a H) as (s1 & w & H1 & H2 & H3 & H4 & H5).
    destruct (ensure_searcher_open_ok s1 _ (inv_W s1 w H2)) as (s2 & r & G1 & G2 & G3 & G4 & G5 & G6).
    exists s2, r. split; [erewrite bind_ok by exact H1; exact G1|]. split; [exact G2|]. split.
    - apply read_to.
      + rewrite G3. unfold docs. cbn [nums]. rewrite H3. reflexivity.
      + intros HS. rewrite G4; [exact H3|]. cbn [settled]. rewrite (H4 HS). reflexivity.
    - eapply onward_trans; eassumption.
  Qed.

  Lemma bind_assoc : forall A B C (m : M A) (k : A -> M B) (l : B -> M C) s,
    bind (bind m k) l s = bind m (fun a => bind (k a) l) s.
  Proof. intros A B C m k l s. unfold bind. destruct (m s) as [[a|e] s']; reflexivity. Qed.

  Lemma bind3_ok : forall A B C D (m : M A) (n : M B) (e : M C) (k : C -> M D) s c s',
    bind m (fun _ => bind n (fun _ => e)) s = (Ok c, s') -> bind m (fun _ => bind n (fun _ => bind e k)) s = k c s'.
  Proof.
    intros A B C D m n e k s c s' H. unfold bind in *. destruct (m s) as [[a|x] s1]; [|discriminate H].
    destruct (n s1) as [[b|x] s2]; [|discriminate H]. rewrite H. reflexivity.
  Qed.

  Lemma bind2_ok : forall A B C D (m : M A) (n : M B) (k : B -> M C) (l : C -> M D) s b s',
    bind m (fun _ => n) s = (Ok b, s') -> bind m (fun a => bind ((fun _ => bind n k) a) l) s = bind (k b) l s'.
  Proof.
    intros A B C D m n k l s b s' H. unfold bind in *. destruct (m s) as [[a|x] s1]; [|discriminate H]. rewrite H. reflexivity.
  Qed.

  Lemma query_delete_ok : forall s a q, inv s a ->
    exists s' r' sc' m, query_delete pol opt me q s = (Ok tt, s') /\ R s' r' sc' /\ matching sc' r' /\ read a m /\
                        rd_cells r' = kill_where q (nums m) /\ (auto_flush opt = true -> quiet s' /\ unsearched s') /\
                        onward (dr s) (dr s').
  Proof.
    intros s a q H. destruct (writer_then_searcher s a H) as (s1 & r & H1 & H2 & H3 & H4).
    destruct (reader_deletes_R (map fst (hits pol q (rd_cells r))) s1 r _ H2) as (s2 & r2 & G1 & G2 & G3 & G4 & G5).
    destruct (auto_R s2 r2 _ G2) as (s3 & r3 & sc3 & K1 & K2 & K3 & K4 & K5 & K6).
    { right. rewrite G3. reflexivity. }
    exists s3, r3, sc3, (mkAbs (rd_cells r) true). split.
    { unfold query_delete. rewrite <- bind_assoc. erewrite bind_ok by exact H1. erewrite bind_ok by (apply searcher_reader_R; exact H2).
      erewrite bind_ok by exact G1. exact K1. }
    split; [exact K2|]. split; [exact K3|]. split; [exact H3|].
    split; [rewrite K4, G4; cbn [nums]; apply kills_hits; exact rank_ok|]. split; [exact K5|].
    eapply onward_trans; [exact H4|]. eapply onward_trans; eassumption.
  Qed.

  (* add_document up to the point where the writer takes the document *)
  Lemma make_room : forall s a x, inv s a ->
    exists s' w, (ensure_writer_open me ;;
                  (match key opt with
                   | NoKey => ret tt
                   | OneKey f => writer_delete pol f [val f x]
                   | Keys fs => query_delete pol opt me (fun y => forallb (fun f => has_term f (val f x) y) fs)
                   end) ;; ensure_writer_open me) s = (Ok tt, s') /\ W s' w /\
                 live (wr_cells w) = without (replaced opt x) (docs a) /\ onward (dr s) (dr s').
  Proof.
    intros s a x H. destruct (ensure_writer_open_ok s a H) as (s1 & w & H1 & H2 & H3 & H4 & H5).
    erewrite bind_ok by exact H1. unfold replaced. destruct (key opt) as [|f|fs].
    - destruct (ensure_writer_open_ok s1 _ (inv_W s1 w H2)) as (s2 & w2 & G1 & G2 & G3 & G4 & G5).
      exists s2, w2. erewrite bind_ok by reflexivity. split; [exact G1|]. split; [exact G2|].
      split; [rewrite G3; cbn [nums]; rewrite H3; unfold docs, without|eapply onward_trans; eassumption].
      cbn [negb]. symmetry. induction (live (nums a)) as [|y l IH]; [reflexivity|cbn [filter]; rewrite IH; reflexivity].
    - destruct (writer_delete_W s1 w f [val f x] H2) as (s2 & w2 & G1 & G2 & G3 & G4 & G5).
      destruct (ensure_writer_open_ok s2 _ (inv_W s2 w2 G2)) as (s3 & w3 & K1 & K2 & K3 & K4 & K5).
      exists s3, w3. erewrite bind_ok by exact G1. split; [exact K1|]. split; [exact K2|].
      split; [|eapply onward_trans; [exact H5|eapply onward_trans; eassumption]].
      rewrite K3. cbn [nums]. rewrite G4, H3. apply without_ext. intros y. cbn [existsb]. apply orb_false_r.
    - set (q := fun y => forallb (fun f => has_term f (val f x) y) fs).
      destruct (query_delete_ok s1 _ q (inv_W s1 w H2)) as (s2 & r2 & sc2 & m & G1 & G2 & G3 & (G4a & G4b & G4c) & G5 & G6 & G7).
      destruct (ensure_writer_open_ok s2 _ (inv_R s2 r2 sc2 G2 G3)) as (s3 & w3 & K1 & K2 & K3 & K4 & K5).
      exists s3, w3. erewrite bind_ok by exact G1. split; [exact K1|]. split; [exact K2|].
      split; [|eapply onward_trans; [exact H5|eapply onward_trans; eassumption]].
      rewrite K3. cbn [nums]. rewrite G5, live_kill_where. unfold docs in G4b. cbn [nums] in G4b. rewrite G4b, H3. reflexivity.
  Qed.

  Lemma add_document_ok : forall s a x, inv s a ->
    exists s' b, add_document pol opt me x s = (Ok tt, s') /\ inv s' b /\ docs b = without (replaced opt x) (docs a) ++ [x] /\
                 current s' /\ unsearched s' /\ (auto_flush opt = true -> quiet s') /\ onward (dr s) (dr s').
  Proof.
    intros s a x H. destruct (make_room s a x H) as (s1 & w1 & H1 & H2 & H3 & H4).
    destruct (writer_add_W s1 w1 x H2) as (s2 & w2 & G1 & G2 & G3 & G4).
    destruct (auto_W s2 w2 G2) as (s3 & b & K1 & K2 & K3 & K4 & K5 & K6 & K7).
    exists s3, b. split.
    { unfold add_document.
      erewrite bind3_ok by exact H1. erewrite bind_ok by exact G1. exact K1. }
    split; [exact K2|]. split; [rewrite K3, G3, H3; reflexivity|]. split; [exact K4|]. split; [exact K5|]. split; [exact K6|].
    eapply onward_trans; [exact H4|]. eapply onward_trans; eassumption.
  Qed.

  Lemma flush_ok : forall s a, inv s a ->
    exists s' b, flush pol s = (Ok tt, s') /\ inv s' b /\ read a b /\ quiet s' /\ unsearched s' /\ (current s -> current s') /\
                 onward (dr s) (dr s').
  Proof.
    intros s a H. destruct H as [w HW|r sc HR HM|HN|r sc HO HM].
    - destruct (writer_close_W s w HW) as (s' & H1 & H2 & H3 & H4 & H5). exists s'. eexists. split.
      { unfold flush. erewrite bind_ok by (unfold get; reflexivity). cbv beta. rewrite (W_rd _ _ HW), (W_wr _ _ HW). exact H1. }
      split; [apply inv_N; exact H2|]. split.
      { unfold read, docs. cbn [settled nums]. split; [reflexivity|]. split; [exact H3|]. intros E. apply H4. apply negb_true_iff. exact E. }
      destruct H2 as (n & d & -> & HL). split; [exact HL|]. split; [reflexivity|]. split; [|exact H5].
      intros _. apply current_N. exists n, d. auto.
    - destruct (flush_R s r sc HR HM) as (s' & r' & H1 & H2 & H3 & H4 & H5). exists s'. eexists. split; [exact H1|].
      split; [apply (inv_R _ _ _ H2); left; reflexivity|]. split.
      { unfold read, docs. cbn [settled nums]. rewrite H4. auto. }
      pose proof H2 as (n & d & Hs & _ & _ & [(L & _)|(_ & _ & L & _)]); [congruence|].
      split; [rewrite Hs; exact L|]. split; [rewrite Hs; reflexivity|]. split; [|exact H5].
      intros _. eapply current_R. exact H2.
    - exists s. eexists. split.
      { destruct HN as (n & d & -> & _). reflexivity. }
      split; [apply inv_N; exact HN|]. split; [unfold read; cbn [settled]; auto|].
      destruct HN as (n & d & -> & HL). split; [exact HL|]. split; [reflexivity|]. split; [auto|apply onward_refl].
    - pose proof HO as (n & d & Hs & L & L1 & L2 & L3 & L4).
      assert (HO' : O (mkSt (mkIdx true None (Some r) None n) d) r None) by (exists n, d; auto 10).
      exists (mkSt (mkIdx true None (Some r) None n) d). eexists. split.
      { rewrite Hs. destruct HM as [->| ->];
        unfold flush, searcher_close, reader_commit, bind, get, set_sc, set_dir, set_rd, ret, rd_commit; cbn; rewrite L2; reflexivity. }
      split; [apply (inv_O _ _ _ HO'); left; reflexivity|]. rewrite Hs. cbn [dr]. split; [unfold read; cbn [settled]; auto|].
      split; [exact L|]. split; [reflexivity|]. split; [|apply onward_refl].
      intros HC. exfalso. apply (HC r sc). exists n, d. auto 10.
  Qed.
  Lemma auto_ok : forall s a, inv s a ->
    exists s' b, auto pol opt s = (Ok tt, s') /\ inv s' b /\ read a (mkAbs (nums b) true) /\ (settled a = true -> settled b = true) /\
                 (auto_flush opt = true -> quiet s' /\ unsearched s') /\
                 (current s -> current s') /\ onward (dr s) (dr s').
  Proof.
    intros s a H. unfold auto, when. destruct (auto_flush opt).
    - destruct (flush_ok s a H) as (s' & b & H1 & H2 & H3 & H4 & H5 & H6 & H7). exists s', b. split; [exact H1|]. split; [exact H2|].
      destruct H3 as (K1 & K2 & K3). split; [unfold read; auto|]. split; [auto|]. split; [auto|]. split; assumption.
    - exists s, a. split; [reflexivity|]. split; [exact H|]. split; [unfold read; auto|]. split; [auto|]. split; [discriminate|].
      split; [auto|apply onward_refl].
  Qed.

  (* all that is said of a call *)
  Definition fine (s : st) (a : abs) (c : call) (m : res value * st) : Prop :=
    exists v s' b, m = (Ok v, s') /\ inv s' b /\ step opt a c v b /\ onward (dr s) (dr s') /\
      (quiet s -> auto_flush opt = true -> sharing c -> quiet s') /\ (current s -> current s') /\
      (auto_flush opt = true -> by_searcher c = false -> unsearched s -> unsearched s').

  Lemma delete_name : forall s a t, inv s a -> fine s a (Delete (inr t)) (run pol opt me (Delete (inr t)) s).
  Proof.
    intros s a t H. destruct (ensure_writer_open_ok s a H) as (s1 & w1 & H1 & H2 & H3 & H4 & H5).
    destruct (writer_delete_W s1 w1 (id_field opt) [t] H2) as (s2 & w2 & G1 & G2 & G3 & G4 & G5).
    destruct (auto_W s2 w2 G2) as (s3 & b & K1 & K2 & K3 & K4 & K5 & K6 & K7).
    exists Unit, s3, b. split.
    { cbn [run]. unfold give, delete. rewrite ?bind_assoc. erewrite bind_ok by exact H1. erewrite bind_ok by exact G1.
      erewrite bind_ok by exact K1. reflexivity. }
    split; [exact K2|]. split; [cbn [step]; split; [reflexivity|rewrite K3, G4, H3; reflexivity]|].
    split; [eapply onward_trans; [exact H5|eapply onward_trans; eassumption]|].
    split; [intros _ E _; exact (K6 E)|]. split; auto.
  Qed.
  (* delete of an Integer, on its own and within update *)
  Lemma delete_number_ok : forall s a n, inv s a -> timely s ->
    exists s' r' sc' m, delete pol opt me (inl n) s = (Ok tt, s') /\ R s' r' sc' /\ matching sc' r' /\ read a m /\
                        rd_cells r' = kill_at n (nums m) /\ (auto_flush opt = true -> quiet s' /\ unsearched s') /\ onward (dr s) (dr s').
  Proof.
    intros s a n H HT. destruct (ensure_reader_open_ok s a H) as (b & s1 & r & sc & H1 & H2 & H3 & H4 & H5 & H6 & H7 & H8 & H9).
    destruct (reader_delete_R s1 r sc n H2) as (s2 & r2 & G1 & G2 & G3 & G4 & G5).
    destruct (auto_R s2 r2 sc G2) as (s3 & r3 & sc3 & K1 & K2 & K3 & K4 & K5 & K6).
    { destruct (H5 HT) as [->| ->]; [left; reflexivity|right; rewrite G3; reflexivity]. }
    exists s3, r3, sc3, (mkAbs (rd_cells r) true). split.
    { unfold delete. rewrite bind_assoc. erewrite bind_ok by exact H1. erewrite bind_ok by exact G1. exact K1. }
    split; [exact K2|]. split; [exact K3|]. split; [apply read_to; assumption|]. split; [rewrite K4, G4; reflexivity|].
    split; [exact K5|]. eapply onward_trans; [exact H9|eapply onward_trans; eassumption].
  Qed.
  Lemma delete_number : forall s a n, inv s a -> timely s -> fine s a (Delete (inl n)) (run pol opt me (Delete (inl n)) s).
  Proof.
    intros s a n H HT. destruct (delete_number_ok s a n H HT) as (s' & r & sc & m & H1 & H2 & H3 & H4 & H5 & H6 & H7).
    exists Unit, s'. eexists. split; [cbn [run]; unfold give; erewrite bind_ok by exact H1; reflexivity|].
    split; [apply (inv_R _ _ _ H2 H3)|]. split.
    { cbn [step settled nums]. split; [reflexivity|]. split; [reflexivity|]. exists m. auto. }
    split; [exact H7|]. split; [intros _ E _; apply (H6 E)|]. split; [intros _; eapply current_R; exact H2|].
    intros E _ _. apply (H6 E).
  Qed.

  Lemma batch_delete_ok : forall s a ids, inv s a -> (numbers ids <> [] -> timely s) ->
    exists s' b m, batch_delete pol opt me ids s = (Ok tt, s') /\ inv s' b /\ read a m /\
                   docs b = without (named opt (names ids)) (live (kills (numbers ids) (nums m))) /\
                   (current s -> current s') /\ (ids <> [] -> current s') /\ onward (dr s) (dr s').
  Proof.
    intros s a ids H HT. unfold batch_delete.
    assert (A : exists s1 b1 m, (match numbers ids with [] => ret tt | n :: l => ensure_reader_open pol true ;; reader_deletes me (n :: l) end) s = (Ok tt, s1) /\
                inv s1 b1 /\ read a m /\ docs b1 = live (kills (numbers ids) (nums m)) /\
                (current s -> current s1) /\ (numbers ids <> [] -> current s1) /\ onward (dr s) (dr s1)).
    { destruct (numbers ids) as [|n ns].
      - exists s, a, (mkAbs (nums a) true). split; [reflexivity|]. split; [exact H|]. split; [unfold read; cbn; auto|].
        split; [reflexivity|]. split; [auto|]. split; [congruence|apply onward_refl].
      - destruct (ensure_reader_open_ok s a H) as (b & s1 & r & sc & H1 & H2 & H3 & H4 & H5 & H6 & H7 & H8 & H9).
        destruct (reader_deletes_R (n :: ns) s1 r sc H2) as (s2 & r2 & G1 & G2 & G3 & G4 & G5).
        exists s2. eexists. exists (mkAbs (rd_cells r) true). split; [erewrite bind_ok by exact H1; exact G1|].
        split; [apply (inv_R _ _ _ G2)|].
        { destruct H5 as [->| ->]; [apply HT; discriminate|left; reflexivity|right; rewrite G3; reflexivity]. }
        split; [apply read_to; assumption|]. split; [unfold docs; cbn [nums]; rewrite G4; reflexivity|].
        split; [intros _; eapply current_R; exact G2|]. split; [intros _; eapply current_R; exact G2|].
        eapply onward_trans; eassumption. }
    destruct A as (s1 & b1 & m & H1 & H2 & H3 & H4 & H5 & H6 & H7).
    erewrite bind_ok by exact H1. destruct (names ids) as [|t ts] eqn:E.
    - exists s1, b1, m. split; [reflexivity|]. split; [exact H2|]. split; [exact H3|]. split.
      { rewrite H4. symmetry. apply without_none. unfold named. cbn [existsb].
        clear. generalize (live (kills (numbers ids) (nums m))) as l. intros l. induction l as [|y l IH]; [reflexivity|exact IH]. }
      split; [exact H5|]. split; [|exact H7]. intros Hi. apply H6. destruct ids as [|[n|t] ids]; [congruence|discriminate|discriminate E].
    - destruct (ensure_writer_open_ok s1 b1 H2) as (s2 & w2 & G1 & G2 & G3 & G4 & G5).
      destruct (writer_delete_W s2 w2 (id_field opt) (t :: ts) G2) as (s3 & w3 & K1 & K2 & K3 & K4 & K5).
      exists s3. eexists. exists m. split; [erewrite bind_ok by exact G1; exact K1|]. split; [apply inv_W; exact K2|].
      split; [exact H3|]. split; [unfold docs at 1; cbn [nums]; rewrite K4, G3; fold (docs b1); rewrite H4; reflexivity|].
      split; [intros _; eapply current_W; exact K2|]. split; [intros _; eapply current_W; exact K2|].
      eapply onward_trans; [exact H7|eapply onward_trans; eassumption].
  Qed.
  Lemma delete_batch_fine : forall s a ids, inv s a -> (numbers ids <> [] -> timely s) ->
    fine s a (DeleteBatch ids) (run pol opt me (DeleteBatch ids) s).
  Proof.
    intros s a ids H HT. destruct (batch_delete_ok s a ids H HT) as (s1 & b1 & m & H1 & H2 & H3 & H4 & H5 & H6 & H7).
    destruct (auto_ok s1 b1 H2) as (s2 & b2 & G1 & G2 & (G3 & G4 & G5) & G6 & G7 & G8 & G9).
    exists Unit, s2, b2. split.
    { cbn [run]. unfold give, delete_batch. rewrite bind_assoc. erewrite bind_ok by exact H1. erewrite bind_ok by exact G1. reflexivity. }
    split; [exact G2|]. split.
    { cbn [step]. split; [reflexivity|]. exists m. split; [exact H3|]. rewrite <- H4. exact G4. }
    split; [eapply onward_trans; eassumption|]. split; [intros _ E _; apply (G7 E)|]. split; [auto|].
    intros E _ _. apply (G7 E).
  Qed.

  Lemma query_delete_fine : forall s a q, inv s a -> fine s a (QueryDelete q) (run pol opt me (QueryDelete q) s).
  Proof.
    intros s a q H. destruct (query_delete_ok s a q H) as (s' & r & sc & m & H1 & H2 & H3 & H4 & H5 & H6 & H7).
    exists Unit, s'. eexists. split; [cbn [run]; unfold give; erewrite bind_ok by exact H1; reflexivity|].
    split; [apply (inv_R _ _ _ H2 H3)|]. split.
    { cbn [step settled nums]. split; [reflexivity|]. split; [reflexivity|]. exists m. auto. }
    split; [exact H7|]. split; [intros _ E _; apply (H6 E)|]. split; [intros _; eapply current_R; exact H2|].
    intros E _ _. apply (H6 E).
  Qed.
  Lemma add_fine : forall s a x, inv s a -> fine s a (Add x) (run pol opt me (Add x) s).
  Proof.
    intros s a x H. destruct (add_document_ok s a x H) as (s' & b & H1 & H2 & H3 & H4 & H5 & H6 & H7).
    exists Unit, s', b. split; [cbn [run]; unfold give; erewrite bind_ok by exact H1; reflexivity|].
    split; [exact H2|]. split; [cbn [step]; auto|]. split; [exact H7|]. split; [intros _ E _; exact (H6 E)|]. split; auto.
  Qed.

  Lemma update_number_fine : forall s a n x, inv s a -> fine s a (Update (inl n) x) (run pol opt me (Update (inl n) x) s).
  Proof.
    intros s a n x H. destruct (ensure_writer_open_ok s a H) as (s1 & w1 & H1 & H2 & H3 & H4 & H5).
    destruct (delete_number_ok s1 _ n (inv_W s1 w1 H2) (timely_W s1 w1 H2)) as (s2 & r2 & sc2 & m & G1 & G2 & G3 & (G4a & G4b & G4c) & G5 & G6 & G7).
    destruct (ensure_writer_open_ok s2 _ (inv_R s2 r2 sc2 G2 G3)) as (s3 & w3 & K1 & K2 & K3 & K4 & K5).
    destruct (writer_add_W s3 w3 x K2) as (s4 & w4 & L1 & L2 & L3 & L4).
    destruct (auto_W s4 w4 L2) as (s5 & b & M1 & M2 & M3 & M4 & M5 & M6 & M7).
    exists Unit, s5, b. split.
    { cbn [run]. unfold give, update. rewrite ?bind_assoc. erewrite bind_ok by exact H1. rewrite ?bind_assoc. erewrite bind_ok by exact G1.
      rewrite ?bind_assoc. erewrite bind_ok by exact K1. rewrite ?bind_assoc. erewrite bind_ok by exact L1. erewrite bind_ok by exact M1. reflexivity. }
    split; [exact M2|]. split.
    { cbn [step]. split; [reflexivity|]. exists m. split.
      - unfold read. split; [exact G4a|]. split; [rewrite G4b; unfold docs; cbn [nums]; rewrite H3; reflexivity|].
        intros E. rewrite G4c; [exact H3|]. cbn [settled]. rewrite (H4 E). reflexivity.
      - rewrite M3, L3, K3. cbn [nums]. rewrite G5. reflexivity. }
    split; [do 4 (eapply onward_trans; [eassumption|]); exact M7|].
    split; [intros _ E _; exact (M6 E)|]. split; auto.
  Qed.
  Lemma update_name_fine : forall s a t x, inv s a -> auto_flush opt = false ->
    fine s a (Update (inr t) x) (run pol opt me (Update (inr t) x) s).
  Proof.
    intros s a t x H HA. destruct (ensure_writer_open_ok s a H) as (s1 & w1 & H1 & H2 & H3 & H4 & H5).
    destruct (ensure_writer_open_ok s1 _ (inv_W s1 w1 H2)) as (s2 & w2 & G1 & G2 & G3 & G4 & G5).
    destruct (writer_delete_W s2 w2 (id_field opt) [t] G2) as (s3 & w3 & K1 & K2 & K3 & K4 & K5).
    destruct (writer_commit_W s3 w3 K2) as (s4 & w4 & L1 & L2 & L3 & L4 & L5 & L6).
    destruct (writer_add_W s4 w4 x L2) as (s5 & w5 & M1 & M2 & M3 & M4).
    exists Unit, s5. eexists. split.
    { cbn [run]. unfold give, update, delete, auto, when. rewrite HA. rewrite ?bind_assoc. erewrite bind_ok by exact H1.
      rewrite ?bind_assoc. erewrite bind_ok by exact G1. rewrite ?bind_assoc. erewrite bind_ok by exact K1.
      rewrite ?bind_assoc. erewrite bind_ok by reflexivity. rewrite ?bind_assoc. erewrite bind_ok by exact L1.
      rewrite ?bind_assoc. erewrite bind_ok by exact M1. reflexivity. }
    split; [apply inv_W; exact M2|]. split.
    { cbn [step]. split; [reflexivity|]. unfold docs at 1. cbn [nums]. rewrite M3, L3, K4, G3. cbn [nums]. rewrite H3. reflexivity. }
    split; [do 4 (eapply onward_trans; [eassumption|]); exact M4|].
    split; [congruence|]. split; [intros _; eapply current_W; exact M2|congruence].
  Qed.
  Lemma numbers_names : forall (g : doc -> term) xs, numbers (map (fun x => inr (g x)) xs) = [].
  Proof. intros g xs. unfold numbers. induction xs as [|x xs IH]; [reflexivity|exact IH]. Qed.
  Lemma names_names : forall (g : doc -> term) xs, names (map (fun x => inr (g x)) xs) = map g xs.
  Proof. intros g xs. unfold names. induction xs as [|x xs IH]; [reflexivity|]. cbn [map flat_map app]. rewrite IH. reflexivity. Qed.
  Lemma batch_update_fine : forall s a xs, inv s a -> fine s a (BatchUpdate xs) (run pol opt me (BatchUpdate xs) s).
  Proof.
    intros s a xs H.
    destruct (batch_delete_ok s a (map (fun x => inr (val (id_field opt) x)) xs) H) as (s1 & b1 & m & H1 & H2 & H3 & H4 & H5 & H6 & H7).
    { rewrite numbers_names. congruence. }
    rewrite numbers_names, names_names in H4. cbn [kills fold_left] in H4.
    destruct (ensure_writer_open_ok s1 b1 H2) as (s2 & w2 & G1 & G2 & G3 & G4 & G5).
    destruct (writer_adds_W xs s2 w2 G2) as (s3 & w3 & K1 & K2 & K3 & K4).
    destruct (flush_W s3 w3 K2) as (s4 & L1 & L2 & L3 & L4).
    exists Unit, s4. eexists. split.
    { cbn [run]. unfold give, batch_update. rewrite ?bind_assoc. erewrite bind_ok by exact H1. rewrite ?bind_assoc. erewrite bind_ok by exact G1.
      rewrite ?bind_assoc. erewrite bind_ok by exact K1. erewrite bind_ok by exact L1. reflexivity. }
    split; [apply inv_N; exact L2|]. split.
    { cbn [step]. split; [reflexivity|]. unfold docs at 1. cbn [nums]. rewrite L3, K3, G3. fold (docs b1). rewrite H4. f_equal. f_equal.
      destruct H3 as (_ & H3 & _). exact H3. }
    split; [do 3 (eapply onward_trans; [eassumption|]); exact L4|].
    pose proof (current_N _ L2) as HC. destruct L2 as (n & d & -> & HL). split; [intros _ _ _; exact HL|]. split; [auto|reflexivity].
  Qed.
  Lemma query_update_fine : forall s a q change, inv s a ->
    fine s a (QueryUpdate q change) (run pol opt me (QueryUpdate q change) s).
  Proof.
    intros s a q change H. destruct (writer_then_searcher s a H) as (s1 & r & H1 & H2 & (H3a & H3b & H3c) & H4).
    destruct (reader_deletes_R (map fst (hits pol q (rd_cells r))) s1 r _ H2) as (s2 & r2 & G1 & G2 & G3 & G4 & G5).
    assert (HM : matching (Some (mkSc (rd_id r) true)) r2) by (right; rewrite G3; reflexivity).
    destruct (ensure_writer_open_ok s2 _ (inv_R s2 r2 _ G2 HM)) as (s3 & w3 & K1 & K2 & K3 & K4 & K5).
    destruct (writer_adds_W (map (fun h => change (snd h)) (hits pol q (rd_cells r))) s3 w3 K2) as (s4 & w4 & L1 & L2 & L3 & L4).
    destruct (auto_W s4 w4 L2) as (s5 & b & M1 & M2 & M3 & M4 & M5 & M6 & M7).
    exists Unit, s5, b. split.
    { cbn [run]. unfold give, query_update. rewrite ?bind_assoc. erewrite bind2_ok by exact H1.
      rewrite ?bind_assoc. erewrite bind_ok by (apply searcher_reader_R; exact H2). cbv zeta. rewrite ?bind_assoc.
      erewrite bind_ok by exact G1. rewrite ?bind_assoc. erewrite bind_ok by exact K1. rewrite ?bind_assoc. erewrite bind_ok by exact L1.
      erewrite bind_ok by exact M1. reflexivity. }
    split; [exact M2|]. split.
    { cbn [step]. split; [reflexivity|]. unfold docs in H3b at 1. cbn [nums] in H3b.
      exists (map snd (hits pol q (rd_cells r))). split.
      - rewrite <- H3b. rewrite <- (found_docs q (rd_cells r) 0). apply Permutation_map. apply rank_ok.
      - rewrite M3, L3, K3. cbn [nums]. rewrite G4, kills_hits by exact rank_ok. rewrite live_kill_where, H3b. rewrite map_map. reflexivity. }
    split; [do 4 (eapply onward_trans; [eassumption|]); exact M7|].
    split; [intros _ E _; exact (M6 E)|]. split; auto.
  Qed.
  Lemma flush_fine : forall s a, inv s a -> fine s a Flush (run pol opt me Flush s).
  Proof.
    intros s a H. destruct (flush_ok s a H) as (s' & b & H1 & H2 & H3 & H4 & H5 & H6 & H7).
    exists Unit, s', b. split; [cbn [run]; unfold give; erewrite bind_ok by exact H1; reflexivity|].
    split; [exact H2|]. split; [cbn [step]; auto|]. split; [exact H7|]. split; [auto|]. split; auto.
  Qed.
  Lemma optimize_fine : forall s a, inv s a -> fine s a Optimize (run pol opt me Optimize s).
  Proof.
    intros s a H. destruct (ensure_writer_open_ok s a H) as (s1 & w1 & H1 & H2 & H3 & H4 & H5).
    destruct (writer_optimize_W s1 w1 H2) as (s2 & w2 & G1 & G2 & G3 & G4 & G5).
    destruct (writer_close_W s2 w2 G2) as (s3 & K1 & K2 & K3 & K4 & K5).
    exists Unit, s3. eexists. split.
    { cbn [run]. unfold give, optimize. rewrite ?bind_assoc. erewrite bind_ok by exact H1. rewrite ?bind_assoc. erewrite bind_ok by exact G1.
      erewrite bind_ok by exact K1. reflexivity. }
    split; [apply inv_N; exact K2|]. split.
    { cbn [step settled nums]. split; [reflexivity|]. split; [reflexivity|]. rewrite (K4 G3), G4, H3. reflexivity. }
    split; [eapply onward_trans; [exact H5|eapply onward_trans; eassumption]|].
    pose proof (current_N _ K2) as HC. destruct K2 as (n & d & -> & HL). split; [intros _ _ _; exact HL|]. split; [auto|reflexivity].
  Qed.
  Lemma add_indexes_fine : forall s a others, inv s a -> fine s a (AddIndexes others) (run pol opt me (AddIndexes others) s).
  Proof.
    intros s a others H. destruct (ensure_writer_open_ok s a H) as (s1 & w1 & H1 & H2 & H3 & H4 & H5).
    destruct (writer_add_readers_W s1 w1 others H2) as (s2 & w2 & G1 & G2 & G3 & G4).
    exists Unit, s2. eexists. split.
    { cbn [run]. unfold give, add_indexes. rewrite ?bind_assoc. erewrite bind_ok by exact H1. erewrite bind_ok by exact G1. reflexivity. }
    split; [apply inv_W; exact G2|]. split; [cbn [step]; split; [reflexivity|]; unfold docs; cbn [nums]; rewrite G3, H3; reflexivity|].
    split; [eapply onward_trans; eassumption|]. split; [intros _ _ []|]. split; [intros _; eapply current_W; exact G2|].
    intros _ _ _. destruct G2 as (n & d & -> & _). reflexivity.
  Qed.
  Lemma field_infos_fine : forall s a, inv s a -> fine s a FieldInfos (run pol opt me FieldInfos s).
  Proof.
    intros s a H. destruct (ensure_writer_open_ok s a H) as (s1 & w1 & H1 & H2 & H3 & H4 & H5).
    exists Unit, s1. eexists. split.
    { cbn [run]. unfold give, field_infos. erewrite bind_ok by exact H1. reflexivity. }
    split; [apply inv_W; exact H2|]. split; [cbn [step]; split; [reflexivity|]; unfold docs; cbn [nums]; rewrite H3; reflexivity|].
    split; [exact H5|]. split; [intros _ _ []|]. split; [intros _; eapply current_W; exact H2|].
    intros _ _ _. destruct H2 as (n & d & -> & _). reflexivity.
  Qed.

  (* the calls that read: what is asked of the reader is f *)
  Lemma reading : forall A (f : reader -> A) (g : A -> value) c s a, inv s a -> timely s ->
    run pol opt me c = give g (ensure_reader_open pol true ;; let* r := the_reader in ret (f r)) ->
    (forall r, read a (mkAbs (rd_cells r) true) -> step opt a c (g (f r)) (mkAbs (rd_cells r) true)) ->
    fine s a c (run pol opt me c s).
  Proof.
    intros A f g c s a H HT E HS.
    destruct (ensure_reader_open_ok s a H) as (b & s1 & r & sc & H1 & H2 & H3 & H4 & H5 & H6 & H7 & H8 & H9).
    exists (g (f r)), s1. eexists. split.
    { rewrite E. unfold give. rewrite ?bind_assoc. erewrite bind_ok by exact H1. rewrite ?bind_assoc.
      erewrite bind_ok by (eapply the_reader_R; exact H2). reflexivity. }
    split; [apply (inv_R _ _ _ H2 (H5 HT))|]. split; [apply HS, read_to; assumption|]. split; [exact H9|].
    split; [intros Q _ _; exact (H7 Q)|]. split; [intros _; eapply current_R; exact H2|].
    intros _ _ U. destruct H2 as (n & d & -> & _). exact (H8 U).
  Qed.
  Lemma read_docs : forall a r, read a (mkAbs (rd_cells r) true) -> live (rd_cells r) = docs a.
  Proof. intros a r (_ & H & _). exact H. Qed.

  Lemma size_fine : forall s a, inv s a -> timely s -> fine s a Size (run pol opt me Size s).
  Proof.
    intros s a H HT. apply (reading _ (fun r => length (filter snd (rd_cells r))) Nat); try assumption; [reflexivity|].
    intros r HR. cbn [step]. split; [exact HR|]. rewrite <- (read_docs a r HR). unfold live. rewrite map_length. reflexivity.
  Qed.
  Lemma each_fine : forall s a, inv s a -> timely s -> fine s a Each (run pol opt me Each s).
  Proof.
    intros s a H HT. apply (reading _ (fun r => map fst (filter snd (rd_cells r))) Docs); try assumption; [reflexivity|].
    intros r HR. cbn [step]. split; [exact HR|]. rewrite <- (read_docs a r HR). reflexivity.
  Qed.
  Lemma find_filter : forall (q : doc -> bool) l, find q l = match filter q l with [] => None | x :: _ => Some x end.
  Proof. intros q l. induction l as [|x l IH]; [reflexivity|]. cbn [find filter]. destruct (q x); [reflexivity|exact IH]. Qed.
  Lemma doc_of_fine : forall s a t, inv s a -> timely s -> fine s a (DocOf t) (run pol opt me (DocOf t) s).
  Proof.
    intros s a t H HT.
    apply (reading _ (fun r => match found 0 (has_term (id_field opt) t) (rd_cells r) with [] => None | h :: _ => Some (snd h) end) Doc);
      try assumption; [reflexivity|].
    intros r HR. cbn [step]. split; [exact HR|]. rewrite <- (read_docs a r HR), find_filter.
    rewrite <- (found_docs _ (rd_cells r) 0). destruct (found 0 (has_term (id_field opt) t) (rd_cells r)) as [|h l]; reflexivity.
  Qed.
  Lemma has_deletions_fine : forall s a, inv s a -> timely s -> fine s a HasDeletions (run pol opt me HasDeletions s).
  Proof.
    intros s a H HT. apply (reading _ (fun r => existsb (fun c => negb (snd c)) (rd_cells r)) Bool); try assumption; [reflexivity|].
    intros r HR. cbn [step nums]. split; [exact HR|]. rewrite existsb_dead. reflexivity.
  Qed.
  Lemma deleted_fine : forall s a n, inv s a -> timely s -> fine s a (Deleted n) (run pol opt me (Deleted n) s).
  Proof.
    intros s a n H HT.
    destruct (ensure_reader_open_ok s a H) as (b & s1 & r & sc & H1 & H2 & H3 & H4 & H5 & H6 & H7 & H8 & H9).
    eexists. exists s1. eexists. split.
    { cbn [run]. unfold give, deleted. rewrite ?bind_assoc. erewrite bind_ok by exact H1. rewrite ?bind_assoc.
      erewrite bind_ok by (eapply the_reader_R; exact H2).
      instantiate (1 := Bool (match nth_error (rd_cells r) n with Some (_, false) => true | _ => false end)).
      destruct (nth_error (rd_cells r) n) as [[x []]|]; reflexivity. }
    split; [apply (inv_R _ _ _ H2 (H5 HT))|]. split; [cbn [step nums]; split; [apply read_to; assumption|reflexivity]|]. split; [exact H9|].
    split; [intros Q _ _; exact (H7 Q)|]. split; [intros _; eapply current_R; exact H2|].
    intros _ _ U. destruct H2 as (k & d & -> & _). exact (H8 U).
  Qed.
  Lemma search_fine : forall s a q, inv s a -> fine s a (Search q) (run pol opt me (Search q) s).
  Proof.
    intros s a q H. destruct (ensure_searcher_open_ok s a H) as (s1 & r & H1 & H2 & H3 & H4 & H5 & H6).
    exists (Hits (hits pol q (rd_cells r))), s1. eexists. split.
    { cbn [run]. unfold give, search. rewrite ?bind_assoc. erewrite bind_ok by exact H1. rewrite ?bind_assoc.
      erewrite bind_ok by (apply searcher_reader_R; exact H2). reflexivity. }
    split; [apply (inv_R _ _ _ H2); right; reflexivity|]. split.
    { cbn [step nums]. split; [apply read_to; assumption|]. exists (hits pol q (rd_cells r)). split; [reflexivity|].
      unfold hits. split.
      - eapply Permutation_NoDup; [apply Permutation_map, Permutation_sym, rank_ok|]. apply found_nodup.
      - intros n x. split.
        + intros HI. apply (Permutation_in _ (rank_ok _)) in HI. apply found_in in HI. rewrite Nat.sub_0_r in HI. tauto.
        + intros HI. apply (Permutation_in _ (Permutation_sym (rank_ok _))). apply found_in. rewrite Nat.sub_0_r. split; [lia|exact HI]. }
    split; [exact H6|]. split; [intros Q _ _; exact (H5 Q)|]. split; [intros _; eapply current_R; exact H2|].
    intros _ E. discriminate E.
  Qed.

  (* doc of an Integer, to_s *)
  Lemma ensure_reader_R : forall g s r sc, R s r sc -> ensure_reader_open pol g s = (Ok false, s).
  Proof.
    intros g s r sc (n & d & -> & HH). unfold ensure_reader_open. erewrite bind_ok by (unfold get; reflexivity).
    cbn [obj o_open o_rd negb dr]. rewrite (held_latest r d HH). cbn [negb]. rewrite andb_false_r. reflexivity.
  Qed.
  Lemma reader_get_R : forall s r sc n, R s r sc ->
    reader_get n s = (match nth_error (rd_cells r) n with
                      | Some (x, true) => Ok x
                      | Some (_, false) => Raise StateError
                      | None => Raise NoDoc
                      end, s).
  Proof.
    intros s r sc n (k & d & -> & HH). unfold reader_get. erewrite bind_ok by (unfold get; reflexivity). cbn [obj o_rd].
    destruct (nth_error (rd_cells r) n) as [[x []]|]; reflexivity.
  Qed.
  Lemma doc_at_fine : forall s a n, inv s a -> current s ->
    fine s a (DocAt n) (run pol opt me (DocAt n) s) \/
    exists e s', run pol opt me (DocAt n) s = (Raise e, s') /\ fails a (DocAt n) e.
  Proof.
    intros s a n H HC. pose proof (current_timely s HC) as HT.
    destruct (ensure_reader_open_ok s a H) as (b & s1 & r & sc & H1 & H2 & H3 & H4 & H5 & H6 & H7 & H8 & H9).
    assert (H1' : exists b', ensure_reader_open pol false s = (Ok b', s1)).
    { destruct H as [w HW|r' sc' HR HM|HN|r' sc' HO HM].
      - exists b. rewrite <- H1. destruct HW as (k & d & -> & _). reflexivity.
      - exists b. rewrite <- H1. rewrite !(ensure_reader_R _ s r' sc' HR). reflexivity.
      - exists b. rewrite <- H1. destruct HN as (k & d & -> & _). reflexivity.
      - destruct (HC _ _ HO). }
    destruct H1' as [b' H1']. pose proof (reader_get_R s1 r sc n H2) as HG.
    assert (HRd : read a (mkAbs (rd_cells r) true)) by (apply read_to; assumption).
    assert (HI : inv s1 (mkAbs (rd_cells r) true)) by (apply (inv_R _ _ _ H2 (H5 HT))).
    destruct (nth_error (rd_cells r) n) as [[x []]|] eqn:E.
    - left. exists (Doc (Some x)), s1. eexists. split.
      { cbn [run]. unfold give, doc_at. rewrite bind_assoc. erewrite bind_ok by exact H1'. erewrite bind_ok by exact HG. reflexivity. }
      split; [exact HI|]. split; [cbn [step nums]; split; [exact HRd|]; exists x; split; [exact E|reflexivity]|].
      split; [exact H9|]. split; [intros _ _ []|]. split; [intros _; eapply current_R; exact H2|].
      intros _ _ U. destruct H2 as (k & d & -> & _). exact (H8 U).
    - right. exists StateError, s1. split.
      { cbn [run]. unfold give, doc_at. rewrite bind_assoc. erewrite bind_ok by exact H1'. unfold bind. rewrite HG. reflexivity. }
      cbn [fails]. exists (mkAbs (rd_cells r) true). split; [exact HRd|]. cbn [nums]. rewrite E. reflexivity.
    - right. exists NoDoc, s1. split.
      { cbn [run]. unfold give, doc_at. rewrite bind_assoc. erewrite bind_ok by exact H1'. unfold bind. rewrite HG. reflexivity. }
      cbn [fails]. exists (mkAbs (rd_cells r) true). split; [exact HRd|]. cbn [nums]. rewrite E. reflexivity.
  Qed.
  Lemma to_s_from_R : forall s r sc, R s r sc -> forall n i, i + n <= length (rd_cells r) ->
    to_s_from pol i n s = (Ok (live (firstn n (skipn i (rd_cells r)))), s).
  Proof.
    intros s r sc HR n. induction n as [|n IH]; intros i Hi; [reflexivity|].
    cbn [to_s_from]. destruct (nth_error (rd_cells r) i) as [[x b]|] eqn:E.
    2:{ apply nth_error_None in E. lia. }
    assert (ED : deleted pol i s = (Ok (negb b), s)).
    { unfold deleted. erewrite bind_ok by (eapply ensure_reader_R; exact HR). erewrite bind_ok by (eapply the_reader_R; exact HR).
      rewrite E. reflexivity. }
    assert (EK : skipn i (rd_cells r) = (x, b) :: skipn (S i) (rd_cells r)).
    { clear -E. revert E. generalize (rd_cells r) as l. induction i as [|i IH]; intros [|c l] E; try discriminate E.
      - cbn [nth_error] in E. apply some_inj in E. subst c. reflexivity.
      - cbn [nth_error] in E. cbn [skipn]. rewrite (IH l E). reflexivity. }
    erewrite bind_ok by exact ED. rewrite EK. cbn [firstn]. unfold live. cbn [filter snd].
    destruct b; cbn [negb].
    - assert (EG : doc_at pol i s = (Ok x, s)).
      { unfold doc_at. erewrite bind_ok by (eapply ensure_reader_R; exact HR). rewrite (reader_get_R s r sc i HR), E. reflexivity. }
      erewrite bind_ok by exact EG. erewrite bind_ok by (apply IH; lia). reflexivity.
    - apply IH. lia.
  Qed.
  Lemma filter_le : forall l : list cell, length (filter snd l) <= length l.
  Proof. intros l. induction l as [|[x b] l IH]; [apply le_n|]. cbn [filter snd]. destruct b; cbn [length]; lia. Qed.
  Lemma filter_all : forall l : list cell, forallb snd l = true -> filter snd l = l.
  Proof.
    intros l. induction l as [|[x b] l IH]; intros H; [reflexivity|]. cbn [forallb snd filter] in *.
    apply andb_true_iff in H. destruct H as [-> H]. rewrite IH by exact H. reflexivity.
  Qed.
  Lemma to_s_fine : forall s a, inv s a -> timely s -> fine s a ToS (run pol opt me ToS s).
  Proof.
    intros s a H HT.
    destruct (ensure_reader_open_ok s a H) as (b & s1 & r & sc & H1 & H2 & H3 & H4 & H5 & H6 & H7 & H8 & H9).
    exists (Docs (live (firstn (length (filter snd (rd_cells r))) (rd_cells r)))), s1. eexists. split.
    { cbn [run]. unfold give, to_s, size. rewrite ?bind_assoc. erewrite bind_ok by exact H1. rewrite ?bind_assoc.
      erewrite bind_ok by (eapply the_reader_R; exact H2). rewrite ?bind_assoc. erewrite bind_ok by reflexivity.
      erewrite bind_ok by (eapply to_s_from_R; [exact H2|apply filter_le]). reflexivity. }
    split; [apply (inv_R _ _ _ H2 (H5 HT))|].
    split.
    { cbn [step nums]. split; [apply read_to; assumption|]. eexists. split; [reflexivity|]. intros E.
      rewrite filter_all by exact E. rewrite firstn_all. exact H3. }
    split; [exact H9|]. split; [intros _ _ []|]. split; [intros _; eapply current_R; exact H2|].
    intros _ _ U. destruct H2 as (k & d & -> & _). exact (H8 U).
  Qed.

  (* every call *)
  Lemma call_fine : forall s a c, inv s a -> supported opt c -> (by_reader c = true -> timely s) ->
    match c with
    | DocAt n => current s -> fine s a c (run pol opt me c s) \/ exists e s', run pol opt me c s = (Raise e, s') /\ fails a c e
    | _ => fine s a c (run pol opt me c s)
    end.
  Proof.
    intros s a c H HS HT. destruct c as [x|[n|t]|ids|q|[n|t] x|xs|q change| | |others| | |q| |t|n|n| |].
    - apply add_fine; exact H.
    - apply delete_number; [exact H|]. apply HT. reflexivity.
    - apply delete_name; exact H.
    - apply delete_batch_fine; [exact H|]. intros E. apply HT. cbn [by_reader]. destruct (numbers ids); [congruence|reflexivity].
    - apply query_delete_fine; exact H.
    - apply update_number_fine; exact H.
    - apply update_name_fine; [exact H|exact HS].
    - apply batch_update_fine; exact H.
    - apply query_update_fine; exact H.
    - apply flush_fine; exact H.
    - apply optimize_fine; exact H.
    - apply add_indexes_fine; exact H.
    - apply field_infos_fine; exact H.
    - apply size_fine; [exact H|]. apply HT. reflexivity.
    - apply search_fine; exact H.
    - apply each_fine; [exact H|]. apply HT. reflexivity.
    - apply doc_of_fine; [exact H|]. apply HT. reflexivity.
    - intros HC. apply doc_at_fine; assumption.
    - apply deleted_fine; [exact H|]. apply HT. reflexivity.
    - apply has_deletions_fine; [exact H|]. apply HT. reflexivity.
    - apply to_s_fine; [exact H|]. apply HT. reflexivity.
  Qed.

  (* histories of one object ------------------------------------------------------------------------------------------------ *)

  Lemma runs_explained : forall cs s a, inv s a -> current s -> Forall (supported opt) cs ->
    explains opt a cs (fst (runs pol opt me cs s)).
  Proof.
    intros cs. induction cs as [|c cs IH]; intros s a H HC HS; [constructor|].
    inversion HS as [|c' cs' HS1 HS2]; subst.
    pose proof (call_fine s a c H HS1 (fun _ => current_timely s HC)) as HF.
    assert (G : fine s a c (run pol opt me c s) \/ exists e s', run pol opt me c s = (Raise e, s') /\ fails a c e).
    { destruct c; try (left; exact HF). exact (HF HC). }
    clear HF. cbn [runs]. destruct G as [(v & s' & b & E & HI & HSt & HO & _ & HC' & _)|(e & s' & E & HFa)]; rewrite E.
    - pose proof (IH s' b HI (HC' HC) HS2) as IH'. destruct (runs pol opt me cs s') as [vs s'']. cbn [fst] in *.
      eapply ex_ok; eassumption.
    - cbn [fst]. apply ex_err. exact HFa.
  Qed.
End Object.
