From Verif Require Import Util Strcmp Dict_Model Dict_Spec Dict_Proofs DictCursor_Proofs Post_Model Post_Spec PostRun_Proofs PQueue_Model PQueue_Proofs Multi_Model Mte_Model Mte_Spec Mte_Proofs Mtde_Model Mtde_Spec Mtde_Proofs Expand_Model Expand_Spec Expand_Proofs Range_Model Range_Spec Range_Proofs Tsc_Model Tsc_Spec Tsc_Proofs TscMulti_Proofs TscOpen_Proofs.
From Coq Require Import Sorting.Permutation.
Open Scope Z_scope.

(* ---------- the terms of a query *)
Lemma terms_down {A} (h : list (option A)) : forall n k m, map Some m = firstn n (skipn k h) -> (k + n <= length h)%nat ->
  fold_right (fun i (l : option (list A)) => do l' <- l; do x <- elt _ h i; Some (l' ++ [x])) (Some []) (seq k n) = Some (rev m).
Proof.
  induction n as [|n IH]; intros k m E Hl; cbn [seq fold_right].
  - destruct m; [reflexivity|discriminate].
  - rewrite (skipn_nth h k) in E. destruct (nth_error h k) as [x|] eqn:Ek; [|apply nth_error_None in Ek; lia]. cbn [firstn] in E. destruct m as [|a m]; [discriminate|]. cbn [map] in E. injection E as E1 E2. rewrite (IH (S k) m E2 ltac:(lia)). cbn [obind]. unfold elt. rewrite Ek. cbn [obind]. rewrite <- E1. reflexivity.
Qed.
Lemma perm_somes {A} (l : list (option A)) m : Permutation l (map Some m) -> exists m', l = map Some m' /\ Permutation m' m.
Proof.
  intros P. assert (EX : exists m', l = map Some m').
  { assert (HF : Forall (fun c => exists a, c = Some a) l) by (eapply Permutation_Forall; [apply Permutation_sym; exact P|]; apply Forall_forall; intros c Hc; apply in_map_iff in Hc; destruct Hc as (a & <- & _); eauto). clear P. induction HF as [|c l (a & ->) HF (m' & ->)]; [exists []; reflexivity|exists (a :: m'); reflexivity]. }
  destruct EX as (m' & ->). exists m'. split; [reflexivity|]. pose proof (Permutation_flat_map (fun c : option A => match c with Some x => [x] | None => [] end) P) as G. assert (EF : forall l : list A, flat_map (fun c : option A => match c with Some x => [x] | None => [] end) (map Some l) = l) by (induction l as [|a l IH]; [reflexivity|cbn [map flat_map app]; rewrite IH; reflexivity]). rewrite !EF in G. exact G.
Qed.
Lemma query_terms_ok max bo q done : Q max bo q done -> exists l, query_terms q = Some l /\ Permutation (map fst l) (firstn max done).
Proof.
  intros (_ & _ & m & [P1 P2 P3 P4 P5] & HP). destruct (perm_somes _ _ P1) as (m' & E & Pm). unfold contents in E. unfold query_terms. exists (rev m'). split.
  - apply terms_down; [symmetry; exact E|]. lia.
  - etransitivity; [apply Permutation_map; etransitivity; [apply Permutation_sym, Permutation_rev|exact Pm]|]. etransitivity; [apply Permutation_map, HP|]. rewrite map_map. cbn [fst]. rewrite map_id. reflexivity.
Qed.

(* ---------- what they find *)
Lemma some_doc i r del f ts M : pidx_open i r -> merge_of (map (hits i del (Some f)) ts) M -> forall d, In d (map fst M) <-> has_term i f del (fun t => In t ts) d.
Proof.
  intros HO (_ & HM) d. assert (HH : forall t, In t ts -> (exists x, In x (hits i del (Some f) t) /\ fst x = d) <-> del d = false /\ exists p, In p (plook i f t) /\ fst p = d).
  { intros t _. cbn [hits]. unfold live. split.
    - intros (x & Hx & <-). apply in_map_iff in Hx. destruct Hx as (p & <- & Hp). apply filter_In in Hp. destruct Hp as (Hp & Hd). cbn [fst]. split; [destruct (del (fst p)); [discriminate|reflexivity]|eauto].
    - intros (Hd & p & Hp & <-). exists (fst p, freq p). split; [|reflexivity]. apply in_map_iff. exists p. split; [reflexivity|]. apply filter_In. rewrite Hd. auto. }
  rewrite in_map_iff. split.
  - intros ((d0 & c) & E & Hin). cbn [fst] in E. subst d0. apply HM in Hin. destruct Hin as (-> & Hc). apply parts_in in Hc. destruct Hc as (l & x & Hl & Hx & Ex). apply in_map_iff in Hl. destruct Hl as (t & <- & Ht). destruct (proj1 (HH t Ht) (ex_intro _ x (conj Hx Ex))) as (G1 & p & G2 & G3). split; [exact G1|]. exists t, p. auto.
  - intros (G1 & t & p & Ht & G2 & G3). exists (d, parts O (map (hits i del (Some f)) ts) d). split; [reflexivity|]. apply HM. split; [reflexivity|]. apply parts_in. destruct (proj2 (HH t Ht) (conj G1 (ex_intro _ p (conj G2 G3)))) as (x & Hx & Ex). exists (hits i del (Some f) t), x. split; [apply in_map; exact Ht|]. auto.
Qed.
Lemma Q_finds i r y del f max bo q sel P : pidx_open i r -> pidx_field i f -> dicts i r y -> Q max bo q sel -> StronglySorted slt sel -> (forall t, In t sel <-> In t (idx_terms y f) /\ P t) -> at_most max i f P -> finds i r del f q P.
Proof.
  intros HO Hf HD HQ HS Hsel Hmax. destruct (query_terms_ok _ _ _ _ HQ) as (l & El & Pl).
  assert (Hlen : (length sel <= max)%nat).
  { apply Hmax.
    - clear -HS. induction HS as [|a sel HS IH HF]; constructor; [|exact IH]. intros G. rewrite Forall_forall in HF. exact (slt_irr _ (HF a G)).
    - intros t Ht. apply Hsel in Ht. destruct Ht as (H1 & H2). split; [exact (voc_ok i r y f t HD Hf H1)|exact H2]. }
  rewrite firstn_all2 in Pl by exact Hlen.
  assert (HT : forall d, has_term i f del (fun t => In t (map fst l)) d <-> has_term i f del P d).
  { intros d. split; intros (G1 & t & p & G2 & G3 & G4); split; auto; exists t, p; split; auto.
    - apply Hsel. eapply Permutation_in; eauto.
    - eapply Permutation_in; [apply Permutation_sym; exact Pl|]. apply Hsel. split; [|exact G2]. destruct (in_dec (list_eq_dec Z.eq_dec) t (idx_terms y f)) as [G|G]; [exact G|]. rewrite (absent i r y f HD Hf t G) in G3. destruct G3. }
  destruct (map fst l) as [|t0 ts0] eqn:Ets.
  - exists []. split; [constructor|]. split; [intros d; rewrite <- HT; split; [intros []|intros (_ & t & p & [] & _)]|]. exists l, None. split; [exact El|]. rewrite Ets. split; reflexivity.
  - rewrite <- Ets in *. destruct (multi_scorer i r del f (map fst l) HO Hf ltac:(congruence)) as (M & HM & sc & Esc & HR). exists M. split; [apply HM|]. split; [intros d; rewrite (some_doc i r del f _ M HO HM d); apply HT|]. exists l, sc. split; [exact El|]. split; [exact Esc|].
    destruct sc as [(s & names)|]; [|exact HR]. intros os Hos. destruct (HR os Hos) as (res & Er & HF). exists res. split; [exact Er|]. clear -HF. remember (map (option_map (named names)) res) as res' eqn:E. revert res E. induction HF as [|a b la lb Hab HF IH]; intros [|x res] E; try discriminate; [constructor|]. cbn [map] in E. injection E as -> ->. constructor; [|apply IH; reflexivity]. unfold same_docs. destruct x as [(d1 & c1)|], b as [(d2 & c2)|]; cbn in *; try tauto. destruct Hab as (-> & _). reflexivity.
Qed.
Lemma dicts_field i r y f : dicts i r y -> pidx_field i f -> idx_field y f.
Proof.
  intros H. destruct i as [v|mp vs], r as [g|mp' gs st], y as [x|mp2 xs]; cbn [dicts] in H; try tauto; cbn [pidx_field idx_field]. destruct H as (-> & -> & -> & Hl & HF & _). intros Hf. replace (length xs) with (length vs); [exact Hf|]. apply Forall2_length in HF. rewrite combine_length in HF. lia.
Qed.
Lemma nonempty_from y f pre : pre <> [] -> from_ok y f pre.
Proof. intros H. destruct y; cbn [from_ok]; auto. Qed.
Theorem prefix_finds i r del f pre max bo : (1 <= max)%nat -> pidx_open i r -> pidx_field i f -> pre <> [] -> at_most max i f (fun t => exists u, t = pre ++ u) ->
  exists k, forall fuel, (k < fuel)%nat -> exists m, prq_rewrite fuel (rdr_of r) (Some f) pre max bo = Some (QMultiQ m) /\ finds i r del f m (fun t => exists u, t = pre ++ u).
Proof.
  intros Hmax HO Hf Hpre Hat. destruct (dicts_of i r HO) as (y & HD). pose proof (y_src i r y f HD Hf) as Hs. exists (length (idx_terms y f)). intros fuel Hfu.
  destruct (from_yields y (rdr_of r) f pre Hs (dicts_field i r y f HD Hf) (nonempty_from y f pre Hpre)) as (c & rest & e & E & HY & EC). unfold prq_rewrite. rewrite E. cbn [obind fst snd]. pose proof (from_rest y f pre c rest EC) as Hr.
  destruct (pr_loop_ok (rdr_of r) max bo pre Hmax rest c e _ [] fuel HY (Q_new max Hmax bo) ltac:(lia)) as (q & Eq & HQ). rewrite Eq. cbn [obind]. eexists. split; [reflexivity|]. cbn [app] in HQ. rewrite EC in HQ.
  pose proof (pick_ok pre _ (fun _ => true) (idx_sorted y (rdr_of r) f Hs)) as (H1 & H2). eapply Q_finds; eauto. intros t. rewrite H2, starts_with_ok. split; [tauto|]. intros (G1 & G2). split; [exact G1|]. split; [|auto]. destruct G2 as (u & ->). destruct pre; [congruence|discriminate].
Qed.
Theorem wildcard_finds i r del f pat max bo : (1 <= max)%nat -> pidx_open i r -> pidx_field i f -> fst (split_wild pat) <> [] -> (length (fst (split_wild pat)) < 255)%nat -> snd (split_wild pat) <> [] -> at_most max i f (glob pat) ->
  exists k, forall fuel, (k < fuel)%nat -> exists m, wcq_rewrite fuel (rdr_of r) (Some f) pat max bo = Some (QMultiQ m) /\ finds i r del f m (glob pat).
Proof.
  intros Hmax HO Hf Hpre Hlen Hw Hat. destruct (dicts_of i r HO) as (y & HD). pose proof (y_src i r y f HD Hf) as Hs. exists (length (idx_terms y f)). intros fuel Hfu.
  unfold wcq_rewrite. pose proof (split_wild_ok pat) as Hsp. destruct (split_wild pat) as [pre pt]. cbn [fst snd] in *. destruct Hsp as (-> & Hlit & _).
  destruct (from_yields y (rdr_of r) f pre Hs (dicts_field i r y f HD Hf) (nonempty_from y f pre Hpre)) as (c & rest & e & E & HY & EC). pose proof (from_rest y f pre c rest EC) as Hr.
  destruct pt as [|x pt]; [congruence|]. rewrite (proj2 (Nat.ltb_lt _ _) Hlen), E. cbn [obind fst snd].
  destruct (wc_loop_ok (rdr_of r) max one pre Hmax (x :: pt) rest c e (mtq_new max 0) [] fuel HY (Q_new max Hmax one) ltac:(lia)) as (q & Eq & HQ). rewrite Eq. cbn [obind]. eexists. split; [reflexivity|]. cbn [app] in HQ. rewrite EC in HQ.
  pose proof (pick_ok pre _ (fun t => wc_match (x :: pt) (skipn (length pre) t)) (idx_sorted y (rdr_of r) f Hs)) as (H1 & H2). eapply Q_finds; eauto.
  intros t. rewrite H2, starts_with_ok, (glob_pre pre (x :: pt) Hlit), wc_match_ok. split.
  - intros (G1 & G2 & (u & ->) & G3). split; [exact G1|]. exists u. split; auto. rewrite skipn_app, skipn_all, Nat.sub_diag in G3. exact G3.
  - intros (G1 & u & -> & G3). split; [exact G1|]. split; [destruct pre; [congruence|discriminate]|]. split; [eauto|]. rewrite skipn_app, skipn_all, Nat.sub_diag. exact G3.
Qed.
