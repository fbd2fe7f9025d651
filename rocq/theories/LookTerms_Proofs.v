(* The rewriting of prefix, wildcard and fuzzy queries, also with an empty prefix. *)
From Verif Require Import Util Strcmp Dict_Model Dict_Spec Dict_Proofs DictCursor_Proofs Post_Model Post_Spec PostRun_Proofs PQueue_Model PQueue_Proofs Multi_Model Mte_Model Mte_Spec Mte_Proofs Mtde_Model Mtde_Spec Mtde_Proofs Expand_Model Expand_Spec Expand_Proofs Fuzzy_Model Fuzzy_Spec Fuzzy_Proofs Range_Model Range_Spec Range_Proofs Tsc_Model Tsc_Spec Tsc_Proofs TscMulti_Proofs TscOpen_Proofs TscQuery_Proofs Query_Model Seg_Model Token_Model Fields_Model Look_Model Look_Spec.
From Coq Require Import Sorting.Permutation.
Open Scope Z_scope.

Lemma no_empty i r y f pre : dicts i r y -> pidx_field i f -> pre <> [] \/ at_most 0 i f (eq []) -> from_ok y f pre /\ (forall t, In t (idx_terms y f) -> (exists u, t = pre ++ u) -> t <> []).
Proof.
  intros HD Hf [H|H].
  - split; [apply nonempty_from; exact H|]. intros t _ (u & ->). destruct pre; [congruence|discriminate].
  - assert (G : ~ In [] (idx_terms y f)).
    { intros G. apply (voc_ok i r y f [] HD Hf) in G. assert (C : (length [@nil Z] <= 0)%nat) by (apply H; [constructor; [intros []|constructor]|intros t [<-|[]]; auto]). cbn in C. lia. }
    split; [destruct y; cbn [from_ok]; auto|]. intros t Ht _ ->. exact (G Ht).
Qed.
Lemma prefix_finds2 i r del f pre max bo : (1 <= max)%nat -> pidx_open i r -> pidx_field i f -> (pre <> [] \/ at_most 0 i f (eq [])) -> at_most max i f (fun t => exists u, t = pre ++ u) ->
  exists k, forall fuel, (k < fuel)%nat -> exists m, prq_rewrite fuel (rdr_of r) (Some f) pre max bo = Some (QMultiQ m) /\ finds i r del f m (fun t => exists u, t = pre ++ u).
Proof.
  intros Hmax HO Hf Hpre Hat. destruct (dicts_of i r HO) as (y & HD). pose proof (y_src i r y f HD Hf) as Hs. exists (length (idx_terms y f)). intros fuel Hfu. destruct (no_empty i r y f pre HD Hf Hpre) as (Hfr & Hne).
  destruct (from_yields y (rdr_of r) f pre Hs (dicts_field i r y f HD Hf) Hfr) as (c & rest & e & E & HY & EC). unfold prq_rewrite. rewrite E. cbn [obind fst snd]. pose proof (from_rest y f pre c rest EC) as Hr.
  destruct (pr_loop_ok (rdr_of r) max bo pre Hmax rest c e _ [] fuel HY (Q_new max Hmax bo) ltac:(lia)) as (q & Eq & HQ). rewrite Eq. cbn [obind]. eexists. split; [reflexivity|]. cbn [app] in HQ. rewrite EC in HQ.
  pose proof (pick_ok pre _ (fun _ => true) (idx_sorted y (rdr_of r) f Hs)) as (H1 & H2). eapply Q_finds; eauto. intros t. rewrite H2, starts_with_ok. split; [tauto|]. intros (G1 & G2). split; [exact G1|]. split; [|auto]. apply Hne; assumption.
Qed.
Lemma wildcard_finds2 i r del f pat max bo : (1 <= max)%nat -> pidx_open i r -> pidx_field i f -> (fst (split_wild pat) <> [] \/ at_most 0 i f (eq [])) -> (length (fst (split_wild pat)) < 255)%nat -> snd (split_wild pat) <> [] -> at_most max i f (glob pat) ->
  exists k, forall fuel, (k < fuel)%nat -> exists m, wcq_rewrite fuel (rdr_of r) (Some f) pat max bo = Some (QMultiQ m) /\ finds i r del f m (glob pat).
Proof.
  intros Hmax HO Hf Hpre Hlen Hw Hat. destruct (dicts_of i r HO) as (y & HD). pose proof (y_src i r y f HD Hf) as Hs. exists (length (idx_terms y f)). intros fuel Hfu. destruct (no_empty i r y f _ HD Hf Hpre) as (Hfr & Hne).
  unfold wcq_rewrite. pose proof (split_wild_ok pat) as Hsp. destruct (split_wild pat) as [pre pt]. cbn [fst snd] in *. destruct Hsp as (-> & Hlit & _).
  destruct (from_yields y (rdr_of r) f pre Hs (dicts_field i r y f HD Hf) Hfr) as (c & rest & e & E & HY & EC). pose proof (from_rest y f pre c rest EC) as Hr.
  destruct pt as [|x pt]; [congruence|]. rewrite (proj2 (Nat.ltb_lt _ _) Hlen), E. cbn [obind fst snd].
  destruct (wc_loop_ok (rdr_of r) max one pre Hmax (x :: pt) rest c e (mtq_new max 0) [] fuel HY (Q_new max Hmax one) ltac:(lia)) as (q & Eq & HQ). rewrite Eq. cbn [obind]. eexists. split; [reflexivity|]. cbn [app] in HQ. rewrite EC in HQ.
  pose proof (pick_ok pre _ (fun t => wc_match (x :: pt) (skipn (length pre) t)) (idx_sorted y (rdr_of r) f Hs)) as (H1 & H2). eapply Q_finds; eauto.
  intros t. rewrite H2, starts_with_ok, (glob_pre pre (x :: pt) Hlit), wc_match_ok. split.
  - intros (G1 & G2 & (u & ->) & G3). split; [exact G1|]. exists u. split; auto. rewrite skipn_app, skipn_all, Nat.sub_diag in G3. exact G3.
  - intros (G1 & u & -> & G3). split; [exact G1|]. split; [apply Hne; eauto|]. split; [eauto|]. rewrite skipn_app, skipn_all, Nat.sub_diag. exact G3.
Qed.

(* ---------- a query of terms finds what has one *)
Lemma list_finds i r del f m lq P : pidx_open i r -> pidx_field i f -> query_terms m = Some lq -> (forall d, has_term i f del (fun t => In t (map fst lq)) d <-> has_term i f del P d) -> finds i r del f m P.
Proof.
  intros HO Hf El HT. destruct (map fst lq) as [|t0 ts0] eqn:Ets.
  - exists []. split; [constructor|]. split; [intros d; rewrite <- HT; split; [intros []|intros (_ & t & p & [] & _)]|]. exists lq, None. split; [exact El|]. rewrite Ets. split; reflexivity.
  - rewrite <- Ets in *. destruct (multi_scorer i r del f (map fst lq) HO Hf ltac:(congruence)) as (M & HM & sc & Esc & HR). exists M. split; [apply HM|]. split; [intros d; rewrite (some_doc i r del f _ M HO HM d); apply HT|]. exists lq, sc. split; [exact El|]. split; [exact Esc|].
    destruct sc as [(s & names)|]; [|exact HR]. intros os Hos. destruct (HR os Hos) as (res & Er & HF). exists res. split; [exact Er|]. clear -HF. remember (map (option_map (named names)) res) as res' eqn:E. revert res E. induction HF as [|a b la lb Hab HF IH]; intros [|x res] E; try discriminate; [constructor|]. cbn [map] in E. injection E as -> ->. constructor; [|apply IH; reflexivity]. unfold same_docs. destruct x as [(d1 & c1)|], b as [(d2 & c2)|]; cbn in *; try tauto. destruct Hab as (-> & _). reflexivity.
Qed.
Lemma all_finds i r y del f max m (l sel : list (list Z)) lq P : pidx_open i r -> pidx_field i f -> dicts i r y -> query_terms m = Some lq -> l = map fst lq -> Permutation l sel -> (forall t, In t sel <-> In t (idx_terms y f) /\ P t) -> (length sel <= max)%nat -> finds i r del f m P.
Proof.
  intros HO Hf HD El -> Pl Hsel Hlen. eapply list_finds; eauto. intros d. split; intros (G1 & t & p & G2 & G3 & G4); split; auto; exists t, p; split; auto.
  - apply Hsel. eapply Permutation_in; eauto.
  - eapply Permutation_in; [apply Permutation_sym; exact Pl|]. apply Hsel. split; [|exact G2]. destruct (in_dec (list_eq_dec Z.eq_dec) t (idx_terms y f)) as [G|G]; [exact G|]. rewrite (absent i r y f HD Hf t G) in G3. destruct G3.
Qed.
Lemma query_terms_b max min q done : QB max min q done -> (length done <= max)%nat -> exists l, query_terms q = Some l /\ Permutation (map fst l) (map fst done).
Proof.
  intros (_ & m & [P1 P2 P3 P4 P5] & (out & B1 & B2 & B3 & _) & _) Hlen. destruct (perm_somes _ _ P1) as (m' & E & Pm). unfold contents in E. unfold query_terms.
  assert (Eo : out = []). { destruct out as [|o out]; [reflexivity|]. specialize (B3 ltac:(discriminate)). apply Permutation_length in B1. rewrite app_length in B1. cbn [length] in B1. lia. } subst out. rewrite app_nil_r in B1.
  exists (rev m'). split.
  - apply terms_down; [symmetry; exact E|]. lia.
  - apply Permutation_map. etransitivity; [apply Permutation_sym, Permutation_rev|]. etransitivity; [exact Pm|exact B1].
Qed.
(* the terms of a phrase of one position *)
Lemma add_terms_ok max min ts : (1 <= max)%nat -> min < one -> ~ In [] ts -> forall q done, QB max min q done -> exists q', add_terms q ts = Some q' /\ QB max min q' (done ++ map (fun t => (t, one)) ts).
Proof.
  intros Hm Hmin. induction ts as [|t ts IH]; intros Hne q done HQ; cbn [add_terms map]; [exists q; rewrite app_nil_r; auto|]. unfold add_term. destruct (addb_ok max min Hm q done t one HQ) as (q1 & E1 & H1). rewrite E1. cbn [obind]. rewrite (proj2 (Z.ltb_lt _ _) Hmin) in H1. replace (nonempty t) with true in H1 by (destruct t; [destruct Hne; left; reflexivity|reflexivity]). cbn [andb] in H1.
  destruct (IH ltac:(intros G; apply Hne; right; exact G) q1 _ H1) as (q' & E2 & H2). exists q'. split; [exact E2|]. rewrite <- app_assoc in H2. exact H2.
Qed.
Lemma terms_some ts : (length ts <= MULTI_MAX)%nat -> ~ In [] ts -> exists m, add_terms (mtq_new MULTI_MAX 0) ts = Some m /\ query_terms m <> None.
Proof.
  intros Hl Hne. destruct (add_terms_ok MULTI_MAX 0 ts ltac:(unfold MULTI_MAX; lia) ltac:(reflexivity) Hne _ _ (QB_new MULTI_MAX 0 ltac:(unfold MULTI_MAX; lia))) as (m & E & HQ). exists m. split; [exact E|]. cbn [app] in HQ.
  destruct (query_terms_b _ _ _ _ HQ) as (l & El & Pl); [rewrite map_length; exact Hl|]. congruence.
Qed.
Lemma terms_finds i r del f ts : pidx_open i r -> pidx_field i f -> (length ts <= MULTI_MAX)%nat -> ~ In [] ts -> exists m, add_terms (mtq_new MULTI_MAX 0) ts = Some m /\ query_terms m <> None /\ finds i r del f m (fun t => In t ts).
Proof.
  intros HO Hf Hl Hne. destruct (add_terms_ok MULTI_MAX 0 ts ltac:(unfold MULTI_MAX; lia) ltac:(reflexivity) Hne _ _ (QB_new MULTI_MAX 0 ltac:(unfold MULTI_MAX; lia))) as (m & E & HQ). exists m. split; [exact E|]. cbn [app] in HQ.
  destruct (query_terms_b _ _ _ _ HQ) as (l & El & Pl); [rewrite map_length; exact Hl|]. split; [congruence|]. eapply list_finds; eauto. rewrite map_map in Pl. cbn [fst] in Pl. rewrite map_id in Pl. intros d. split; intros (G1 & t & p & G2 & G3); split; auto; exists t, p; split; auto; [eapply Permutation_in; eauto|eapply Permutation_in; [apply Permutation_sym|]; eauto].
Qed.
Lemma sorted_nodup l : StronglySorted slt l -> NoDup l.
Proof. induction 1 as [|a sel HS IH HF]; constructor; [|exact IH]. intros G. rewrite Forall_forall in HF. exact (slt_irr _ (HF a G)). Qed.
Lemma distance_one a b j k : distance a b j -> distance a b k -> j = k.
Proof. intros (A1 & A2) (B1 & B2). specialize (A2 _ B1). specialize (B2 _ A1). lia. Qed.
Lemma near_score calc sim term pl min t s : (pl < length term)%nat -> sim_ok calc sim min -> t <> [] -> firstn pl t = firstn pl term -> verdict (calc min) term t s -> (min < sim s <-> near sim term pl min t).
Proof.
  intros Hp (Z1 & Z2) Ht Hf Hv. unfold near. rewrite (proj2 (Nat.leb_gt _ _)) by exact Hp. destruct s as [|d l]; cbn [verdict] in Hv.
  - split; [lia|]. intros (_ & _ & k & D & G). destruct Hv as [[C|C]|(k' & D' & C)].
    + lia.
    + destruct t; [congruence|discriminate].
    + rewrite (distance_one _ _ _ _ D D') in *. specialize (Z2 _ _ C). lia.
  - destruct Hv as (D & D0 & ->). split.
    + intros G. splits; auto. exists (Z.to_nat d). split; [exact D|]. rewrite Z2Nat.id by exact D0. exact G.
    + intros (_ & _ & k & D' & G). rewrite (distance_one _ _ _ _ D' D), Z2Nat.id in G by exact D0. exact G.
Qed.
Lemma fuzzy_finds calc sim i r del f term pl min max : (1 <= max)%nat -> pidx_open i r -> pidx_field i f -> (pl < length term)%nat -> sim_ok calc sim min -> at_most max i f (near sim term pl min) ->
  exists k, forall fuel, (k < fuel)%nat -> exists m, fuzq_rewrite (calc min) sim fuel (rdr_of r) (Some f) term pl min max = Some (QMultiQ m) /\ finds i r del f m (near sim term pl min).
Proof.
  intros Hmax HO Hf Hp Hs Hat. destruct (dicts_of i r HO) as (y & HD). pose proof (y_src i r y f HD Hf) as Hy. exists (length (idx_terms y f)). intros fuel Hfu.
  destruct (fuzzy_src (calc min) sim y (rdr_of r) f term pl min max fuel Hmax Hy (dicts_field i r y f HD Hf) Hp Hfu) as (m & sel & score & E & HS & Hin & Hv & HQ). exists m. split; [exact E|].
  assert (Hsel : forall t, In t sel <-> In t (idx_terms y f) /\ near sim term pl min t).
  { intros t. rewrite Hin. split.
    - intros (G1 & G2 & G3 & G4). split; [exact G1|]. eapply near_score; eauto.
    - intros (G1 & G2). split; [exact G1|]. pose proof G2 as G3. unfold near in G3. rewrite (proj2 (Nat.leb_gt _ _)) in G3 by exact Hp. destruct G3 as (G3 & G4 & _). splits; auto. eapply near_score; eauto. }
  assert (Hlen : (length sel <= max)%nat). { apply Hat; [apply sorted_nodup; exact HS|]. intros t Ht. apply Hsel in Ht. destruct Ht as (H1 & H2). split; [exact (voc_ok i r y f t HD Hf H1)|exact H2]. }
  destruct (query_terms_b _ _ _ _ HQ) as (l & El & Pl); [rewrite map_length; exact Hlen|]. eapply all_finds with (l := map fst l) (sel := sel) (max := max); eauto. etransitivity; [exact Pl|]. rewrite map_map. cbn [fst]. rewrite map_id. reflexivity.
Qed.
