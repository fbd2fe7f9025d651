(* From the history of a writer to what is found. *)
From Verif Require Import Util Codec_Model Strcmp Seg_Model Dict_Model Dict_Spec Token_Model Post_Model Post_Spec PostRun_Proofs Multi_Model Multi_Proofs Mte_Model Mte_Spec Mtde_Model Mtde_Spec Expand_Model Expand_Spec Range_Model Range_Spec Merge_Model Merge_Spec Merge_Proofs MergeRun_Proofs MergeDocs_Proofs Fields_Model Fields_Spec Fields_Proofs FieldsRead_Proofs FieldsVec_Proofs FieldsTop_Proofs Invert_Model Invert_Spec Invert_Proofs InvertDoc_Proofs InvertIndex_Proofs InvertTop_Proofs Iw_Model Iw_Spec IwExt_Proofs IwSeg_Proofs IwMerge_Proofs IwRun_Proofs Tsc_Model Tsc_Spec TscOpen_Proofs TscQuery_Proofs Find_Model Find_Spec.
Open Scope Z_scope.
Ltac splits := repeat match goal with |- _ /\ _ => split end.

(* ---------- finding the segment *)
Lemma sub_len x : length (r_docs (sub_of x)) = i_max (w_in x).
Proof. unfold sub_of. cbn [r_docs]. apply repeat_length. Qed.
Lemma before_len segs i : before wseg (map sub_of segs) i = Z.of_nat (sum (fun x => i_max (w_in x)) (firstn i segs)).
Proof.
  unfold before. f_equal. rewrite firstn_map. generalize (firstn i segs). intros l. induction l as [|x l IH]; [reflexivity|]. cbn [map concat]. rewrite app_length, IH, sub_len. reflexivity.
Qed.
Lemma locate_ok segs i x k : nth_error segs i = Some x -> (k < i_max (w_in x))%nat -> rd_locate segs (Z.of_nat (sum (fun y => i_max (w_in y)) (firstn i segs) + k)) = Some (x, k).
Proof.
  intros Hx Hk.
  assert (G : get_reader wseg (mr_new wseg (map sub_of segs) None) (Z.of_nat (sum (fun y => i_max (w_in y)) (firstn i segs) + k)) = Some (i, sub_of x, k)).
  { destruct (bijection wseg (map sub_of segs) None) as [_ B]. specialize (B i (sub_of x) k). rewrite nth_error_map, Hx, sub_len, before_len in B. rewrite Nat2Z.inj_add. apply B; auto. }
  unfold rd_locate. destruct segs as [|a [|b r]]; [destruct i; discriminate| |].
  - destruct i as [|i]; [|destruct i; discriminate]. cbn in Hx. apply some_inj in Hx. subst a. cbn [firstn sum fold_right]. change (sum _ []) with O. cbn [Nat.add]. destruct (Z.ltb_spec (Z.of_nat k) 0); [lia|]. rewrite Nat2Z.id. reflexivity.
  - rewrite G. cbn [obind]. rewrite Hx. reflexivity.
Qed.

Section FIND.
  Variable ana : list Z -> list Z -> list token.
  Variable norm : field_info -> Z -> dfield -> Z -> Z.
  Variable zip : list Z -> list Z.
  Variable unzip : list Z -> option (list Z).
  Variable fuel : nat.
  Variable max : Z.
  Variables I kn : nat.
  Variable F : field_infos.
  Hypothesis HI1 : (1 <= I)%nat. Hypothesis HI2 : Z.of_nat I < 2 ^ 31. Hypothesis Hk1 : (3 <= kn)%nat. Hypothesis Hk2 : Z.of_nat kn < 2 ^ 31.
  Notation posts := (posts ana max F).
  Notation occs_in := (occs_in ana max F).
  Notation rept := (rept ana norm zip max I kn F).
  Notation rseg := (list (Z * list (list Z * list post)) * (wseg * list document))%type.
  Notation found := (found ana max F).

  Definition pseg_of (t : rseg) : pseg := mkPseg I kn (Z.of_nat (length (snd (snd t)))) (fst t).
  Definition pidx_of (ts : list rseg) : pidx := match ts with [t] => PIOne (pseg_of t) | _ => PIMany None (map pseg_of ts) end.
  Notation segs ts := (map (fun t : rseg => fst (snd t)) ts).
  Notation docs ts := (flat_map (fun t : rseg => snd (snd t)) ts).

  Lemma rept_ok t : rept t -> pseg_ok (pseg_of t) /\ popened (pseg_of t) (src_of (fst (snd t))).
  Proof.
    destruct t as (fs & x & ds). intros (L & (M1 & M2) & _ & _ & _ & _ & _ & _ & W & _). unfold pseg_ok, popened, pseg_of, src_of. cbn [fst snd v_int v_kn Mtde_Spec.v_size v_fs s_fs s_max] in *. destruct L as (_ & L2 & L3 & _). cbn [s_max] in *. splits; auto; try lia.
    intros f t. unfold postings. destruct (find (fun y => fst y =? f) fs) as [(f', l)|] eqn:E; [|constructor]. apply find_some in E. destruct E as [E _]. rewrite Forall_forall in M2. specialize (M2 _ E). cbn [snd] in M2.
    destruct (find (fun y => seqb (fst y) t) l) as [(t', ps)|] eqn:E2; [|constructor]. apply find_some in E2. destruct E2 as [E2 _]. rewrite Forall_forall in M2. exact (M2 _ E2).
  Qed.
  Lemma starts_ok ts : Forall rept ts -> forall b, starts_of b (segs ts) = pstarts b (map pseg_of ts).
  Proof.
    induction 1 as [|t ts Ht _ IH]; intros b; [reflexivity|]. cbn [map starts_of pstarts]. f_equal. rewrite <- IH. f_equal. unfold doc_cnt, pseg_of. cbn [Mtde_Spec.v_size]. rewrite (rep_max _ _ _ _ _ _ _ _ _ _ Ht). reflexivity.
  Qed.
  Lemma open_ok ts : Forall rept ts -> pidx_open (pidx_of ts) (reader_of (segs ts)).
  Proof.
    intros H. assert (A : Forall pseg_ok (map pseg_of ts)) by (apply Forall_map; eapply Forall_impl; [|exact H]; cbv beta; intros t Ht; apply rept_ok; auto).
    assert (B : Forall2 popened (map pseg_of ts) (map src_of (segs ts))). { clear A. induction H as [|t ts Ht _ IH]; constructor; auto. apply rept_ok; auto. }
    destruct ts as [|t [|u r]].
    - cbn. splits; auto; exact Logic.I.
    - inversion H; subst. cbn [map pidx_of reader_of pidx_open]. apply rept_ok. auto.
    - cbn [map pidx_of reader_of pidx_open]. splits; auto; [apply (starts_ok (t :: u :: r)); auto|exact Logic.I].
  Qed.
  Lemma field_ok ts n : pidx_field (pidx_of ts) n.
  Proof. destruct ts as [|t [|u r]]; exact Logic.I. Qed.

  (* ---------- postings *)
  Lemma posts_shift n t ds : forall b i, map (shift (Z.of_nat b)) (posts n t i ds) = posts n t (b + i) ds.
  Proof.
    induction ds as [|d ds IH]; intros b i; [reflexivity|]. cbn [Invert_Spec.posts]. rewrite map_app, IH, <- Nat.add_succ_r. f_equal. unfold post_at. destruct (at_ t (occs_in n d)); [reflexivity|]. cbn [map]. unfold shift. cbn [fst snd]. rewrite Nat2Z.inj_add. reflexivity.
  Qed.
  Lemma joined_posts n t ts : Forall rept ts -> forall i b, Mtde_Spec.joined None (Z.of_nat n) t i (Z.of_nat b) (map pseg_of ts) = posts n t b (docs ts).
  Proof.
    induction 1 as [|x ts Hx _ IH]; intros i b; [reflexivity|]. cbn [map Mtde_Spec.joined flat_map]. rewrite (posts_app ana norm zip max F). f_equal.
    - unfold within, fnum. destruct (Z.leb_spec 0 (Z.of_nat n)); [|lia]. unfold pseg_of. cbn [v_fs]. destruct Hx as (_ & _ & _ & HP & _). rewrite HP, posts_shift, Nat.add_0_r. reflexivity.
    - rewrite <- IH with (i := S i). f_equal. unfold pseg_of. cbn [Mtde_Spec.v_size]. lia.
  Qed.
  Lemma plook_ok ts n t : Forall rept ts -> plook (pidx_of ts) (Z.of_nat n) t = posts n t O (docs ts).
  Proof.
    intros H. pose proof (joined_posts n t ts H O O) as G. destruct ts as [|x [|u r]]; [exact G| |exact G].
    cbn [pidx_of plook]. inversion H as [|? ? Hx _]; subst. destruct Hx as (_ & _ & _ & HP & _). unfold pseg_of. cbn [v_fs flat_map]. rewrite app_nil_r. apply HP.
  Qed.

  (* ---------- slots *)
  Fixpoint slots_from (del : Z -> bool) (i : nat) (ds : list document) : list (option document) :=
    match ds with [] => [] | d :: r => (if del (Z.of_nat i) then None else Some d) :: slots_from del (S i) r end.
  Lemma slots_len del ds : forall i, length (slots_from del i ds) = length ds.
  Proof. induction ds as [|d ds IH]; intros i; cbn; auto. Qed.
  Lemma slots_nth del ds : forall i k, nth_error (slots_from del i ds) k = match nth_error ds k with Some d => Some (if del (Z.of_nat (i + k)) then None else Some d) | None => None end.
  Proof. induction ds as [|d ds IH]; intros i [|k]; cbn [slots_from nth_error]; auto; [rewrite Nat.add_0_r; reflexivity|]. rewrite IH. replace (S i + k)%nat with (i + S k)%nat by lia. reflexivity. Qed.
  Lemma slots_app del a : forall b i, slots_from del i (a ++ b) = slots_from del i a ++ slots_from del (i + length a) b.
  Proof. induction a as [|x a IH]; intros b i; cbn [app slots_from length]; [rewrite Nat.add_0_r; reflexivity|]. rewrite IH. do 2 f_equal. f_equal. lia. Qed.
  Lemma slots_ext del del' ds : forall i j, (forall k, (k < length ds)%nat -> del (Z.of_nat (i + k)) = del' (Z.of_nat (j + k))) -> slots_from del i ds = slots_from del' j ds.
  Proof.
    induction ds as [|d ds IH]; intros i j H; [reflexivity|]. cbn [slots_from length] in *. pose proof (H O ltac:(lia)) as H0. rewrite !Nat.add_0_r in H0. rewrite H0. f_equal. apply IH. intros k Hk. specialize (H (S k) ltac:(lia)). rewrite !Nat.add_succ_r in H. exact H.
  Qed.
  Lemma live_slots del ds : live_of del ds = somes (slots_from del O ds).
  Proof.
    unfold live_of. generalize O. induction ds as [|d ds IH]; intros i; [reflexivity|]. cbn [length seq combine filter fst slots_from somes flat_map]. destruct (del (Z.of_nat i)); cbn [negb]; [apply IH|]. cbn [map snd app]. f_equal. apply IH.
  Qed.
  Lemma found_live n t del ds : forall i, live del (posts n t i ds) = found n t (Z.of_nat i) (slots_from del i ds).
  Proof.
    unfold live. induction ds as [|d ds IH]; intros i; [reflexivity|]. cbn [Invert_Spec.posts slots_from Find_Spec.found]. rewrite filter_app, map_app, IH. replace (Z.of_nat (S i)) with (Z.of_nat i + 1) by lia. unfold post_at. destruct (del (Z.of_nat i)) eqn:E; destruct (at_ t (occs_in n d)) as [|p ps]; cbn [filter fst]; rewrite ?E; reflexivity.
  Qed.
  Lemma somes_app {A} (a b : list (option A)) : somes (a ++ b) = somes a ++ somes b.
  Proof. apply flat_map_app. Qed.
  Lemma all_slots del ts : Forall rept ts ->
    (forall i x ds k, nth_error ts i = Some x -> ds = snd (snd x) -> (k < length ds)%nat -> del (Z.of_nat (sum (fun y => i_max (w_in y)) (firstn i (segs ts)) + k)) = dels (w_in (fst (snd x))) (Z.of_nat k)) ->
    somes (slots_from del O (docs ts)) = flat_map (fun t => live_in_seg (snd t)) ts.
  Proof.
    intros H. enough (G : forall b, (forall i x ds k, nth_error ts i = Some x -> ds = snd (snd x) -> (k < length ds)%nat -> del (Z.of_nat (b + sum (fun y => i_max (w_in y)) (firstn i (segs ts)) + k)) = dels (w_in (fst (snd x))) (Z.of_nat k)) ->
      somes (slots_from del b (docs ts)) = flat_map (fun t => live_in_seg (snd t)) ts) by exact (G O).
    induction H as [|x ts Hx _ IH]; intros b HD; [reflexivity|]. cbn [flat_map]. rewrite slots_app, somes_app. f_equal.
    - unfold live_in_seg. rewrite live_slots. f_equal. apply slots_ext. intros k Hk. specialize (HD O x _ k eq_refl eq_refl Hk). cbn [firstn sum fold_right map] in HD. change (sum _ []) with O in HD. rewrite Nat.add_0_r in HD. exact HD.
    - apply IH. intros i y ds k Hy Hds Hk. specialize (HD (S i) y ds k Hy Hds Hk). cbn [map firstn] in HD. unfold sum at 1 in HD. cbn [fold_right] in HD. rewrite (rep_max _ _ _ _ _ _ _ _ _ _ Hx) in HD. rewrite <- HD. f_equal. f_equal. unfold sum. lia.
  Qed.

  (* ---------- where a document is *)
  Lemma where_is ts : Forall rept ts -> forall k d, nth_error (docs ts) k = Some d ->
    exists i x j, nth_error ts i = Some x /\ nth_error (snd (snd x)) j = Some d /\ (j < i_max (w_in (fst (snd x))))%nat /\ k = (sum (fun y => i_max (w_in y)) (firstn i (segs ts)) + j)%nat.
  Proof.
    induction 1 as [|x ts Hx _ IH]; intros k d E; [destruct k; discriminate|]. cbn [flat_map] in E. pose proof (rep_max _ _ _ _ _ _ _ _ _ _ Hx) as EM. destruct (Nat.ltb_spec k (length (snd (snd x)))) as [Hk|Hk].
    - rewrite nth_error_app1 in E by auto. exists O, x, k. splits; auto. lia.
    - rewrite nth_error_app2 in E by auto. destruct (IH _ _ E) as (i & y & j & Y1 & Y2 & Y3 & Y4). exists (S i), y, j. splits; auto. cbn [map firstn]. unfold sum in Y4 |- *. cbn [fold_right]. rewrite EM. lia.
  Qed.
  Lemma del_at ts i x k : Forall rept ts -> nth_error ts i = Some x -> (k < length (snd (snd x)))%nat -> rd_locate (segs ts) (Z.of_nat (sum (fun y => i_max (w_in y)) (firstn i (segs ts)) + k)) = Some (fst (snd x), k).
  Proof.
    intros H Hx Hk. assert (HR : rept x) by (rewrite Forall_forall in H; apply H; eapply nth_error_In; eauto). apply locate_ok; [rewrite nth_error_map, Hx; reflexivity|]. rewrite (rep_max _ _ _ _ _ _ _ _ _ _ HR). exact Hk.
  Qed.
  Lemma max_doc_ok ts : Forall rept ts -> rd_max_doc (segs ts) = Z.of_nat (length (docs ts)).
  Proof.
    intros H. unfold rd_max_doc. enough (G : forall b, fold_left (fun m x => m + doc_cnt x) (segs ts) b = b + Z.of_nat (length (docs ts))) by (rewrite G; lia).
    induction H as [|x ts Hx _ IH]; intros b; [cbn; lia|]. cbn [map fold_left flat_map]. rewrite IH, app_length. unfold doc_cnt. rewrite (rep_max _ _ _ _ _ _ _ _ _ _ Hx). lia.
  Qed.
  Definition slots_of (ts : list rseg) : list (option document) := slots_from (rd_is_deleted (segs ts)) O (docs ts).
  Lemma slots_live ts : Forall rept ts -> somes (slots_of ts) = flat_map (fun t => live_in_seg (snd t)) ts.
  Proof.
    intros H. apply all_slots; auto. intros i x ds k Hx -> Hk. unfold rd_is_deleted. rewrite (del_at ts i x k H Hx Hk). reflexivity.
  Qed.
  Lemma answers_ok ts : Forall rept ts -> Forall (fun t : rseg => reads ana norm unzip fuel max F kn (fst (snd t)) (snd (snd t))) ts -> answers ana unzip fuel max F (segs ts) (slots_of ts).
  Proof.
    intros H HR. unfold answers. splits.
    - unfold slots_of. rewrite slots_len. apply max_doc_ok. auto.
    - intros k x E. unfold slots_of in E. rewrite slots_nth in E. destruct (nth_error (docs ts) k) as [d|] eqn:Ed; [|discriminate]. apply some_inj in E. subst x. cbn [Nat.add]. destruct (where_is ts H k d Ed) as (i & x & j & X1 & X2 & X3 & X4).
      assert (Hj : (j < length (snd (snd x)))%nat) by (apply nth_error_Some; congruence). pose proof (del_at ts i x j H X1 Hj) as HL. rewrite <- X4 in HL.
      assert (ED : rd_is_deleted (segs ts) (Z.of_nat k) = dels (w_in (fst (snd x))) (Z.of_nat j)) by (unfold rd_is_deleted; rewrite HL; reflexivity).
      unfold rd_get_doc. rewrite HL. cbn [obind]. rewrite ED. destruct (dels (w_in (fst (snd x))) (Z.of_nat j)); split; auto. cbn [option_map].
      rewrite Forall_forall in HR. destruct (HR x (nth_error_In _ _ X1)) as (_ & _ & HG & _). rewrite (HG j d X2). reflexivity.
    - intros n tr t os HT. destruct (term_scorer (pidx_of ts) (reader_of (segs ts)) (rd_is_deleted (segs ts)) tr (Some (Z.of_nat n)) t os (open_ok ts H) HT (field_ok ts _)) as (b & B1 & B2). exists b. split; auto. rewrite B2. unfold hits. rewrite (plook_ok ts n t H). unfold slots_of. rewrite (found_live n t _ _ O). reflexivity.
  Qed.

  (* ---------- terms *)
  Lemma at_has t (os : list occ) : at_ t os <> [] <-> exists o, In o os /\ t = o_text o.
  Proof.
    split.
    - intros H. unfold at_ in H. destruct (filter (fun o => seqb (o_text o) t) os) as [|o r] eqn:E; [destruct H; reflexivity|]. assert (G : In o (filter (fun o => seqb (o_text o) t) os)) by (rewrite E; left; auto). apply filter_In in G. destruct G as [G1 G2]. apply seqb_spec in G2. exists o. auto.
    - intros (o & Ho & ->). eapply at_not_nil; eauto.
  Qed.
  Lemma has_term_docs ts n P d : Forall rept ts ->
    (Range_Spec.has_term (pidx_of ts) (Z.of_nat n) (rd_is_deleted (segs ts)) P d <-> exists k x, d = Z.of_nat k /\ nth_error (slots_of ts) k = Some (Some x) /\ doc_with ana max F n P x).
  Proof.
    intros H. unfold Range_Spec.has_term, doc_with, slots_of. split.
    - intros (HD & t & (q & ps) & HP & Hq & E). cbn [fst] in E. subst q. rewrite (plook_ok ts n t H) in Hq. destruct (posts_nth_inv ana norm zip max F n t (docs ts) O d ps Hq) as (k & x & K1 & K2 & K3 & K4). exists k, x. cbn [Nat.add] in K1. splits; auto.
      + rewrite slots_nth, K2. cbn [Nat.add]. rewrite <- K1, HD. reflexivity.
      + rewrite K3 in K4. apply at_has in K4. destruct K4 as (o & Ho & ->). exists o. auto.
    - intros (k & x & -> & Hk & o & Ho & HP). rewrite slots_nth in Hk. destruct (nth_error (docs ts) k) as [y|] eqn:E; [|discriminate]. cbn [Nat.add] in Hk. apply some_inj in Hk. destruct (rd_is_deleted (segs ts) (Z.of_nat k)) eqn:ED; [discriminate|]. apply some_inj in Hk. subst y. split; auto.
      exists (o_text o), (Z.of_nat k, at_ (o_text o) (occs_in n x)). cbn [fst]. splits; auto. rewrite (plook_ok ts n _ H). apply (posts_nth ana norm zip max F n (o_text o) (docs ts) O k x E). apply at_has. exists o. auto.
  Qed.
  Lemma few_at_most ts n All P m : Forall rept ts -> lesser (docs ts) All -> few ana max F m n All P -> at_most m (pidx_of ts) (Z.of_nat n) P.
  Proof.
    intros H HL HF us HN HU. apply HF; auto. intros t Ht. destruct (HU t Ht) as [HV HP]. split; auto.
    assert (G : exists x, In x ts /\ In t (pterms (pseg_of x) (Z.of_nat n))).
    { destruct ts as [|a [|b r]]; cbn [pidx_of pvoc] in HV.
      - destruct HV as (k & v & q & Hk & _). destruct k; discriminate.
      - exists a. split; [left|]; auto.
      - destruct HV as (k & v & q & Hk & Hq & _ & Hv). rewrite nth_error_map in Hk. destruct (nth_error (a :: b :: r) k) as [x|] eqn:E; [|discriminate]. cbn [option_map] in Hk. apply some_inj in Hk. subst v. cbn [fnum] in Hq. apply some_inj in Hq. subst q. exists x. split; auto. eapply nth_error_In; eauto. }
    destruct G as (x & Hx & Hv). assert (HR : rept x) by (rewrite Forall_forall in H; auto). destruct x as (fs & x & ds). destruct HR as (_ & (HI & _) & _ & HP4 & _ & _ & _ & _ & _ & _ & _ & HE). cbn [fst snd s_fs] in *.
    assert (G : exists d, In d ds /\ at_ t (occs_in n d) <> []).
    { unfold pterms, pseg_of in Hv. cbn [v_fs fst] in Hv. specialize (HP4 n t). unfold postings in HP4. destruct (find (fun y => fst y =? Z.of_nat n) fs) as [(f & l)|] eqn:E; [|destruct Hv]. apply find_some in E. destruct E as [E _]. apply in_map_iff in Hv. destruct Hv as (y & Ey & Hy).
      destruct (find (fun y => seqb (fst y) t) l) as [(t' & ps)|] eqn:E2.
      - apply find_some in E2. destruct E2 as [E2 _]. rewrite Forall_forall in HE. specialize (HE _ E). cbn [snd] in HE. rewrite Forall_forall in HE. specialize (HE _ E2). cbn [snd] in HE. destruct ps as [|(q & ps0) ps]; [congruence|].
        assert (Hin : In (q, ps0) (posts n t O ds)) by (rewrite <- HP4; left; auto). destruct (posts_nth_inv ana norm zip max F n t ds O q ps0 Hin) as (k & d & _ & K2 & K3 & K4). exists d. split; [eapply nth_error_In; eauto|congruence].
      - apply (find_none _ _ E2) in Hy. subst t. rewrite (proj2 (seqb_spec _ _) eq_refl) in Hy. discriminate. }
    destruct G as (d & Hd & HA). set (w := fun d => match at_ t (occs_in n d) with [] => O | _ => 1%nat end). specialize (HL w).
    assert (W : forall l, (exists d, In d l /\ at_ t (occs_in n d) <> []) <-> (1 <= sum w l)%nat).
    { clear. induction l as [|d l IH]; [split; [intros (d & [] & _)|cbn; lia]|]. unfold sum. cbn [fold_right]. fold (sum w l). split.
      - intros (e & [->|He] & HA); [unfold w; destruct (at_ t (occs_in n e)); [congruence|lia]|]. assert (1 <= sum w l)%nat by (apply IH; eauto). unfold sum in *. lia.
      - intros HS. destruct (at_ t (occs_in n d)) as [|a q] eqn:E.
        + assert (Ew : w d = O) by (unfold w; rewrite E; reflexivity). unfold sum in *. rewrite Ew in HS. destruct (proj2 IH HS) as (e & He & HA). exists e. split; [right|]; auto.
        + exists d. split; [left; auto|]. rewrite E. discriminate. }
    assert (G : (1 <= sum w All)%nat). { eapply Nat.le_trans; [|exact HL]. apply W. exists d. split; auto. apply in_flat_map. exists (fs, (x, ds)). auto. }
    apply W in G. destruct G as (e & He & HA'). exists e. split; auto. unfold doc_with. apply at_has in HA'. exact HA'.
  Qed.
  Lemma finds_visits ts n m P : Forall rept ts -> finds (pidx_of ts) (reader_of (segs ts)) (rd_is_deleted (segs ts)) (Z.of_nat n) m P -> visits ana max F (segs ts) (slots_of ts) n m P.
  Proof.
    intros H (M & M1 & M2 & l & sc & L1 & L2 & L3). exists M. splits; auto.
    - intros d. rewrite M2. apply has_term_docs. auto.
    - exists l, sc. splits; auto.
  Qed.
End FIND.
