(* DisjunctionSumScorer: the sum of the scores of the sub-scorers that stop at a document *)
From Coq Require Import QArith.Qcanon Sorting.Permutation Sorting.Sorted.
From Verif Require Import Util PQueue_Model PQueue_Spec PQueue_Proofs Query_Model Rank_Model Rank_Spec Rank_Proofs.
From Verif Require BoolSum_Proofs.
Open Scope Z_scope.
Lemma doc_lt_pre : preorder sc doc_lt.
Proof. unfold doc_lt. split; intros; unfold PQueue_Spec.le in *; rewrite ?Z.ltb_ge in *; lia. Qed.
Notation fnt := (Z -> Qc * nat).
Notation P := (sc * (list Z * fnt))%type.
Notation lst p := (fst (snd p)).
Notation fn p := (snd (snd p)).
Definition zero : Qc * nat := (0%Qc, 0%nat).
Lemma plus_comm a b : plus a b = plus b a.
Proof. unfold plus. rewrite Qcplus_comm, Nat.add_comm. reflexivity. Qed.
Lemma plus_assoc a b c : plus a (plus b c) = plus (plus a b) c.
Proof. unfold plus. cbn [fst snd]. rewrite Qcplus_assoc, Nat.add_assoc. reflexivity. Qed.
Lemma plus_0 a : plus a zero = a.
Proof. destruct a. unfold plus, zero. cbn [fst snd]. rewrite Qcplus_0_r, Nat.add_0_r. reflexivity. Qed.
Lemma plus_0l a : plus zero a = a.
Proof. rewrite plus_comm. apply plus_0. Qed.
(* a list of documents with their scores adds to the score of x if x is in it *)
Definition part (L : list Z * fnt) (x : Z) : Qc * nat := if existsb (Z.eqb x) (fst L) then (fst (snd L x), 1%nat) else zero.
Definition parts (Ls : list (list Z * fnt)) (x : Z) : Qc * nat := fold_right (fun L a => plus (part L x) a) zero Ls.
Definition all_docs (p : P) : list Z * fnt := (doc_of (fst p) :: lst p, fn p).
Definition tot (ms : list P) (x : Z) : Qc * nat := parts (map all_docs ms) x.
Lemma tot_cons p ms x : tot (p :: ms) x = plus (part (all_docs p) x) (tot ms x).
Proof. reflexivity. Qed.
Lemma tot_perm a b x : Permutation a b -> tot a x = tot b x.
Proof. intros H. induction H; rewrite ?tot_cons; [reflexivity|congruence| |congruence]. rewrite plus_assoc, (plus_comm (part (all_docs y) x)), <- plus_assoc. reflexivity. Qed.
Lemma part_in L x : In x (fst L) -> part L x = (fst (snd L x), 1%nat).
Proof. intros H. unfold part. apply mem_in in H. rewrite H. reflexivity. Qed.
Lemma part_out L x : ~ In x (fst L) -> part L x = zero.
Proof. intros H. unfold part. destruct (existsb (Z.eqb x) (fst L)) eqn:E; [|reflexivity]. apply mem_in in E. destruct (H E). Qed.
Lemma part_ext L M x : (In x (fst L) <-> In x (fst M)) -> snd L = snd M -> part L x = part M x.
Proof. intros H E. unfold part. rewrite E. assert (G : existsb (Z.eqb x) (fst L) = existsb (Z.eqb x) (fst M)) by (apply eq_true_iff_eq; rewrite !mem_in; exact H). rewrite G. reflexivity. Qed.
Definition has (ms : list P) (d : Z) : Prop := exists p, In p ms /\ (d = doc_of (fst p) \/ In d (lst p)).
Definition total (ms : list P) : nat := list_sum (map (fun p : P => S (length (lst p))) ms).
Lemma tot_none ms x : ~ has ms x -> tot ms x = zero.
Proof. induction ms as [|p ms IH]; intros H; [reflexivity|]. rewrite tot_cons, part_out, IH; [apply plus_0| |]; [intros (z & Hz & E); apply H; exists z; split; [right; exact Hz|exact E]|]. cbn [all_docs fst In]. intros [E|E]; apply H; exists p; (split; [left; reflexivity|auto]). Qed.
Lemma total_perm a b : Permutation a b -> total a = total b.
Proof. intros H. unfold total. induction H; cbn [map]; unfold list_sum in *; cbn [fold_right]; lia. Qed.
Lemma has_perm a b d : Permutation a b -> has a d <-> has b d.
Proof. intros H. unfold has. split; intros (p & Hp & E); exists p; (split; [|exact E]); [exact (Permutation_in _ H Hp)|exact (Permutation_in _ (Permutation_sym H) Hp)]. Qed.
Lemma has_cons p ms d : has (p :: ms) d <-> d = doc_of (fst p) \/ In d (lst p) \/ has ms d.
Proof. unfold has. cbn [In]. split; [intros (x & [Hp|Hx] & [E|E]); subst; [auto|auto|right; right; exists x; auto|right; right; exists x; auto]|intros [E|[E|(x & Hx & E)]]; [exists p; auto|exists p; auto|exists x; auto]]. Qed.
Lemma total_cons p ms : total (p :: ms) = (S (length (lst p)) + total ms)%nat.
Proof. reflexivity. Qed.
Section DIS.
  Variable sm : sim.
  Variable B : Z.
  Local Notation Beh := (Rank_Proofs.Beh sm B).
  Local Notation StandR := (Rank_Proofs.StandR sm).
  Local Notation Stand sf k := (Rank_Proofs.StandR sm sf (Rank_Proofs.Beh sm B sf k)).
  Local Notation above := (Rank_Proofs.above B).
  Local Notation allowed := (Rank_Proofs.allowed B).
  Variable k : bool.
  Definition standing (p : P) : Prop := Stand (fn p) k (fst p) (doc_of (fst p)) (lst p) /\ 0 <= doc_of (fst p) < B.
  Lemma standing_beh p : standing p -> Beh (fn p) k (fst p) (Some (doc_of (fst p))) (lst p) /\ 0 <= doc_of (fst p) < B.
  Proof. intros (H & H0). destruct (stand_beh _ _ _ _ _ _ _ H). auto. Qed.
  Definition DQ (capa : nat) (q : pq sc) (ms : list P) : Prop := PInv sc doc_lt capa q (map fst ms) /\ Forall standing ms.
  Lemma DQ_size capa q ms : DQ capa q ms -> pq_size q = length ms.
  Proof. intros (H & _). rewrite (pi_size _ _ _ _ _ H), map_length. reflexivity. Qed.
  Lemma dq_top capa q ms : DQ capa q ms -> ms <> [] -> exists p ms', Permutation ms (p :: ms') /\ top_of q = Some (fst p) /\ (forall x, In x ms -> doc_of (fst p) <= doc_of (fst x)) /\ standing p /\
    (forall p', standing p' -> exists q', pq_replace_top sc doc_lt q (fst p') = Some q' /\ DQ capa q' (p' :: ms')) /\
    exists x q', pq_pop sc doc_lt q = Some (x, q') /\ DQ capa q' ms'.
  Proof.
    intros HQ Hne. pose proof (DQ_size _ _ _ HQ) as Hs. destruct HQ as (HP & HF). assert (Hpos : (0 < pq_size q)%nat) by (destruct ms; [congruence|cbn [length] in Hs; lia]).
    destruct (top_elt sc doc_lt capa q (map fst ms) HP Hpos) as (x & m' & Ex & Pm). destruct (Permutation_map_inv _ _ (Permutation_sym Pm)) as (ms1 & E1 & P1). destruct ms1 as [|p ms']; [discriminate|]. cbn [map] in E1. injection E1 as Ex' Em'. subst x m'.
    exists p, ms'. assert (Pms : Permutation ms (p :: ms')) by exact P1. assert (HF2 : Forall standing (p :: ms')) by (apply (Permutation_Forall Pms); exact HF). inversion HF2 as [|? ? Hp Hr]; subst.
    pose proof (PInv_least sc doc_lt doc_lt_pre _ _ _ _ HP Ex Hpos) as (_ & Hl). assert (Ht : pq_top sc q = Some (Some (fst p))) by (unfold pq_top; destruct (Nat.ltb_spec 0 (pq_size q)); [apply elt_some; exact Ex|lia]).
    splits; auto.
    - unfold top_of. rewrite Ht. reflexivity.
    - intros y Hy. specialize (Hl (fst y) (in_map fst _ _ Hy)). unfold PQueue_Spec.le, doc_lt in Hl. apply Z.ltb_ge in Hl. exact Hl.
    - intros p' Hp'. destruct (replace_top_ok sc doc_lt doc_lt_pre capa q (map fst ms) (fst p) (map fst ms') (fst p') HP Ex Pm) as (q' & E & HP'). exists q'. split; [exact E|]. split; [exact HP'|constructor; auto].
    - destruct (pop_ok sc doc_lt doc_lt_pre capa q (map fst ms) HP Hpos) as (y & m2 & q' & E & P2 & _ & HP'). assert (y = fst p).
      { unfold pq_pop in E. destruct (Nat.ltb_spec 0 (pq_size q)); [|lia]. rewrite (proj1 (elt_some _ _ _ _) Ex) in E. cbn [obind] in E. destruct (nth_error (pq_heap q) (pq_size q)); [|discriminate]. cbn [obind] in E. destruct (pq_down _ _ _); [|discriminate]. cbn [obind] in E. congruence. }
      subst y. exists (Some (fst p)), q'. split; [exact E|]. split; [|exact Hr]. assert (Pm2 : Permutation m2 (map fst ms')) by (apply (Permutation_cons_inv (a := fst p)); rewrite <- P2; exact Pm). destruct HP' as [A1 A2 A3 A4 A5]. constructor; auto; [rewrite A1; apply Permutation_map; exact Pm2|rewrite A3; apply Permutation_length; exact Pm2].
  Qed.
  Lemma DQ_docs capa q ms d : DQ capa q ms -> has ms d -> 0 <= d < B.
  Proof. intros (_ & HF) (x & Hx & Hd). rewrite Forall_forall in HF. destruct (standing_beh _ (HF x Hx)) as (HB & H0). destruct (beh_facts _ _ _ _ _ _ _ HB) as (_ & F). rewrite Forall_forall in F. destruct Hd as [E|Hd]; [subst; exact H0|specialize (F _ Hd); cbn [Rank_Proofs.above] in F; lia]. Qed.
  Lemma DQ_ge capa q ms d : DQ capa q ms -> has ms d -> exists x, In x ms /\ doc_of (fst x) <= d.
  Proof. intros (_ & HF) (x & Hx & Hd). rewrite Forall_forall in HF. destruct (standing_beh _ (HF x Hx)) as (HB & H0). destruct (beh_facts _ _ _ _ _ _ _ HB) as (_ & F). rewrite Forall_forall in F. cbn [Rank_Proofs.above] in F. exists x. split; [exact Hx|]. destruct Hd as [E|Hd]; [lia|specialize (F _ Hd); lia]. Qed.
  Lemma inner_ok capa : forall m q ms num cum t, (total ms <= m)%nat -> DQ capa q ms -> top_of q = Some t -> ms <> [] ->
    exists n' c' q' ms', DQ capa q' ms' /\ (forall d, has ms' d <-> has ms d /\ doc_of t < d) /\ (c', n') = plus (cum, num) (tot ms (doc_of t)) /\ (forall x, doc_of t < x -> tot ms' x = tot ms x) /\
      exists n, forall f g, (n <= f)%nat -> (n <= g)%nat -> dis_inner (run sm f) (score sm f) g (doc_of t) num cum t q = Some (n', c', q').
  Proof.
    induction m as [m IH] using lt_wf_ind. intros q ms num cum t Hm HQ Ht Hne. destruct (dq_top capa q ms HQ Hne) as (p & ms' & HP & Htop & Hmin & Hp & Hrep & Hpop). assert (t = fst p) by congruence. subst t. clear Ht. set (doc := doc_of (fst p)) in *.
    pose proof Hp as (HSt & H0). destruct HSt as (_ & HB0 & t1 & (n0 & E0) & Ht1 & HB). fold doc in E0, Ht1, HB. destruct (beh_next _ _ _ _ _ _ _ HB) as (s' & (n1 & E1) & Hs). destruct (beh_facts _ _ _ _ _ _ _ HB) as (SL & FL). rewrite Forall_forall in FL. cbn [Rank_Proofs.above] in FL.
    pose proof (total_perm _ _ HP) as HT. rewrite total_cons in HT. set (cum' := (cum + fst (fn p doc))%Qc). set (num' := S num).
    assert (ETP : plus (cum', num') (tot ms' doc) = plus (cum, num) (tot ms doc)).
    { rewrite (tot_perm _ _ doc HP), tot_cons, part_in by (left; reflexivity). rewrite plus_assoc. f_equal. unfold plus. cbn [fst snd all_docs]. unfold cum', num'. rewrite Nat.add_1_r. reflexivity. }
    assert (Hmin' : forall x, In x ms' -> doc <= doc_of (fst x)) by (intros x Hx; apply Hmin; apply (Permutation_in _ (Permutation_sym HP)); right; exact Hx).
    (* what follows once the top has been moved: q2 holds ms2 *)
    assert (KEY : forall q2 ms2, DQ capa q2 ms2 -> (total ms2 < total ms)%nat -> (forall x, In x ms2 -> doc <= doc_of (fst x)) -> (forall d, has ms2 d \/ d = doc <-> has ms d) -> ms2 <> [] -> tot ms2 doc = tot ms' doc -> (forall x, doc < x -> tot ms2 x = tot ms x) ->
      exists n' c' q' ms3, DQ capa q' ms3 /\ (forall d, has ms3 d <-> has ms d /\ doc < d) /\ (c', n') = plus (cum, num) (tot ms doc) /\ (forall x, doc < x -> tot ms3 x = tot ms x) /\
      exists n, forall f g, (n <= f)%nat -> (n <= g)%nat -> (do t <- top_of q2; if doc_of t =? doc then dis_inner (run sm f) (score sm f) g doc num' cum' t q2 else Some (num', cum', q2)) = Some (n', c', q')).
    { intros q2 ms2 HQ2 HT2 Hm2 Hh2 Hne2 Et2 Ex2. destruct (dq_top capa q2 ms2 HQ2 Hne2) as (p2 & ms2' & HP2 & Htop2 & Hmin2 & _). rewrite Htop2. cbn [obind]. destruct (Z.eqb_spec (doc_of (fst p2)) doc) as [E|E].
      - destruct (IH (total ms2) ltac:(lia) q2 ms2 num' cum' (fst p2) (le_n _) HQ2 Htop2 Hne2) as (n' & c' & q' & ms3 & HQ3 & Hh3 & Ev3 & Ex3 & n & En). exists n', c', q', ms3. rewrite E in *. splits; auto.
        + intros d. rewrite Hh3. rewrite <- Hh2. intuition lia.
        + rewrite Ev3, Et2. exact ETP.
        + intros x Hx. rewrite Ex3, Ex2 by exact Hx. reflexivity.
        + exists n. exact En.
      - assert (Hgt : forall d, has ms2 d -> doc < d).
        { intros d (x & Hx & Hd). assert (doc < doc_of (fst p2)) by (specialize (Hm2 p2 (Permutation_in _ (Permutation_sym HP2) (or_introl eq_refl))); lia). specialize (Hmin2 x Hx). destruct HQ2 as (_ & HF). rewrite Forall_forall in HF. destruct (standing_beh _ (HF x Hx)) as (HBx & _). destruct (beh_facts _ _ _ _ _ _ _ HBx) as (_ & Fx). rewrite Forall_forall in Fx. cbn [Rank_Proofs.above] in Fx. destruct Hd as [->|Hd]; [lia|specialize (Fx _ Hd); lia]. }
        exists num', cum', q2, ms2. splits; auto; [| |exists O; reflexivity].
        + intros d. rewrite <- Hh2. split; [intros H; split; [left; exact H|auto]|]. intros ([H|H] & H2); [exact H|lia].
        + rewrite <- ETP, <- Et2, tot_none, plus_0; [reflexivity|]. intros G. specialize (Hgt _ G). lia. }
    assert (RUN : forall f g, (n0 <= f)%nat -> (n1 <= f)%nat -> dis_inner (run sm f) (score sm f) (S g) doc num cum (fst p) q =
      if nonnil (lst p) then do q' <- pq_replace_top sc doc_lt q s'; do t <- top_of q'; if doc_of t =? doc then dis_inner (run sm f) (score sm f) g doc num' cum' t q' else Some (num', cum', q')
      else do x <- pq_pop sc doc_lt q; if (pq_size (snd x) =? 0)%nat then Some (num', cum', snd x) else do t <- top_of (snd x); if doc_of t =? doc then dis_inner (run sm f) (score sm f) g doc num' cum' t (snd x) else Some (num', cum', snd x)).
    { intros f g Hf0 Hf1. cbn [dis_inner]. rewrite (E0 f Hf0). cbn [obind fst snd]. rewrite (E1 f Hf1). reflexivity. }
    destruct (lst p) as [|x r] eqn:Ep; cbn [nonnil] in RUN.
    - destruct Hpop as (y & q2 & Epop & HQ2). assert (Hh : forall d, has ms' d \/ d = doc <-> has ms d) by (intros d; rewrite (has_perm _ _ d HP), has_cons, Ep; cbn [In]; fold doc; tauto).
      assert (Ex : forall x, doc < x -> tot ms' x = tot ms x) by (intros x Hx; rewrite (tot_perm _ _ x HP), tot_cons, part_out, plus_0l; [reflexivity|]; unfold all_docs; rewrite Ep; fold doc; cbn [fst In]; lia). destruct ms' as [|p3 ms3].
      + exists num', cum', q2, []. splits; auto.
        * intros d. rewrite <- Hh. split; [intros (z & [] & _)|intros ([H|H] & H2); [exact H|lia]].
        * rewrite <- ETP. symmetry. apply plus_0.
        * exists (S (Nat.max n0 n1)). intros f [|g] Hf Hg; [lia|]. rewrite RUN by lia. rewrite Epop. cbn [obind snd]. rewrite (DQ_size _ _ _ HQ2). reflexivity.
      + destruct (KEY q2 (p3 :: ms3) HQ2 ltac:(lia) Hmin' Hh ltac:(discriminate) eq_refl Ex) as (n' & c' & q' & ms4 & HQ4 & Hh4 & Ev4 & Ex4 & n & En). exists n', c', q', ms4. splits; auto. exists (S (Nat.max (Nat.max n0 n1) n)). intros f [|g] Hf Hg; [lia|]. rewrite RUN by lia. rewrite Epop. cbn [obind snd]. rewrite (DQ_size _ _ _ HQ2). cbn [length Nat.eqb]. apply En; lia.
    - pose proof (Hs x r eq_refl) as HSx. pose proof HSx as (Hx & _). pose proof (FL x (or_introl eq_refl)) as Hxd. assert (Hst : standing (s', (r, fn p))) by (split; cbn [fst snd]; rewrite Hx; [exact HSx|lia]). destruct (Hrep (s', (r, fn p)) Hst) as (q2 & Erep & HQ2). cbn [fst] in Erep.
      destruct (KEY q2 ((s', (r, fn p)) :: ms') HQ2) as (n' & c' & q' & ms4 & HQ4 & Hh4 & Ev4 & Ex4 & n & En).
      + rewrite total_cons. cbn [fst snd length] in *. lia.
      + intros z [<-|Hz]; [cbn [fst]; lia|auto].
      + intros d. rewrite (has_perm _ _ d HP), !has_cons, Ep. cbn [fst snd In]. rewrite Hx. fold doc. intuition congruence.
      + discriminate.
      + rewrite tot_cons, part_out, plus_0l; [reflexivity|]. unfold all_docs. cbn [fst snd In]. rewrite Hx. intros [G|G]; [lia|]. specialize (FL doc (or_intror G)). lia.
      + intros z Hz. rewrite (tot_perm _ _ z HP), !tot_cons. f_equal. apply part_ext; [|reflexivity]. unfold all_docs. cbn [fst snd]. rewrite Ep, Hx. fold doc. cbn [In]. intuition lia.
      + exists n', c', q', ms4. splits; auto. exists (S (Nat.max (Nat.max n0 n1) n)). intros f [|g] Hf Hg; [lia|]. rewrite RUN by lia. rewrite Erep. cbn [obind]. apply En; lia.
  Qed.
  Variable sf : fnt.
  Definition DisR (s : sc) (cur : option Z) (rest : list Z) : Prop :=
    SS rest /\ Forall (fun d => 0 <= d /\ above cur d) rest /\
    ((exists subs Ls num cum, s = Dis (-1) num cum None subs /\ cur = None /\ Forall2 (fun c L => Beh (snd L) k c None (fst L)) subs Ls /\ (forall d, In d rest <-> exists L, In L Ls /\ In d (fst L)) /\ forall x, sf x = parts Ls x) \/
     (exists doc num cum q subs ms capa, s = Dis doc num cum (Some q) subs /\ cur = Some doc /\ DQ capa q ms /\ (forall d, In d rest <-> has ms d) /\ forall x, doc < x -> sf x = tot ms x)).
  Lemma advance_ok capa q ms T subs : DQ capa q ms -> ms <> [] -> SS T -> (forall d, In d T <-> has ms d) -> (forall x, has ms x -> sf x = tot ms x) -> (forall y x, has ms y -> y <= x -> sf x = tot ms x) ->
    exists doc s', (exists n, forall f g, (n <= f)%nat -> (n <= g)%nat -> dis_advance (run sm f) (score sm f) g q subs = Some (true, s')) /\
      exists r, T = doc :: r /\ StandR sf DisR s' doc r.
  Proof.
    intros HQ Hne HS HT Hsf Hsf2. destruct (dq_top capa q ms HQ Hne) as (p & ms' & HP & Htop & Hmin & _). assert (Hp : has ms (doc_of (fst p))) by (exists p; split; [exact (Permutation_in _ (Permutation_sym HP) (or_introl eq_refl))|left; reflexivity]). destruct (inner_ok capa (total ms) q ms 0%nat 0%Qc (fst p) (le_n _) HQ Htop Hne) as (n' & c' & q' & ms2 & HQ2 & Hh & Ev & Ex & n & En). change (0%Qc, 0%nat) with zero in Ev. rewrite plus_0l in Ev.
    exists (doc_of (fst p)), (Dis (doc_of (fst p)) n' c' (Some q') subs). split.
    - exists n. intros f g Hf Hg. unfold dis_advance. rewrite Htop. cbn [obind]. rewrite (En f g) by lia. reflexivity.
    - assert (Hin : In (doc_of (fst p)) T) by (apply HT; exact Hp). destruct T as [|x r]; [destruct Hin|]. apply SS_inv in HS. destruct HS as (HS & Hgt).
      assert (x = doc_of (fst p)) as ->.
      { destruct Hin as [E|Hin]; [exact E|]. specialize (Hgt _ Hin). destruct (DQ_ge _ _ _ x HQ (proj1 (HT x) (or_introl eq_refl))) as (z & Hz & Hzx). specialize (Hmin z Hz). lia. }
      exists r. split; [reflexivity|].
      assert (HR : DisR (Dis (doc_of (fst p)) n' c' (Some q') subs) (Some (doc_of (fst p))) r).
      { split; [exact HS|]. split.
        + apply Forall_forall. intros d Hd. pose proof (DQ_docs _ _ _ d HQ (proj1 (HT d) (or_intror Hd))); specialize (Hgt d Hd); cbn [Rank_Proofs.above]; lia.
        + right. exists (doc_of (fst p)), n', c', q', subs, ms2, capa. splits; auto.
          * intros d. rewrite Hh, <- HT. cbn [In]. split; [intros Hd; split; [right; exact Hd|apply Hgt; exact Hd]|intros ([E|Hd] & H2); [lia|exact Hd]].
          * intros x Hx. rewrite Ex by exact Hx. apply (Hsf2 (doc_of (fst p))); [exact Hp|lia]. }
      stands; [reflexivity|exact HR|]. exists (Dis (doc_of (fst p)) n' c' (Some q') subs). s3; [|reflexivity|exact HR]. apply evs_1. intros f. rewrite score_S. cbn [score_step]. rewrite Ev, (Hsf _ Hp). reflexivity.
  Qed.
  Lemma dskip_ok capa d doc num cum subs : k = true -> 0 <= d < B -> (forall m q ms T, (total ms <= m)%nat -> DQ capa q ms -> ms <> [] -> SS T -> (forall x, In x T <-> has ms x /\ d <= x) -> (forall x, d <= x -> sf x = tot ms x) ->
    exists s', (exists n, forall f g, (n <= f)%nat -> (n <= g)%nat -> dis_skip (run sm f) (score sm f) g doc num cum d q subs = Some (nonnil T, s')) /\ forall x r, T = x :: r -> StandR sf DisR s' x r).
  Proof.
    intros Hk H0. induction m as [m IH] using lt_wf_ind. intros q ms T Hm HQ Hne HS HT Hsf. destruct (dq_top capa q ms HQ Hne) as (p & ms' & HP & Htop & Hmin & Hp & Hrep & Hpop). destruct (Z.leb_spec d (doc_of (fst p))) as [Hd|Hd].
    - assert (Hge : forall x, has ms x -> d <= x) by (intros x Hx; destruct (DQ_ge _ _ _ x HQ Hx) as (z & Hz & Hzx); specialize (Hmin z Hz); lia). destruct (advance_ok capa q ms T subs HQ Hne HS) as (doc' & s' & (n & En) & r & -> & HR).
      { intros x. rewrite HT. split; [tauto|]. intros Hx. split; [exact Hx|auto]. }
      { intros x Hx. apply Hsf. auto. }
      { intros y x Hy Hyx. apply Hsf. specialize (Hge y Hy). lia. }
      exists s'. split.
      + exists (S n). intros f [|g] Hf Hg; [lia|]. cbn [dis_skip]. rewrite Htop. cbn [obind]. destruct (Z.leb_spec d (doc_of (fst p))); [|lia]. rewrite (En f g) by lia. reflexivity.
      + intros x r' E. injection E as <- <-. exact HR.
    - destruct (standing_beh _ Hp) as (HB & Hp0). destruct (beh_facts _ _ _ _ _ _ _ HB) as (S1 & F1). rewrite Hk in HB. destruct (beh_skip _ _ _ _ _ _ d HB ltac:(cbn; lia) ltac:(lia)) as (s' & (n1 & E1) & Hs). rewrite <- Hk in Hs.
      pose proof (total_perm _ _ HP) as HT2. rewrite total_cons in HT2. destruct (from d (lst p)) as [|y r] eqn:Ef.
      + destruct Hpop as (y & q2 & Epop & HQ2). assert (Hno : forall x, d <= x -> ~ In x (doc_of (fst p) :: lst p)) by (intros x Hx [E|E]; [lia|]; assert (G : In x (from d (lst p))) by (apply from_in; auto); rewrite Ef in G; destruct G).
        assert (Hh : forall x, In x T <-> has ms' x /\ d <= x).
        { intros x. rewrite HT, (has_perm _ _ x HP), has_cons. split; [|tauto]. intros ([E|[E|E]] & H2); [lia| |auto]. destruct (Hno x H2 (or_intror E)). }
        assert (Hsf' : forall x, d <= x -> sf x = tot ms' x) by (intros x Hx; rewrite (Hsf x Hx), (tot_perm _ _ x HP), tot_cons, part_out, plus_0l; [reflexivity|apply Hno; exact Hx]).
        destruct ms' as [|p3 ms3].
        * assert (T = []) as -> by (destruct T as [|x T]; [reflexivity|]; destruct (proj1 (Hh x) (or_introl eq_refl)) as ((z & [] & _) & _)). exists (Dis doc num cum (Some q2) subs). split; [|discriminate]. exists (S n1). intros f [|g] Hf Hg; [lia|]. cbn [dis_skip]. rewrite Htop. cbn [obind]. destruct (Z.leb_spec d (doc_of (fst p))); [lia|]. rewrite (E1 f ltac:(lia)). cbn [obind nonnil fst]. rewrite Epop. cbn [obind snd]. rewrite (DQ_size _ _ _ HQ2). reflexivity.
        * destruct (IH (total (p3 :: ms3)) ltac:(lia) q2 (p3 :: ms3) T (le_n _) HQ2 ltac:(discriminate) HS Hh Hsf') as (s2 & (n & En) & Hs2). exists s2. split; [|exact Hs2]. exists (S (Nat.max n1 n)). intros f [|g] Hf Hg; [lia|]. cbn [dis_skip]. rewrite Htop. cbn [obind]. destruct (Z.leb_spec d (doc_of (fst p))); [lia|]. rewrite (E1 f ltac:(lia)). cbn [obind nonnil fst]. rewrite Epop. cbn [obind snd]. rewrite (DQ_size _ _ _ HQ2). cbn [length Nat.ltb Nat.leb]. apply En; lia.
      + pose proof (Hs y r eq_refl) as HSy. pose proof HSy as (Hy & _). assert (Hyd : In y (lst p) /\ d <= y) by (apply from_in; [exact S1|rewrite Ef; left; reflexivity]). destruct Hyd as (Hyl & Hyd). assert (Hyb : y < B) by (rewrite Forall_forall in F1; specialize (F1 y Hyl); cbn [Rank_Proofs.above] in F1; lia).
        assert (Hst : standing (s', (r, fn p))) by (split; cbn [fst snd]; rewrite Hy; [exact HSy|lia]). destruct (Hrep (s', (r, fn p)) Hst) as (q2 & Erep & HQ2). cbn [fst] in Erep. cbn [nonnil] in E1.
        assert (G : forall x, d <= x -> (In x (lst p) <-> x = y \/ In x r)) by (intros x Hdx; transitivity (In x (from d (lst p))); [rewrite from_in by exact S1; tauto|rewrite Ef; cbn [In]; intuition]).
        destruct (IH (total ((s', (r, fn p)) :: ms'))) with (q := q2) (ms := (s', (r, fn p)) :: ms') (T := T) as (s2 & (n & En) & Hs2); auto.
        * rewrite total_cons. cbn [fst snd]. pose proof (tgt_shorter (Some d) (lst p) y r Ef). lia.
        * discriminate.
        * intros x. rewrite HT, (has_perm _ _ x HP), !has_cons. cbn [fst snd]. rewrite Hy. split; intros (H & H2); (split; [|exact H2]); specialize (G x H2); [|tauto]. destruct H as [H|H]; [lia|tauto].
        * intros x Hx. rewrite (Hsf x Hx), (tot_perm _ _ x HP), !tot_cons. f_equal. apply part_ext; [|reflexivity]. unfold all_docs. cbn [fst snd]. rewrite Hy. cbn [In]. rewrite (G x Hx). intuition lia.
        * exists s2. split; [|exact Hs2]. exists (S (Nat.max n1 n)). intros f [|g] Hf Hg; [lia|]. cbn [dis_skip]. rewrite Htop. cbn [obind]. destruct (Z.leb_spec d (doc_of (fst p))); [lia|]. rewrite (E1 f ltac:(lia)). cbn [obind fst snd]. rewrite Erep. cbn [obind]. apply En; lia.
  Qed.
  Lemma fill_ok capa : forall subs Ls q ms, Forall2 (fun c (L : list Z * fnt) => Beh (snd L) k c None (fst L)) subs Ls -> DQ capa q ms -> (length ms + length subs <= capa)%nat ->
    exists q' ms', DQ capa q' ms' /\ (forall d, has ms' d <-> has ms d \/ exists L, In L Ls /\ In d (fst L)) /\ (forall x, tot ms' x = plus (tot ms x) (parts Ls x)) /\ exists n, forall f, (n <= f)%nat -> dis_fill (run sm f) subs q = Some q'.
  Proof.
    intros subs Ls q ms HF. revert q ms. induction HF as [|c L subs Ls HB HF IH]; intros q ms HQ Hc.
    - exists q, ms. splits; auto; [|intros x; symmetry; apply plus_0|exists O; reflexivity]. intros d. split; [auto|]. intros [H|(L & [] & _)]. exact H.
    - destruct (beh_next _ _ _ _ _ _ _ HB) as (s' & (n1 & E1) & Hs). destruct (beh_facts _ _ _ _ _ _ _ HB) as (SL & FL). cbn [length] in Hc. destruct L as (L, g). cbn [fst snd] in *. destruct L as [|x r].
      + destruct (IH q ms HQ ltac:(lia)) as (q' & ms' & HQ' & Hh & Et & n & En). exists q', ms'. splits; auto.
        * intros d. rewrite Hh. split; [intros [H|(L & H1 & H2)]; [auto|right; exists L; split; [right|]; auto]|intros [H|(L & [<-|H1] & H2)]; [auto|destruct H2|right; eauto]].
        * intros y. rewrite Et. cbn [parts fold_right]. rewrite part_out by (intros []). rewrite plus_0l. reflexivity.
        * exists (Nat.max n n1). intros f Hf. cbn [dis_fill]. rewrite (E1 f ltac:(lia)). cbn [obind nonnil fst]. apply En; lia.
      + pose proof (Hs x r eq_refl) as HSx. pose proof HSx as (Hx & _). rewrite Forall_forall in FL. assert (Hst : standing (s', (r, g))) by (split; cbn [fst snd]; rewrite Hx; [exact HSx|pose proof (FL x (or_introl eq_refl)) as FX; cbn [Rank_Proofs.above] in FX; lia]). pose proof (DQ_size _ _ _ HQ) as Hsz. destruct HQ as (HP & HFm). destruct (push_ok sc doc_lt doc_lt_pre capa q (map fst ms) s' HP) as (q1 & Ep & HP1).
        destruct (IH q1 ((s', (r, g)) :: ms) (conj HP1 (Forall_cons _ Hst HFm)) ltac:(cbn [length]; lia)) as (q' & ms' & HQ' & Hh & Et & n & En). exists q', ms'. splits; auto.
        * intros d. rewrite Hh, has_cons. cbn [fst snd]. rewrite Hx. split.
          -- intros [[->|[H|H]]|(L & H1 & H2)]; [right; exists (x :: r, g); split; left; reflexivity|right; exists (x :: r, g); split; [left; reflexivity|right; exact H]|auto|right; exists L; split; [right; exact H1|exact H2]].
          -- intros [H|(L & [<-|H1] & H2)]; [auto|destruct H2 as [<-|H2]; auto|right; eauto].
        * intros y. rewrite Et, tot_cons. cbn [parts fold_right]. fold (parts Ls y). unfold all_docs. cbn [fst snd]. rewrite Hx. rewrite (plus_comm (part _ y) (tot ms y)), <- plus_assoc. reflexivity.
        * exists (Nat.max n n1). intros f Hf. cbn [dis_fill]. rewrite (E1 f ltac:(lia)). cbn [obind nonnil fst snd]. unfold pq_insert. rewrite (pi_capa _ _ _ _ _ HP). destruct (Nat.ltb_spec (pq_size q) capa); [|lia]. rewrite Ep. cbn [obind snd]. apply En; lia.
  Qed.
  Lemma dis_ok s cur rest : DisR s cur rest -> Beh sf k s cur rest.
  Proof.
    apply beh_coind. clear s cur rest. intros s cur rest (HS & HF & H). splits; auto. intros op Hop.
    (* the queue is filled *)
    assert (G : exists doc num cum q0 q subs ms capa, s = Dis doc num cum q0 subs /\ DQ capa q ms /\ (forall d, In d rest <-> has ms d) /\ (cur = None /\ doc = -1 \/ cur = Some doc) /\ (forall x, doc < x -> sf x = tot ms x) /\ exists n, forall f, (n <= f)%nat -> dis_queue (run sm f) q0 subs = Some q).
    { destruct H as [(subs & Ls & num & cum & -> & -> & HB & Hin & Hsf)|(doc & num & cum & q & subs & ms & capa & -> & -> & HQ & Hin & Hsf)].
      - destruct (fill_ok (length subs) subs Ls (pq_new sc (length subs)) [] HB) as (q' & ms' & HQ' & Hh & Et & n & En); [split; [apply new_ok|constructor]|cbn [length]; lia|]. exists (-1), num, cum, None, q', subs, ms', (length subs). splits; auto; [| |exists n; exact En].
        + intros d. rewrite Hin, Hh. split; [auto|]. intros [(z & [] & _)|H]. exact H.
        + intros x _. rewrite Hsf, Et. symmetry. apply plus_0l.
      - exists doc, num, cum, (Some q), q, subs, ms, capa. splits; auto. exists O. reflexivity. }
    destruct G as (doc & num & cum & q0 & q & subs & ms & capa & -> & HQ & Hin & Hdoc & Hsf & n0 & E0). pose proof (DQ_size _ _ _ HQ) as Hsz.
    assert (Hdr : forall x, In x rest -> doc < x) by (intros x Hx; rewrite Forall_forall in HF; specialize (HF x Hx); destruct Hdoc as [(-> & ->)| ->]; cbn [Rank_Proofs.above] in HF; lia). destruct ms as [|p ms].
    - assert (rest = []) as -> by (destruct rest as [|x r]; [reflexivity|]; destruct (proj1 (Hin x) (or_introl eq_refl)) as (z & [] & _)). exists (Dis doc num cum (Some q) subs). split; [|destruct op; discriminate]. exists (S n0). intros [|f] Hf; [lia|]. rewrite run_S. destruct op as [d|]; cbn [step]; unfold dis_next, dis_skip_to; rewrite (E0 f ltac:(lia)); cbn [obind]; rewrite Hsz; reflexivity.
    - assert (Hlt : (pq_size q <? 1)%nat = false) by (rewrite Hsz; reflexivity). destruct op as [d|]; cbn [tgt].
      + cbn [allowed] in Hop. destruct Hop as (Hk & Ha & H0). assert (Hdd : doc < d /\ d < B) by (destruct Hdoc as [(-> & ->)| ->]; cbn [Rank_Proofs.above] in Ha; lia). destruct (dskip_ok capa d doc num cum subs Hk ltac:(lia) _ q (p :: ms) (from d rest) (le_n _) HQ ltac:(discriminate) (from_SS d _ HS)) as (s' & (n & En) & Hs).
        { intros x. rewrite from_in by exact HS. rewrite Hin. reflexivity. }
        { intros x Hx. apply Hsf. lia. }
        exists s'. split; [|exact Hs]. exists (S (Nat.max n0 n)). intros [|f] Hf; [lia|]. rewrite run_S. cbn [step]. unfold dis_skip_to. rewrite (E0 f ltac:(lia)). cbn [obind]. rewrite Hlt. destruct (Z.leb_spec d doc); [lia|]. apply En; lia.
      + destruct (advance_ok capa q (p :: ms) rest subs HQ ltac:(discriminate) HS Hin) as (doc' & s' & (n & En) & r & -> & HR).
        { intros x Hx. apply Hsf, Hdr, Hin, Hx. }
        { intros y x Hy Hyx. apply Hsf. specialize (Hdr y (proj2 (Hin y) Hy)). lia. }
        exists s'. split.
        * exists (S (Nat.max n0 n)). intros [|f] Hf; [lia|]. rewrite run_S. cbn [step]. unfold dis_next. rewrite (E0 f ltac:(lia)). cbn [obind]. rewrite Hlt. rewrite (En f f) by lia. reflexivity.
        * intros x r' E. injection E as <- <-. exact HR.
  Qed.
End DIS.
Lemma dis_beh sm B k subs Ls : Forall2 (fun c (L : list Z * fnt) => Beh sm B (snd L) k c None (fst L)) subs Ls -> exists U, Beh sm B (parts Ls) k (dis_new subs) None U /\ forall d, In d U <-> exists L, In L Ls /\ In d (fst L).
Proof.
  intros H. destruct (BoolSum_Proofs.union_list (map fst Ls)) as (U & HU & Hin0). { clear - H. induction H as [|c L cs Ls HB H IH]; constructor; [apply (beh_facts _ _ _ _ _ _ _ HB)|exact IH]. }
  assert (Hin : forall d, In d U <-> exists L, In L Ls /\ In d (fst L)) by (intros d; rewrite Hin0; split; [intros (L & HL & Hd); apply in_map_iff in HL; destruct HL as (M & <- & HM); eauto|intros (L & HL & Hd); exists (fst L); split; [apply in_map; exact HL|exact Hd]]).
  exists U. split; [|exact Hin]. apply dis_ok. split; [exact HU|split].
  - apply Forall_forall. intros d Hd. cbn [above]. apply Hin in Hd. destruct Hd as (L & HL & Hd). clear - H HL Hd. induction H as [|c L' cs Ls HB H IH]; [destruct HL|]. destruct HL as [->|HL]; [|auto]. destruct (beh_facts _ _ _ _ _ _ _ HB) as (_ & F). rewrite Forall_forall in F. apply F. exact Hd.
  - left. exists subs, Ls, 0%nat, 0%Qc. auto.
Qed.
