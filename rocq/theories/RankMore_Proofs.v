(* hits of queries whose clauses are in another order; hits and explanations *)
From Coq Require Import QArith.Qcanon Sorting.Sorted.
From Verif Require Import Util PQueue_Model Query_Model Rank_Model Rank_Spec Rank_Proofs RankQuery_Proofs RankExpl_Proofs.
Open Scope Z_scope.
Lemma Qcsum_perm l l' : Permutation l l' -> Qcsum l = Qcsum l'.
Proof. induction 1; unfold Qcsum in *; cbn [fold_right]; [reflexivity|congruence|ring|congruence]. Qed.
Lemma forallb_perm A (f : A -> bool) l l' : Permutation l l' -> forallb f l = forallb f l'.
Proof. induction 1; cbn; [reflexivity|congruence|destruct (f x), (f y); reflexivity|congruence]. Qed.
Lemma existsb_perm A (f : A -> bool) l l' : Permutation l l' -> existsb f l = existsb f l'.
Proof. induction 1; cbn; [reflexivity|congruence|destruct (f x), (f y); reflexivity|congruence]. Qed.
Lemma filter_perm A (f : A -> bool) l l' : Permutation l l' -> length (filter f l) = length (filter f l').
Proof. induction 1; cbn; [reflexivity|destruct (f x); cbn; congruence|destruct (f x), (f y); reflexivity|congruence]. Qed.
Lemma leaves_all b nc cs : leaves_ok (RBool b nc cs) <-> forall c, In c cs -> leaves_ok (snd c).
Proof.
  cbn [leaves_ok]. induction cs as [|(o, q) cs IH]; [split; [intros _ c []|auto]|]. split.
  - intros (H1 & H2) c [<-|Hc]; [exact H1|]. apply IH; assumption.
  - intros H. split; [apply (H (o, q)); left; reflexivity|]. apply IH. intros c Hc. apply H. right. exact Hc.
Qed.
Definition alike (q q' : rquery) : Prop :=
  (forall d, matches d q = matches d q') /\ squares q = squares q' /\ has_scorer q = has_scorer q' /\ (forall sm f d, worth sm f q d = worth sm f q' d) /\ (leaves_ok q <-> leaves_ok q') /\ (forall k, tame k q = tame k q').
Lemma filter_mid A (f : A -> bool) l x y r : f x = f y -> length (filter f (l ++ x :: r)) = length (filter f (l ++ y :: r)).
Proof. intros E. rewrite !filter_app, !app_length. cbn [filter]. rewrite E. destruct (f y); reflexivity. Qed.
Lemma Qcsum_mid A (f : A -> Qc) l x y r : f x = f y -> Qcsum (map f (l ++ x :: r)) = Qcsum (map f (l ++ y :: r)).
Proof. intros E. rewrite !map_app. cbn [map]. rewrite E. reflexivity. Qed.
Lemma existsb_mid A (f : A -> bool) l x y r : f x = f y -> existsb f (l ++ x :: r) = existsb f (l ++ y :: r).
Proof. intros E. rewrite !existsb_app. cbn [existsb]. rewrite E. reflexivity. Qed.
Lemma all_mid A (f : A -> bool) l x y r : f x = f y -> forallb f (l ++ x :: r) = forallb f (l ++ y :: r).
Proof. intros E. rewrite !forallb_app. cbn [forallb]. rewrite E. reflexivity. Qed.
Lemma shuffled_alike q q' : shuffled q q' -> alike q q'.
Proof.
  induction 1 as [b nc cs cs' HP|b nc l o q q' r H IH|q|p q r H1 IH1 H2 IH2].
  - unfold alike. splits.
    + intros d. cbn [matches]. rewrite (forallb_perm _ _ _ _ HP), (existsb_perm _ (fun c : occur * rquery => match fst c with Must => true | _ => false end) _ _ HP), (existsb_perm _ (fun c : occur * rquery => match fst c with Should => matches d (snd c) | _ => false end) _ _ HP). reflexivity.
    + cbn [squares]. f_equal. apply Qcsum_perm. apply Permutation_map. exact HP.
    + cbn [has_scorer]. apply forallb_perm. exact HP.
    + intros sm f d. cbn [worth]. rewrite (filter_perm _ _ _ _ HP), (filter_perm _ (fun c => asked c && has_scorer (snd c)) _ _ HP). f_equal. apply Qcsum_perm. apply Permutation_map. exact HP.
    + rewrite !leaves_all. split; intros G c Hc; apply G; [apply Permutation_in with cs'; [apply Permutation_sym|]; assumption|apply Permutation_in with cs; assumption].
    + intros k. cbn [tame]. unfold musts. rewrite (filter_perm _ _ _ _ HP). f_equal. apply forallb_perm. exact HP.
  - destruct IH as (A1 & A2 & A3 & A4 & A5 & A6). unfold alike. splits.
    + intros d. cbn [matches]. rewrite (all_mid _ (fun c : occur * rquery => match fst c with Must => matches d (snd c) | MustNot => negb (matches d (snd c)) | Should => true end) l (o, q) (o, q') r), (existsb_mid _ (fun c : occur * rquery => match fst c with Must => true | _ => false end) l (o, q) (o, q') r), (existsb_mid _ (fun c : occur * rquery => match fst c with Should => matches d (snd c) | _ => false end) l (o, q) (o, q') r); [reflexivity|cbn [fst snd]; rewrite A1; reflexivity|reflexivity|cbn [fst snd]; rewrite A1; reflexivity].
    + cbn [squares]. f_equal. apply Qcsum_mid. cbn [fst snd]. rewrite A2. reflexivity.
    + cbn [has_scorer]. apply all_mid. cbn [fst snd]. rewrite A3. reflexivity.
    + intros sm f d. cbn [worth]. rewrite (filter_mid _ (fun c => asked c && matches d (snd c)) l (o, q) (o, q') r), (filter_mid _ (fun c => asked c && has_scorer (snd c)) l (o, q) (o, q') r); [f_equal; apply Qcsum_mid|..]; unfold asked; cbn [fst snd]; rewrite ?A1, ?A3, ?A4; reflexivity.
    + rewrite !leaves_all. split; intros G c Hc; (apply in_app_iff in Hc; cbn [In] in Hc; destruct Hc as [Hc|[<-|Hc]]; [apply G; apply in_app_iff; auto| |apply G; apply in_app_iff; cbn; auto]); cbn [snd]; apply A5; [apply (G (o, q))|apply (G (o, q'))]; apply in_app_iff; cbn; auto.
    + intros k. cbn [tame]. assert (EM : musts (l ++ (o, q) :: r) = musts (l ++ (o, q') :: r)) by (unfold musts; apply filter_mid; reflexivity). rewrite EM. f_equal. apply all_mid. cbn [fst snd]. rewrite !A6. reflexivity.
  - unfold alike. splits; try reflexivity.
  - destruct IH1 as (A1 & A2 & A3 & A4 & A5 & A6), IH2 as (B1 & B2 & B3 & B4 & B5 & B6). unfold alike. splits; intros; try congruence; try tauto.
Qed.
Lemma sorted_same : forall l l', StronglySorted Z.lt l -> StronglySorted Z.lt l' -> (forall d, In d l <-> In d l') -> l = l'.
Proof.
  induction l as [|x l IH]; intros [|y l'] H1 H2 H; [reflexivity|destruct (proj2 (H y)); left; reflexivity|destruct (proj1 (H x)); left; reflexivity|].
  apply StronglySorted_inv in H1. apply StronglySorted_inv in H2. destruct H1 as (S1 & F1), H2 as (S2 & F2). rewrite Forall_forall in F1, F2.
  assert (x = y). { destruct (proj1 (H x) (or_introl eq_refl)) as [->|Hx]; [reflexivity|]. destruct (proj2 (H y) (or_introl eq_refl)) as [->|Hy]; [reflexivity|]. specialize (F1 _ Hy). specialize (F2 _ Hx). lia. }
  subst y. f_equal. apply IH; [assumption|assumption|]. intros d. specialize (H d). cbn [In] in H. split; intros Hd; [destruct (proj1 H (or_intror Hd))|destruct (proj2 H (or_intror Hd))]; try assumption; subst d; [specialize (F1 _ Hd)|specialize (F2 _ Hd)]; lia.
Qed.
Lemma answer_is sm q bits : leaves_ok q -> tame false q = true -> exists l, StronglySorted Z.lt l /\ (forall d, In d l <-> matches d q = true /\ bits d = true) /\ answer sm q bits (map (fun d => (d, worth_of sm q d)) l).
Proof.
  intros HL HT. pose proof (query_hits sm q bits HL HT) as H. unfold answer. destruct (scorer_of (q_weight sm q)) as [s|]; [exact H|]. exists []. splits; [constructor| |reflexivity]. intros d. rewrite H. split; [intros []|intros (G & _); discriminate].
Qed.
Lemma answer_one sm q bits l l' : answer sm q bits l -> answer sm q bits l' -> l = l'.
Proof. unfold answer. destruct (scorer_of (q_weight sm q)); [|congruence]. intros (n & H) (m & H'). specialize (H (n + m)%nat ltac:(lia)). specialize (H' (n + m)%nat ltac:(lia)). congruence. Qed.
Theorem answer_only sm q bits l : leaves_ok q -> tame false q = true -> answer sm q bits l -> StronglySorted Z.lt (map fst l) /\ (forall d s, In (d, s) l <-> matches d q = true /\ bits d = true /\ s = worth_of sm q d).
Proof.
  intros HL HT HA. destruct (answer_is sm q bits HL HT) as (l' & HS & HI & HA'). rewrite (answer_one _ _ _ _ _ HA HA'). split; [rewrite map_map; cbn [fst]; rewrite map_id; exact HS|].
  intros d s. rewrite in_map_iff. split; [intros (x & E & Hx); apply pair_equal_spec in E; destruct E as (-> & <-); apply HI in Hx; destruct Hx; auto|intros (G1 & G2 & ->); exists d; split; [reflexivity|apply HI; auto]].
Qed.
Theorem shuffled_same sm q q' bits l : shuffled q q' -> leaves_ok q -> tame false q = true -> answer sm q bits l -> answer sm q' bits l.
Proof.
  intros HSh HL HT HA. destruct (shuffled_alike q q' HSh) as (A1 & A2 & A3 & A4 & A5 & A6). apply A5 in HL as HL'. pose proof HT as HT'. rewrite A6 in HT'.
  destruct (answer_is sm q bits HL HT) as (m & HS & HI & HA1). destruct (answer_is sm q' bits HL' HT') as (m' & HS' & HI' & HA1'). rewrite (answer_one _ _ _ _ _ HA HA1).
  assert (E : m = m'). { apply sorted_same; [assumption|assumption|]. intros d. rewrite HI, HI', A1. reflexivity. }
  subst m'. erewrite map_ext; [exact HA1'|]. intros d. cbn beta. unfold worth_of. rewrite A2, A4. reflexivity.
Qed.
(* ---------- explanations *)
Theorem explained sm q d : fair sm -> fair_query q -> within d q = true -> explain sm (q_weight sm q) d = if matches d q then worth_of sm q d else 0%Qc.
Proof.
  intros HS HQ HW. rewrite weight_is. pose proof HS as (_ & _ & _ & NP). unfold worth_of. pose proof (expl_ok sm d HS q (query_norm sm (squares q)) HQ HW) as G.
  assert (HN : (0 < query_norm sm (squares q))%Qc \/ squares q = 0%Qc).
  { destruct (Qc_eq_dec (squares q) 0) as [E|E]; [right; exact E|left]. apply NP. apply Qcnot_le_lt. intros G1. apply E. apply Qcle_antisym; [exact G1|apply squares_nn; exact HQ]. }
  specialize (G HN). destruct (matches d q); [apply G|exact G].
Qed.
Theorem hit_explained sm q bits l d s : leaves_ok q -> tame false q = true -> fair sm -> fair_query q -> within d q = true -> answer sm q bits l -> In (d, s) l -> explain sm (q_weight sm q) d = s /\ (0 < s)%Qc.
Proof.
  intros HL HT HS HQ HW HA HI. destruct (answer_only sm q bits l HL HT HA) as (_ & G). apply G in HI. destruct HI as (E1 & _ & ->). rewrite (explained sm q d HS HQ HW), E1. split; [reflexivity|].
  pose proof HS as (_ & _ & _ & NP). unfold worth_of. pose proof (expl_ok sm d HS q (query_norm sm (squares q)) HQ HW) as G1. rewrite E1 in G1. apply G1.
  destruct (Qc_eq_dec (squares q) 0) as [E|E]; [right; exact E|left]. apply NP. apply Qcnot_le_lt. intros G2. apply E. apply Qcle_antisym; [exact G2|apply squares_nn; exact HQ].
Qed.
