(* ConjunctionScorer: the sum of the scores of its sub-scorers, which are counted when a document is scored for the first time *)
From Coq Require Import QArith.Qcanon Sorting.Permutation Sorting.Sorted.
From Verif Require Import Util PQueue_Model Query_Model Rank_Model Rank_Spec Rank_Proofs RankSum_Proofs.
From Verif Require BoolCon_Proofs.
Open Scope Z_scope.
Section BOUND.
Variable sm : sim.
Variable B : Z.
Local Notation Beh := (Rank_Proofs.Beh sm B).
Local Notation StandR := (Rank_Proofs.StandR sm).
Local Notation Stand sf k := (Rank_Proofs.StandR sm sf (Rank_Proofs.Beh sm B sf k)).
Local Notation above := (Rank_Proofs.above B).
Local Notation allowed := (Rank_Proofs.allowed B).
Variable FN : list fnt.   (* the scores of the sub-scorers *)
Definition conf (x : Z) : Qc * nat := (Qcsum (map (fun g : fnt => fst (g x)) FN), length FN).
Definition at_doc (p : P) : Prop := Beh (fn p) true (fst p) (Some (doc_of (fst p))) (lst p) /\ 0 <= doc_of (fst p) < B.
(* documents up to ls may have been scored *)
Definition fresh (ls : Z) (p : P) : Prop := ls < doc_of (fst p) -> Stand (fn p) true (fst p) (doc_of (fst p)) (lst p).
Notation fns := (map (fun p : P => fn p)).
Definition holds (d : Z) (p : P) : Prop := d = doc_of (fst p) \/ In d (lst p).
Notation docs := (map (fun p : P => doc_of (fst p))).
Definition left_ (ps : list P) : nat := list_sum (map (fun p : P => length (lst p)) ps).
Lemma left_app a b : left_ (a ++ b) = (left_ a + left_ b)%nat.
Proof. unfold left_. rewrite map_app. apply list_sum_app. Qed.
Lemma left_cons p b : left_ (p :: b) = (length (lst p) + left_ b)%nat.
Proof. reflexivity. Qed.
Lemma holds_ge d p : at_doc p -> holds d p -> doc_of (fst p) <= d.
Proof. intros (HB & _) [->|H]; [lia|]. destruct (beh_facts _ _ _ _ _ _ _ HB) as (_ & F). rewrite Forall_forall in F. specialize (F _ H). cbn [Rank_Proofs.above] in F. lia. Qed.
Lemma at_skip p d : at_doc p -> doc_of (fst p) < d < B -> exists s', ev sm (Some d) (fst p) (nonnil (from d (lst p))) s' /\
  match from d (lst p) with
  | [] => forall x, d <= x -> ~ holds x p
  | y :: r => at_doc (s', (r, fn p)) /\ (forall ls, fresh ls (s', (r, fn p))) /\ d <= doc_of s' /\ (length r < length (lst p))%nat /\ forall x, d <= x -> (holds x p <-> holds x (s', (r, fn p)))
  end.
Proof.
  intros (HB & H0) Hd. destruct (beh_skip _ _ _ _ _ _ d HB Hd ltac:(lia)) as (s' & E & Hs). destruct (beh_facts _ _ _ _ _ _ _ HB) as (SL & FL). exists s'. split; [exact E|]. destruct (from d (lst p)) as [|y r] eqn:Ef.
  - intros x Hx [->|Hin]; [lia|]. assert (G : In x (from d (lst p))) by (apply from_in; auto). rewrite Ef in G. destruct G.
  - pose proof (Hs y r eq_refl) as HSy. destruct (stand_beh _ _ _ _ _ _ _ HSy) as (Hy & HB'). assert (Hdy : In y (lst p) /\ d <= y) by (apply from_in; [exact SL|rewrite Ef; left; reflexivity]). splits.
    + split; cbn [fst snd]; [rewrite Hy; exact HB'|rewrite Forall_forall in FL; pose proof (FL y (proj1 Hdy)) as FY; cbn [Rank_Proofs.above] in FY; lia].
    + intros ls _. cbn [fst snd]. rewrite Hy. exact HSy.
    + lia.
    + exact (tgt_shorter (Some d) _ _ _ Ef).
    + intros x Hx. unfold holds. cbn [fst snd]. rewrite Hy. assert (G : In x (lst p) <-> x = y \/ In x r) by (transitivity (In x (from d (lst p))); [rewrite from_in by exact SL; tauto|rewrite Ef; cbn [In]; intuition]). rewrite G. intuition lia.
Qed.
Notation up := (StronglySorted Z.le).
Notation up_app := BoolCon_Proofs.up_app.
Notation up_inv := BoolCon_Proofs.up_inv.
Notation upd_mid := BoolCon_Proofs.upd_mid.
Notation nth_mid := BoolCon_Proofs.nth_mid.
(* the order of the scorers from first_idx on *)
Definition rot (a : list P) (p : P) (b : list P) : list P := p :: b ++ a.
Lemma rot_perm a p b : Permutation (a ++ p :: b) (rot a p b).
Proof. unfold rot. rewrite <- Permutation_middle. constructor. apply Permutation_app_comm. Qed.

Definition ConR (s : sc) (cur : option Z) (rest : list Z) : Prop :=
  SS rest /\ Forall (fun d => 0 <= d /\ above cur d) rest /\
  ((exists doc l Ls, s = Con doc true true 0 (-1) l /\ cur = None /\ l <> [] /\ Forall2 (fun c (L : list Z * fnt) => Beh (snd L) true c None (fst L)) l Ls /\ map snd Ls = FN /\ forall d, In d rest <-> Forall (fun L : list Z * fnt => In d (fst L)) Ls) \/
   (exists doc a p b ls, s = Con doc false true (length a) ls (map fst (a ++ p :: b)) /\ cur = Some doc /\ ls <= doc /\ Forall at_doc (a ++ p :: b) /\ Forall (fresh ls) (a ++ p :: b) /\ fns (a ++ p :: b) = FN /\ Forall (fun x => x = doc) (docs (a ++ p :: b)) /\
      forall d, In d rest <-> Forall (fun x : P => In d (lst x)) (a ++ p :: b))).
Lemma mark_ok D : forall ps : list P, Forall (fun p : P => doc_of (fst p) = D /\ Stand (fn p) true (fst p) D (lst p)) ps ->
  exists ps', map snd ps' = map snd ps /\ Forall (fun p : P => doc_of (fst p) = D /\ Beh (fn p) true (fst p) (Some D) (lst p)) ps' /\
    exists n, forall f, (n <= f)%nat -> mark_all (score sm f) (map fst ps) = Some (Qcsum (map (fun g : fnt => fst (g D)) (fns ps)), map fst ps').
Proof.
  induction ps as [|p ps IH]; intros H.
  - exists []. splits; [reflexivity|constructor|]. exists O. reflexivity.
  - inversion H as [|? ? (Hd & _ & _ & s2 & (n1 & E1) & Hd2 & HB2) H2]; subst. destruct (IH H2) as (ps' & Es & HF & n2 & E2). exists ((s2, snd p) :: ps'). splits.
    + cbn [map snd]. congruence.
    + constructor; [cbn [fst snd]; auto|exact HF].
    + exists (Nat.max n1 n2). intros f Hf. cbn [map mark_all]. rewrite (E1 f ltac:(lia)). cbn [obind]. rewrite (E2 f ltac:(lia)). reflexivity.
Qed.
Lemma con_stand D a p b ls r : SS r -> Forall (fun d => 0 <= d /\ above (Some D) d) r -> ls < D -> Forall at_doc (a ++ p :: b) -> Forall (fresh ls) (a ++ p :: b) -> fns (a ++ p :: b) = FN -> Forall (fun x => x = D) (docs (a ++ p :: b)) ->
  (forall d, In d r <-> Forall (fun x : P => In d (lst x)) (a ++ p :: b)) -> StandR conf ConR (Con D false true (length a) ls (map fst (a ++ p :: b))) D r.
Proof.
  intros HS HF Hls HA HFr Efn HD Hin. stands; [reflexivity|split; [exact HS|split; [exact HF|]]; right; exists D, a, p, b, ls; splits; auto; lia|].
  assert (HD' : forall x, In x (a ++ p :: b) -> doc_of (fst x) = D) by (intros x Hx; rewrite Forall_forall in HD; apply HD; apply (in_map (fun p : P => doc_of (fst p))); exact Hx).
  destruct (mark_ok D (a ++ p :: b)) as (ps' & Es & HF' & n & En).
  { apply Forall_forall. intros x Hx. split; [apply HD'; exact Hx|]. rewrite Forall_forall in HFr. specialize (HFr x Hx). unfold fresh in HFr. rewrite (HD' x Hx) in HFr. apply HFr. exact Hls. }
  assert (Hsplit : exists a' p' b', ps' = a' ++ p' :: b' /\ length a' = length a).
  { rewrite map_app in Es. apply map_eq_app in Es. destruct Es as (a' & l2 & -> & E1 & E2). cbn [map] in E2. apply map_eq_cons in E2. destruct E2 as (p' & b' & -> & _ & _). exists a', p', b'. split; [reflexivity|]. rewrite <- (map_length snd a'), E1, map_length. reflexivity. }
  destruct Hsplit as (a' & p' & b' & -> & El). exists (Con D false true (length a) D (map fst (a' ++ p' :: b'))). s3; [|reflexivity|].
  - exists (S n). intros [|f] Hf; [lia|]. rewrite score_S. cbn [score_step]. unfold con_score. rewrite (En f ltac:(lia)). cbn [obind fst snd]. destruct (Z.ltb_spec ls D); [|lia]. rewrite map_length. unfold conf. rewrite <- Efn. rewrite map_length. reflexivity.
  - split; [exact HS|split; [exact HF|]]. right. exists D, a', p', b', D. rewrite El. rewrite Forall_forall in HF'. assert (Hbd : 0 <= D < B) by (rewrite Forall_forall in HA; specialize (HA p ltac:(apply in_or_app; right; left; reflexivity)); rewrite <- (HD' p) by (apply in_or_app; right; left; reflexivity); apply HA).
    assert (Efs : fns (a' ++ p' :: b') = FN) by (rewrite <- Efn, <- !(map_map snd snd); rewrite Es; reflexivity).
    splits; auto; [lia| | | |].
    + apply Forall_forall. intros x Hx. destruct (HF' x Hx) as (Hd & HBx). split; rewrite Hd; assumption.
    + apply Forall_forall. intros x Hx. destruct (HF' x Hx) as (Hd & _). unfold fresh. lia.
    + apply Forall_forall. intros x Hx. apply in_map_iff in Hx. destruct Hx as (w & <- & Hw). apply HF'. exact Hw.
    + intros d. rewrite Hin. rewrite <- !(Forall_map snd (fun y : list Z * fnt => In d (fst y))). rewrite Es. reflexivity.
Qed.
(* csc_do_next *)
Lemma do_next ls : forall m a p b last T, (left_ (a ++ p :: b) <= m)%nat -> Forall at_doc (a ++ p :: b) -> up (docs (rot a p b)) -> In last (rot a p b) -> (forall x, In x (rot a p b) -> doc_of (fst x) <= doc_of (fst last)) ->
  SS T -> (forall d, In d T <-> Forall (holds d) (a ++ p :: b)) -> (forall d, In d T -> ls < d) -> Forall (fresh ls) (a ++ p :: b) -> fns (a ++ p :: b) = FN ->
  exists s', (exists n, forall f g, (n <= f)%nat -> (n <= g)%nat -> con_do_next (run sm f) g true (length a) ls (fst last) (map fst (a ++ p :: b)) = Some (nonnil T, s')) /\
    forall x r, T = x :: r -> StandR conf ConR s' x r.
Proof.
  induction m as [m IH] using lt_wf_ind. intros a p b last T Hm HA Hup Hlast Hmax HS HT HTls HFr Efn.
  assert (HA' : forall x, In x (rot a p b) -> at_doc x) by (intros x Hx; rewrite Forall_forall in HA; apply HA; apply (Permutation_in _ (Permutation_sym (rot_perm a p b)) Hx)).
  assert (Hp : at_doc p) by (apply HA'; left; reflexivity).
  assert (Enth : nth_error (map fst (a ++ p :: b)) (length a) = Some (fst p)) by (rewrite nth_error_map, nth_mid; reflexivity).
  destruct (Z.ltb_spec (doc_of (fst p)) (doc_of (fst last))) as [Hlt|Hge].
  - destruct (at_skip p (doc_of (fst last)) Hp ltac:(pose proof (proj2 (HA' last Hlast)); lia)) as (s' & (n1 & E1) & Hs). set (D := doc_of (fst last)) in *.
    assert (HTD : forall d, In d T -> D <= d).
    { intros d Hd. apply HT in Hd. rewrite Forall_forall in Hd. apply (holds_ge d last); [apply HA'; exact Hlast|]. apply Hd. exact (Permutation_in _ (Permutation_sym (rot_perm a p b)) Hlast). }
    assert (Eupd : upd (map fst (a ++ p :: b)) (length a) s' = map fst a ++ s' :: map fst b) by (rewrite map_app; cbn [map]; rewrite <- (map_length fst a); apply upd_mid).
    destruct (from D (lst p)) as [|y r] eqn:Ef.
    + assert (T = []) as ->.
      { destruct T as [|d T]; [reflexivity|]. exfalso. apply (Hs d (HTD d (or_introl eq_refl))). assert (G := proj1 (HT d) (or_introl eq_refl)). rewrite Forall_forall in G. apply G. apply in_or_app. right. left. reflexivity. }
      assert (El : exists c, nth_error (map fst a ++ s' :: map fst b) (next_num (length a) (length (a ++ p :: b))) = Some c).
      { eexists. apply (nth_error_nth' _ Non). unfold next_num. assert ((length a + 1) mod length (a ++ p :: b) < length (a ++ p :: b))%nat by (apply Nat.mod_upper_bound; rewrite app_length; cbn [length]; lia). rewrite !app_length in *. cbn [length] in *. rewrite !map_length. lia. }
      destruct El as (c & Ec). exists (Con (doc_of c) false false (next_num (length a) (length (a ++ p :: b))) ls (map fst a ++ s' :: map fst b)). split; [|discriminate]. exists (S (S n1)). intros f [|[|g]] Hf Hg; try lia. cbn [con_do_next]. rewrite Enth. cbn [obind]. fold D. destruct (Z.ltb_spec (doc_of (fst p)) D); [|lia]. cbn [andb]. rewrite (E1 f ltac:(lia)). cbn [obind nonnil fst snd]. rewrite Eupd, map_length, Ec. reflexivity.
    + destruct Hs as (Hat & Hfr & HDy & Hlen & Hh). cbn [nonnil] in E1.
      (* the new state, split at the next index *)
      assert (NX : exists a' p' b', a ++ (s', (r, fn p)) :: b = a' ++ p' :: b' /\ next_num (length a) (length (a ++ p :: b)) = length a' /\ rot a' p' b' = b ++ a ++ [(s', (r, fn p))]).
      { unfold next_num. rewrite app_length. cbn [length]. destruct b as [|p2 b].
        - cbn [length]. rewrite Nat.mod_same by lia. destruct a as [|p0 a]; cbn [app].
          + exists [], (s', (r, fn p)), []. auto.
          + exists [], p0, (a ++ [(s', (r, fn p))]). unfold rot. rewrite app_nil_r. auto.
        - exists (a ++ [(s', (r, fn p))]), p2, b. splits; [rewrite <- app_assoc; reflexivity| |reflexivity]. rewrite app_length. cbn [length]. apply Nat.mod_small. lia. }
      destruct NX as (a' & p' & b' & Ea & Ei & Erot).
      destruct (IH (left_ (a' ++ p' :: b'))) with (a := a') (p := p') (b := b') (last := (s', (r, fn p))) (T := T) as (s2 & (n2 & E2) & Hs2).
      * rewrite <- Ea. rewrite left_app, left_cons in *. cbn [fst snd]. lia.
      * reflexivity.
      * rewrite <- Ea. apply Forall_app in HA. destruct HA as (HA1 & HA2). inversion HA2; subst. apply Forall_app. split; [assumption|constructor; assumption].
      * rewrite Erot. unfold rot in Hup. cbn [map] in Hup. apply up_inv in Hup. destruct Hup as (Hup & _). rewrite app_assoc, map_app. apply up_app; [exact Hup|cbn [map]; repeat constructor|]. intros x z Hx [<-|[]]. apply in_map_iff in Hx. destruct Hx as (w & <- & Hw). cbn [fst]. specialize (Hmax w (or_intror Hw)). fold D in Hmax. lia.
      * rewrite Erot, app_assoc. apply in_or_app. right. left. reflexivity.
      * rewrite Erot. intros x Hx. rewrite app_assoc in Hx. apply in_app_or in Hx. destruct Hx as [Hx|[<-|[]]]; [|lia]. specialize (Hmax x (or_intror Hx)). cbn [fst]. fold D in Hmax. lia.
      * exact HS.
      * rewrite <- Ea. intros d. rewrite HT, !Forall_app, !Forall_cons_iff. split; intros (G1 & G2 & G3); splits; auto.
        -- apply Hh; [|exact G2]. apply HTD, HT. apply Forall_app. auto.
        -- apply Hh; [|exact G2]. cbn [fst] in *. pose proof (holds_ge d (s', (r, fn p)) Hat G2) as G. cbn [fst] in G. lia.
      * exact HTls.
      * rewrite <- Ea. apply Forall_app in HFr. destruct HFr as (HA1 & HA2). inversion HA2; subst. apply Forall_app. split; [assumption|constructor; [apply Hfr|assumption]].
      * rewrite <- Ea, <- Efn, !map_app. reflexivity.
      * exists s2. split; [|exact Hs2]. exists (S (Nat.max n1 n2)). intros f [|g] Hf Hg; [lia|]. cbn [con_do_next]. rewrite Enth. cbn [obind]. fold D. destruct (Z.ltb_spec (doc_of (fst p)) D); [|lia]. cbn [andb]. rewrite (E1 f ltac:(lia)). cbn [obind fst snd]. rewrite Eupd, map_length, Ei. replace (map fst a ++ s' :: map fst b) with (map fst (a' ++ p' :: b')) by (rewrite <- Ea, map_app; reflexivity). apply E2; lia.
  - (* all at the same document *)
    set (D := doc_of (fst p)) in *. assert (Hall : forall x, In x (a ++ p :: b) -> doc_of (fst x) = D).
    { intros x Hx. apply (Permutation_in _ (rot_perm a p b)) in Hx. specialize (Hmax x Hx). unfold rot in Hup. cbn [map] in Hup. apply up_inv in Hup. destruct Hup as (_ & Hup). destruct Hx as [<-|Hx]; [reflexivity|]. specialize (Hup (doc_of (fst x)) (in_map (fun p : P => doc_of (fst p)) _ _ Hx)). fold D in Hup. lia. }
    assert (HD : In D T) by (apply HT; apply Forall_forall; intros x Hx; left; symmetry; apply Hall; exact Hx).
    destruct T as [|x r]; [destruct HD|]. pose proof (SS_inv _ _ HS) as (HSr & Hgt).
    assert (x = D) as ->.
    { destruct HD as [E|HD]; [exact E|]. specialize (Hgt _ HD). assert (G := proj1 (HT x) (or_introl eq_refl)). rewrite Forall_forall in G. assert (Hin : In p (a ++ p :: b)) by (apply in_or_app; right; left; reflexivity). pose proof (holds_ge x p Hp (G p Hin)). fold D in H. lia. }
    exists (Con D false true (length a) ls (map fst (a ++ p :: b))). split.
    + exists 1%nat. intros f [|g] Hf Hg; [lia|]. cbn [con_do_next]. rewrite Enth. cbn [obind]. fold D. destruct (Z.ltb_spec D (doc_of (fst last))); [lia|]. reflexivity.
    + intros x r' E. injection E as <- <-. apply con_stand; auto.
      * apply Forall_forall. intros d Hd. assert (Gp := proj1 (HT d) (or_intror Hd)). rewrite Forall_forall in Gp. specialize (Gp p ltac:(apply in_or_app; right; left; reflexivity)). specialize (Hgt d Hd). cbn [Rank_Proofs.above]. destruct Hp as (HBp & Hp0). fold D in Hp0. destruct Gp as [Gp|Gp]; [fold D in Gp; lia|]. destruct (beh_facts _ _ _ _ _ _ _ HBp) as (_ & Fp). rewrite Forall_forall in Fp. specialize (Fp d Gp). cbn [Rank_Proofs.above] in Fp. lia.
      * apply Forall_forall. intros d Hd. apply in_map_iff in Hd. destruct Hd as (w & <- & Hw). apply Hall. exact Hw.
      * intros d. assert (G : In d r <-> In d (D :: r) /\ D < d) by (cbn [In]; split; [intros H; split; [auto|apply Hgt; exact H]|intros ([H|H] & H2); [lia|exact H]]). rewrite G, HT, !Forall_forall. split.
        -- intros (G1 & G2) w Hw. destruct (G1 w Hw) as [E|E]; [rewrite (Hall w Hw) in E; lia|exact E].
        -- intros G1. split; [intros w Hw; right; apply G1; exact Hw|]. assert (Hin : In p (a ++ p :: b)) by (apply in_or_app; right; left; reflexivity). destruct Hp as (HB & _). destruct (beh_facts _ _ _ _ _ _ _ HB) as (_ & F). rewrite Forall_forall in F. specialize (F d (G1 p Hin)). cbn [Rank_Proofs.above] in F. fold D in F. lia.
Qed.
(* the last scorer in the order *)
Lemma prev_of a (p : P) b : exists c q e, a ++ p :: b = c ++ q :: e /\ prev_num (length a) (length (a ++ p :: b)) = length c /\ In q (rot a p b) /\
  (forall q', exists a' p' b', c ++ q' :: e = a' ++ p' :: b' /\ length a' = length a /\ exists l, rot a' p' b' = l ++ [q'] /\ rot a p b = l ++ [q]).
Proof.
  unfold prev_num. rewrite app_length. cbn [length]. destruct (exists_last (l := p :: b ++ a) ltac:(discriminate)) as (l & q & E).
  destruct a as [|p0 a0].
  - destruct (exists_last (l := p :: b) ltac:(discriminate)) as (c & q1 & E1). exists c, q1, []. assert (Hl : length (p :: b) = S (length c)) by (rewrite E1, app_length; cbn; lia). cbn [length] in Hl. splits.
    + exact E1.
    + cbn [length app]. replace (0 + (0 + S (length b)) - 1)%nat with (length b) by lia. rewrite Nat.mod_small by lia. lia.
    + unfold rot. rewrite app_nil_r, E1. apply in_or_app. right. left. reflexivity.
    + intros q'. destruct c as [|c0 c].
      * exists [], q', []. splits; auto. exists []. unfold rot. cbn [app] in *. rewrite app_nil_r, E1. auto.
      * exists [], c0, (c ++ [q']). splits; auto. exists (c0 :: c). unfold rot. rewrite !app_nil_r, E1. auto.
  - destruct (exists_last (l := p0 :: a0) ltac:(discriminate)) as (c & q1 & E1). exists c, q1, (p :: b). assert (Hl : length (p0 :: a0) = S (length c)) by (rewrite E1, app_length; cbn; lia). rewrite E1. splits.
    + rewrite <- app_assoc. reflexivity.
    + rewrite <- E1, Hl. replace (S (length c) + (S (length c) + S (length b)) - 1)%nat with (length c + 1 * (S (length c) + S (length b)))%nat by lia. rewrite Nat.mod_add by lia. apply Nat.mod_small. lia.
    + unfold rot. right. apply in_or_app. right. apply in_or_app. right. left. reflexivity.
    + intros q'. exists (c ++ [q']), p, b. splits; [rewrite <- app_assoc; reflexivity|rewrite !app_length; reflexivity|]. exists (p :: b ++ c). unfold rot. cbn [app]. rewrite <- !app_assoc. auto.
Qed.
Lemma start_ok ls a p b T : Forall at_doc (a ++ p :: b) -> up (docs (rot a p b)) -> SS T -> (forall d, In d T <-> Forall (holds d) (a ++ p :: b)) -> (forall d, In d T -> ls < d) -> Forall (fresh ls) (a ++ p :: b) -> fns (a ++ p :: b) = FN ->
  exists s', (exists n, forall f g, (n <= f)%nat -> (n <= g)%nat -> con_start (run sm f) g true (length a) ls (map fst (a ++ p :: b)) = Some (nonnil T, s')) /\ forall x r, T = x :: r -> StandR conf ConR s' x r.
Proof.
  intros HA Hup HS HT HTls HFr Efn. destruct (prev_of a p b) as (c & q & e & E & Ei & Hq & Hl). destruct (Hl q) as (a' & p' & b' & E' & _ & l & _ & El).
  destruct (do_next ls _ a p b q T (le_n _) HA Hup Hq) as (s' & (n & En) & Hs); auto.
  - intros x Hx. rewrite El in Hx, Hup. rewrite map_app in Hup. apply in_app_or in Hx. destruct Hx as [Hx|[<-|[]]]; [|lia]. clear - Hx Hup. induction l as [|w l IH]; [destruct Hx|]. cbn [map app] in Hup. apply up_inv in Hup. destruct Hup as (Hup & G). destruct Hx as [<-|Hx]; [apply G; apply in_or_app; right; left; reflexivity|apply IH; assumption].
  - exists s'. split; [|exact Hs]. exists n. intros f g Hf Hg. unfold con_start. rewrite map_length, Ei, E, nth_error_map, nth_mid. cbn [option_map obind]. rewrite <- E. apply En; assumption.
Qed.
Lemma start_false f g idx ls l : (idx < length l)%nat -> (0 < g)%nat -> exists s, con_start (run sm f) g false idx ls l = Some (false, s) /\ s = Con (doc_of (nth idx l Non)) false false idx ls l.
Proof.
  intros Hi Hg. unfold con_start. destruct (nth_error l (prev_num idx (length l))) as [c|] eqn:E; [|exfalso; apply nth_error_None in E; unfold prev_num in E; assert ((idx + length l - 1) mod length l < length l)%nat by (apply Nat.mod_upper_bound; lia); lia]. cbn [obind]. destruct g as [|g]; [lia|]. cbn [con_do_next]. rewrite (nth_error_nth' l Non Hi). cbn [obind andb]. eauto.
Qed.
Lemma each_ok l Ls : Forall2 (fun c (L : list Z * fnt) => Beh (snd L) true c None (fst L)) l Ls -> exists x, (exists n, forall f, (n <= f)%nat -> con_each (run sm f) None l = Some x) /\ length (snd x) = length l /\
  (fst x = true -> exists ps, snd x = map fst ps /\ Forall at_doc ps /\ Forall (fresh (-1)) ps /\ fns ps = map snd Ls /\ forall d, Forall (fun L : list Z * fnt => In d (fst L)) Ls <-> Forall (holds d) ps) /\
  (fst x = false -> forall d, ~ Forall (fun L : list Z * fnt => In d (fst L)) Ls).
Proof.
  induction 1 as [|c L l Ls HB HF IH].
  - exists (true, []). cbn [con_each fst snd]. splits; [exists O; reflexivity|reflexivity| |discriminate]. intros _. exists []. splits; auto. intros d. split; constructor.
  - destruct (beh_next _ _ _ _ _ _ _ HB) as (s' & (n1 & E1) & Hs). destruct (beh_facts _ _ _ _ _ _ _ HB) as (_ & FL). rewrite Forall_forall in FL. destruct L as (L, g0). cbn [fst snd] in *. destruct L as [|y r].
    + exists (false, s' :: l). cbn [fst snd]. splits; [|reflexivity|discriminate|intros _ d G; apply Forall_inv in G; destruct G]. exists n1. intros f Hf. cbn [con_each]. rewrite (E1 f Hf). reflexivity.
    + pose proof (Hs y r eq_refl) as HSy. destruct (stand_beh _ _ _ _ _ _ _ HSy) as (Hy & HB'). destruct IH as (x & (n2 & E2) & Hlen & HT & HFf). exists (fst x, s' :: snd x). cbn [fst snd]. splits.
      * exists (Nat.max n1 n2). intros f Hf. cbn [con_each]. rewrite (E1 f ltac:(lia)). cbn [obind nonnil fst snd]. rewrite (E2 f ltac:(lia)). reflexivity.
      * cbn [length]. lia.
      * intros Hx. destruct (HT Hx) as (ps & Ep & Hat & Hfr & Efn & Hh). exists ((s', (r, g0)) :: ps). cbn [map fst snd]. splits; [congruence|constructor; [split; cbn [fst snd]; [rewrite Hy; exact HB'|rewrite Hy; pose proof (FL y (or_introl eq_refl)) as FY; cbn [Rank_Proofs.above] in FY; lia]|exact Hat]|constructor; [intros _; cbn [fst snd]; rewrite Hy; exact HSy|exact Hfr]|congruence|]. intros d. rewrite !Forall_cons_iff, Hh. unfold holds at 2. cbn [fst snd In]. rewrite Hy. intuition.
      * intros Hx d G. inversion G; subst. apply (HFf Hx d). assumption.
Qed.
Lemma sort_ok ls : forall ps prev, Forall at_doc ps -> Forall (fresh ls) ps -> doc_of prev < B -> exists x, (exists n, forall f, (n <= f)%nat -> con_sort (run sm f) prev (map fst ps) = Some x) /\ length (snd x) = length ps /\
  (fst x = true -> exists ps', snd x = map fst ps' /\ Forall at_doc ps' /\ Forall (fresh ls) ps' /\ fns ps' = fns ps /\ up (doc_of prev :: docs ps') /\ forall d, doc_of prev <= d -> (Forall (holds d) ps <-> Forall (holds d) ps')) /\
  (fst x = false -> forall d, doc_of prev <= d -> ~ Forall (holds d) ps).
Proof.
  assert (UP2 : forall a b l, a <= b -> up (b :: l) -> up (a :: b :: l)).
  { intros a b l Hab H. constructor; [exact H|]. apply up_inv in H. destruct H as (_ & H). constructor; [exact Hab|]. apply Forall_forall. intros y Hy. specialize (H y Hy). lia. }
  induction ps as [|p ps IH]; intros prev HA HFr HPB.
  - exists (true, []). cbn [map con_sort fst snd]. splits; [exists O; reflexivity|reflexivity| |discriminate]. intros _. exists []. splits; [reflexivity|constructor|constructor|reflexivity|cbn; repeat constructor|tauto].
  - inversion HA as [|? ? Hp HA']; subst. inversion HFr as [|? ? Hpf HFr']; subst. destruct (Z.ltb_spec (doc_of (fst p)) (doc_of prev)) as [Hlt|Hge].
    + destruct (at_skip p (doc_of prev) Hp ltac:(lia)) as (s' & (n1 & E1) & Hs). destruct (from (doc_of prev) (lst p)) as [|y r] eqn:Ef.
      * exists (false, s' :: map fst ps). cbn [fst snd]. splits; [|cbn [length]; rewrite map_length; reflexivity|discriminate|intros _ d Hd G; inversion G; subst; apply (Hs d Hd); assumption]. exists n1. intros f Hf. cbn [map con_sort]. destruct (Z.ltb_spec (doc_of (fst p)) (doc_of prev)); [|lia]. rewrite (E1 f Hf). reflexivity.
      * destruct Hs as (Hat & Hfr & HD & _ & Hh). destruct (IH s' HA' HFr' ltac:(apply Hat)) as (x & (n2 & E2) & Hlen & HT & HFf). exists (fst x, s' :: snd x). cbn [fst snd]. splits.
        -- exists (Nat.max n1 n2). intros f Hf. cbn [map con_sort]. destruct (Z.ltb_spec (doc_of (fst p)) (doc_of prev)); [|lia]. rewrite (E1 f ltac:(lia)). cbn [obind nonnil fst snd]. rewrite (E2 f ltac:(lia)). reflexivity.
        -- cbn [length]. lia.
        -- intros Hx. destruct (HT Hx) as (ps' & Ep & Hat' & Hfr' & Efn & Hu & Hh'). exists ((s', (r, fn p)) :: ps'). cbn [map fst snd]. splits; [congruence|constructor; assumption|constructor; [apply Hfr|assumption]|congruence|apply UP2; assumption|]. intros d Hd. rewrite !Forall_cons_iff, (Hh d Hd). split; intros (G1 & G2); (split; [exact G1|]); pose proof (holds_ge d (s', (r, fn p)) Hat G1) as G; cbn [fst] in G; apply Hh'; assumption.
        -- intros Hx d Hd G. inversion G as [|? ? G1 G2]; subst. apply (Hh d Hd) in G1. pose proof (holds_ge d (s', (r, fn p)) Hat G1) as G3. cbn [fst] in G3. apply (HFf Hx d G3 G2).
    + destruct (IH (fst p) HA' HFr' ltac:(apply Hp)) as (x & (n2 & E2) & Hlen & HT & HFf). exists (fst x, fst p :: snd x). cbn [fst snd]. splits.
      * exists n2. intros f Hf. cbn [map con_sort]. destruct (Z.ltb_spec (doc_of (fst p)) (doc_of prev)); [lia|]. rewrite (E2 f Hf). reflexivity.
      * cbn [length]. lia.
      * intros Hx. destruct (HT Hx) as (ps' & Ep & Hat' & Hfr' & Efn & Hu & Hh'). exists (p :: ps'). cbn [map fst]. splits; [congruence|constructor; assumption|constructor; assumption|congruence|apply UP2; assumption|]. intros d Hd. rewrite !Forall_cons_iff. split; intros (G1 & G2); (split; [exact G1|]); pose proof (holds_ge d p Hp G1) as G; apply Hh'; assumption.
      * intros Hx d Hd G. inversion G as [|? ? G1 G2]; subst. pose proof (holds_ge d p Hp G1) as G3. apply (HFf Hx d G3 G2).
Qed.
Lemma con_ok s cur rest : ConR s cur rest -> Beh conf false s cur rest.
Proof.
  apply beh_coind. clear s cur rest. intros s cur rest (HS & HF & H). splits; auto. intros op Hop. destruct op as [d|]; [destruct Hop; discriminate|]. cbn [tgt]. destruct H as [(doc & l & Ls & -> & -> & Hne & HB & EF & Hin)|(doc & a & p & b & ls & -> & -> & Hls & HA & HFr & Efn & HD & Hin)].
  - assert (Hpos : (0 < length l)%nat) by (destruct l; [congruence|cbn [length]; lia]). destruct (each_ok l Ls HB) as ((bb, l1) & (n1 & E1) & Hl1 & HT1 & HF1). cbn [fst snd] in *. destruct bb.
    + destruct (HT1 eq_refl) as (ps & -> & Hat & Hfr & Efn & Hh). rewrite map_length in Hl1. destruct ps as [|p0 ps]; [cbn [length] in Hl1; lia|]. inversion Hat as [|? ? Hp0 Hat']; subst. inversion Hfr as [|? ? Hf0 Hfr']; subst. destruct (sort_ok (-1) ps (fst p0) Hat' Hfr' ltac:(apply Hp0)) as ((b2, l2) & (n2 & E2) & Hl2 & HT2 & HF2). cbn [fst snd] in *. destruct b2.
      * destruct (HT2 eq_refl) as (ps' & -> & Hat2 & Hfr2 & Efn2 & Hup & Hh2). destruct (start_ok (-1) [] p0 ps' rest) as (s' & (n3 & E3) & Hs).
        -- constructor; assumption.
        -- unfold rot. rewrite app_nil_r. exact Hup.
        -- exact HS.
        -- intros d. rewrite Hin, Hh. cbn [app]. rewrite !Forall_cons_iff. split; intros (G1 & G2); (split; [exact G1|]); pose proof (holds_ge d p0 Hp0 G1) as G; apply Hh2; assumption.
        -- intros d Hd. rewrite Forall_forall in HF. specialize (HF d Hd). lia.
        -- constructor; assumption.
        -- cbn [app map] in *. congruence.
        -- exists s'. split; [|exact Hs]. exists (S (Nat.max n1 (Nat.max n2 n3))). intros [|f] Hf; [lia|]. rewrite run_S. cbn [step]. unfold con_next. rewrite (E1 f ltac:(lia)). cbn [obind fst snd map con_sort_all]. rewrite (E2 f ltac:(lia)). cbn [obind fst snd]. apply E3; lia.
      * assert (rest = []) as ->.
        { destruct rest as [|d r]; [reflexivity|]. exfalso. assert (G := proj1 (Hin d) (or_introl eq_refl)). apply Hh in G. inversion G as [|? ? G1 G2]; subst. apply (HF2 eq_refl d (holds_ge d p0 Hp0 G1) G2). }
        destruct (start_false O 1 0%nat (-1) (fst p0 :: l2) ltac:(cbn [length]; lia) ltac:(lia)) as (s' & _ & Es). exists s'. split; [|discriminate]. exists (S (S (Nat.max n1 n2))). intros [|f] Hf; [lia|]. rewrite run_S. cbn [step]. unfold con_next. rewrite (E1 f ltac:(lia)). cbn [obind fst snd map con_sort_all]. rewrite (E2 f ltac:(lia)). cbn [obind fst snd]. destruct (start_false f f 0%nat (-1) (fst p0 :: l2) ltac:(cbn [length]; lia) ltac:(lia)) as (s2 & -> & Es2). subst. reflexivity.
    + assert (rest = []) as -> by (destruct rest as [|d r]; [reflexivity|]; exfalso; exact (HF1 eq_refl d (proj1 (Hin d) (or_introl eq_refl)))).
      destruct (start_false O 1 0%nat (-1) l1 ltac:(lia) ltac:(lia)) as (s' & _ & Es). exists s'. split; [|discriminate]. exists (S (S n1)). intros [|f] Hf; [lia|]. rewrite run_S. cbn [step]. unfold con_next. rewrite (E1 f ltac:(lia)). cbn [obind fst snd]. destruct (start_false f f 0%nat (-1) l1 ltac:(lia) ltac:(lia)) as (s2 & -> & Es2). subst. reflexivity.
  - destruct (prev_of a p b) as (c & q & e & Eq & Ei & Hq & Hl). assert (Hqin : In q (a ++ p :: b)) by (rewrite Eq; apply in_or_app; right; left; reflexivity). rewrite Forall_forall in HA, HD. pose proof (HA q Hqin) as (HBq & Hq0). assert (HDq : forall x, In x (a ++ p :: b) -> doc_of (fst x) = doc) by (intros x Hx; apply HD; apply (in_map (fun p : P => doc_of (fst p))); exact Hx).
    destruct (beh_next _ _ _ _ _ _ _ HBq) as (s' & (n1 & E1) & Hs). assert (Enth : nth_error (map fst (a ++ p :: b)) (prev_num (length a) (length (map fst (a ++ p :: b)))) = Some (fst q)) by (rewrite map_length, Ei, Eq, nth_error_map, nth_mid; reflexivity).
    assert (Eupd : upd (map fst (a ++ p :: b)) (prev_num (length a) (length (map fst (a ++ p :: b)))) s' = map fst c ++ s' :: map fst e) by (rewrite map_length, Ei, Eq, map_app; cbn [map]; rewrite <- (map_length fst c); apply upd_mid).
    destruct (lst q) as [|y r] eqn:Eqs.
    + assert (rest = []) as -> by (destruct rest as [|d r]; [reflexivity|]; exfalso; assert (G := proj1 (Hin d) (or_introl eq_refl)); rewrite Forall_forall in G; specialize (G q Hqin); rewrite Eqs in G; destruct G).
      set (l2 := map fst c ++ s' :: map fst e) in *. assert (Hl2 : (length a < length l2)%nat) by (unfold l2; rewrite app_length; cbn [length]; rewrite !map_length; assert (G : length (a ++ p :: b) = length (c ++ q :: e)) by (rewrite Eq; reflexivity); rewrite !app_length in G; cbn [length] in G; lia).
      destruct (start_false O 1 (length a) ls l2 Hl2 ltac:(lia)) as (s2 & _ & Es). exists s2. split; [|discriminate]. exists (S (S n1)). intros [|f] Hf; [lia|]. rewrite run_S. cbn [step]. unfold con_next. rewrite Enth. cbn [obind]. rewrite (E1 f ltac:(lia)). cbn [obind nonnil fst snd]. rewrite Eupd. destruct (start_false f f (length a) ls l2 Hl2 ltac:(lia)) as (s3 & -> & Es3). subst. reflexivity.
    + pose proof (Hs y r eq_refl) as HSy. destruct (stand_beh _ _ _ _ _ _ _ HSy) as (Hy & HB'). destruct (beh_facts _ _ _ _ _ _ _ HBq) as (_ & Fq). pose proof (Forall_inv Fq) as (Hy0 & Hya); subst y. cbn [Rank_Proofs.above] in Hya. rewrite (HDq q Hqin) in Hya. destruct (Hl (s', (r, fn q))) as (a' & p' & b' & E' & Ela & l & Er1 & Er2).
      assert (HA2 : Forall at_doc (c ++ (s', (r, fn q)) :: e)).
      { apply Forall_forall. intros x Hx. apply in_app_or in Hx. destruct Hx as [Hx|[<-|Hx]]; [apply HA; rewrite Eq; apply in_or_app; auto|split; cbn [fst snd]; [exact HB'|lia]|apply HA; rewrite Eq; apply in_or_app; right; right; exact Hx]. }
      assert (Hot : forall x, In x l -> doc_of (fst x) = doc).
      { intros x Hx. apply HDq. apply (Permutation_in _ (Permutation_sym (rot_perm a p b))). rewrite Er2. apply in_or_app. left. exact Hx. }
      rewrite E' in HA2. destruct (start_ok ls a' p' b' rest HA2) as (s2 & (n2 & E2) & Hs2).
      * rewrite Er1, map_app. apply up_app; [|cbn [map]; repeat constructor|].
        -- clear - Hot. induction l as [|x l IH]; [constructor|]. cbn [map]. constructor; [apply IH; intros z Hz; apply Hot; right; exact Hz|]. apply Forall_forall. intros z Hz. apply in_map_iff in Hz. destruct Hz as (w & <- & Hw). rewrite (Hot x (or_introl eq_refl)), (Hot w (or_intror Hw)). lia.
        -- intros x z Hx [<-|[]]. apply in_map_iff in Hx. destruct Hx as (w & <- & Hw). rewrite (Hot w Hw). cbn [fst]. lia.
      * exact HS.
      * intros d. rewrite Hin, <- E', Eq. rewrite Eq in HDq, HA. rewrite !Forall_app, !Forall_cons_iff, !Forall_forall, Eqs. unfold holds at 2. cbn [fst snd In]. split.
        -- intros (G1 & G2 & G3). splits; [intros x Hx; right; apply G1; exact Hx|intuition|intros x Hx; right; apply G3; exact Hx].
        -- intros (G1 & G2 & G3). assert (Hdd : doc < d).
           { destruct G2 as [->|G2]; [lia|]. destruct (beh_facts _ _ _ _ _ _ _ HB') as (_ & Fr). rewrite Forall_forall in Fr. specialize (Fr d G2). cbn [Rank_Proofs.above] in Fr. lia. }
           splits; [|intuition|]; intros x Hx.
           ++ destruct (G1 x Hx) as [E|E]; [|exact E]. rewrite (HDq x) in E by (apply in_or_app; left; exact Hx). lia.
           ++ destruct (G3 x Hx) as [E|E]; [|exact E]. rewrite (HDq x) in E by (apply in_or_app; right; right; exact Hx). lia.
      * intros d Hd. rewrite Forall_forall in HF. specialize (HF d Hd). cbn [Rank_Proofs.above] in HF. lia.
      * rewrite <- E'. rewrite Eq in HFr. apply Forall_app in HFr. destruct HFr as (HA1 & HA3). inversion HA3; subst. apply Forall_app. split; [assumption|constructor; [|assumption]]. intros _. cbn [fst snd]. exact HSy.
      * rewrite <- E', <- Efn, Eq, !map_app. reflexivity.
      * exists s2. split; [|exact Hs2]. exists (S (Nat.max n1 n2)). intros [|f] Hf; [lia|]. rewrite run_S. cbn [step]. unfold con_next. rewrite Enth. cbn [obind]. rewrite (E1 f ltac:(lia)). cbn [obind nonnil fst snd]. rewrite Eupd. replace (map fst c ++ s' :: map fst e) with (map fst (a' ++ p' :: b')) by (rewrite <- E', map_app; reflexivity). rewrite <- Ela. apply E2; lia.
Qed.
Lemma con_start_beh l Ls : l <> [] -> Forall2 (fun c (L : list Z * fnt) => Beh (snd L) true c None (fst L)) l Ls -> map snd Ls = FN -> exists U, Beh conf false (Con 0 true true 0 (-1) l) None U /\ forall d, In d U <-> Forall (fun L : list Z * fnt => In d (fst L)) Ls.
Proof.
  intros Hne H EF. assert (HSs : Forall (fun L => SS L) (map fst Ls)) by (clear - H; induction H as [|c L cs Ls HB H IH]; constructor; [apply (beh_facts _ _ _ _ _ _ _ HB)|exact IH]). assert (Hne2 : map fst Ls <> []) by (intros E; apply map_eq_nil in E; subst; inversion H; congruence). destruct (BoolCon_Proofs.inter_list (map fst Ls) Hne2 HSs) as (U & HU & Hin0).
  assert (Hin : forall d, In d U <-> Forall (fun L : list Z * fnt => In d (fst L)) Ls) by (intros d; rewrite Hin0, Forall_map; reflexivity).
  exists U. split; [|exact Hin]. apply con_ok. split; [exact HU|split].
  - apply Forall_forall. intros d Hd. cbn [Rank_Proofs.above]. apply Hin in Hd. destruct H as [|c L l Ls HB H]; [congruence|]. inversion Hd; subst. destruct (beh_facts _ _ _ _ _ _ _ HB) as (_ & FF). rewrite Forall_forall in FF. apply FF. assumption.
  - left. exists 0, l, Ls. splits; auto.
Qed.
End BOUND.
Lemma con_beh sm B l Ls : l <> [] -> Forall2 (fun c (L : list Z * fnt) => Beh sm B (snd L) true c None (fst L)) l Ls -> exists U, Beh sm B (conf (map snd Ls)) false (Con 0 true true 0 (-1) l) None U /\ forall d, In d U <-> Forall (fun L : list Z * fnt => In d (fst L)) Ls.
Proof. intros H1 H2. apply con_start_beh; auto. Qed.
