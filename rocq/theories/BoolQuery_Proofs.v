(* the scorer of a query stops at the documents that match *)
From Coq Require Import Sorting.Permutation Sorting.Sorted.
From Verif Require Import Util PQueue_Model Query_Model Bool_Model Bool_Spec Bool_Proofs BoolSum_Proofs BoolCon_Proofs.
Open Scope Z_scope.
Fixpoint bquery_ind2 (Q : bquery -> Prop) (HT : forall l, Q (BTerm l)) (HA : forall m d, Q (BAll m d)) (HB : forall cs, Forall (fun c => Q (snd c)) cs -> Q (BBool cs)) (q : bquery) : Q q :=
  match q with
  | BTerm l => HT l
  | BAll m d => HA m d
  | BBool cs => HB cs ((fix go (l : list (occur * bquery)) : Forall (fun c => Q (snd c)) l := match l with [] => Forall_nil _ | c :: t => Forall_cons c (bquery_ind2 Q HT HA HB (snd c)) (go t) end) cs)
  end.
Definition occ_eqb (a b : occur) : bool := match a, b with Must, Must | Should, Should | MustNot, MustNot => true | _, _ => false end.
Lemma occ_eqb_spec a b : occ_eqb a b = true <-> a = b.
Proof. destruct a, b; cbn; split; intros; try reflexivity; try discriminate. Qed.
Definition sel (o : occur) (l : list (occur * option sc)) : list sc := flat_map (fun c => if occ_eqb (fst c) o then match snd c with Some s => [s] | None => [] end else []) l.
Lemma add_all_ok : forall l req opt pro, (forall c, In c l -> fst c = Must -> snd c <> None) -> add_all l req opt pro = Some (Bsc 0 None (req ++ sel Must l) (opt ++ sel Should l) (pro ++ sel MustNot l)).
Proof.
  induction l as [|(o, [s|]) l IH]; intros req opt pro H; cbn [add_all sel flat_map fst snd]; [rewrite !app_nil_r; reflexivity| |]; assert (H' : forall c, In c l -> fst c = Must -> snd c <> None) by (intros c Hc; apply H; right; exact Hc); destruct o; cbn [occ_eqb app]; try (rewrite (IH _ _ _ H'); unfold sel; rewrite <- ?app_assoc; reflexivity).
  exfalso. apply (H _ (or_introl eq_refl)); reflexivity.
Qed.
Lemma add_all_none : forall l req opt pro, In (Must, None) l -> add_all l req opt pro = None.
Proof. induction l as [|(o, [s|]) l IH]; intros req opt pro H; [destruct H| |]; cbn [add_all]; (destruct H as [E|H]; [inversion E; reflexivity|]); destruct o; auto. Qed.
(* a scorer that visits the documents with P *)
Definition good (B : Z) (k : bool) (o : option sc) (P : Z -> Prop) : Prop := match o with None => forall d, ~ P d | Some s => exists L, Beh B k s None L /\ forall d, In d L <-> P d end.
Definition needed {X} (cs : list (occur * X)) : nat := length (filter (fun c : occur * X => match fst c with Must => true | _ => false end) cs).
Section STEP.
Variable B : Z.
Variable X : Type.
Variable so : X -> option sc.
Variable mt : X -> Z -> Prop.
Definition sc_of (cs : list (occur * X)) := map (fun c : occur * X => (fst c, so (snd c))) cs.
Lemma sel_ok k o : forall cs, (forall c, In c cs -> fst c = o -> good B k (so (snd c)) (mt (snd c))) -> exists Ls, Forall2 (fun c L => Beh B k c None L) (sel o (sc_of cs)) Ls /\
  (forall d, (exists L, In L Ls /\ In d L) <-> exists c, In c cs /\ fst c = o /\ mt (snd c) d) /\
  ((forall c, In c cs -> fst c = o -> so (snd c) <> None) -> (forall d, Forall (fun L => In d L) Ls <-> forall c, In c cs -> fst c = o -> mt (snd c) d) /\
    length (sel o (sc_of cs)) = length (filter (fun c : occur * X => occ_eqb (fst c) o) cs)).
Proof.
  induction cs as [|c cs IH]; intros H.
  - exists []. cbn. splits; [constructor|intros d; split; intros (x & [] & _)|]. intros _. split; [intros d; split; [intros _ c []|constructor]|reflexivity].
  - destruct IH as (Ls & HF & Hex & Hall); [intros c' Hc'; apply H; right; exact Hc'|]. cbn [sc_of map sel flat_map fst snd filter]. fold (sc_of cs). fold (sel o (sc_of cs)). destruct (occ_eqb (fst c) o) eqn:Eo.
    + apply occ_eqb_spec in Eo. specialize (H c (or_introl eq_refl) Eo) as G. unfold good in G. destruct (so (snd c)) as [s|] eqn:Es.
      * destruct G as (L & HB & HL). exists (L :: Ls). cbn [app]. splits; [constructor; assumption| |].
        -- intros d. split.
           ++ intros (L' & [<-|H1] & H2); [exists c; splits; [left; reflexivity|exact Eo|apply HL; exact H2]|]. destruct (proj1 (Hex d)) as (c' & G1 & G2); [eauto|]. exists c'. split; [right; exact G1|exact G2].
           ++ intros (c' & [<-|H1] & H2 & H3); [exists L; split; [left; reflexivity|apply HL; exact H3]|]. destruct (proj2 (Hex d)) as (L' & G1 & G2); [eauto|]. exists L'. split; [right; exact G1|exact G2].
        -- intros Hn. destruct Hall as (Hall & Hlen); [intros c' Hc'; apply Hn; right; exact Hc'|]. split; [|cbn [length]; rewrite Hlen; reflexivity]. intros d. rewrite Forall_cons_iff, Hall, HL. split; [intros (G1 & G2) c' [<-|Hc'] Ec'; [exact G1|apply G2; assumption]|intros G; split; [apply G; [left; reflexivity|exact Eo]|intros c' Hc'; apply G; right; exact Hc']].
      * exists Ls. cbn [app]. splits; [exact HF| |].
        -- intros d. rewrite Hex. split; [intros (c' & G1 & G2); exists c'; split; [right; exact G1|exact G2]|intros (c' & [<-|G1] & G2 & G3); [destruct (G d G3)|eauto]].
        -- intros Hn. destruct (Hn c (or_introl eq_refl) Eo Es).
    + assert (Eo' : fst c <> o) by (intros E; apply occ_eqb_spec in E; congruence). exists Ls. cbn [app]. splits; [exact HF| |].
      * intros d. rewrite Hex. split; [intros (c' & G1 & G2); exists c'; split; [right; exact G1|exact G2]|intros (c' & [<-|G1] & G2 & G3); [congruence|eauto]].
      * intros Hn. destruct Hall as (Hall & Hlen); [intros c' Hc'; apply Hn; right; exact Hc'|]. split; [|exact Hlen]. intros d. rewrite Hall. split; [intros G c' [<-|Hc'] E; [congruence|apply G; assumption]|intros G c' Hc'; apply G; right; exact Hc'].
Qed.
Lemma pro_beh pro Ps : pro <> [] -> Forall2 (fun c L => Beh B true c None L) pro Ps -> exists U, Beh B true (pro_of pro) None U /\ forall d, In d U <-> exists L, In L Ps /\ In d L.
Proof.
  intros Hne H. destruct pro as [|p [|p2 pro]]; [congruence| |apply (dis_beh true _ _ H)]. inversion H as [|? L ? Ls HB H2]; subst. inversion H2; subst. exists L. cbn [pro_of]. split; [exact HB|]. intros d. split; [intros G; exists L; split; [left; reflexivity|exact G]|intros (L' & [<-|[]] & G); exact G].
Qed.
Lemma create2_beh k r opt pro L Ps : Beh B k r None L -> Forall2 (fun c L => Beh B true c None L) pro Ps -> exists U, Beh B k (create2 r opt pro) None U /\ forall d, In d U <-> In d L /\ ~ exists M, In M Ps /\ In d M.
Proof.
  intros HB HP. assert (G : exists U, Beh B k (match pro with [] => r | _ => Excl 0 true (Some r) (Some (pro_of pro)) end) None U /\ forall d, In d U <-> In d L /\ ~ exists M, In M Ps /\ In d M).
  { destruct pro as [|p pro].
    - inversion HP; subst. exists L. split; [exact HB|]. intros d. split; [intros G; split; [exact G|intros (M & [] & _)]|tauto].
    - destruct (pro_beh (p :: pro) Ps ltac:(discriminate) HP) as (XX & HX & HinX). exists (diff L XX). split; [apply excl_beh; assumption|]. intros d. rewrite diff_in, HinX. reflexivity. }
  destruct G as (U & HU & Hin). exists U. split; [|exact Hin]. unfold create2. destruct opt as [|o [|o2 opt]]; [exact HU|apply opt_beh; exact HU|apply opt_beh; exact HU].
Qed.
(* what a boolean query with clauses cs asks of a document *)
Definition all_of (cs : list (occur * X)) (d : Z) : Prop :=
  (forall c, In c cs -> fst c = Must -> mt (snd c) d) /\ (~ exists c, In c cs /\ fst c = MustNot /\ mt (snd c) d) /\
  ((exists c, In c cs /\ fst c = Must) \/ exists c, In c cs /\ fst c = Should /\ mt (snd c) d).
Lemma bool_good k (cs : list (occur * X)) : negb ((2 <=? needed cs)%nat && k) = true ->
  (forall c, In c cs -> fst c = Must -> good B (k || (2 <=? needed cs)%nat) (so (snd c)) (mt (snd c))) ->
  (forall c, In c cs -> fst c = MustNot -> good B true (so (snd c)) (mt (snd c))) ->
  (needed cs = O -> forall c, In c cs -> fst c = Should -> good B k (so (snd c)) (mt (snd c))) ->
  good B k (add_all (sc_of cs) [] [] []) (all_of cs).
Proof.
    intros HT1 GM GN GS.
    assert (EM : filter (fun c : occur * X => occ_eqb (fst c) Must) cs = filter (fun c : occur * X => match fst c with Must => true | _ => false end) cs) by (apply filter_ext; intros (o, q); destruct o; reflexivity).
    unfold good. destruct (Exists_dec (fun c : occur * X => fst c = Must /\ so (snd c) = None) cs) as [EN|NN].
    { intros c. destruct (fst c); [right; intros (? & _); discriminate| |right; intros (? & _); discriminate]. destruct (so (snd c)); [right; intros (_ & ?); discriminate|left; auto]. }
    + apply Exists_exists in EN. destruct EN as (c & Hc & E1 & E2). rewrite add_all_none.
      * intros d (E & _). specialize (E c Hc E1). specialize (GM c Hc E1). unfold good in GM. rewrite E2 in GM. exact (GM d E).
      * unfold sc_of. apply in_map_iff. exists c. rewrite E1, E2. auto.
    + assert (NM : forall c, In c cs -> fst c = Must -> so (snd c) <> None) by (intros c Hc E1 E2; apply NN; apply Exists_exists; eauto). rewrite add_all_ok.
      2:{ intros c Hc E. unfold sc_of in Hc. apply in_map_iff in Hc. destruct Hc as (x & <- & Hx). cbn [fst snd] in *. apply NM; assumption. }
      cbn [app]. destruct (sel_ok _ Must cs GM) as (Rs & HR & _ & HR2). destruct (HR2 NM) as (HRall & Hlen). rewrite EM in Hlen. fold (needed cs) in Hlen. destruct (sel_ok true MustNot cs GN) as (Ps & HP & HPex & _).
      assert (Hneg : forall d, (~ exists M, In M Ps /\ In d M) <-> ~ exists c, In c cs /\ fst c = MustNot /\ mt (snd c) d) by (intros d; rewrite HPex; reflexivity).
      assert (Hnm : needed cs = O -> forall c, In c cs -> fst c <> Must).
      { unfold needed. intros E c Hc Ec. assert (G : In c (filter (fun c : occur * X => match fst c with Must => true | _ => false end) cs)) by (apply filter_In; rewrite Ec; auto). destruct (filter _ cs); [destruct G|discriminate]. }
      assert (Hsm : needed cs <> O -> exists c, In c cs /\ fst c = Must).
      { unfold needed. intros E. destruct (filter _ cs) as [|c t] eqn:Ef; [destruct (E eq_refl)|]. exists c. assert (G : In c (c :: t)) by (left; reflexivity). rewrite <- Ef in G. apply filter_In in G. destruct G as (G1 & G2). split; [exact G1|destruct (fst c); try discriminate; reflexivity]. }
      destruct (sel Must (sc_of cs)) as [|r1 [|r2 rs]] eqn:ER; cbn [length] in Hlen.
      * (* no required clause *)
        specialize (GS (eq_sym Hlen)). specialize (Hnm (eq_sym Hlen)). destruct (sel_ok k Should cs GS) as (Os & HO & HOex & _).
        assert (Hm : forall d, all_of cs d <-> (exists L, In L Os /\ In d L) /\ ~ exists M, In M Ps /\ In d M).
        { intros d. unfold all_of; rewrite HOex, Hneg. split; [intros (_ & H2 & [(c & Hc & E)|H3]); [destruct (Hnm c Hc E)|auto]|]. intros (H1 & H2). splits; auto. intros c Hc E. destruct (Hnm c Hc E). }
        destruct (sel Should (sc_of cs)) as [|o1 [|o2 os]] eqn:EO.
        -- exists []. split; [apply bsc_beh; apply non_beh|]. intros d. rewrite Hm. inversion HO; subst. split; [intros []|intros ((L & [] & _) & _)].
        -- inversion HO as [|? L ? Ls HB HO2]; subst. inversion HO2; subst. destruct (create2_beh k (One 0 o1) [] (sel MustNot (sc_of cs)) L Ps (one_beh _ _ _ _ HB) HP) as (U & HU & Hin). exists U. split; [apply bsc_beh; exact HU|]. intros d. rewrite Hm, Hin. split; intros (G1 & G2); (split; [|exact G2]); [exists L; split; [left; reflexivity|exact G1]|destruct G1 as (L' & [<-|[]] & G1); exact G1].
        -- destruct (dis_beh k (o1 :: o2 :: os) Os HO) as (V & HV & HinV). destruct (create2_beh k _ [] (sel MustNot (sc_of cs)) V Ps HV HP) as (U & HU & Hin). exists U. split; [apply bsc_beh; exact HU|]. intros d. rewrite Hm, Hin, HinV. reflexivity.
      * (* one *)
        rewrite <- Hlen in HR. cbn [Nat.leb] in HR. rewrite orb_false_r in HR. inversion HR as [|? L ? Ls HB HR3]; subst. inversion HR3; subst. destruct (create2_beh k (One 0 r1) (sel Should (sc_of cs)) (sel MustNot (sc_of cs)) L Ps (one_beh _ _ _ _ HB) HP) as (U & HU & Hin). exists U. split; [apply bsc_beh; exact HU|]. intros d. unfold all_of; rewrite <- HRall, <- Hneg, Hin, Forall_cons_iff. split; [intros (G1 & G2); splits; auto; left; apply Hsm; lia|intros ((G1 & _) & G2 & _); auto].
      * (* several *)
        assert (E2 : (2 <=? needed cs)%nat = true) by (apply Nat.leb_le; lia). rewrite E2 in HR, HT1. rewrite orb_true_r in HR. destruct k; [discriminate|]. clear HT1. destruct (con_beh (r1 :: r2 :: rs) Rs ltac:(discriminate) HR) as (V & HV & HinV). destruct (create2_beh false _ (sel Should (sc_of cs)) (sel MustNot (sc_of cs)) V Ps HV HP) as (U & HU & Hin). exists U. split; [apply bsc_beh; exact HU|]. intros d. unfold all_of; rewrite <- HRall, <- Hneg, Hin, HinV. split; [intros (G1 & G2); splits; auto; left; apply Hsm; lia|intros (G1 & G2 & _); auto].
Qed.
End STEP.
Lemma matches_bool d cs : matches d (BBool cs) = true <->
  (forall c, In c cs -> fst c = Must -> matches d (snd c) = true) /\ (~ exists c, In c cs /\ fst c = MustNot /\ matches d (snd c) = true) /\
  ((exists c, In c cs /\ fst c = Must) \/ exists c, In c cs /\ fst c = Should /\ matches d (snd c) = true).
Proof.
  cbn [matches]. rewrite andb_true_iff, orb_true_iff, forallb_forall, !existsb_exists. split.
  - intros (H1 & H2). splits.
    + intros c Hc E. specialize (H1 c Hc). rewrite E in H1. exact H1.
    + intros (c & Hc & E & G). specialize (H1 c Hc). rewrite E, G in H1. discriminate.
    + destruct H2 as [(c & Hc & E)|(c & Hc & E)]; [left|right]; exists c; (split; [exact Hc|]); destruct (fst c); try discriminate; auto.
  - intros (H1 & H2 & H3). split.
    + intros c Hc. destruct (fst c) eqn:E; [reflexivity|apply H1; assumption|]. destruct (matches d (snd c)) eqn:G; [|reflexivity]. destruct H2. exists c. auto.
    + destruct H3 as [(c & Hc & E)|(c & Hc & E & G)]; [left|right]; exists c; (split; [exact Hc|]); rewrite E; auto.
Qed.
Lemma leaves_bool cs : leaves_ok (BBool cs) -> forall c, In c cs -> leaves_ok (snd c).
Proof. cbn [leaves_ok]. induction cs as [|(o, q) cs IH]; intros H c Hc; [destruct Hc|]. destruct H as (H1 & H2). destruct Hc as [<-|Hc]; [exact H1|apply IH; assumption]. Qed.
Lemma bounded_list (l : list Z) : exists B, Forall (fun d => d < B) l.
Proof. induction l as [|a l (B & H)]; [exists 0; constructor|]. exists (Z.max B (a + 1)). constructor; [lia|eapply Forall_impl; [|exact H]; cbn; lia]. Qed.
(* the documents and sizes in a query are below B *)
Fixpoint below (B : Z) (q : bquery) : Prop :=
  match q with
  | BTerm None => True
  | BTerm (Some l) => Forall (fun d => d < B) l
  | BAll mx _ => mx <= B
  | BBool cs => (fix go (l : list (occur * bquery)) : Prop := match l with [] => True | (_, x) :: t => below B x /\ go t end) cs
  end.
Lemma below_more : forall q B B', B <= B' -> below B q -> below B' q.
Proof.
  induction q as [[l|]|mx del|cs IH] using bquery_ind2; intros B B' HB; cbn [below]; auto; [intros H; eapply Forall_impl; [|exact H]; cbn; lia|lia|]. induction cs as [|(o, q) cs IHl]; [auto|]. inversion IH as [|? ? H1 H2]; subst. intros (G1 & G2). split; [apply (H1 B); assumption|apply IHl; assumption].
Qed.
Lemma below_some : forall q m, exists B, m < B /\ below B q.
Proof.
  induction q as [[l|]|mx del|cs IH] using bquery_ind2; intros m.
  - destruct (bounded_list l) as (B & H). exists (Z.max B (m + 1)). split; [lia|]. cbn [below]. eapply Forall_impl; [|exact H]; cbn; lia.
  - exists (m + 1). split; [lia|exact I].
  - exists (Z.max mx (m + 1)). cbn [below]. lia.
  - induction cs as [|(o, q) cs IHl]; [exists (m + 1); split; [lia|exact I]|]. inversion IH as [|? ? H1 H2]; subst. destruct (H1 m) as (B1 & G1 & G2). destruct (IHl H2) as (B2 & G3 & G4). exists (Z.max B1 B2). split; [lia|]. split; [apply (below_more q B1); [lia|exact G2]|apply (below_more (BBool cs) B2); [lia|exact G4]].
Qed.
Lemma below_bool B cs : below B (BBool cs) -> forall c, In c cs -> below B (snd c).
Proof. cbn [below]. induction cs as [|(o, q) cs IH]; intros H c Hc; [destruct Hc|]. destruct H as (H1 & H2). destruct Hc as [<-|Hc]; [exact H1|apply IH; assumption]. Qed.
Lemma all_good B : forall q k, leaves_ok q -> below B q -> tame k q = true -> good B k (scorer_of q) (fun d => matches d q = true).
Proof.
  induction q as [[l|]|mx del|cs IH] using bquery_ind2; intros k HL HB HT.
  - cbn [leaves_ok below] in *. destruct HL as (HS & H0). unfold good. cbn [scorer_of]. exists l. split; [apply beh_weak, term_beh; [exact HS|]; rewrite Forall_forall in *; intros d Hd; split; [apply H0|apply HB]; exact Hd|]. intros d. cbn [matches]. symmetry. apply mem_in.
  - unfold good. cbn. discriminate.
  - unfold good. cbn [scorer_of]. destruct (all_beh mx del HB) as (l & HBl & Hin). exists l. split; [apply beh_weak; exact HBl|]. intros d. rewrite Hin. cbn [matches]. rewrite !andb_true_iff, negb_true_iff, Z.leb_le, Z.ltb_lt. tauto.
  - rewrite Forall_forall in IH. pose proof (leaves_bool cs HL) as HLc. pose proof (below_bool B cs HB) as HBc. cbn [tame] in HT. apply andb_true_iff in HT. destruct HT as (HT1 & HT2). rewrite forallb_forall in HT2.
    assert (G : good B k (scorer_of (BBool cs)) (all_of bquery (fun q d => matches d q = true) cs)).
    { apply (bool_good B bquery scorer_of (fun q d => matches d q = true) k cs HT1).
      - intros c Hc E. apply IH; auto. specialize (HT2 c Hc). rewrite E in HT2. exact HT2.
      - intros c Hc E. apply IH; auto. specialize (HT2 c Hc). rewrite E in HT2. exact HT2.
      - intros E0 c Hc E. apply IH; auto. specialize (HT2 c Hc). change (musts cs = O) in E0. rewrite E, E0 in HT2. exact HT2. }
    unfold good in *. destruct (scorer_of (BBool cs)) as [s|].
    + destruct G as (L & HBL & Hin). exists L. split; [exact HBL|]. intros d. rewrite Hin, matches_bool. reflexivity.
    + intros d Hd. apply (G d). apply matches_bool. exact Hd.
Qed.
Lemma docs_ok B : forall m L s cur k, (length L <= m)%nat -> Beh B k s cur L -> exists n, forall f, (n <= f)%nat -> docs_of f s = Some L.
Proof.
  induction m as [|m IH]; intros L s cur k Hm HB; destruct (beh_next _ _ _ _ HB) as (s' & (n1 & E1) & Hs).
  - destruct L; [|cbn [length] in Hm; lia]. exists (S n1). intros [|f] Hf; [lia|]. cbn [docs_of]. rewrite (E1 f ltac:(lia)). reflexivity.
  - destruct L as [|x r].
    + exists (S n1). intros [|f] Hf; [lia|]. cbn [docs_of]. rewrite (E1 f ltac:(lia)). reflexivity.
    + destruct (Hs x r eq_refl) as (Hx & HB'). cbn [length] in Hm. destruct (IH r s' (Some x) k ltac:(lia) HB') as (n2 & E2). exists (S (Nat.max n1 n2)). intros [|f] Hf; [lia|]. cbn [docs_of]. rewrite (E1 f ltac:(lia)). cbn [obind nonnil fst snd]. rewrite (E2 f ltac:(lia)), Hx. reflexivity.
Qed.
Theorem query_docs q : leaves_ok q -> tame false q = true ->
  match scorer_of q with
  | None => forall d, matches d q = false
  | Some s => exists l, (exists n, forall f, (n <= f)%nat -> docs_of f s = Some l) /\ StronglySorted Z.lt l /\ forall d, In d l <-> matches d q = true
  end.
Proof.
  intros HL HT. destruct (below_some q 0) as (B & _ & HQ). pose proof (all_good B q false HL HQ HT) as G. unfold good in G. destruct (scorer_of q) as [s|]; [|intros d; apply not_true_iff_false; apply G]. destruct G as (L & HB & Hin). exists L. splits; [apply (docs_ok B _ L s None false (le_n _) HB)|apply (beh_facts _ _ _ _ HB)|exact Hin].
Qed.
Theorem query_skip q d : leaves_ok q -> tame true q = true -> 0 <= d ->
  match scorer_of q with
  | None => forall x, matches x q = false
  | Some s => exists b s', (exists n, forall f, (n <= f)%nat -> run f (Some d) s = Some (b, s')) /\
      if b then d <= doc_of s' /\ matches (doc_of s') q = true /\ forall x, d <= x < doc_of s' -> matches x q = false
      else forall x, d <= x -> matches x q = false
  end.
Proof.
  intros HL HT H0. destruct (below_some q d) as (B & HdB & HQ). pose proof (all_good B q true HL HQ HT) as G. unfold good in G. destruct (scorer_of q) as [s|]; [|intros x; apply not_true_iff_false; apply G]. destruct G as (L & HB & Hin). destruct (beh_skip _ _ _ d HB HdB H0) as (s' & E & Hs). destruct (beh_facts _ _ _ _ HB) as (SL & _). exists (nonnil (from d L)), s'. split; [exact E|].
  assert (G : forall x, d <= x -> (In x (from d L) <-> matches x q = true)) by (intros x Hx; rewrite from_in by exact SL; rewrite Hin; tauto). destruct (from d L) as [|y r] eqn:Ef; cbn [nonnil].
  - intros x Hx. destruct (matches x q) eqn:Em; [|reflexivity]. apply G in Em; [destruct Em|exact Hx].
  - destruct (Hs y r eq_refl) as (-> & _). assert (Hy : In y L /\ d <= y) by (apply from_in; [exact SL|rewrite Ef; left; reflexivity]). splits; [tauto|apply Hin; tauto|]. intros x Hx. destruct (matches x q) eqn:Em; [|reflexivity]. exfalso. apply G in Em; [|lia]. pose proof (from_SS d L SL) as S2. rewrite Ef in S2. apply SS_inv in S2. destruct S2 as (_ & S2). destruct Em as [E2|E2]; [lia|specialize (S2 _ E2); lia].
Qed.
