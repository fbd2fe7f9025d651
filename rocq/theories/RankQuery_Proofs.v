(* whole queries: their weights, the documents their scorers stop at and the scores *)
From Coq Require Import QArith.Qcanon Sorting.Permutation Sorting.Sorted.
From Verif Require Import Util PQueue_Model Query_Model Rank_Model Rank_Spec Rank_Proofs RankSum_Proofs RankCon_Proofs.
Open Scope Z_scope.
Fixpoint rquery_ind2 (Q : rquery -> Prop) (HT : forall b i l, Q (RLeaf b i l)) (HB : forall b nc cs, Forall (fun c => Q (snd c)) cs -> Q (RBool b nc cs)) (q : rquery) : Q q :=
  match q with
  | RLeaf b i l => HT b i l
  | RBool b nc cs => HB b nc cs ((fix go (l : list (occur * rquery)) : Forall (fun c => Q (snd c)) l := match l with [] => Forall_nil _ | c :: t => Forall_cons c (rquery_ind2 Q HT HB (snd c)) (go t) end) cs)
  end.

(* ---------- weights *)
(* the weight of a query whose norm, times the boosts around it, is F *)
Fixpoint want (sm : sim) (F : Qc) (q : rquery) : weight :=
  match q with
  | RLeaf b i l => WLeaf b (idf_of i l) (idf_of i l * b * F)%Qc F (idf_of i l * b * F * idf_of i l)%Qc l
  | RBool b nc cs => WBool b nc (map (fun c : occur * rquery => (fst c, match fst c with MustNot => q_weight sm (snd c) | _ => want sm (F * b)%Qc (snd c) end)) cs)
  end.
Lemma want_again sm : forall q F G, fst (sum_sq (want sm F q)) = squares q /\ normalize G (snd (sum_sq (want sm F q))) = want sm G q.
Proof.
  induction q as [b i l|b nc cs IH] using rquery_ind2; intros F G; [split; reflexivity|]. cbn [want sum_sq squares fst snd normalize]. split.
  - rewrite Qcmult_comm. f_equal. rewrite !map_map. induction IH as [|c cs Hc IH IHl]; [reflexivity|]. cbn [map fold_right Qcsum]. unfold Qcsum in IHl. rewrite IHl. f_equal. destruct c as (o, q). cbn [fst snd] in *. destruct o; cbn [fst]; [apply (Hc _ G)|apply (Hc _ G)|reflexivity].
  - f_equal. rewrite !map_map. induction IH as [|c cs Hc IH IHl]; [reflexivity|]. cbn [map]. rewrite IHl. f_equal. destruct c as (o, q). cbn [fst snd] in *. destruct o; cbn [fst snd]; [f_equal; apply Hc|f_equal; apply Hc|reflexivity].
Qed.
Lemma weight_is sm : forall q, q_weight sm q = want sm (query_norm sm (squares q)) q.
Proof.
  induction q as [b i l|b nc cs IH] using rquery_ind2; [reflexivity|]. cbn [q_weight]. unfold finish. set (w := WBool b nc (map (fun c : occur * rquery => (fst c, q_weight sm (snd c))) cs)).
  assert (G : fst (sum_sq w) = squares (RBool b nc cs) /\ forall F, normalize F (snd (sum_sq w)) = want sm F (RBool b nc cs)).
  { unfold w. cbn [want sum_sq squares fst snd normalize]. split; [|intros F].
    - rewrite Qcmult_comm. f_equal. rewrite !map_map. induction IH as [|c cs Hc IH IHl]; [reflexivity|]. cbn [map fold_right Qcsum]. unfold Qcsum in IHl. rewrite IHl. f_equal. destruct c as (o, q). cbn [fst snd] in *. rewrite Hc. destruct o; cbn [fst]; [apply (want_again sm q _ 0%Qc)|apply (want_again sm q _ 0%Qc)|reflexivity].
    - f_equal. rewrite !map_map. induction IH as [|c cs Hc IH IHl]; [reflexivity|]. cbn [map]. rewrite IHl. f_equal. destruct c as (o, q). cbn [fst snd] in *. rewrite Hc. destruct o; cbn [fst snd]; [f_equal; apply want_again|f_equal; apply want_again|reflexivity]. }
  destruct G as (-> & G). apply G.
Qed.

(* ---------- the scorers of a boolean query *)
Definition occ_eqb (a b : occur) : bool := match a, b with Must, Must | Should, Should | MustNot, MustNot => true | _, _ => false end.
Lemma occ_eqb_spec a b : occ_eqb a b = true <-> a = b.
Proof. destruct a, b; cbn; split; intros; try reflexivity; try discriminate. Qed.
Definition sel (o : occur) (l : list (occur * option sc)) : list sc := flat_map (fun c => if occ_eqb (fst c) o then match snd c with Some s => [s] | None => [] end else []) l.
Lemma add_all_ok nc : forall l req opt pro, (forall c, In c l -> fst c = Must -> snd c <> None) -> add_all nc l req opt pro = Some (Bsc nc 0 None (req ++ sel Must l) (opt ++ sel Should l) (pro ++ sel MustNot l)).
Proof.
  induction l as [|(o, [s|]) l IH]; intros req opt pro H; cbn [add_all sel flat_map fst snd]; [rewrite !app_nil_r; reflexivity| |]; assert (H' : forall c, In c l -> fst c = Must -> snd c <> None) by (intros c Hc; apply H; right; exact Hc); destruct o; cbn [occ_eqb app]; try (rewrite (IH _ _ _ H'); unfold sel; rewrite <- ?app_assoc; reflexivity).
  exfalso. apply (H _ (or_introl eq_refl)); reflexivity.
Qed.
Lemma add_all_none nc : forall l req opt pro, In (Must, None) l -> add_all nc l req opt pro = None.
Proof. induction l as [|(o, [s|]) l IH]; intros req opt pro H; [destruct H| |]; cbn [add_all]; (destruct H as [E|H]; [inversion E; reflexivity|]); destruct o; auto. Qed.
(* a scorer that visits the documents with M and gives them the scores v *)
Definition good (sm : sim) (B : Z) (k : bool) (o : option sc) (M : Z -> bool) (v : Z -> Qc) : Prop :=
  match o with None => forall d, M d = false | Some s => exists L, Beh sm B (fun x => (v x, 0%nat)) k s None L /\ forall d, In d L <-> M d = true end.
Definition needed {X} (cs : list (occur * X)) : nat := length (filter (fun c : occur * X => match fst c with Must => true | _ => false end) cs).
Lemma parts_le Ls x : (snd (parts Ls x) <= length Ls)%nat.
Proof. induction Ls as [|L Ls IH]; cbn [parts fold_right]; [cbn; lia|]. fold (parts Ls x). unfold plus, part. cbn [snd length]. destruct (existsb (Z.eqb x) (fst L)); cbn [snd zero]; lia. Qed.
Lemma parts_none Ls x : ~ (exists L : list Z * fnt, In L Ls /\ In x (fst L)) -> parts Ls x = zero.
Proof. induction Ls as [|L Ls IH]; intros H; [reflexivity|]. cbn [parts fold_right]. fold (parts Ls x). rewrite part_out, IH; [apply plus_0| |]; [intros (M & HM & G); apply H; exists M; split; [right; exact HM|exact G]|]. intros G. apply H. exists L. split; [left; reflexivity|exact G]. Qed.
Lemma conf_parts Ls x : Forall (fun L : list Z * fnt => In x (fst L)) Ls -> conf (map snd Ls) x = parts Ls x.
Proof. induction 1 as [|L Ls H HF IH]; [reflexivity|]. cbn [parts fold_right]. fold (parts Ls x). rewrite <- IH, part_in by exact H. reflexivity. Qed.
Section STEP.
Variable sm : sim.
Variable B : Z.
Variable X : Type.
Variable so : occur -> X -> option sc.
Variable mt : X -> Z -> bool.
Variable vl : X -> Z -> Qc.
Variable vn : X -> Z -> Qc.   (* the scores of prohibited clauses, which nobody asks for *)
Definition vals (o : occur) := match o with MustNot => vn | _ => vl end.
Definition sc_of (cs : list (occur * X)) := map (fun c : occur * X => (fst c, so (fst c) (snd c))) cs.
Definition sums (o : occur) (cs : list (occur * X)) (x : Z) : Qc * nat :=
  (Qcsum (map (fun c : occur * X => if occ_eqb (fst c) o && mt (snd c) x then vals o (snd c) x else 0%Qc) cs), length (filter (fun c : occur * X => occ_eqb (fst c) o && mt (snd c) x) cs)).
Lemma sums_cons o c cs x : sums o (c :: cs) x = plus (if occ_eqb (fst c) o && mt (snd c) x then (vals o (snd c) x, 1%nat) else zero) (sums o cs x).
Proof. unfold sums. cbn [map Qcsum fold_right filter]. destruct (occ_eqb (fst c) o && mt (snd c) x); reflexivity. Qed.
Lemma sel_ok k o : forall cs, (forall c, In c cs -> fst c = o -> good sm B k (so o (snd c)) (mt (snd c)) (vals o (snd c))) -> exists Ls, Forall2 (fun c (L : list Z * fnt) => Beh sm B (snd L) k c None (fst L)) (sel o (sc_of cs)) Ls /\
  (forall d, (exists L, In L Ls /\ In d (fst L)) <-> exists c, In c cs /\ fst c = o /\ mt (snd c) d = true) /\
  (forall x, parts Ls x = sums o cs x) /\ length Ls = length (filter (fun c : occur * X => occ_eqb (fst c) o && match so o (snd c) with Some _ => true | None => false end) cs) /\
  ((forall c, In c cs -> fst c = o -> so o (snd c) <> None) -> (forall d, Forall (fun L : list Z * fnt => In d (fst L)) Ls <-> forall c, In c cs -> fst c = o -> mt (snd c) d = true) /\
    length (sel o (sc_of cs)) = length (filter (fun c : occur * X => occ_eqb (fst c) o) cs)).
Proof.
  induction cs as [|c cs IH]; intros H.
  - exists []. cbn. splits; [constructor|intros d; split; intros (x & [] & _)|reflexivity|reflexivity|]. intros _. split; [intros d; split; [intros _ c []|constructor]|reflexivity].
  - destruct IH as (Ls & HF & Hex & Hsum & Hln & Hall); [intros c' Hc'; apply H; right; exact Hc'|]. cbn [sc_of map sel flat_map fst snd filter]. fold (sc_of cs). fold (sel o (sc_of cs)). destruct (occ_eqb (fst c) o) eqn:Eo.
    + pose proof Eo as Eo2. apply occ_eqb_spec in Eo. specialize (H c (or_introl eq_refl) Eo) as G. unfold good in G. rewrite Eo. destruct (so o (snd c)) as [s|] eqn:Es.
      * destruct G as (L & HB & HL). exists ((L, fun x => (vals o (snd c) x, 0%nat)) :: Ls). cbn [app andb]. splits; [constructor; assumption| | | |].
        -- intros d. split.
           ++ intros (L' & [<-|H1] & H2); [exists c; splits; [left; reflexivity|exact Eo|apply HL; exact H2]|]. destruct (proj1 (Hex d)) as (c' & G1 & G2); [eauto|]. exists c'. split; [right; exact G1|exact G2].
           ++ intros (c' & [<-|H1] & H2 & H3); [eexists; split; [left; reflexivity|apply HL; exact H3]|]. destruct (proj2 (Hex d)) as (L' & G1 & G2); [eauto|]. exists L'. split; [right; exact G1|exact G2].
        -- intros x. cbn [parts fold_right]. fold (parts Ls x). rewrite sums_cons, Hsum, Eo2. cbn [andb]. f_equal. destruct (mt (snd c) x) eqn:Em; [rewrite part_in by (apply HL; exact Em); reflexivity|apply part_out; cbn [fst]; rewrite HL; congruence].
        -- cbn [length]. rewrite Hln. reflexivity.
        -- intros Hn. destruct Hall as (Hall & Hlen); [intros c' Hc'; apply Hn; right; exact Hc'|]. split; [|cbn [length]; rewrite Hlen; reflexivity]. intros d. rewrite Forall_cons_iff, Hall. cbn [fst]. rewrite HL. split; [intros (G1 & G2) c' [<-|Hc'] Ec'; [exact G1|apply G2; assumption]|intros G; split; [apply G; [left; reflexivity|exact Eo]|intros c' Hc'; apply G; right; exact Hc']].
      * exists Ls. cbn [app andb]. splits; [exact HF| | |exact Hln|].
        -- intros d. rewrite Hex. split; [intros (c' & G1 & G2); exists c'; split; [right; exact G1|exact G2]|intros (c' & [<-|G1] & G2 & G3); [rewrite (G d) in G3; discriminate|eauto]].
        -- intros x. rewrite sums_cons, (G x), andb_false_r, plus_0l. apply Hsum.
        -- intros Hn. destruct (Hn c (or_introl eq_refl) Eo Es).
    + assert (Eo' : fst c <> o) by (intros E; apply occ_eqb_spec in E; congruence). exists Ls. cbn [app andb]. splits; [exact HF| | |exact Hln|].
      * intros d. rewrite Hex. split; [intros (c' & G1 & G2); exists c'; split; [right; exact G1|exact G2]|intros (c' & [<-|G1] & G2 & G3); [congruence|eauto]].
      * intros x. rewrite sums_cons, Eo. cbn [andb]. rewrite plus_0l. apply Hsum.
      * intros Hn. destruct Hall as (Hall & Hlen); [intros c' Hc'; apply Hn; right; exact Hc'|]. split; [|exact Hlen]. intros d. rewrite Hall. split; [intros G c' [<-|Hc'] E; [congruence|apply G; assumption]|intros G c' Hc'; apply G; right; exact Hc'].
Qed.
Notation F2 k := (Forall2 (fun c (L : list Z * fnt) => Beh sm B (snd L) k c None (fst L))).
Lemma pro_beh pro Ps : pro <> [] -> F2 true pro Ps -> exists U sx, Beh sm B sx true (pro_of pro) None U /\ forall d, In d U <-> exists L, In L Ps /\ In d (fst L).
Proof.
  intros Hne H. destruct pro as [|p [|p2 pro]]; [congruence| |destruct (dis_beh sm B true _ _ H) as (U & HU & Hin); eauto]. inversion H as [|? L ? Ls HB H2]; subst. inversion H2; subst. exists (fst L), (snd L). cbn [pro_of]. split; [exact HB|]. intros d. split; [intros G; exists L; split; [left; reflexivity|exact G]|intros (L' & [<-|[]] & G); exact G].
Qed.
Lemma create2_beh k sf r opt pro L Ps Os : Beh sm B sf k r None L -> F2 true pro Ps -> F2 true opt Os ->
  exists U, Beh sm B (fun x => plus (sf x) (parts Os x)) k (create2 r opt pro) None U /\ forall d, In d U <-> In d L /\ ~ exists M, In M Ps /\ In d (fst M).
Proof.
  intros HB HP HO. assert (G : exists U, Beh sm B sf k (match pro with [] => r | _ => Excl 0 true (Some r) (Some (pro_of pro)) end) None U /\ forall d, In d U <-> In d L /\ ~ exists M, In M Ps /\ In d (fst M)).
  { destruct pro as [|p pro].
    - inversion HP; subst. exists L. split; [exact HB|]. intros d. split; [intros G; split; [exact G|intros (M & [] & _)]|tauto].
    - destruct (pro_beh (p :: pro) Ps ltac:(discriminate) HP) as (XX & sx & HX & HinX). exists (diff L XX). split; [apply (excl_beh sm B sf sx); assumption|]. intros d. rewrite diff_in, HinX. reflexivity. }
  destruct G as (U & HU & Hin). exists U. split; [|exact Hin].
  assert (OP : forall o O so', Beh sm B so' true o None O -> (forall d, In d O <-> exists M, In M Os /\ In d (fst M)) -> (forall d, In d O -> so' d = parts Os d) -> Beh sm B (fun x => plus (sf x) (parts Os x)) k (Opt 0 true (match pro with [] => r | _ => Excl 0 true (Some r) (Some (pro_of pro)) end) (Some o)) None U).
  { intros o O so' Ho HinO Heq. eapply beh_ext; [apply (opt_beh sm B sf so'); [exact HU|exact Ho]|]. intros x Hx. unfold optf. destruct (existsb (Z.eqb x) O) eqn:E; [apply mem_in in E; rewrite (Heq x E); reflexivity|]. rewrite parts_none, plus_0; [reflexivity|]. rewrite <- HinO. intros G. apply mem_in in G. congruence. }
  unfold create2. destruct opt as [|o [|o2 opt]].
  - inversion HO; subst. eapply beh_ext; [exact HU|]. intros x Hx. symmetry. apply plus_0.
  - inversion HO as [|? M ? Ms Ho HO2]; subst. inversion HO2; subst. apply (OP (One 0 o) (fst M) (fun x => (fst (snd M x), 1%nat))).
    + apply one_beh. exact Ho.
    + intros d. split; [intros G; exists M; split; [left; reflexivity|exact G]|intros (M' & [<-|[]] & G); exact G].
    + intros d Hd. cbn [parts fold_right]. rewrite part_in by exact Hd. symmetry. apply plus_0.
  - destruct (dis_beh sm B true _ _ HO) as (V & HV & HinV). apply (OP (dis_new (o :: o2 :: opt)) V (parts Os)); auto.
Qed.
(* what a boolean query with clauses cs asks of a document *)
Definition all_of (cs : list (occur * X)) (d : Z) : Prop :=
  (forall c, In c cs -> fst c = Must -> mt (snd c) d = true) /\ (~ exists c, In c cs /\ fst c = MustNot /\ mt (snd c) d = true) /\
  ((exists c, In c cs /\ fst c = Must) \/ exists c, In c cs /\ fst c = Should /\ mt (snd c) d = true).
Definition scored (cs : list (occur * X)) : nat := (length (filter (fun c : occur * X => occ_eqb (fst c) Must && match so Must (snd c) with Some _ => true | None => false end) cs) + length (filter (fun c : occur * X => occ_eqb (fst c) Should && match so Should (snd c) with Some _ => true | None => false end) cs))%nat.
Definition bool_score (nc : bool) (cs : list (occur * X)) (x : Z) : Qc :=
  let p := plus (sums Must cs x) (sums Should cs x) in (fst p * (if nc then 1 else coord sm (snd p) (scored cs)))%Qc.
Lemma bool_good nc k (cs : list (occur * X)) (M : Z -> bool) : (forall d, M d = true <-> all_of cs d) -> negb ((2 <=? needed cs)%nat && k) = true ->
  (forall c, In c cs -> fst c = Must -> good sm B (k || (2 <=? needed cs)%nat) (so Must (snd c)) (mt (snd c)) (vl (snd c))) ->
  (forall c, In c cs -> fst c = MustNot -> good sm B true (so MustNot (snd c)) (mt (snd c)) (vn (snd c))) ->
  (forall c, In c cs -> fst c = Should -> good sm B (k || (1 <=? needed cs)%nat) (so Should (snd c)) (mt (snd c)) (vl (snd c))) ->
  good sm B k (add_all nc (sc_of cs) [] [] []) M (bool_score nc cs).
Proof.
    intros HM HT1 GM GN GS.
    assert (EM : filter (fun c : occur * X => occ_eqb (fst c) Must) cs = filter (fun c : occur * X => match fst c with Must => true | _ => false end) cs) by (apply filter_ext; intros (o, q); destruct o; reflexivity).
    unfold good. destruct (Exists_dec (fun c : occur * X => fst c = Must /\ so Must (snd c) = None) cs) as [EN|NN].
    { intros c. destruct (fst c); [right; intros (? & _); discriminate| |right; intros (? & _); discriminate]. destruct (so Must (snd c)); [right; intros (_ & ?); discriminate|left; auto]. }
    + apply Exists_exists in EN. destruct EN as (c & Hc & E1 & E2). rewrite add_all_none.
      * intros d. apply not_true_iff_false. rewrite HM. intros (E & _). specialize (E c Hc E1). specialize (GM c Hc E1). unfold good in GM. rewrite E2 in GM. rewrite (GM d) in E. discriminate.
      * unfold sc_of. apply in_map_iff. exists c. rewrite E1, E2. auto.
    + assert (NM : forall c, In c cs -> fst c = Must -> so Must (snd c) <> None) by (intros c Hc E1 E2; apply NN; apply Exists_exists; eauto). rewrite add_all_ok.
      2:{ intros c Hc E. unfold sc_of in Hc. apply in_map_iff in Hc. destruct Hc as (x & <- & Hx). cbn [fst snd] in *. rewrite E. apply NM; assumption. }
      cbn [app]. destruct (sel_ok _ Must cs GM) as (Rs & HR & _ & HRsum & HRn & HR2). destruct (HR2 NM) as (HRall & Hlen). rewrite EM in Hlen. fold (needed cs) in Hlen. destruct (sel_ok true MustNot cs GN) as (Ps & HP & HPex & _). destruct (sel_ok _ Should cs GS) as (Os & HO & HOex & HOsum & HOn & _).
      assert (LF : forall kk l Ls, F2 kk l Ls -> length l = length Ls) by (clear; intros kk l Ls H; induction H; cbn [length]; congruence).
      assert (Hneg : forall d, (~ exists M, In M Ps /\ In d (fst M)) <-> ~ exists c, In c cs /\ fst c = MustNot /\ mt (snd c) d = true) by (intros d; rewrite HPex; reflexivity).
      assert (Hnm : needed cs = O -> forall c, In c cs -> fst c <> Must).
      { unfold needed. intros E c Hc Ec. assert (G : In c (filter (fun c : occur * X => match fst c with Must => true | _ => false end) cs)) by (apply filter_In; rewrite Ec; auto). destruct (filter _ cs); [destruct G|discriminate]. }
      assert (Hsm : needed cs <> O -> exists c, In c cs /\ fst c = Must).
      { unfold needed. intros E. destruct (filter _ cs) as [|c t] eqn:Ef; [destruct (E eq_refl)|]. exists c. assert (G : In c (c :: t)) by (left; reflexivity). rewrite <- Ef in G. apply filter_In in G. destruct G as (G1 & G2). split; [exact G1|destruct (fst c); try discriminate; reflexivity]. }
      (* from the scorer of the parts to the BooleanScorer *)
      assert (FIN : forall sf U, Beh sm B sf k (create (sel Must (sc_of cs)) (sel Should (sc_of cs)) (sel MustNot (sc_of cs))) None U -> (forall x, In x U -> sf x = plus (parts Rs x) (parts Os x)) -> (forall d, In d U <-> all_of cs d) ->
        exists L, Beh sm B (fun x => (bool_score nc cs x, 0%nat)) k (Bsc nc 0 None (sel Must (sc_of cs)) (sel Should (sc_of cs)) (sel MustNot (sc_of cs))) None L /\ forall d, In d L <-> M d = true).
      { intros sf U HU Hsf Hin. exists U. split; [|intros d; rewrite Hin, HM; reflexivity]. eapply beh_ext; [apply bsc_beh; [exact HU|]|].
        - intros x Hx. rewrite (Hsf x Hx). unfold plus. cbn [snd]. rewrite (LF _ _ _ HR), (LF _ _ _ HO). pose proof (parts_le Rs x). pose proof (parts_le Os x). lia.
        - intros x Hx. cbn beta. rewrite (Hsf x Hx), HRsum, HOsum. unfold bool_score. rewrite (LF _ _ _ HR), (LF _ _ _ HO), HRn, HOn. reflexivity. }
      destruct (sel Must (sc_of cs)) as [|r1 [|r2 rs]] eqn:ER; cbn [length] in Hlen.
      * (* no required clause *)
        specialize (Hnm (eq_sym Hlen)). rewrite <- Hlen in HO. cbn [Nat.leb] in HO. rewrite orb_false_r in HO. inversion HR; subst Rs.
        assert (Hm : forall d, all_of cs d <-> (exists L, In L Os /\ In d (fst L)) /\ ~ exists M, In M Ps /\ In d (fst M)).
        { intros d. unfold all_of; rewrite HOex, Hneg. split; [intros (_ & H2 & [(c & Hc & E)|H3]); [destruct (Hnm c Hc E)|auto]|]. intros (H1 & H2). splits; auto. intros c Hc E. destruct (Hnm c Hc E). }
        destruct (sel Should (sc_of cs)) as [|o1 [|o2 os]] eqn:EO.
        -- apply (FIN (fun _ => zero) []); [apply non_beh|intros x []|]. intros d. rewrite Hm. inversion HO; subst. split; [intros []|intros ((L & [] & _) & _)].
        -- inversion HO as [|? L ? Ls HB HO2]; subst. inversion HO2; subst. destruct (create2_beh k _ (One 0 o1) [] (sel MustNot (sc_of cs)) (fst L) Ps [] (one_beh _ _ _ _ _ _ _ HB) HP (Forall2_nil _)) as (U & HU & Hin). apply (FIN _ U HU); [|intros d; rewrite Hm, Hin; split; intros (G1 & G2); (split; [|exact G2]); [exists L; split; [left; reflexivity|exact G1]|destruct G1 as (L' & [<-|[]] & G1); exact G1]].
           intros x Hx. apply Hin in Hx. cbn [parts fold_right]. rewrite part_in by apply Hx. rewrite ?plus_0, ?plus_0l. reflexivity.
        -- destruct (dis_beh sm B k (o1 :: o2 :: os) Os HO) as (V & HV & HinV). destruct (create2_beh k _ _ [] (sel MustNot (sc_of cs)) V Ps [] HV HP (Forall2_nil _)) as (U & HU & Hin). apply (FIN _ U HU); [|intros d; rewrite Hm, Hin, HinV; reflexivity]. intros x Hx. change (parts [] x) with zero. rewrite plus_0, plus_0l. reflexivity.
      * (* one *)
        rewrite <- Hlen in HR, HO. cbn [Nat.leb] in HR, HO. rewrite orb_false_r in HR. rewrite orb_true_r in HO. inversion HR as [|? L ? Ls HB HR3]; subst. inversion HR3; subst. destruct (create2_beh k _ (One 0 r1) (sel Should (sc_of cs)) (sel MustNot (sc_of cs)) (fst L) Ps Os (one_beh _ _ _ _ _ _ _ HB) HP HO) as (U & HU & Hin). apply (FIN _ U HU).
        -- intros x Hx. apply Hin in Hx. cbn beta. f_equal. cbn [parts fold_right]. rewrite part_in by apply Hx. symmetry. apply plus_0.
        -- intros d. unfold all_of; rewrite <- HRall, <- Hneg, Hin, Forall_cons_iff. split; [intros (G1 & G2); splits; auto; left; apply Hsm; lia|intros ((G1 & _) & G2 & _); auto].
      * (* several *)
        assert (E2 : (2 <=? needed cs)%nat = true) by (apply Nat.leb_le; lia). assert (E1 : (1 <=? needed cs)%nat = true) by (apply Nat.leb_le; lia). rewrite E2 in HR, HT1. rewrite E1 in HO. rewrite orb_true_r in HR, HO. destruct k; [discriminate|]. clear HT1. destruct (con_beh sm B (r1 :: r2 :: rs) Rs ltac:(discriminate) HR) as (V & HV & HinV). destruct (create2_beh false _ _ (sel Should (sc_of cs)) (sel MustNot (sc_of cs)) V Ps Os HV HP HO) as (U & HU & Hin). apply (FIN _ U HU).
        -- intros x Hx. apply Hin in Hx. cbn beta. f_equal. apply conf_parts. apply HinV. apply Hx.
        -- intros d. unfold all_of; rewrite <- HRall, <- Hneg, Hin, HinV. split; [intros (G1 & G2); splits; auto; left; apply Hsm; lia|intros (G1 & G2 & _); auto].
Qed.
End STEP.
Lemma matches_bool d b nc cs : matches d (RBool b nc cs) = true <->
  (forall c, In c cs -> fst c = Must -> matches d (snd c) = true) /\ (~ exists c, In c cs /\ fst c = MustNot /\ matches d (snd c) = true) /\
  ((exists c, In c cs /\ fst c = Must) \/ exists c, In c cs /\ fst c = Should /\ matches d (snd c) = true).
Proof.
  cbn [matches]. rewrite andb_true_iff, orb_true_iff, forallb_forall, !existsb_exists. split.
  - intros (H1 & H2). splits.
    + intros c Hc E. specialize (H1 c Hc). rewrite E in H1. exact H1.
    + intros (c & Hc & E & G). specialize (H1 c Hc). rewrite E, G in H1. discriminate.
    + destruct H2 as [(c & Hc & E)|(c & Hc & E)]; [left|right]; exists c; (split; [exact Hc|]); destruct (fst c); try discriminate; auto.
  - intros (H1 & H2 & H3). split.
    + intros c Hc. destruct (fst c) eqn:E; [reflexivity|apply H1; assumption|]. destruct (matches d (snd c)) eqn:G; [|reflexivity]. destruct H2. exists c. auto.
    + destruct H3 as [(c & Hc & E)|(c & Hc & E & G)]; [left|right]; exists c; (split; [exact Hc|]); rewrite E; auto.
Qed.
Lemma leaves_bool b nc cs : leaves_ok (RBool b nc cs) -> forall c, In c cs -> leaves_ok (snd c).
Proof. cbn [leaves_ok]. induction cs as [|(o, q) cs IH]; intros H c Hc; [destruct Hc|]. destruct H as (H1 & H2). destruct Hc as [<-|Hc]; [exact H1|apply IH; assumption]. Qed.
Lemma bounded_list (l : list Z) : exists B, Forall (fun d => d < B) l.
Proof. induction l as [|a l (B & H)]; [exists 0; constructor|]. exists (Z.max B (a + 1)). constructor; [lia|eapply Forall_impl; [|exact H]; cbn; lia]. Qed.
(* the documents and sizes in a query are below B *)
Definition leaf_below (B : Z) (l : leaf) : Prop :=
  match l with
  | LTerm None _ => True
  | LTerm (Some l) _ => Forall (fun d => d < B) (map fst l)
  | LAll mx _ => mx <= B
  | LBits l => Forall (fun d => d < B) l
  end.
Fixpoint below (B : Z) (q : rquery) : Prop :=
  match q with
  | RLeaf _ _ l => leaf_below B l
  | RBool _ _ cs => (fix go (l : list (occur * rquery)) : Prop := match l with [] => True | (_, x) :: t => below B x /\ go t end) cs
  end.
Lemma below_more : forall q B B', B <= B' -> below B q -> below B' q.
Proof.
  induction q as [b i l|b nc cs IH] using rquery_ind2; intros B B' HB; cbn [below].
  - destruct l as [[l|] nm|mx del|l]; cbn [leaf_below]; auto; [intros H; eapply Forall_impl; [|exact H]; cbn; lia|lia|intros H; eapply Forall_impl; [|exact H]; cbn; lia].
  - induction cs as [|(o, q) cs IHl]; [auto|]. inversion IH as [|? ? H1 H2]; subst. intros (G1 & G2). split; [apply (H1 B); assumption|apply IHl; assumption].
Qed.
Lemma below_some : forall q m, exists B, m < B /\ below B q.
Proof.
  induction q as [b i l|b nc cs IH] using rquery_ind2; intros m.
  - assert (G : forall l, exists B, m < B /\ Forall (fun d => d < B) l) by (intros l0; destruct (bounded_list l0) as (B & H); exists (Z.max B (m + 1)); split; [lia|eapply Forall_impl; [|exact H]; cbn; lia]). destruct l as [[l|] nm|mx del|l]; cbn [below leaf_below]; [apply G|exists (m + 1); split; [lia|exact Logic.I]|exists (Z.max mx (m + 1)); lia|apply G].
  - induction cs as [|(o, q) cs IHl]; [exists (m + 1); split; [lia|exact Logic.I]|]. inversion IH as [|? ? H1 H2]; subst. destruct (H1 m) as (B1 & G1 & G2). destruct (IHl H2) as (B2 & G3 & G4). exists (Z.max B1 B2). split; [lia|]. split; [apply (below_more q B1); [lia|exact G2]|apply (below_more (RBool b nc cs) B2); [lia|exact G4]].
Qed.
Lemma below_bool B b nc cs : below B (RBool b nc cs) -> forall c, In c cs -> below B (snd c).
Proof. cbn [below]. induction cs as [|(o, q) cs IH]; intros H c Hc; [destruct Hc|]. destruct H as (H1 & H2). destruct Hc as [<-|Hc]; [exact H1|apply IH; assumption]. Qed.
(* whether there is a scorer does not depend on the weights *)
Lemma scorer_some sm : forall q F, match scorer_of (want sm F q) with Some _ => true | None => false end = has_scorer q.
Proof.
  induction q as [b i l|b nc cs IH] using rquery_ind2; intros F; [destruct l as [[l|] nm|mx del|l]; reflexivity|]. cbn [want scorer_of has_scorer]. rewrite map_map. cbn [fst snd]. rewrite Forall_forall in IH.
  set (g := fun c : occur * rquery => (fst c, scorer_of (match fst c with MustNot => q_weight sm (snd c) | _ => want sm (F * b)%Qc (snd c) end))).
  assert (Hg : forall c, In c cs -> fst c = Must -> match snd (g c) with Some _ => true | None => false end = has_scorer (snd c)) by (intros c Hc E; unfold g; rewrite E; apply IH; exact Hc).
  destruct (forallb (fun c : occur * rquery => match fst c with Must => has_scorer (snd c) | _ => true end) cs) eqn:Ef.
  - rewrite forallb_forall in Ef. rewrite add_all_ok; [reflexivity|]. intros c Hc E. apply in_map_iff in Hc. destruct Hc as (x & <- & Hx). change (fst (g x)) with (fst x) in E. specialize (Ef x Hx). rewrite E in Ef. specialize (Hg x Hx E). rewrite Ef in Hg. destruct (snd (g x)); [discriminate|discriminate].
  - assert (G : exists c, In c cs /\ fst c = Must /\ has_scorer (snd c) = false).
    { clear - Ef. induction cs as [|c cs IH]; [discriminate|]. cbn [forallb] in Ef. apply andb_false_iff in Ef. destruct Ef as [E|E]; [exists c; destruct (fst c); try discriminate; splits; [left; reflexivity|reflexivity|exact E]|]. destruct (IH E) as (x & H1 & H2). exists x. split; [right; exact H1|exact H2]. }
    destruct G as (c & Hc & E & Eh). rewrite add_all_none; [reflexivity|]. apply in_map_iff. exists c. split; [|exact Hc]. specialize (Hg c Hc E). rewrite Eh in Hg. unfold g in *. cbn [snd] in Hg. rewrite E in *. destruct (scorer_of _); [discriminate|reflexivity].
Qed.
Lemma freq_matches d l : existsb (fun p : Z * Z => fst p =? d) l = existsb (Z.eqb d) (map fst l).
Proof. induction l as [|x l IH]; [reflexivity|]. cbn [existsb map]. rewrite IH, Z.eqb_sym. reflexivity. Qed.
Definition soq (sm : sim) (F : Qc) (o : occur) (q : rquery) : option sc := scorer_of (match o with MustNot => q_weight sm q | _ => want sm F q end).
Lemma bool_worth sm F b nc cs x : bool_score sm rquery (soq sm (F * b)) (fun q d => matches d q) (worth sm (F * b)) (worth_of sm) nc cs x = worth sm F (RBool b nc cs) x.
Proof.
  unfold bool_score. cbn [worth]. set (f := (F * b)%Qc). unfold sums, plus, scored. cbn [fst snd vals].
  assert (E1 : forall cs, (Qcsum (map (fun c : occur * rquery => if occ_eqb (fst c) Must && matches x (snd c) then worth sm f (snd c) x else 0) cs) + Qcsum (map (fun c : occur * rquery => if occ_eqb (fst c) Should && matches x (snd c) then worth sm f (snd c) x else 0) cs))%Qc =
     Qcsum (map (fun c : occur * rquery => if asked c && matches x (snd c) then worth sm f (snd c) x else 0%Qc) cs)).
  { clear. induction cs as [|c cs IH]; [reflexivity|]. unfold Qcsum in *. cbn [map fold_right]. rewrite <- IH. unfold asked. destruct (fst c); cbn [occ_eqb andb]; destruct (matches x (snd c)); ring. }
  assert (E2 : forall (h : rquery -> bool) cs, (length (filter (fun c : occur * rquery => occ_eqb (fst c) Must && h (snd c)) cs) + length (filter (fun c : occur * rquery => occ_eqb (fst c) Should && h (snd c)) cs))%nat = length (filter (fun c => asked c && h (snd c)) cs)).
  { clear. intros h. induction cs as [|c cs IH]; [reflexivity|]. cbn [filter]. unfold asked at 1. destruct (fst c); cbn [occ_eqb andb]; destruct (h (snd c)); cbn [length]; lia. }
  rewrite E1. rewrite (E2 (matches x)).
  assert (E3 : forall o, o <> MustNot -> filter (fun c : occur * rquery => occ_eqb (fst c) o && match soq sm f o (snd c) with Some _ => true | None => false end) cs = filter (fun c : occur * rquery => occ_eqb (fst c) o && has_scorer (snd c)) cs).
  { intros o Ho. apply filter_ext. intros c. f_equal. unfold soq. destruct o; [apply scorer_some|apply scorer_some|congruence]. }
  rewrite !E3 by discriminate. rewrite E2. reflexivity.
Qed.
Lemma all_good sm B : forall q k F, leaves_ok q -> below B q -> tame k q = true -> good sm B k (scorer_of (want sm F q)) (fun d => matches d q) (worth sm F q).
Proof.
  induction q as [b i l|b nc cs IH] using rquery_ind2; intros k F HL HB HT.
  - cbn [leaves_ok below] in *. unfold good. destruct l as [[l|] nm|mx del|l]; cbn [want scorer_of matches leaf_matches leaf_ok leaf_below worth idf_of] in *.
    + destruct HL as (HS & H0). exists (map fst l). split; [|intros d; rewrite freq_matches; symmetry; apply mem_in]. apply beh_weak. eapply beh_ext; [apply term_beh; [exact HS|]|].
      * rewrite Forall_forall in *. intros p Hp. specialize (H0 p Hp). specialize (HB (fst p) (in_map fst _ _ Hp)). lia.
      * intros x Hx. cbn beta. f_equal. ring.
    + reflexivity.
    + destruct (all_beh sm B (1 * b * F * 1)%Qc mx del HB) as (l & HBl & Hin). exists l. split; [|intros d; rewrite Hin, !andb_true_iff, negb_true_iff, Z.leb_le, Z.ltb_lt; tauto]. apply beh_weak. eapply beh_ext; [exact HBl|]. intros x Hx. cbn beta. f_equal. ring.
    + destruct HL as (HS & H0). exists l. split; [|intros d; symmetry; apply mem_in]. apply beh_weak. eapply beh_ext; [apply bits_beh; [exact HS|]|].
      * rewrite Forall_forall in *. intros d Hd. split; [apply H0|apply HB]; exact Hd.
      * intros x Hx. cbn beta. f_equal. ring.
  - rewrite Forall_forall in IH. pose proof (leaves_bool b nc cs HL) as HLc. pose proof (below_bool B b nc cs HB) as HBc. cbn [tame] in HT. apply andb_true_iff in HT. destruct HT as (HT1 & HT2). rewrite forallb_forall in HT2.
    assert (ES : scorer_of (want sm F (RBool b nc cs)) = add_all nc (sc_of rquery (soq sm (F * b)) cs) [] [] []).
    { cbn [want scorer_of]. rewrite map_map. unfold sc_of. f_equal. }
    rewrite ES.
    assert (G : good sm B k (add_all nc (sc_of rquery (soq sm (F * b)) cs) [] [] []) (fun d => matches d (RBool b nc cs)) (bool_score sm rquery (soq sm (F * b)) (fun q d => matches d q) (worth sm (F * b)) (worth_of sm) nc cs)).
    { apply bool_good; [intros d; apply matches_bool|exact HT1| | |].
      - intros c Hc E. unfold soq. apply IH; auto. specialize (HT2 c Hc). rewrite E in HT2. exact HT2.
      - intros c Hc E. unfold soq. rewrite weight_is. unfold worth_of. apply IH; auto. specialize (HT2 c Hc). rewrite E in HT2. exact HT2.
      - intros c Hc E. unfold soq. apply IH; auto. specialize (HT2 c Hc). rewrite E in HT2. exact HT2. }
    unfold good in *. destruct (add_all _ _ _ _ _) as [s|]; [|exact G]. destruct G as (L & HBL & Hin). exists L. split; [|exact Hin]. eapply beh_ext; [exact HBL|]. intros x Hx. cbn beta. rewrite bool_worth. reflexivity.
Qed.
Lemma hits_ok sm B v bits : forall m L s cur k, (length L <= m)%nat -> Beh sm B (fun x => (v x, 0%nat)) k s cur L -> exists n, forall f, (n <= f)%nat -> hits sm f bits s = Some (map (fun d => (d, v d)) (filter bits L)).
Proof.
  assert (NIL : forall s cur k, Beh sm B (fun x => (v x, 0%nat)) k s cur [] -> exists n, forall f, (n <= f)%nat -> hits sm f bits s = Some []).
  { intros s cur k HB. destruct (beh_next _ _ _ _ _ _ _ HB) as (s' & (n1 & E1) & _). exists (S n1). intros [|f] Hf; [lia|]. cbn [hits]. rewrite (E1 f ltac:(lia)). reflexivity. }
  induction m as [|m IH]; intros L s cur k Hm HB; (destruct L as [|x r]; [eapply NIL; exact HB|]); [cbn [length] in Hm; lia|]. destruct (beh_next _ _ _ _ _ _ _ HB) as (s' & (n1 & E1) & Hs). cbn [length] in Hm. cbn [filter].
  destruct (Hs x r eq_refl) as (Hx & HB' & s2 & (n2 & E2) & Hx2 & HB2). destruct (bits x) eqn:Eb.
  - destruct (IH r s2 (Some x) k ltac:(lia) HB2) as (n3 & E3). exists (S (Nat.max n1 (Nat.max n2 n3))). intros [|f] Hf; [lia|]. cbn [hits]. rewrite (E1 f ltac:(lia)). cbn [obind nonnil fst snd]. rewrite Hx, Eb, (E2 f ltac:(lia)). cbn [obind fst snd]. rewrite (E3 f ltac:(lia)). reflexivity.
  - destruct (IH r s' (Some x) k ltac:(lia) HB') as (n3 & E3). exists (S (Nat.max n1 n3)). intros [|f] Hf; [lia|]. cbn [hits]. rewrite (E1 f ltac:(lia)). cbn [obind nonnil fst snd]. rewrite Hx, Eb. apply E3. lia.
Qed.
Theorem query_hits sm q bits : leaves_ok q -> tame false q = true ->
  match scorer_of (q_weight sm q) with
  | None => forall d, matches d q = false
  | Some s => exists l, StronglySorted Z.lt l /\ (forall d, In d l <-> matches d q = true /\ bits d = true) /\
      exists n, forall f, (n <= f)%nat -> hits sm f bits s = Some (map (fun d => (d, worth_of sm q d)) l)
  end.
Proof.
  intros HL HT. destruct (below_some q 0) as (B & _ & HQ). rewrite weight_is. pose proof (all_good sm B q false (query_norm sm (squares q)) HL HQ HT) as G. unfold good in G. destruct (scorer_of _) as [s|]; [|exact G]. destruct G as (L & HB & Hin). exists (filter bits L). splits; [apply filter_SS, (beh_facts _ _ _ _ _ _ _ HB)|intros d; rewrite filter_In, Hin; reflexivity|]. apply (hits_ok sm B (worth_of sm q) bits _ L s None false (le_n _) HB).
Qed.
