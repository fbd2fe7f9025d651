(* From the query string to the documents. *)
From Coq Require Import Sorting.Sorted Sorting.Permutation.
From Verif Require Import Util Codec_Model Strcmp Codec_Spec Seg_Model Seg_Spec Dict_Model Dict_Spec Token_Model Post_Model Post_Spec Multi_Model Mte_Model Mtde_Model Mtde_Spec Expand_Model Expand_Spec Expand_Proofs Fuzzy_Model Fuzzy_Spec Fuzzy_Proofs Range_Model Range_Spec Merge_Model Merge_Spec Fields_Model Fields_Spec Invert_Model Invert_Spec Iw_Model Iw_Spec IwRun_Proofs Tsc_Model Tsc_Spec Tpe_Model Tpe_Spec Find_Model Find_Spec FindTop_Proofs Query_Model Leaf_Model Bool_Model Look_Model Look_Spec LookTerms_Proofs LookKept_Proofs LookTop_Proofs.
From Verif Require Import QpLex_Model QpAct_Model Qp_Spec QpAst_Spec QpMean_Spec QpTop_Proofs Ask_Model Ask_Spec Ask_Proofs AskPhrase_Proofs AskTop_Proofs AskCalm_Proofs.
Open Scope Z_scope.

Lemma add_any max min ts : (1 <= max)%nat -> min < Expand_Model.one -> forall q done, QB max min q done -> exists q', add_terms q ts = Some q' /\ QB max min q' (done ++ map (fun t => (t, Expand_Model.one)) (filter nonempty ts)).
Proof.
  intros Hm Hmin. induction ts as [|t ts IH]; intros q done HQ; cbn [add_terms map filter]; [exists q; rewrite app_nil_r; auto|]. unfold Expand_Model.add_term. destruct (addb_ok max min Hm q done t Expand_Model.one HQ) as (q1 & E1 & H1). rewrite E1. cbn [obind]. rewrite (proj2 (Z.ltb_lt _ _) Hmin) in H1.
  destruct (IH q1 _ H1) as (q' & E2 & H2). exists q'. split; [exact E2|]. rewrite <- app_assoc in H2. destruct (nonempty t); exact H2.
Qed.
Lemma filter_le {A} (g : A -> bool) l : (length (filter g l) <= length l)%nat.
Proof. induction l as [|a l IH]; cbn [filter length]; [lia|]. destruct (g a); cbn [length]; lia. Qed.
Lemma words_ok ts m : add_terms (mtq_new (Nat.max 2 (length ts)) 0) ts = Some m -> query_terms m <> None /\ forall t, In t (words m) <-> t <> [] /\ In t ts.
Proof.
  intros E. destruct (add_any (Nat.max 2 (length ts)) 0 ts ltac:(lia) ltac:(reflexivity) _ _ (QB_new (Nat.max 2 (length ts)) 0 ltac:(lia))) as (m' & E' & HQ). rewrite E in E'. apply some_inj in E'. subst m'. cbn [app] in HQ.
  destruct (query_terms_b _ _ _ _ HQ) as (l & El & Pl); [rewrite map_length; pose proof (filter_le nonempty ts); lia|]. split; [congruence|]. unfold words. rewrite El. rewrite map_map in Pl. cbn [fst] in Pl. rewrite map_id in Pl. intros t.
  transitivity (In t (filter nonempty ts)); [split; intros G; [eapply Permutation_in; eauto|eapply Permutation_in; [apply Permutation_sym|]; eauto]|]. rewrite filter_In. destruct t; cbn [nonempty]; split; intros (G1 & G2); try discriminate; [congruence|split; [discriminate|exact G1]|split; [exact G2|reflexivity]].
Qed.
Section LINK.
  Variable sim : fscore -> Z.
  Variable pl : nat.
  Variable has : list Z -> (list Z -> Prop) -> Prop.
  Variable phrase : list Z -> Z -> list (Z * list (list Z)) -> Prop.
  Hypothesis has_ext : forall f P Q, (forall t, P t <-> Q t) -> has f P <-> has f Q.
  Fixpoint link (q : qry) : forall u, to_uq pl q = Some u -> sat sim has phrase u <-> qsat has phrase (alike sim pl) q.
  Proof.
    destruct q as [b n]. intros u E. change (node_uq pl n = Some u) in E. change (qsat has phrase (alike sim pl) (Q b n)) with (nsat has phrase (alike sim pl) n).
    destruct n as [f t|f s ps|f t mn mx|f p mx|f p mx| |typed f x y il iu|f ts|cd mx cs].
    - apply some_inj in E. subst u. reflexivity.
    - apply some_inj in E. subst u. reflexivity.
    - apply some_inj in E. subst u. reflexivity.
    - apply some_inj in E. subst u. reflexivity.
    - apply some_inj in E. subst u. reflexivity.
    - apply some_inj in E. subst u. reflexivity.
    - cbn [node_uq] in E. destruct typed; [discriminate|]. apply some_inj in E. subst u. cbn [sat nsat]. tauto.
    - cbn [node_uq] in E. destruct (add_terms _ ts) as [m|] eqn:Em; [|discriminate]. apply some_inj in E. subst u. cbn [sat nsat]. apply has_ext. apply words_ok; exact Em.
    - cbn [node_uq] in E. set (go := fix go (l : list (occ * qry)) := _) in E. destruct (go cs) as [l|] eqn:El; [|discriminate]. apply some_inj in E. subst u. cbn [sat nsat]. apply comb_ext.
      revert l El. induction cs as [|(o, c) cs IH]; intros l El.
      + apply some_inj in El. subst l. constructor.
      + change (obind (to_uq pl c) (fun u => obind (go cs) (fun t => Some ((occur_uq o, u) :: t))) = Some l) in El. destruct (to_uq pl c) as [v|] eqn:Ev; [|discriminate]. cbn [obind] in El. destruct (go cs) as [r|] eqn:Er; [|discriminate]. cbn [obind] in El. apply some_inj in El. subst l.
        cbn [map fst snd]. constructor; [|apply IH; reflexivity]. cbn [fst snd]. split; [destruct o; reflexivity|]. apply link; assumption.
  Qed.
End LINK.

(* ---------- the parser *)
Lemma answers_one cf p s a p' b p2 : QpMean_Spec.answers cf p s a p' -> QpMean_Spec.answers cf p s b p2 -> a = b.
Proof. intros (k & H) (k2 & H2). specialize (H k2). specialize (H2 k). rewrite Nat.add_comm in H2. rewrite H in H2. apply some_inj in H2. congruence. Qed.
Lemma read cf s q : moderate cf s -> parsed_to cf s q -> (exists t, writes cf s t) /\ forall t, writes cf s t -> exists o, value cf s t = EOk o /\ q = query_of o.
Proof.
  intros HM (p & p' & HR & HA & HL).
  assert (G : forall t o, writes cf s t -> value cf s t = EOk o -> q = query_of o -> (exists t, writes cf s t) /\ forall t, writes cf s t -> exists o, value cf s t = EOk o /\ q = query_of o).
  { intros t o W V E. split; [exists t; exact W|]. intros t' W'. exists o. split; [|exact E]. rewrite <- V. destruct W as (W1 & W2), W' as (W1' & W2'). unfold value. apply one_meaning; auto. congruence. }
  destruct HL as [HL|(t & q' & W & V)].
  - destruct (proj1 (strict_mean cf p s HR HM HL q) (ex_intro _ p' HA)) as (t & o & W & V & E). exact (G t o W V E).
  - destruct (q_handle cf) eqn:EH.
    + destruct (lenient_mean cf p s HR HM EH t q' W V) as (p2 & A2). pose proof (answers_one _ _ _ _ _ _ _ HA A2) as E. injection E as ->. exact (G t (Some q') W V eq_refl).
    + destruct (proj1 (strict_mean cf p s HR HM EH q) (ex_intro _ p' HA)) as (t2 & o2 & W2 & V2 & E2). exact (G t2 o2 W2 V2 E2).
Qed.
Lemma means cf s q : settled cf -> moderate cf s -> parsed_to cf s q -> (exists t, writes cf s t) /\
  forall t, writes cf s t -> forall has hasp near, extensional has -> (qsat has hasp near q <-> top_says cf has hasp near t).
Proof.
  intros [H1 H2 H3 H4] HM HP. destruct (read cf s q HM HP) as (HE & H). split; [exact HE|]. intros t W has hasp near HX. destruct (H t W) as (o & V & ->). unfold value in V. exact (top_ok cf _ has hasp near HX H1 H2 H3 H4 t o V).
Qed.
Lemma doc_ext ana max F x : extensional (doc_has ana max F x).
Proof. intros f P Q H. unfold doc_has. destruct (fis_get F f) as [(n, fi)|]; [|reflexivity]. unfold doc_with. split; intros (o & G1 & G2); exists o; split; auto; apply H; exact G2. Qed.
Lemma found_asked cf pl ana max F sim slots s q u L : settled cf -> moderate cf s -> parsed_to cf s q -> to_uq pl q = Some u -> asked ana max F sim slots u L -> found cf pl ana max F sim slots s L.
Proof.
  intros HS HM HP HU (A1 & A2). destruct (means cf s q HS HM HP) as (HE & H). split; [exact A1|]. split; [exact HE|]. intros t W d. rewrite A2. split; intros (k & x & E & N & G); exists k, x; (split; [exact E|]); (split; [exact N|]).
  - apply (H t W _ _ _ (doc_ext ana max F x)). eapply link; [apply doc_ext|exact HU|exact G].
  - apply (H t W _ _ _ (doc_ext ana max F x)) in G. eapply link; [apply doc_ext|exact HU|exact G].
Qed.
Section FOUND.
  Variables (cf : qconf) (pl : nat) (ana : list Z -> list Z -> list token) (max : Z) (F : field_infos) (calc : Z -> Z -> Z) (sim : fscore -> Z).
  (* a string that the parser made into a query as the searcher takes it *)
  Definition ready_for os slots (x : list Z * uq) : Prop := exists q, moderate cf (fst x) /\ parsed_to cf (fst x) q /\ to_uq pl q = Some (snd x) /\ LookTop_Proofs.fine ana max F calc sim os slots (snd x).
  Lemma all_found slots os xs Ls : settled cf -> Forall (ready_for os slots) xs -> Forall2 (asked ana max F sim slots) (map snd xs) Ls -> Forall2 (found cf pl ana max F sim slots) (map fst xs) Ls.
  Proof.
    intros HS HX. revert Ls. induction HX as [|x xs (q & H1 & H2 & H3 & H4) HX IH]; intros Ls HF; inversion HF; subst; constructor; [|apply IH; assumption]. eapply found_asked; eauto.
  Qed.
End FOUND.
Lemma found_after ana norm zip unzip fuel cfg buf0 fis m os calc sim srt cf pl : let F := fis_of fis (added os) in let max := c_field_length cfg in settled cf ->
  qs_ok srt -> config_ok cfg buf0 (length (added os)) -> (3 <= c_skip cfg)%nat -> codec zip unzip -> log_fits ana max zip (c_interval cfg) F (added os) -> (1 <= m)%nat -> max_ok m None os ->
  exists s slots, iw_run ana norm zip (S fuel) cfg buf0 (iw_open fis [] m) os = Some s /\ somes slots = v_docs (view ana cfg fis m os) /\
    forall xs, Forall (ready_for cf pl ana max F calc sim os slots) xs -> exists n, forall fu, (n <= fu)%nat -> forall t, tir_used (reader_of (y_segs s)) t ->
      exists Ls, (exists n2, forall fv, (n2 <= fv)%nat -> looksw calc sim srt s fu fv (map snd xs) t = Some Ls) /\ Forall2 (found cf pl ana max F sim slots) (map fst xs) Ls.
Proof.
  intros F max HS Hq Hc Hk Hz Hl Hm Ho. destruct (sessions_after ana norm zip unzip fuel cfg buf0 fis m os calc sim srt Hq Hc Hk Hz Hl Hm Ho) as (s & slots & E1 & E2 & _ & G). exists s, slots. split; [exact E1|]. split; [exact E2|]. intros xs HX.
  destruct (G (map snd xs)) as (n & Hn). { clear -HX. induction HX as [|x xs (q & _ & _ & _ & H) HX IH]; constructor; assumption. }
  exists n. intros fu Hfu t Ht. destruct (Hn fu Hfu t Ht) as (Ls & L1 & L2). exists Ls. split; [exact L1|]. eapply all_found; eauto.
Qed.
Lemma found_committed ana norm zip unzip fuel cfg buf0 fis m os calc sim srt cf pl : let F := fis_of fis (added os) in let max := c_field_length cfg in settled cf ->
  qs_ok srt -> config_ok cfg buf0 (length (added os)) -> (3 <= c_skip cfg)%nat -> codec zip unzip -> log_fits ana max zip (c_interval cfg) F (added os) -> (1 <= m)%nat -> max_ok m None os ->
  exists s slots, iw_run ana norm zip (S fuel) cfg buf0 (iw_open fis [] m) (os ++ [WCommit]) = Some s /\ somes slots = log ana max F os /\
    forall xs, Forall (ready_for cf pl ana max F calc sim os slots) xs -> exists n, forall fu, (n <= fu)%nat -> forall t, tir_used (reader_of (y_segs s)) t ->
      exists Ls, (exists n2, forall fv, (n2 <= fv)%nat -> looksw calc sim srt s fu fv (map snd xs) t = Some Ls) /\ Forall2 (found cf pl ana max F sim slots) (map fst xs) Ls.
Proof.
  intros F max HS Hq Hc Hk Hz Hl Hm Ho. destruct (sessions_committed ana norm zip unzip fuel cfg buf0 fis m os calc sim srt Hq Hc Hk Hz Hl Hm Ho) as (s & slots & E1 & E2 & _ & G). exists s, slots. split; [exact E1|]. split; [exact E2|]. intros xs HX.
  destruct (G (map snd xs)) as (n & Hn). { clear -HX. induction HX as [|x xs (q & _ & _ & _ & H) HX IH]; constructor; assumption. }
  exists n. intros fu Hfu t Ht. destruct (Hn fu Hfu t Ht) as (Ls & L1 & L2). exists Ls. split; [exact L1|]. eapply all_found; eauto.
Qed.
Lemma flat_is_calm cf pl s q t u : moderate cf s -> parsed_to cf s q -> writes cf s t -> flat_top t = true -> to_uq pl q = Some u -> calm false u = true.
Proof. intros HM HP W HF HU. destruct (read cf s q HM HP) as (_ & H). destruct (H t W) as (o & V & ->). unfold value in V. eapply flat_calm; eauto. Qed.
