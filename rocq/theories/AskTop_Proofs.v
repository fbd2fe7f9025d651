(* The query that the parser builds asks for what the string says. *)
From Verif Require Import Util Strcmp Token_Model Query_Model Expand_Model Expand_Spec Expand_Proofs Range_Model Range_Spec Look_Spec LookKept_Proofs QpLex_Model QpAct_Model Qp_Spec QpAst_Spec QpMean_Spec Ask_Spec Ask_Proofs AskPhrase_Proofs.
Open Scope Z_scope.
Notation occur := Query_Model.occur.

Lemma not_star {X} (p : list Z) (a b : X) : p <> [42] -> match p with [42] => a | _ => b end = b.
Proof.
  intros N. destruct p as [|c [|c2 p]]; [reflexivity| |].
  - destruct c as [|c|c]; [reflexivity| |reflexivity]. do 6 (destruct c as [c|c|]; try reflexivity). destruct N. reflexivity.
  - destruct c as [|c|c]; [reflexivity| |reflexivity]. do 6 (destruct c as [c|c|]; try reflexivity).
Qed.
Section TOP.
  Variable cf : qconf.
  Variable cap : nat.
  Variable has : list Z -> (list Z -> Prop) -> Prop.
  Variable hasp : list Z -> Z -> list (Z * list (list Z)) -> Prop.
  Variable near : Z -> list Z -> list Z -> Prop.
  Hypothesis has_ext : forall f P Q, (forall t, P t <-> Q t) -> has f P <-> has f Q.
  Hypothesis Htok : q_tok cf <> None.
  Hypothesis Hfirst : forall f w t r, tokens_in cf f w = t :: r -> t_inc t <> 0.
  Hypothesis Hidem : forall w, q_lower cf (q_lower cf w) = q_lower cf w.
  Hypothesis Htyped : q_typed cf = false.
  Notation qsat := (qsat has hasp near).
  Definition agree (o : option qry) (m : option Prop) : Prop := match o, m with Some q, Some P => qsat q <-> P | None, None => True | _, _ => False end.

  (* ---------- several fields *)
  Lemma comb_should (ms : list (occur * Prop)) : (forall m, In m ms -> fst m = Query_Model.Should) -> comb ms <-> exists m, In m ms /\ snd m.
  Proof.
    intros H. unfold comb. split.
    - intros (_ & _ & [(m & Hm & E)|[(m & Hm & _ & G)|(N & Hn)]]); [rewrite (H m Hm) in E; discriminate|eauto|]. destruct ms as [|m ms]; [congruence|]. specialize (Hn m (or_introl eq_refl)). rewrite (H m (or_introl eq_refl)) in Hn. discriminate.
    - intros (m & Hm & G). splits; [intros x Hx E; rewrite (H x Hx) in E; discriminate|intros x Hx E; rewrite (H x Hx) in E; discriminate|]. right. left. eauto.
  Qed.
  Section FLDS.
    Context {A B : Type}.
    Variable func : list Z -> A -> gres A.
    Variable st : list Z -> B -> option Prop * B.
    Variable R : A -> B -> Prop.
    Hypothesis step : forall f a b q a', R a b -> func f a = GOk q a' -> agree q (fst (st f b)) /\ R a' (snd (st f b)).
    Fixpoint spl (fs : list (list Z)) (b : B) : list (option Prop) := match fs with [] => [] | f :: r => fst (st f b) :: spl r (snd (st f b)) end.
    Definition shoulds (cs : list (occ * qry)) (Ps : list Prop) : Prop := Forall2 (fun (c : occ * qry) P => fst c = QpAct_Model.Should /\ (qsat (snd c) <-> P)) cs Ps.
    Lemma shoulds_ok cd mx cs Ps : shoulds cs Ps -> qsat (q_new (NBool cd mx cs)) <-> exists P, In P Ps /\ P.
    Proof.
      intros H. cbn [q_new Ask_Spec.qsat nsat]. rewrite comb_should.
      - split.
        + intros (m & Hm & G). apply in_map_iff in Hm. destruct Hm as (c & <- & Hc). cbn [snd] in G. clear -H Hc G. induction H as [|x P cs Ps (E & HH) HF IH]; [destruct Hc|]. destruct Hc as [<-|Hc]; [exists P; split; [left; reflexivity|apply HH; exact G]|]. destruct (IH Hc) as (P' & H1 & H2). exists P'. split; [right; exact H1|exact H2].
        + intros (P & HP & G). clear -H HP G. induction H as [|x Q cs Ps (E & HH) HF IH]; [destruct HP|]. destruct HP as [<-|HP]; [exists (occur_of (fst x), qsat (snd x)); split; [left; reflexivity|apply HH; exact G]|]. destruct (IH HP) as (m & H1 & H2). exists m. split; [right; exact H1|exact H2].
      - intros m Hm. apply in_map_iff in Hm. destruct Hm as (c & <- & Hc). cbn [fst]. clear -H Hc. induction H as [|x P cs Ps (E & HH) HF IH]; [destruct Hc|]. destruct Hc as [<-|Hc]; [rewrite E; reflexivity|auto].
    Qed.
    Lemma more_ok : forall fs a b cs Ps o, R a b -> shoulds cs Ps -> flds_more cf func fs a cs = FOk o ->
      match Ps ++ heard (spl fs b) with [] => o = None | Qs => exists q, o = Some q /\ (qsat q <-> exists P, In P Qs /\ P) end.
    Proof.
      induction fs as [|f fs IH]; intros a b cs Ps o HR HS E; cbn [flds_more spl] in *.
      - cbn [heard flat_map]. rewrite app_nil_r. injection E as <-. destruct HS as [|x P cs Ps Hx HS]; [reflexivity|]. eexists. split; [reflexivity|]. apply shoulds_ok. constructor; assumption.
      - destruct (func f a) as [q a'| |] eqn:Ef; try discriminate. destruct (step f a b q a' HR Ef) as (HA & HR'). destruct (st f b) as (m, b'). cbn [fst snd] in *. destruct q as [q|], m as [P|]; cbn [agree] in HA; try tauto.
        + destruct (q_max cf <=? Z.of_nat (length cs)); [discriminate|]. specialize (IH a' b' (cs ++ [(QpAct_Model.Should, q)]) (Ps ++ [P]) o HR'). rewrite <- app_assoc in IH. apply IH; [|exact E]. apply Forall2_app; [exact HS|]. constructor; [split; [reflexivity|exact HA]|constructor].
        + eapply IH; eauto.
    Qed.
    Lemma flds_ok fs a b o : R a b -> flds cf func (Some fs) a = FOk o -> agree o (any (spl fs b)).
    Proof.
      intros HR E. unfold any. destruct fs as [|f [|f2 fs]]; cbn [flds] in E.
      - injection E as <-. exact Logic.I.
      - destruct (func f a) as [q a'| |] eqn:Ef; try discriminate. injection E as <-. destruct (step f a b q a' HR Ef) as (HA & _). cbn [spl]. destruct (fst (st f b)) as [P|]; cbn [heard flat_map app]; destruct q as [q|]; cbn [agree] in *; try tauto. rewrite HA. split; [intros HP; exists P; split; [left; reflexivity|exact HP]|intros (P' & [<-|[]] & HP); exact HP].
      - pose proof (more_ok (f :: f2 :: fs) a b [] [] o HR (Forall2_nil _) E) as G. cbn [app] in G. destruct (heard (spl (f :: f2 :: fs) b)); [subst o; exact Logic.I|]. destruct G as (q & -> & G). exact G.
    Qed.
  End FLDS.
  Lemma spl_map {B} (g : list Z -> option Prop) fs : forall b : B, spl (fun f b => (g f, b)) fs b = map g fs.
  Proof. induction fs as [|f fs IH]; intros b; [reflexivity|]. cbn [spl fst snd map]. rewrite IH. reflexivity. Qed.

  (* ---------- words *)
  Lemma term_ok f x q : get_term_q cf f x = Some q -> agree q (term_says cf has hasp x f).
  Proof.
    unfold get_term_q, term_says. rewrite get_ts_ok by exact Htok. cbn [obind]. destruct (tokens_in cf f x) as [|t [|t2 ts]]; intros E; apply some_inj in E; subst q; cbn [agree]; [exact Logic.I|reflexivity|]. cbv zeta. cbn [q_new Ask_Spec.qsat nsat].
    change (phq_add_term [] (t_text t) 0) with (group [(0, t_text t)]). rewrite term_rest_ok by discriminate. cbn [fst snd]. change (lastp [(0, t_text t)]) with 0. cbn [spots]. change ((0, t_text t) :: behind 0 (t2 :: ts)) with ([(0, t_text t)] ++ behind (lastp [(0, t_text t)]) (t2 :: ts)). rewrite group_incs by discriminate. cbn [group length]. change (lastp [(0, t_text t)]) with 0.
    replace (Z.of_nat 1 + incs (t2 :: ts) - 1) with (0 + incs (t2 :: ts)) by lia. reflexivity.
  Qed.
  Lemma fuzzy_ok f x y q : get_fuzzy_q cf f x y = Some q -> agree q (fuzzy_says cf has near x y f).
  Proof.
    unfold get_fuzzy_q, fuzzy_says. rewrite get_ts_ok by exact Htok. cbn [obind]. destruct (tokens_in cf f x) as [|t ts]; intros E; apply some_inj in E; subst q; cbn [agree]; [exact Logic.I|]. cbv zeta. cbn [q_new Ask_Spec.qsat nsat]. unfold similarity. destruct y as [s|]; [destruct (q_scanf cf s)|]; reflexivity.
  Qed.
  Lemma one_ok (g : list Z -> option (option qry)) (h : list Z -> option Prop) fs o : (forall f q, g f = Some q -> agree q (h f)) -> over cf (one_by_one g) fs tt = EOk o -> agree o (any (map h fs)).
  Proof.
    intros H E. unfold over in E. destruct (flds cf (one_by_one g) (Some fs) tt) as [q| |] eqn:Ef; try discriminate. injection E as <-. rewrite <- (spl_map h fs tt). eapply flds_ok with (R := fun _ _ => True); [|exact Logic.I|exact Ef]. intros f a b q' a' _ Eg. unfold one_by_one in Eg. destruct (g f) as [q2|] eqn:Egf; [|discriminate]. injection Eg as <- <-. split; [apply H; exact Egf|exact Logic.I].
  Qed.
  (* ---------- lower case *)
  Lemma lower_ok f b x p : lower_for cf cap f (in_case cf b x) = Some p -> p = in_case cf (b || lowers cf f) x.
  Proof.
    unfold lower_for, in_case. destruct (lowers cf f); rewrite ?orb_true_r, ?orb_false_r; [|congruence]. unfold lower_str. destruct (((length (if b then q_lower cf x else x) <=? 253) || (255 <=? length (if b then q_lower cf x else x)) && (length (if b then q_lower cf x else x) <? cap))%nat); [|discriminate]. intros E. apply some_inj in E. subst p. destruct b; [apply Hidem|reflexivity].
  Qed.
  Lemma cased_map (g : list Z -> bool -> option Prop) fs : forall b, spl (fun f b => (g f (b || lowers cf f), b || lowers cf f)) fs b = map (fun p : list Z * bool => g (fst p) (snd p)) (cased cf b fs).
  Proof. induction fs as [|f fs IH]; intros b; [reflexivity|]. cbn [spl fst snd cased map]. rewrite IH. reflexivity. Qed.
  Lemma last_star : forall p, last p 0 = 42 -> exists r, p = r ++ [42] /\ removelast p = r.
  Proof. intros p E. destruct (snoc_dec p) as [->|(r & x & ->)]; [discriminate|]. rewrite last_last in E. subst x. exists r. split; [reflexivity|apply removelast_last]. Qed.
  Lemma star_glob : forall u, glob [42] u.
  Proof. intros u. rewrite <- (app_nil_r u). apply (G_star u [] []). constructor. Qed.
  Lemma wild_ok f b x q a' : get_wild_q cf cap f (in_case cf b x) = GOk q a' -> agree q (Some (wild_says has (in_case cf (b || lowers cf f) x) f)) /\ a' = in_case cf (b || lowers cf f) x.
  Proof.
    unfold get_wild_q. destruct (lower_for cf cap f (in_case cf b x)) as [p|] eqn:El; [|discriminate]. apply lower_ok in El. rewrite <- El. clear El. intros E. injection E as <- <-. split; [|reflexivity]. cbn [agree]. unfold wild_says.
    assert (G : seqb p [42] = false -> qsat (if (last p 0 =? 42) && negb (existsb wildc (removelast p)) then q_new (NPrefix f (removelast p) (q_max cf)) else q_new (NWild f p (q_max cf))) <-> has f (glob p)).
    { intros _. destruct ((last p 0 =? 42) && negb (existsb wildc (removelast p))) eqn:Ec; [|reflexivity]. apply andb_true_iff in Ec. destruct Ec as (E1 & E2). apply Z.eqb_eq in E1. destruct (last_star p E1) as (r & -> & Er). rewrite Er in *. cbn [q_new Ask_Spec.qsat nsat]. apply has_ext. intros t.
      rewrite glob_pre.
      - split; [intros (u & ->); exists u; split; [reflexivity|apply star_glob]|intros (u & -> & _); eauto].
      - apply Forall_forall. intros c Hc. apply negb_true_iff in E2. assert (Hw : wildc c = false) by (destruct (wildc c) eqn:W; [|reflexivity]; rewrite <- E2; symmetry; apply existsb_exists; eauto). unfold wildc in Hw. apply orb_false_iff in Hw. destruct Hw as (W1 & W2). apply Z.eqb_neq in W1, W2. split; unfold WILD_CHAR, WILD_STRING; lia. }
    destruct (seqb p [42]) eqn:Ep.
    - apply seqb_spec in Ep. subst p. cbn. tauto.
    - rewrite not_star by (intros ->; discriminate Ep). apply G. reflexivity.
  Qed.

  (* ---------- ranges *)
  Lemma above_ok il x t : above il x t <-> if il then sle x t else slt x t.
  Proof.
    unfold above. destruct il; [rewrite sle_lteq|]; split; intros H; [destruct H as [H|(_ & H)]; auto|destruct H as [H|H]; auto| |left; exact H].
    destruct H as [H|(C & _)]; [exact H|discriminate].
  Qed.
  Lemma below_ok iu x t : below iu x t <-> if iu then sle t x else slt t x.
  Proof.
    unfold below. destruct iu; [rewrite sle_lteq|]; split; intros H; [destruct H as [H|(_ & H)]; auto|destruct H as [H|H]; auto| |left; exact H].
    destruct H as [H|(C & _)]; [exact H|discriminate].
  Qed.
  Lemma lower_opt_ok f b x p : lower_opt cf cap f (option_map (in_case cf b) x) = Some p -> p = option_map (in_case cf (b || lowers cf f)) x.
  Proof. destruct x as [x|]; cbn [option_map lower_opt]; [|congruence]. destruct (lower_for cf cap f (in_case cf b x)) as [v|] eqn:E; [|discriminate]. cbn [obind]. intros G. apply some_inj in G. subst p. f_equal. apply lower_ok. exact E. Qed.
  Definition bounds (r : QpAst_Spec.range) : option (list Z) * option (list Z) * (bool * bool) :=
    match r with
    | RBoth il iu x y => (Some x, Some y, (il, iu)) | RFrom il x => (Some x, None, (il, false)) | RUpTo iu x => (None, Some x, (false, iu))
    | RLess x => (None, Some x, (false, false)) | RLessEq x => (None, Some x, (false, true)) | RMore x => (Some x, None, (false, false)) | RMoreEq x => (Some x, None, (true, false))
    end.
  Lemma bounds_ok r c t : within c r t <-> in_range (mkRange (option_map c (fst (fst (bounds r)))) (option_map c (snd (fst (bounds r)))) (fst (snd (bounds r))) (snd (snd (bounds r)))) t.
  Proof.
    unfold in_range. destruct r as [il iu x y|il x|iu x|x|x|x|x]; cbn [bounds fst snd within option_map r_lower r_upper r_incl r_incu]; rewrite ?above_ok, ?below_ok; tauto.
  Qed.
  Lemma range_ok fs r o : e_range cf cap fs r = EOk o -> agree o (any (map (fun p : list Z * bool => Some (has (fst p) (within (in_case cf (snd p)) r))) (cased cf false fs))).
  Proof.
    intros E. assert (E' : over cf (get_r_q cf cap (fst (snd (bounds r))) (snd (snd (bounds r)))) fs (fst (bounds r)) = EOk o) by (destruct r; exact E). clear E. rename E' into E.
    unfold over in E. destruct (flds cf _ (Some fs) (fst (bounds r))) as [q| |] eqn:Ef; try discriminate. injection E as <-. rewrite <- (cased_map (fun f b => Some (has f (within (in_case cf b) r))) fs false).
    eapply flds_ok with (R := fun a b => a = (option_map (in_case cf b) (fst (fst (bounds r))), option_map (in_case cf b) (snd (fst (bounds r))))); [| |exact Ef].
    - intros f a b q' a' -> Eg. unfold get_r_q in Eg. cbn [fst snd] in *. destruct (lower_opt cf cap f (option_map (in_case cf b) (fst (fst (bounds r))))) as [x|] eqn:E1; [|discriminate]. destruct (lower_opt cf cap f (option_map (in_case cf b) (snd (fst (bounds r))))) as [y|] eqn:E2; [|discriminate].
      apply lower_opt_ok in E1, E2. subst x y. destruct (reversed cf _ _); [discriminate|]. injection Eg as <- <-. split; [|reflexivity]. cbn [agree q_new Ask_Spec.qsat nsat]. rewrite Htyped. rewrite (has_ext f _ _ (bounds_ok r (in_case cf (b || lowers cf f)))). tauto.
    - destruct (fst (bounds r)) as ([x|], [y|]); reflexivity.
  Qed.
  Lemma wilds_ok fs x o : over cf (get_wild_q cf cap) fs x = EOk o -> agree o (any (map (fun p : list Z * bool => Some (wild_says has (in_case cf (snd p) x) (fst p))) (cased cf false fs))).
  Proof.
    intros E. unfold over in E. destruct (flds cf _ (Some fs) x) as [q| |] eqn:Ef; try discriminate. injection E as <-. rewrite <- (cased_map (fun f b => Some (wild_says has (in_case cf b x) f)) fs false).
    eapply flds_ok with (R := fun a b => a = in_case cf b x); [|reflexivity|exact Ef]. intros f a b q' a' -> Eg. apply wild_ok in Eg. exact Eg.
  Qed.

  (* ---------- phrases *)
  Definition or_none (o : option (list Z)) : list Z := match o with Some t => t | None => [] end.
  Lemma first_tokens_ok f : forall ws, exists l, first_tokens cf f ws = Some (map or_none (firsts cf f ws), length (heard (firsts cf f ws)), l) /\ forall t, heard (firsts cf f ws) = [t] -> l = t.
  Proof.
    induction ws as [|w ws (l & E & IH)]; [exists []; split; [reflexivity|discriminate]|]. cbn [first_tokens]. rewrite get_ts_ok by exact Htok. cbn [obind]. rewrite E. cbn [obind]. change (firsts cf f (w :: ws)) with (option_map t_text (hd_error (tokens_in cf f w)) :: firsts cf f ws). destruct (tokens_in cf f w) as [|t r]; cbn [hd_error option_map or_none map heard flat_map app length].
    - exists l. split; [reflexivity|exact IH].
    - eexists. split; [reflexivity|]. intros t' Et. change (t_text t :: heard (firsts cf f ws) = [t']) in Et. apply list_cons_eq in Et. destruct Et as (E1 & E2). rewrite E2. exact E1.
  Qed.
  Lemma alts_ok2 (given : option (list Z)) f a i ws q a' : ph_pos a = [(i, ws)] -> (forall w, ws <> [w]) -> get_phrase_query cf given f a = GOk q a' ->
    agree q (Some (one_of has f (heard (firsts cf f ws)))) /\ ph_pos a' = [(i, map or_none (firsts cf f ws))].
  Proof.
    intros Ea Nw. unfold get_phrase_query. rewrite Ea. destruct (first_tokens_ok f ws) as (l & E & Hl). rewrite E.
    assert (G : GOk (Some (match length (heard (firsts cf f ws)) with O => bq_new [] | S O => q_new (NTerm f l) | _ => q_new (NMulti f (filter (fun v => negb (match v with [] => true | _ => false end)) (map or_none (firsts cf f ws)))) end)) (mkPh [(i, map or_none (firsts cf f ws))] (ph_inc a)) = GOk q a' ->
      agree q (Some (one_of has f (heard (firsts cf f ws)))) /\ ph_pos a' = [(i, map or_none (firsts cf f ws))]).
    { intros G. injection G as <- <-. split; [|reflexivity]. cbn [agree].
      assert (HF : forall t, t <> [] -> In t (map or_none (firsts cf f ws)) <-> In t (heard (firsts cf f ws))).
      { intros t Nt. clear -Nt. induction (firsts cf f ws) as [|o l IH]; [reflexivity|]. cbn [map heard flat_map In]. rewrite in_app_iff. destruct o as [x|]; cbn [or_none In]; [tauto|]. split; [intros [C|C]; [congruence|right; tauto]|intros [[]|C]; right; tauto]. }
      destruct (heard (firsts cf f ws)) as [|t [|t2 ts]] eqn:Eh; cbn [length one_of].
      - unfold bq_new. cbn [q_new Ask_Spec.qsat nsat map]. unfold comb. split; [|intros []]. intros (_ & _ & [(m & [] & _)|[(m & [] & _)|(N & _)]]). congruence.
      - rewrite (Hl t eq_refl). reflexivity.
      - cbn [q_new Ask_Spec.qsat nsat]. apply has_ext. intros x. rewrite filter_In. split.
        + intros (N & H & _). split; [exact N|]. apply HF; assumption.
        + intros (N & H). split; [exact N|]. split; [apply HF; assumption|]. destruct x; [congruence|reflexivity]. }
    destruct ws as [|w [|w2 ws]]; [exact G|destruct (Nw w eq_refl)|exact G].
  Qed.
  Lemma alts_spl fs : forall ws, spl (fun f ws => (Some (one_of has f (heard (firsts cf f ws))), map or_none (firsts cf f ws))) fs ws = alts_say cf has ws fs.
  Proof. induction fs as [|f fs IH]; intros ws; [reflexivity|]. cbn [spl fst snd alts_say]. rewrite IH. reflexivity. Qed.
  Lemma phrases_ok fs x es given o : e_phrase cf fs (words_of (ph_first_word x) es) given = EOk o -> agree o (phrase_says cf has hasp given (places x es) fs).
  Proof.
    unfold e_phrase. destruct (words_of (ph_first_word x) es) as [p|] eqn:Ew; [|discriminate]. apply places_ok in Ew. destruct (flds cf (get_phrase_query cf given) (Some fs) p) as [q| |] eqn:Ef; try discriminate. intros E. injection E as <-.
    assert (HU : upward (-1) (places x es)) by (apply marked_up; lia). destruct (places x es) as [|(k, ws) L]; [|destruct L as [|(k2, ws2) L]].
    - cbn [steps] in Ew. cbn [phrase_says]. assert (G : agree q (any (map (fun _ => None) fs))).
      { rewrite <- (spl_map (fun _ => None) fs tt). eapply flds_ok with (R := fun a _ => a = p); [|reflexivity|exact Ef]. intros f a b q' a' -> Eg. unfold get_phrase_query in Eg. rewrite Ew in Eg. injection Eg as <- <-. split; [exact Logic.I|reflexivity]. }
      replace (any (map (fun _ => None) fs)) with (@None Prop) in G; [exact G|]. unfold any. clear. induction fs as [|f fs IH]; [reflexivity|]. cbn [map heard flat_map app]. exact IH.
    - cbn [steps] in Ew. destruct HU as (_ & Nw & _). set (i := k - -1 - 1) in *.
      assert (G1 : forall w, ws = [w] -> agree q (any (map (term_says cf has hasp w) fs))).
      { intros w ->. rewrite <- (spl_map (term_says cf has hasp w) fs tt). eapply flds_ok with (R := fun a _ => a = p); [|reflexivity|exact Ef]. intros f a b q' a' -> Eg. unfold get_phrase_query in Eg. rewrite Ew in Eg. destruct (get_term_q cf f w) as [q2|] eqn:Et; [|discriminate]. injection Eg as <- <-. split; [apply term_ok; exact Et|reflexivity]. }
      assert (G2 : (forall w, ws <> [w]) -> agree q (any (alts_say cf has ws fs))).
      { intros N. rewrite <- (alts_spl fs ws). eapply flds_ok with (R := fun a vs => ph_pos a = [(i, vs)] /\ forall w, vs <> [w]); [|split; [exact Ew|exact N]|exact Ef]. intros f a vs q' a' (Ea & Nv) Eg. destruct (alts_ok2 given f a i vs q' a' Ea Nv Eg) as (H1 & H2). cbn [fst snd]. split; [exact H1|]. split; [exact H2|]. clear -Nv. intros w C. unfold firsts in C. rewrite map_map in C. destruct vs as [|v [|v2 vs]]; try discriminate. exact (Nv v eq_refl). }
      cbn [phrase_says]. destruct ws as [|w [|w2 ws]]; [congruence|apply G1; reflexivity|apply G2; discriminate].
    - assert (ES : exists a b r, steps (-1) ((k, ws) :: (k2, ws2) :: L) = a :: b :: r) by (cbn [steps]; eauto). destruct ES as (y1 & y2 & yr & ES).
      assert (EP : phrase_says cf has hasp given ((k, ws) :: (k2, ws2) :: L) fs = any (map (fun f => option_map (fun n => hasp f n (group (lay cf f None ((k, ws) :: (k2, ws2) :: L)))) (slop_of cf f given ((k, ws) :: (k2, ws2) :: L))) fs)) by (cbn [phrase_says]; destruct ws as [|? [|? ?]]; reflexivity).
      rewrite EP. clear EP. set (L0 := (k, ws) :: (k2, ws2) :: L) in *.
      rewrite <- (spl_map (fun f => option_map (fun n => hasp f n (group (lay cf f None L0))) (slop_of cf f given L0)) fs tt). eapply flds_ok with (R := fun a _ => a = p); [|reflexivity|exact Ef]. intros f a b q' a' -> Eg. cbn [fst snd].
      unfold get_phrase_query in Eg. rewrite Ew, ES in Eg. destruct y1 as (i1, v1). unfold slop_of. destruct (match given with Some s => q_scand cf s | None => Some 0 end) as [n|] eqn:En; [|discriminate].
      rewrite <- ES in Eg. change (@nil (Z * list (list Z))) with (group []) in Eg. rewrite (positions_ok cf Htok Hfirst f L0 (-1) 0 n [] HU (Z.le_refl 0)) in Eg. injection Eg as <- <-. split; [|reflexivity]. cbn [agree option_map q_new Ask_Spec.qsat nsat fst snd app].
      replace (match L0 with [] => 0 | _ => if 0 =? 0 then 0 else 1 end) with 0 by (destruct L0; reflexivity). rewrite Z.add_0_r. reflexivity.
  Qed.

  (* ---------- clauses *)
  Definition same (cs : list (occ * qry)) (ms : list (occur * Prop)) : Prop := Forall2 (fun (c : occ * qry) (m : occur * Prop) => occur_of (fst c) = fst m /\ (qsat (snd c) <-> snd m)) cs ms.
  Lemma signs_two y1 y2 r x : signs cf ((y1 :: y2 :: r) ++ [x]) = signs cf (y1 :: y2 :: r) ++ [signed cf x].
  Proof. cbn [app signs map]. rewrite map_app. reflexivity. Qed.
  Lemma must_ok (c : occ * qry) (m : occur * Prop) : occur_of (fst c) = fst m -> occur_of (fst (must c)) = required true (fst m) /\ snd (must c) = snd c.
  Proof. intros E. unfold must. destruct c as (o, q). cbn [fst snd] in *. rewrite <- E. destruct o; split; reflexivity. Qed.
  Lemma add_ok k cs h o q P : same cs (signs cf h) -> (qsat q <-> P) -> same (e_add cf k cs (Some (o, q))) (signs cf (h ++ [(k, (occur_of o, P))])).
  Proof.
    intros HS HP.
    assert (E : e_add cf k cs (Some (o, q)) = if requires cf k then add_and_cls cs (Some (o, q)) else add_or_cls cs (Some (o, q))) by (unfold e_add, requires, add_default_cls; destruct k; try reflexivity; destruct (q_or cf); reflexivity). rewrite E. clear E.
    assert (HX : forall b : bool, occur_of (fst (if b then must (o, q) else (o, q))) = required b (occur_of o) /\ (qsat (snd (if b then must (o, q) else (o, q))) <-> P)).
    { intros [|]; cbn [fst snd required]; [|split; [reflexivity|exact HP]]. destruct (must_ok (o, q) (occur_of o, P) eq_refl) as (E1 & E2). rewrite E1, E2. split; [reflexivity|exact HP]. }
    pose proof (HX (requires cf k)) as HXk. destruct h as [|y1 [|y2 h]].
    - inversion HS; subst. cbn [app signs map signed fst snd required]. unfold add_and_cls, add_or_cls. cbn [app]. destruct (requires cf k); repeat constructor; apply HXk.
    - inversion HS as [|c m cs0 ms0 (H1 & H2) HN]; subst. inversion HN; subst. cbn [app signs map]. change (signed cf (k, (occur_of o, P))) with (required (requires cf k) (occur_of o), P). cbn [fst snd] in H1, H2 |- *. unfold add_and_cls, add_or_cls. cbn [app]. destruct (requires cf k).
      + constructor; [|constructor; [exact HXk|constructor]]. destruct (must_ok c (signed cf y1) H1) as (E1 & E2). rewrite E1, E2. cbn [fst snd]. split; [|exact H2]. reflexivity.
      + constructor; [split; assumption|]. constructor; [exact HXk|constructor].
    - rewrite signs_two. assert (HL : (2 <= length cs)%nat). { pose proof HS as G. cbn [signs map] in G. inversion G as [|? ? ? ? ? G1]; subst. inversion G1; subst. cbn [length]. lia. }
      assert (EA : (if requires cf k then add_and_cls cs (Some (o, q)) else add_or_cls cs (Some (o, q))) = cs ++ [if requires cf k then must (o, q) else (o, q)]) by (unfold add_and_cls, add_or_cls; destruct (requires cf k); [|reflexivity]; destruct cs as [|c1 [|c2 cs]]; cbn [length] in HL; try lia; reflexivity).
      rewrite EA. apply Forall2_app; [exact HS|]. constructor; [exact HXk|constructor].
  Qed.
  Notation hear l := (heard (map (fun x : conn * (occur * option Prop) => option_map (fun P => (fst x, (fst (snd x), P))) (snd (snd x))) l)).
  Lemma bool_ok cs h : same cs (signs cf h) -> agree (get_bool_q cs) (match h with [] => None | _ => Some (comb (signs cf h)) end).
  Proof.
    intros HS. assert (HC : h <> [] -> comb (map (fun c : occ * qry => (occur_of (fst c), qsat (snd c))) cs) <-> comb (signs cf h)).
    { intros _. apply comb_ext. clear -HS. induction HS as [|c m cs ms (H1 & H2) HS IH]; constructor; [cbn [fst snd]; auto|exact IH]. }
    destruct h as [|y h]; [inversion HS; subst; exact Logic.I|]. specialize (HC ltac:(discriminate)).
    assert (HL : cs <> []) by (intros ->; inversion HS). destruct cs as [|(o, q) [|c2 cs]]; [congruence| |].
    - cbn [map fst snd] in HC. destruct o; cbn [get_bool_q agree]; rewrite <- HC.
      + rewrite comb_should by (intros m [<-|[]]; reflexivity). split; [intros H; eexists; split; [left; reflexivity|exact H]|intros (m & [<-|[]] & H); exact H].
      + unfold comb. cbn [occur_of]. split; [intros H; splits; [intros m [<-|[]] _; exact H|intros m [<-|[]] E; discriminate|left; eexists; split; [left; reflexivity|reflexivity]]|intros (H & _); exact (H _ (or_introl eq_refl) eq_refl)].
      + unfold bq_new. cbn [q_new Ask_Spec.qsat nsat map fst snd occur_of]. apply (comb_true [(Query_Model.MustNot, qsat q)]); [discriminate|]. intros x [<-|[]]. reflexivity.
    - assert (EG : get_bool_q ((o, q) :: c2 :: cs) = Some (bq_new ((o, q) :: c2 :: cs))) by (destruct o; reflexivity). rewrite EG. cbn [agree]. rewrite <- HC. reflexivity.
  Qed.
  Lemma hear_app a b : hear (a ++ b) = hear a ++ hear b.
  Proof. unfold heard. rewrite map_app, flat_map_app. reflexivity. Qed.
  Lemma first_ok (x : option (occ * qry)) (c : occur * option Prop) : match x, snd c with Some (o, q), Some P => occur_of o = fst c /\ (qsat q <-> P) | None, None => True | _, _ => False end -> same (first_cls x) (signs cf (hear [(COr, c)])).
  Proof.
    destruct x as [(o, q)|], c as (oc, [P|]); cbn [snd fst]; try tauto; intros H; [|constructor]. destruct H as (<- & H). cbn. constructor; [|constructor]. cbn [fst snd]. split; [destruct o; reflexivity|exact H].
  Qed.
  Fixpoint says_ok (a : ast) : forall fs o, eval cf cap fs a = EOk o -> agree o (says cf has hasp near fs a)
  with c_says_ok (c : cls) : forall fs x, c_eval cf cap fs c = EOk x -> match x, snd (c_says cf has hasp near fs c) with Some (o, q), Some P => occur_of o = fst (c_says cf has hasp near fs c) /\ (qsat q <-> P) | None, None => True | _, _ => False end
  with m_says_ok (m : more) : forall fs cs h cs', same cs (signs cf h) -> m_eval cf cap fs cs m = EOk cs' -> same cs' (signs cf (h ++ hear (m_says cf has hasp near fs m))).
  Proof.
    - destruct a as [x|x y|x| |c m|x es slop|slop|r|x xs a|a]; intros fs o E.
      + cbn [eval says] in *. eapply one_ok; [|exact E]. intros f q. apply term_ok.
      + cbn [eval says] in *. eapply one_ok; [|exact E]. intros f q. apply fuzzy_ok.
      + apply wilds_ok. exact E.
      + cbn [eval] in E. injection E as <-. cbn. unfold comb. split; [|intros []]. intros (_ & _ & [(m & [] & _)|[(m & [] & _)|(N & _)]]). congruence.
      + change (ebind (c_eval cf cap fs c) (fun x => ebind (m_eval cf cap fs (first_cls x) m) (fun cs => EOk (get_bool_q cs))) = EOk o) in E. change (agree o (all_say cf ((COr, c_says cf has hasp near fs c) :: m_says cf has hasp near fs m))).
        destruct (c_eval cf cap fs c) as [x| |] eqn:Ec; try discriminate. cbn [ebind] in E. destruct (m_eval cf cap fs (first_cls x) m) as [cs| |] eqn:Em; try discriminate. cbn [ebind] in E. injection E as <-.
        apply c_says_ok in Ec. apply first_ok in Ec. pose proof (m_says_ok m fs _ _ _ Ec Em) as G. apply bool_ok in G. rewrite <- hear_app in G. cbn [app] in G. unfold all_say. clear -G. destruct (heard _) as [|y r]; exact G.
      + apply phrases_ok. exact E.
      + cbn [eval] in E. injection E as <-. exact Logic.I.
      + apply range_ok. exact E.
      + exact (says_ok a _ o E).
      + exact (says_ok a _ o E).
    - destruct c as [s q b]. intros fs x E. change (ebind (eval cf cap fs q) (fun x => EOk (get_bool_cls (e_boost cf x b) s)) = EOk x) in E. change (match x, says cf has hasp near fs q with Some (o, q'), Some P => occur_of o = occur_of s /\ (qsat q' <-> P) | None, None => True | _, _ => False end).
      destruct (eval cf cap fs q) as [y| |] eqn:Eq; try discriminate. cbn [ebind] in E. injection E as <-. apply says_ok in Eq. destruct y as [(b0, n)|], (says cf has hasp near fs q) as [P|]; cbn [agree] in Eq; try tauto; destruct b as [b|]; cbn [e_boost set_boost get_bool_cls]; auto.
    - destruct m as [|k c m]; intros fs cs h cs' HS E.
      + injection E as <-. change (m_says cf has hasp near fs MNil) with (@nil (conn * (occur * option Prop))). cbn [map heard flat_map]. rewrite app_nil_r. exact HS.
      + change (ebind (c_eval cf cap fs c) (fun x => m_eval cf cap fs (e_add cf k cs x) m) = EOk cs') in E. destruct (c_eval cf cap fs c) as [x| |] eqn:Ec; try discriminate. cbn [ebind] in E. apply c_says_ok in Ec.
        change (m_says cf has hasp near fs (MCons k c m)) with ([(k, c_says cf has hasp near fs c)] ++ m_says cf has hasp near fs m). rewrite hear_app, app_assoc. eapply m_says_ok; [|exact E].
        destruct (c_says cf has hasp near fs c) as (oc, oP). destruct x as [(o, q)|], oP as [P|]; cbn [fst snd] in Ec; try tauto.
        * destruct Ec as (<- & HP). cbn [map fst snd option_map heard flat_map app]. apply add_ok; assumption.
        * cbn [map fst snd option_map heard flat_map app]. rewrite app_nil_r. destruct k; cbn [e_add]; unfold add_default_cls; [| |destruct (q_or cf)]; exact HS.
  Qed.
  Lemma top_ok t o : top_eval cf cap (q_def cf) t = EOk o -> (qsat (query_of o) <-> top_says cf has hasp near t).
  Proof.
    assert (HN : qsat (query_of None) <-> False).
    { cbn [query_of]. unfold bq_new. cbn [q_new Ask_Spec.qsat nsat map]. unfold comb. split; [|intros []]. intros (_ & _ & [(m & [] & _)|[(m & [] & _)|(N & _)]]). congruence. }
    intros E. destruct t as [(c, m)|]; [|cbn [top_eval] in E; injection E as <-; exact HN].
    pose proof (says_ok (AGroup c m) (q_def cf) o E) as G. cbn [top_says]. change (says cf has hasp near (q_def cf) (AGroup c m)) with (all_say cf ((COr, c_says cf has hasp near (q_def cf) c) :: m_says cf has hasp near (q_def cf) m)) in G.
    destruct (all_say cf _) as [P|], o as [q|]; cbn [agree] in G; try tauto.
  Qed.
End TOP.
