(* Strings without parentheses: their queries are never asked to skip while two clauses are required. *)
From Verif Require Import Util Strcmp Token_Model Query_Model Expand_Model Range_Model Look_Model Look_Spec QpLex_Model QpAct_Model Qp_Spec QpAst_Spec QpMean_Spec Ask_Model Ask_Spec.
Open Scope Z_scope.

Fixpoint tame (q : qry) : bool := match q with Q _ n => tame_n n end
with tame_n (n : qnode) : bool :=
  match n with NBool _ _ cs => forallb (fun c : occ * qry => match fst c with QpAct_Model.Should => tame (snd c) | _ => false end) cs | _ => true end.
Definition tame_o (o : option qry) : Prop := match o with Some q => tame q = true | None => True end.
Fixpoint tame_calm pl (q : qry) : forall u, tame q = true -> to_uq pl q = Some u -> forall b, calm b u = true.
Proof.
  destruct q as [bo n]. intros u HT E b. change (node_uq pl n = Some u) in E. change (tame_n n = true) in HT.
  destruct n as [f t|f s ps|f t mn mx|f p mx|f p mx| |typed f x y il iu|f ts|cd mx cs]; cbn [node_uq] in E; try (apply some_inj in E; subst u; reflexivity).
  - destruct typed; [discriminate|]. apply some_inj in E. subst u. reflexivity.
  - destruct (add_terms _ ts) as [m|]; [|discriminate]. apply some_inj in E. subst u. reflexivity.
  - set (go := fix go (l : list (occ * qry)) := _) in E. destruct (go cs) as [l|] eqn:El; [|discriminate]. apply some_inj in E. subst u. cbn [tame_n] in HT.
    assert (G : reqs l = O /\ forallb (fun c : occur * uq => match fst c with Query_Model.Should => calm b (snd c) | _ => false end) l = true).
    { revert l El HT. induction cs as [|(o, c) cs IH]; intros l El HT.
      - apply some_inj in El. subst l. split; reflexivity.
      - change (obind (to_uq pl c) (fun u => obind (go cs) (fun t => Some ((occur_uq o, u) :: t))) = Some l) in El. destruct (to_uq pl c) as [v|] eqn:Ev; [|discriminate]. cbn [obind] in El. destruct (go cs) as [r|] eqn:Er; [|discriminate]. cbn [obind] in El. apply some_inj in El. subst l.
        cbn [forallb fst snd] in HT. apply andb_true_iff in HT. destruct HT as (H1 & H2). destruct o; try discriminate. destruct (IH r eq_refl H2) as (I1 & I2). split; [exact I1|]. cbn [forallb fst snd occur_uq]. rewrite (tame_calm pl c v H1 Ev b), I2. reflexivity. }
    destruct G as (G1 & G2). cbn [calm]. rewrite G1. cbn [Nat.leb andb negb Nat.eqb]. apply forallb_forall. intros c Hc. rewrite forallb_forall in G2. specialize (G2 c Hc). destruct (fst c); try discriminate. exact G2.
Qed.
Section EVAL.
  Variable cf : qconf.
  Variable cap : nat.
  Lemma flds_tame {A} (func : list Z -> A -> gres A) : (forall f a q a', func f a = GOk q a' -> tame_o q) -> forall fs a o, flds cf func (Some fs) a = FOk o -> tame_o o.
  Proof.
    intros H. assert (G : forall fs a cs o, forallb (fun c : occ * qry => match fst c with QpAct_Model.Should => tame (snd c) | _ => false end) cs = true -> flds_more cf func fs a cs = FOk o -> tame_o o).
    { induction fs as [|f fs IH]; intros a cs o Hc E; cbn [flds_more] in E.
      - injection E as <-. destruct cs as [|c cs]; [exact Logic.I|]. exact Hc.
      - destruct (func f a) as [[q|] a'| |] eqn:Ef; try discriminate; [|eapply IH; eauto]. destruct (q_max cf <=? Z.of_nat (length cs)); [discriminate|]. eapply IH; [|exact E]. rewrite forallb_app, Hc. cbn [forallb fst snd]. rewrite (H f a (Some q) a' Ef). reflexivity. }
    intros fs a o E. destruct fs as [|f [|f2 fs]]; cbn [flds] in E.
    - injection E as <-. exact Logic.I.
    - destruct (func f a) as [q a'| |] eqn:Ef; try discriminate. injection E as <-. eapply H. exact Ef.
    - eapply G; [|exact E]. reflexivity.
  Qed.
  Lemma over_tame {A} (func : list Z -> A -> gres A) fs a o : (forall f a q a', func f a = GOk q a' -> tame_o q) -> over cf func fs a = EOk o -> tame_o o.
  Proof. unfold over. intros H E. destruct (flds cf func (Some fs) a) as [q| |] eqn:Ef; try discriminate. injection E as <-. eapply flds_tame; eauto. Qed.
  Lemma term_tame f x q : get_term_q cf f x = Some q -> tame_o q.
  Proof. unfold get_term_q. destruct (get_ts cf f x) as [[|t [|t2 ts]]|]; cbn [obind]; try discriminate; intros E; apply some_inj in E; subst q; exact Logic.I || reflexivity. Qed.
  Lemma fuzzy_tame f x y q : get_fuzzy_q cf f x y = Some q -> tame_o q.
  Proof. unfold get_fuzzy_q. destruct (get_ts cf f x) as [[|t ts]|]; cbn [obind]; try discriminate; intros E; apply some_inj in E; subst q; exact Logic.I || reflexivity. Qed.
  Lemma eval_tame a : flat a = true -> forall fs o, eval cf cap fs a = EOk o -> tame_o o.
  Proof.
    induction a as [x|x y|x| |c m|x es slop|slop|r|x xs a IH|a IH]; intros HF fs o E; cbn [flat] in HF; try discriminate.
    - cbn [eval] in E. eapply over_tame; [|exact E]. intros f a q a' G. unfold one_by_one in G. destruct (get_term_q cf f x) as [q2|] eqn:Eq; [|discriminate]. injection G as <- _. eapply term_tame. exact Eq.
    - cbn [eval] in E. eapply over_tame; [|exact E]. intros f a q a' G. unfold one_by_one in G. destruct (get_fuzzy_q cf f x y) as [q2|] eqn:Eq; [|discriminate]. injection G as <- _. eapply fuzzy_tame. exact Eq.
    - cbn [eval] in E. eapply over_tame; [|exact E]. intros f a q a' G. unfold get_wild_q in G. repeat match type of G with context [match ?e with _ => _ end] => destruct e; try discriminate end; injection G as <- _; reflexivity.
    - injection E as <-. reflexivity.
    - cbn [eval] in E. unfold e_phrase in E. destruct (words_of _ es) as [p|]; [|discriminate]. destruct (flds cf (get_phrase_query cf slop) (Some fs) p) as [q| |] eqn:Ef; try discriminate. injection E as <-. eapply flds_tame; [|exact Ef].
      intros f a q' a' G. unfold get_phrase_query in G. destruct (ph_pos a) as [|(i, ws) [|p2 ps]].
      + injection G as <- _. exact Logic.I.
      + destruct ws as [|w [|w2 ws]].
        * destruct (first_tokens cf f []) as [((vs, n), l)|]; [|discriminate]. injection G as <- _. destruct n as [|[|n]]; reflexivity.
        * destruct (get_term_q cf f w) as [q2|] eqn:Eq; [|discriminate]. injection G as <- _. eapply term_tame. exact Eq.
        * destruct (first_tokens cf f _) as [((vs, n), l)|]; [|discriminate]. injection G as <- _. destruct n as [|[|n]]; reflexivity.
      + repeat match type of G with context [match ?e with _ => _ end] => destruct e; try discriminate end; injection G as <- _; reflexivity.
    - injection E as <-. exact Logic.I.
    - assert (G : forall il iu s o, over cf (get_r_q cf cap il iu) fs s = EOk o -> tame_o o).
      { intros il iu s o' G. eapply over_tame; [|exact G]. intros f a q a' G'. unfold get_r_q in G'. repeat match type of G' with context [match ?e with _ => _ end] => destruct e; try discriminate end; injection G' as <- _; reflexivity. }
      destruct r; eapply G; exact E.
    - eapply IH; [exact HF|exact E].
    - eapply IH; [exact HF|exact E].
  Qed.
  Definition tames (cs : list (occ * qry)) : Prop := Forall (fun c : occ * qry => tame (snd c) = true) cs.
  Lemma cls_tame c fs x : flat_cls c = true -> c_eval cf cap fs c = EOk x -> tames (first_cls x).
  Proof.
    destruct c as [s a b]. intros HF E. change (ebind (eval cf cap fs a) (fun x => EOk (get_bool_cls (e_boost cf x b) s)) = EOk x) in E. destruct (eval cf cap fs a) as [y| |] eqn:Ea; try discriminate. apply (eval_tame a HF) in Ea. cbn [ebind] in E. injection E as <-.
    destruct y as [(b0, n)|]; destruct b as [b|]; cbn [e_boost set_boost get_bool_cls first_cls]; constructor; auto; constructor.
  Qed.
  Lemma must_snd c : snd (must c) = snd c.
  Proof. unfold must. destruct c as ([| |], q); reflexivity. Qed.
  Lemma add_tame k cs x : tames cs -> tames (first_cls x) -> tames (e_add cf k cs x).
  Proof.
    intros H1 H2. assert (HA : tames (add_and_cls cs x)).
    { unfold add_and_cls. destruct x as [x|]; [|exact H1]. inversion H2 as [|? ? Hx _]; subst. assert (HM : tame (snd (must x)) = true) by (rewrite must_snd; exact Hx). destruct cs as [|y [|y2 cs]].
      - constructor; [exact HM|constructor].
      - inversion H1; subst. constructor; [rewrite must_snd; assumption|]. constructor; [exact HM|constructor].
      - apply Forall_app. split; [exact H1|]. constructor; [exact HM|constructor]. }
    assert (HO : tames (add_or_cls cs x)) by (unfold add_or_cls; destruct x as [x|]; [|exact H1]; apply Forall_app; split; [exact H1|exact H2]).
    destruct k; cbn [e_add]; [exact HA|exact HO|]. unfold add_default_cls. destruct (q_or cf); assumption.
  Qed.
  Lemma more_tame m fs : flat_more m = true -> forall cs cs', tames cs -> m_eval cf cap fs cs m = EOk cs' -> tames cs'.
  Proof.
    induction m as [|k c m IH]; intros HF cs cs' H E.
    - injection E as <-. exact H.
    - cbn [flat_more] in HF. apply andb_true_iff in HF. destruct HF as (F1 & F2). change (ebind (c_eval cf cap fs c) (fun x => m_eval cf cap fs (e_add cf k cs x) m) = EOk cs') in E. destruct (c_eval cf cap fs c) as [x| |] eqn:Ec; try discriminate. cbn [ebind] in E. eapply IH; [exact F2| |exact E]. apply add_tame; [exact H|]. eapply cls_tame; eauto.
  Qed.
  Lemma tames_calm pl cs u : tames cs -> to_uq pl (bq_new cs) = Some u -> calm false u = true.
  Proof.
    intros H E. unfold bq_new, q_new in E. cbn [to_uq node_uq] in E. set (go := fix go (l : list (occ * qry)) := _) in E. destruct (go cs) as [l|] eqn:El; [|discriminate]. apply some_inj in E. subst u.
    assert (G : forall c b, In c l -> calm b (snd c) = true).
    { clear -El H. revert l El. induction H as [|(o, c) cs Hc H IH]; intros l El.
      - apply some_inj in El. subst l. intros c b [].
      - change (obind (to_uq pl c) (fun u => obind (go cs) (fun t => Some ((occur_uq o, u) :: t))) = Some l) in El. destruct (to_uq pl c) as [v|] eqn:Ev; [|discriminate]. cbn [obind] in El. destruct (go cs) as [r|] eqn:Er; [|discriminate]. cbn [obind] in El. apply some_inj in El. subst l.
        intros x b [<-|Hx]; [exact (tame_calm pl c v Hc Ev b)|exact (IH r eq_refl x b Hx)]. }
    cbn [calm]. rewrite andb_false_r. cbn [negb andb]. apply forallb_forall. intros c Hc. destruct (fst c); [|apply G; exact Hc|apply G; exact Hc]. destruct (reqs l =? 0)%nat; [apply G; exact Hc|reflexivity].
  Qed.
  Lemma flat_calm pl t o u : flat_top t = true -> top_eval cf cap (q_def cf) t = EOk o -> to_uq pl (query_of o) = Some u -> calm false u = true.
  Proof.
    intros HF E HU. destruct t as [(c, m)|]; [|injection E as <-; eapply tames_calm; [|exact HU]; constructor]. cbn [flat_top] in HF. apply andb_true_iff in HF. destruct HF as (F1 & F2). cbn [top_eval] in E.
    destruct (c_eval cf cap (q_def cf) c) as [x| |] eqn:Ec; try discriminate. cbn [ebind] in E. destruct (m_eval cf cap (q_def cf) (first_cls x) m) as [cs| |] eqn:Em; try discriminate. cbn [ebind] in E. injection E as <-.
    pose proof (more_tame m _ F2 _ _ (cls_tame c _ x F1 Ec) Em) as HT. destruct cs as [|(o, q) [|c2 cs]].
    - eapply tames_calm; [|exact HU]. constructor.
    - inversion HT as [|? ? Hq _]; subst. cbn [snd] in Hq. destruct o; cbn [get_bool_q query_of] in HU; [eapply tame_calm; eauto|eapply tame_calm; eauto|]. eapply tames_calm; [|exact HU]. constructor; [exact Hq|]. constructor; [reflexivity|constructor].
    - eapply tames_calm; [exact HT|]. destruct o; exact HU.
  Qed.
End EVAL.
