(* From the automaton and the recursive descent to what qp_parse answers. *)
From Verif Require Import Util QpLex_Model QpAct_Model QpClean_Model Qp_Model Qp_Spec QpAst_Spec QpMean_Spec QpLex_Proofs Qp_Proofs QpFuel_Proofs QpAst_Proofs QpSafe_Proofs.
Open Scope Z_scope.

Section TOP.
  Variable cf : qconf.
  Variable p : qparser.
  Variable s : list Z.
  Notation str_ := (parsed cf s).
  Notation TS := (toks_of cf s).
  Notation w0 := (mkW (p_fs p) (Some (q_def cf)) false None).
  Notation x0 := (mkLx str_ (p_idx p) (p_b0 p) (p_b1 p) (p_dyn p) (p_gen p) (length str_)).
  (* the recursive descent with enough fuel *)
  Definition rd : res unit := p_top cf (length str_) YYMAXDEPTH (S (length TS)) w0 TS.
  Definition said (o : outcome) : answer * qparser :=
    match o with
    | OAcc w' x' => conclude cf str_ (w_res w') x' w'
    | ORej w' x' | OAbort w' x' => conclude cf str_ None x' w'
    | OUb => (AnsUb, p)
    end.
  Lemma said_ok o f : p_fs p = [f] -> ends cf (mkC [(0, VNone)] None x0 w0) o -> answers cf p s (fst (said o)) (snd (said o)).
  Proof.
    intros F [n H]. exists n. intros m. unfold qp_parse. rewrite F. cbv zeta. fold (parsed cf s). rewrite <- F. unfold yyparse. rewrite (H m). cbn [obind].
    unfold said. destruct o; f_equal; apply surjective_pairing.
  Qed.
  Lemma start_inv : Forall short_tok TS -> inv cf (length str_) None x0 TS.
  Proof. intros H. unfold inv. cbn [la_ok l_cap l_str]. split; [|split]; auto. Qed.
  Lemma rd_fuel : rd <> RFuel.
  Proof. apply top_fuel. lia. Qed.
  Lemma rd_agrees : Forall short_tok TS -> agrees cf (mkC [(0, VNone)] None x0 w0) rd.
  Proof. intros H. apply engine_agrees. apply start_inv. exact H. Qed.
End TOP.

Lemma answers_fun cf p s a1 p1 a2 p2 : answers cf p s a1 p1 -> answers cf p s a2 p2 -> a1 = a2 /\ p1 = p2.
Proof.
  intros [k H] [l G]. specialize (H l). specialize (G k). rewrite (Nat.add_comm l k) in G. rewrite G in H. apply some_inj in H. inversion H. auto.
Qed.

Lemma mod_short cf s : moderate cf s -> Forall short_tok (toks_of cf s).
Proof. intros H. exact (proj1 H). Qed.

Section END.
  Variable cf : qconf.
  Variable p : qparser.
  Variable s : list Z.
  Hypothesis RE : ready cf p.
  Hypothesis MO : moderate cf s.
  Notation str_ := (parsed cf s).
  Notation home des r := (mkW [Some (q_def cf)] (Some (q_def cf)) des r).
  Notation ans R := (answers cf p s (fst R) (snd R)).

  Inductive ending : Prop :=
  | EndAcc t o x : writes cf s t -> value cf s t = EOk o -> ans (conclude cf str_ o x (home false o)) -> ending
  | EndRej x r : (forall t, ~ writes cf s t) -> ans (conclude cf str_ None x (home true r)) -> ending
  | EndAbort x w pre : (forall t o, writes cf s t -> value cf s t <> EOk o) -> w_des w = true -> cons_ w -> w_fs w = pre ++ [Some (q_def cf)] ->
      ans (conclude cf str_ None x w) -> rd cf p s = RAbort w -> ending
  | EndUb : (forall t o, writes cf s t -> value cf s t <> EOk o) -> answers cf p s AnsUb p -> rd cf p s = RUb -> ending.

  Lemma rd_value t : writes cf s t ->
    match value cf s t with
    | EOk q => rd cf p s = ROk tt (home false q) []
    | EAbort => exists w', rd cf p s = RAbort w'
    | EUb => rd cf p s = RUb
    end.
  Proof.
    intros [W E]. destruct MO as [S1 S2]. unfold rd, value. rewrite E in *.
    pose proof (top_fwd cf (length str_) YYMAXDEPTH (S (length (top_toks t))) (mkW (p_fs p) (Some (q_def cf)) false None) (q_def cf) t ltac:(lia) S2 W) as H.
    unfold inw in H. cbn [w_cur w_fs w_des] in H. pose proof RE as RE2. unfold ready in RE2. rewrite RE2 in H |- *. apply H. auto.
  Qed.
  Lemma the_end : ending.
  Proof.
    pose proof (mod_short _ _ MO) as SH. pose proof (rd_agrees cf p s SH) as H.
    assert (C : cons_ (mkW (p_fs p) (Some (q_def cf)) false None)) by (unfold cons_; rewrite RE; reflexivity).
    pose proof (keeps_top cf (length str_) YYMAXDEPTH (S (length (toks_of cf s))) (mkW (p_fs p) (Some (q_def cf)) false None) (toks_of cf s) C) as K. fold (rd cf p s) in K.
    destruct (rd cf p s) as [u w t'|w|w| |] eqn:ER; cbn [agrees keeps] in H, K.
    - destruct (top_bwd _ _ _ _ _ _ _ _ _ ER) as (t & W & E). assert (WT : writes cf s t) by (split; auto).
      pose proof (rd_value t WT) as V. rewrite ER in V. destruct (value cf s t) as [o| |] eqn:EV; [|destruct V as [w' V]; discriminate|discriminate].
      inversion V. subst. destruct H as [x H]. apply (said_ok _ _ _ _ _ RE) in H. cbn [said w_res] in H. eapply EndAcc; eauto.
    - destruct K as (x & pre & E & F & G). cbn [w_fs] in F. rewrite RE in F. destruct H as [y H]. apply (said_ok _ _ _ _ _ RE) in H. cbn [said] in H.
      assert (EW : w = home true (w_res x)).
      { rewrite E. unfold yyerror. rewrite F, last_last. unfold cons_ in G. rewrite F in G. destruct pre as [|a pre]; cbn [app hd_error] in *; [rewrite <- (some_inj _ _ G); reflexivity|]. destruct pre; reflexivity. }
      rewrite EW in H. eapply EndRej; [|exact H]. intros t WT. pose proof (rd_value t WT) as V. rewrite ER in V. destruct (value cf s t); [discriminate|destruct V; discriminate|discriminate].
    - destruct K as (D & CW & pre & F). cbn [w_fs] in F. rewrite RE in F. destruct H as [y H]. apply (said_ok _ _ _ _ _ RE) in H. cbn [said] in H. eapply EndAbort; eauto.
      intros t o WT EV. pose proof (rd_value t WT) as V. rewrite ER, EV in V. discriminate.
    - apply (said_ok _ _ _ _ _ RE) in H. cbn [said fst snd] in H. apply EndUb; [|exact H|exact ER]. intros t o WT EV. pose proof (rd_value t WT) as V. rewrite ER, EV in V. discriminate.
    - exfalso. exact (rd_fuel cf p s ER).
  Qed.

  (* ---------- strict *)
  Lemma strict_mean : q_handle cf = false -> forall q, (exists p', answers cf p s (AnsQ q) p') <-> (exists t o, writes cf s t /\ value cf s t = EOk o /\ q = query_of o).
  Proof.
    intros HF q. pose proof the_end as E. destruct E as [t o x W V A|x r N A|x w pre N D C F A|N A].
    - assert (X : conclude cf str_ o x (home false o) = (AnsQ (query_of o), keep x (home false o))) by (unfold conclude, finish; rewrite HF; destruct o; reflexivity).
      rewrite X in A. cbn [fst snd] in A. split.
      + intros [p' B]. destruct (answers_fun _ _ _ _ _ _ _ A B) as [E _]. inversion E. subst. eauto.
      + intros (t' & o' & W' & V' & E). subst q. exists (keep x (home false o)).
        pose proof (rd_value _ W) as R1. pose proof (rd_value _ W') as R2. rewrite V in R1. rewrite V' in R2. rewrite R1 in R2. inversion R2. subst. exact A.
    - assert (X : conclude cf str_ None x (home true r) = (AnsRaise, keep x (home true r))) by (unfold conclude, finish; rewrite HF; reflexivity).
      rewrite X in A. split.
      + intros [p' B]. destruct (answers_fun _ _ _ _ _ _ _ A B) as [E _]. discriminate E.
      + intros (t' & o' & W' & _). destruct (N _ W').
    - assert (X : conclude cf str_ None x w = (AnsRaise, keep x w)) by (unfold conclude, finish; rewrite HF, D; reflexivity).
      rewrite X in A. split.
      + intros [p' B]. destruct (answers_fun _ _ _ _ _ _ _ A B) as [E _]. discriminate E.
      + intros (t' & o' & W' & V & _). destruct (N _ _ W' V).
    - split.
      + intros [p' B]. destruct (answers_fun _ _ _ _ _ _ _ A B) as [E _]. discriminate E.
      + intros (t' & o' & W' & V & _). destruct (N _ _ W' V).
  Qed.
  Lemma strict_raise : q_handle cf = false -> (forall t, ~ writes cf s t) -> exists a p', answers cf p s a p' /\ (a = AnsRaise \/ a = AnsUb).
  Proof.
    intros HF NO. pose proof the_end as E. destruct E as [t o x W V A|x r N A|x w pre N D C F A|N A].
    - destruct (NO _ W).
    - do 2 eexists. split; [exact A|]. unfold conclude, finish. rewrite HF. left. reflexivity.
    - do 2 eexists. split; [exact A|]. unfold conclude, finish. rewrite HF, D. left. reflexivity.
    - do 2 eexists. split; [exact A|]. right. reflexivity.
  Qed.
  (* ---------- lenient *)
  Lemma lenient_mean : q_handle cf = true -> forall t q, writes cf s t -> value cf s t = EOk (Some q) -> exists p', answers cf p s (AnsQ q) p'.
  Proof.
    intros HF t q W V. pose proof the_end as E. destruct E as [t' o x W' V' A|x r N A|x w pre N D C F A|N A].
    - pose proof (rd_value _ W) as R1. pose proof (rd_value _ W') as R2. rewrite V in R1. rewrite V' in R2. rewrite R1 in R2. inversion R2. subst. eexists. exact A.
    - destruct (N _ W).
    - destruct (N _ _ W V).
    - destruct (N _ _ W V).
  Qed.
  Definition fallback : answer := match as_term cf s with FOk o => AnsQ (query_of o) | FRaise o => AnsQ (query_of o) | FUb => AnsUb end.
  Lemma bad_home x des r : q_handle cf = true -> bad_query cf str_ (home des r) x = (fallback, keep x (home des r)).
  Proof.
    intros HF. unfold bad_query. cbn [w_fs w_cur]. fold (as_term cf s). unfold fallback, finish. rewrite HF, andb_false_r. destruct (as_term cf s); reflexivity.
  Qed.
  Lemma lenient_bad : q_handle cf = true -> (forall t q, writes cf s t -> value cf s t <> EOk (Some q)) ->
    exists a p', answers cf p s a p' /\ (a = fallback \/ a = AnsUb).
  Proof.
    intros HF NO. pose proof the_end as E. destruct E as [t o x W V A|x r N A|x w pre N D C F A|N A].
    - destruct o as [q|]; [destruct (NO _ _ W V)|]. unfold conclude in A. rewrite HF, bad_home in A by assumption. do 2 eexists. split; [exact A|]. left. reflexivity.
    - unfold conclude in A. rewrite HF, bad_home in A by assumption. do 2 eexists. split; [exact A|]. left. reflexivity.
    - unfold conclude in A. rewrite HF in A. destruct pre as [|a pre].
      + destruct w as [fs cu de rs]. cbn [w_fs app w_des] in F, D. unfold cons_ in C. cbn [w_fs w_cur] in C. subst fs de. cbn in C. apply some_inj in C. subst cu. rewrite bad_home in A by assumption. do 2 eexists. split; [exact A|]. left. reflexivity.
      + do 2 eexists. split; [exact A|]. right. unfold bad_query. rewrite F. cbn [app]. destruct (pre ++ [Some (q_def cf)]) eqn:Q; [destruct pre; discriminate|]. reflexivity.
    - do 2 eexists. split; [exact A|]. right. reflexivity.
  Qed.
  (* ---------- ready again *)
  Lemma ready_again a p' : answers cf p s a p' -> (a = AnsUb \/ (a = AnsRaise /\ forall t o, writes cf s t -> value cf s t <> EOk o)) \/ ready cf p'.
  Proof.
    intros B. pose proof the_end as E. destruct E as [t o x W V A|x r N A|x w pre N D C F A|N A]; destruct (answers_fun _ _ _ _ _ _ _ B A) as [-> ->].
    - right. unfold conclude. destruct o as [q|]; [reflexivity|]. destruct (q_handle cf) eqn:HF; [|unfold finish; rewrite HF; reflexivity]. rewrite bad_home by assumption. reflexivity.
    - right. unfold conclude. destruct (q_handle cf) eqn:HF; [|unfold finish; rewrite HF; reflexivity]. rewrite bad_home by assumption. reflexivity.
    - unfold conclude. destruct (q_handle cf) eqn:HF.
      + unfold bad_query. rewrite F. destruct pre as [|f pre]; cbn [app].
        * right. destruct (flds _ _ _ _); unfold finish; rewrite ?HF, ?andb_false_r; unfold ready, keep; cbn [snd p_fs]; exact F.
        * left. left. destruct (pre ++ [Some (q_def cf)]) eqn:Q; [destruct pre; discriminate|]. reflexivity.
      + left. right. unfold finish. rewrite HF, D. split; [reflexivity|exact N].
    - left. left. reflexivity.
  Qed.
  (* a syntax error leaves the parser ready *)
  Lemma ready_reject a p' : answers cf p s a p' -> a <> AnsUb -> rd cf p s <> RUb -> (forall w, rd cf p s <> RAbort w) -> ready cf p'.
  Proof.
    intros B NU N1 N2. destruct (ready_again _ _ B) as [[U|[U V]]|R]; [congruence| |exact R].
    pose proof (mod_short _ _ MO) as SH. pose proof (rd_agrees cf p s SH) as H.
    assert (C : cons_ (mkW (p_fs p) (Some (q_def cf)) false None)) by (unfold cons_; rewrite RE; reflexivity).
    pose proof (keeps_top cf (length str_) YYMAXDEPTH (S (length (toks_of cf s))) (mkW (p_fs p) (Some (q_def cf)) false None) (toks_of cf s) C) as K. fold (rd cf p s) in K.
    destruct (rd cf p s) as [u w t'|w|w| |] eqn:ER; cbn [agrees keeps] in H, K.
    - destruct (top_bwd _ _ _ _ _ _ _ _ _ ER) as (t & W & E). assert (WT : writes cf s t) by (split; auto).
      pose proof (rd_value t WT) as Q. rewrite ER in Q. destruct (value cf s t) as [o| |] eqn:EV; [destruct (V _ _ WT EV)|destruct Q as [w' Q]; discriminate|discriminate].
    - destruct K as (x & pre & E & F & G). cbn [w_fs] in F. rewrite RE in F. destruct H as [y H]. apply (said_ok _ _ _ _ _ RE) in H. cbn [said] in H.
      assert (EW : w = home true (w_res x)).
      { rewrite E. unfold yyerror. rewrite F, last_last. unfold cons_ in G. rewrite F in G. destruct pre as [|b pre]; cbn [app hd_error] in *; [rewrite <- (some_inj _ _ G); reflexivity|]. destruct pre; reflexivity. }
      rewrite EW in H. destruct (answers_fun _ _ _ _ _ _ _ B H) as [_ ->]. unfold conclude. destruct (q_handle cf) eqn:HF; [|unfold finish; rewrite HF; reflexivity]. rewrite bad_home by assumption. reflexivity.
    - destruct (N2 w eq_refl).
    - destruct (N1 eq_refl).
    - exfalso. exact (rd_fuel cf p s ER).
  Qed.
  (* ---------- safe strings *)
  Lemma rd_safe : sane cf -> nice cf (toks_of cf s) -> rd cf p s <> RUb /\ (forall w, rd cf p s <> RAbort w).
  Proof.
    intros SA NI. pose proof (safe_top cf (length str_) YYMAXDEPTH (sane_tok _ SA) (sane_len _ SA) (sane_idem _ SA) (sane_all _ SA) (S (length (toks_of cf s)))
      (mkW (p_fs p) (Some (q_def cf)) false None) (toks_of cf s)) as H. fold (rd cf p s) in H.
    assert (WI : wi cf (mkW (p_fs p) (Some (q_def cf)) false None)) by (exists (q_def cf); rewrite RE; repeat split; exact (sane_def _ SA)).
    specialize (H WI NI). destruct (rd cf p s); split; try congruence; contradiction.
  Qed.
End END.

(* two ways to read the same words and marks mean the same *)
Lemma one_meaning cf cap F t t' : top_wf t -> top_wf t' -> top_toks t = top_toks t' -> top_eval cf cap F t = top_eval cf cap F t'.
Proof.
  intros W W' E. set (n := S (length (top_toks t))). set (MD := (2 * length (top_toks t) + 3)%nat). set (w := mkW [Some F] (Some F) false None).
  assert (I : inw F w) by (unfold inw; auto).
  pose proof (top_fwd cf cap MD n w F t ltac:(unfold n; lia) ltac:(unfold MD; lia) W I) as A.
  pose proof (top_fwd cf cap MD n w F t' ltac:(unfold n; rewrite E; lia) ltac:(unfold MD; rewrite E; lia) W' I) as B.
  rewrite <- E in B. destruct (top_eval cf cap F t) as [o| |]; destruct (top_eval cf cap F t') as [o'| |]; 
    try (match type of A with exists _, _ => destruct A as [wa A] end); try (match type of B with exists _, _ => destruct B as [wb B] end); rewrite A in B; try discriminate; try reflexivity.
  inversion B. reflexivity.
Qed.
(* the buffers do not matter *)
Lemma fst_conclude cf str_ o x y w : fst (conclude cf str_ o x w) = fst (conclude cf str_ o y w) /\ p_fs (snd (conclude cf str_ o x w)) = p_fs (snd (conclude cf str_ o y w)).
Proof.
  assert (F : forall q d, fst (finish cf q d x w) = fst (finish cf q d y w) /\ p_fs (snd (finish cf q d x w)) = p_fs (snd (finish cf q d y w))) by (intros q d; unfold finish; destruct (d && negb (q_handle cf)); auto).
  unfold conclude. destruct o as [q|]; [apply F|]. destruct (q_handle cf); [|apply F]. unfold bad_query. destruct (w_fs w) as [|a [|b r]]; auto. destruct (flds _ _ _ _); auto.
Qed.
Lemma same_answers cf p1 p2 s a p1' : ready cf p1 -> ready cf p2 -> Forall short_tok (toks_of cf s) -> answers cf p1 s a p1' -> exists p2', answers cf p2 s a p2' /\ p_fs p2' = p_fs p1'.
Proof.
  intros R1 R2 SH A. pose proof (rd_agrees cf p1 s SH) as H1. pose proof (rd_agrees cf p2 s SH) as H2.
  assert (E : rd cf p2 s = rd cf p1 s) by (unfold rd; unfold ready in R1, R2; rewrite R1, R2; reflexivity). rewrite E in H2.
  destruct (rd cf p1 s) as [u w t'|w|w| |] eqn:ER; cbn [agrees] in H1, H2.
  - destruct H1 as [x H1]. destruct H2 as [y H2]. apply (said_ok _ _ _ _ _ R1) in H1. apply (said_ok _ _ _ _ _ R2) in H2. cbn [said] in H1, H2.
    destruct (answers_fun _ _ _ _ _ _ _ A H1) as [-> ->]. destruct (fst_conclude cf (parsed cf s) (w_res w) x y w) as [F1 F2]. rewrite F1. eexists. split; [exact H2|]. symmetry. exact F2.
  - destruct H1 as [x H1]. destruct H2 as [y H2]. apply (said_ok _ _ _ _ _ R1) in H1. apply (said_ok _ _ _ _ _ R2) in H2. cbn [said] in H1, H2.
    destruct (answers_fun _ _ _ _ _ _ _ A H1) as [-> ->]. destruct (fst_conclude cf (parsed cf s) None x y w) as [F1 F2]. rewrite F1. eexists. split; [exact H2|]. symmetry. exact F2.
  - destruct H1 as [x H1]. destruct H2 as [y H2]. apply (said_ok _ _ _ _ _ R1) in H1. apply (said_ok _ _ _ _ _ R2) in H2. cbn [said] in H1, H2.
    destruct (answers_fun _ _ _ _ _ _ _ A H1) as [-> ->]. destruct (fst_conclude cf (parsed cf s) None x y w) as [F1 F2]. rewrite F1. eexists. split; [exact H2|]. symmetry. exact F2.
  - apply (said_ok _ _ _ _ _ R1) in H1. apply (said_ok _ _ _ _ _ R2) in H2. cbn [said fst snd] in H1, H2. destruct (answers_fun _ _ _ _ _ _ _ A H1) as [-> ->]. exists p2. split; [exact H2|]. unfold ready in *. congruence.
  - destruct (rd_fuel cf p1 s ER).
Qed.
(* every string of short words gets an answer *)
Lemma always_ends cf p s : ready cf p -> Forall short_tok (toks_of cf s) -> exists a p', answers cf p s a p'.
Proof.
  intros R SH. pose proof (rd_agrees cf p s SH) as H. destruct (rd cf p s) as [u w t'|w|w| |] eqn:ER; cbn [agrees] in H.
  1-3: destruct H as [x H]; apply (said_ok _ _ _ _ _ R) in H; eauto.
  - apply (said_ok _ _ _ _ _ R) in H; eauto.
  - destruct (rd_fuel cf p s ER).
Qed.
(* safe strings *)
Lemma as_term_ok cf s : q_tok cf <> None -> as_term cf s <> FUb.
Proof.
  intros TK. unfold as_term. assert (G : forall f, exists o, get_term_q cf f (parsed cf s) = Some o).
  { intros f. unfold get_term_q, get_ts. destruct (q_tok cf); [|congruence]. cbn [obind]. destruct (if has l f then q_ana cf f (parsed cf s) else Token_Model.non_tokenize (parsed cf s)) as [|t [|t' r]]; eexists; reflexivity. }
  unfold flds. destruct (q_def cf) as [|f [|g r]]; [discriminate| |].
  - unfold simple. destruct (G f) as [o ->]. discriminate.
  - assert (M : forall fs cs, flds_more cf (simple (fun f => get_term_q cf f (parsed cf s))) fs tt cs <> FUb).
    { induction fs as [|h fs IH]; intros cs; cbn [flds_more]; [discriminate|]. unfold simple at 1. destruct (G h) as [o ->]. destruct o; [|apply IH]. destruct (q_max cf <=? Z.of_nat (length cs)); [discriminate|apply IH]. }
    apply M.
Qed.
Lemma safe_lenient cf p s : sane cf -> ready cf p -> moderate cf s -> nice cf (toks_of cf s) -> q_handle cf = true ->
  exists q p', answers cf p s (AnsQ q) p' /\ ready cf p' /\
    ((exists t, writes cf s t /\ value cf s t = EOk (Some q)) \/ ((forall t q', writes cf s t -> value cf s t <> EOk (Some q')) /\ AnsQ q = fallback cf s)).
Proof.
  intros SA RE MO NI HF. destruct (rd_safe cf p s RE SA NI) as [N1 N2].
  assert (NB : fallback cf s <> AnsUb) by (unfold fallback; pose proof (as_term_ok cf s (sane_tok _ SA)); destruct (as_term cf s); congruence).
  pose proof (mod_short _ _ MO) as SH.
  assert (MAIN : exists q p', answers cf p s (AnsQ q) p' /\ ((exists t, writes cf s t /\ value cf s t = EOk (Some q)) \/ ((forall t q', writes cf s t -> value cf s t <> EOk (Some q')) /\ AnsQ q = fallback cf s))).
  { pose proof (the_end cf p s RE MO) as E. destruct E as [t o x W V A|x r N A|x w pre N D C F A|N A].
    - destruct o as [q|].
      + exists q. eexists. split; [exact A|]. left. eauto.
      + unfold conclude in A. rewrite HF, bad_home in A by assumption. cbn [fst] in A. destruct (fallback cf s) as [q| |] eqn:EF; [|exfalso; unfold fallback in EF; destruct (as_term cf s); discriminate|congruence].
        exists q. eexists. split; [exact A|]. right. split; [|reflexivity]. intros t' q' W' V'. pose proof (rd_value cf p s RE MO _ W) as R1. pose proof (rd_value cf p s RE MO _ W') as R2. rewrite V in R1. rewrite V' in R2. rewrite R1 in R2. discriminate.
    - unfold conclude in A. rewrite HF, bad_home in A by assumption. cbn [fst] in A. destruct (fallback cf s) as [q| |] eqn:EF; [|exfalso; unfold fallback in EF; destruct (as_term cf s); discriminate|congruence].
      exists q. eexists. split; [exact A|]. right. split; [|reflexivity]. intros t' q' W' V'. destruct (N _ W').
    - destruct (N2 w). assumption.
    - destruct N1. assumption. }
  destruct MAIN as (q & p' & A & M). exists q, p'. split; [exact A|]. split; [|exact M]. eapply ready_reject; eauto. discriminate.
Qed.
Lemma safe_strict cf p s : sane cf -> ready cf p -> moderate cf s -> nice cf (toks_of cf s) -> q_handle cf = false ->
  exists a p', answers cf p s a p' /\ ready cf p' /\
    ((exists t o, writes cf s t /\ value cf s t = EOk o /\ a = AnsQ (query_of o)) \/ ((forall t, ~ writes cf s t) /\ a = AnsRaise)).
Proof.
  intros SA RE MO NI HF. destruct (rd_safe cf p s RE SA NI) as [N1 N2].
  pose proof (the_end cf p s RE MO) as E. destruct E as [t o x W V A|x r N A|x w pre N D C F A|N A].
  - assert (X : fst (conclude cf (parsed cf s) o x (mkW [Some (q_def cf)] (Some (q_def cf)) false o)) = AnsQ (query_of o)) by (unfold conclude, finish; rewrite HF; destruct o; reflexivity).
    rewrite X in A. do 2 eexists. split; [exact A|]. split; [|left; exists t, o; auto]. eapply ready_reject; eauto. discriminate.
  - assert (X : fst (conclude cf (parsed cf s) None x (mkW [Some (q_def cf)] (Some (q_def cf)) true r)) = AnsRaise) by (unfold conclude, finish; rewrite HF; reflexivity).
    rewrite X in A. do 2 eexists. split; [exact A|]. split; [|right; auto]. eapply ready_reject; eauto. discriminate.
  - destruct (N2 w). assumption.
  - destruct N1. assumption.
Qed.
