(* Proofs about cleaning, escaping, connectives and fields. *)
From Verif Require Import Util Strcmp Token_Model QpLex_Model QpAct_Model QpClean_Model Qp_Model Qp_Spec QpAst_Spec QpMean_Spec QpUse_Spec QpLex_Proofs Qp_Proofs QpSafe_Proofs QpTop_Proofs.
Open Scope Z_scope.

(* ---------- cleaning: the space *)
Definition debt (c : clean) : nat := (length (cl_out c) + cl_br c + (if cl_q c then 1 else 0))%nat.
Ltac ifs := repeat match goal with |- context [if ?b then _ else _] => destruct b eqn:? end.
Lemma clean1_debt c b : (debt (clean1 c b) <= debt c + 2)%nat.
Proof.
  destruct c as [out pb br q]. unfold clean1, debt. cbn [cl_out cl_pb cl_br cl_q].
  assert (L : length (out ++ [40]) = S (length out)) by (rewrite app_length; cbn; lia).
  destruct q; cbn [negb andb]; ifs; cbn [cl_out cl_pb cl_br cl_q length]; try lia.
  all: try (destruct br as [|n]; cbn [cl_out cl_br cl_q length] in *; try discriminate; lia).
  all: destruct out as [|x [|y r]]; cbn [length cl_out cl_br cl_q] in *; try discriminate; lia.
Qed.
Lemma clean_debt : forall s c, (debt (fold_left clean1 s c) <= debt c + 2 * length s)%nat.
Proof. induction s as [|b s IH]; intros c; cbn [fold_left length]; [lia|]. pose proof (IH (clean1 c b)). pose proof (clean1_debt c b). lia. Qed.
Lemma clean_space s : (length (clean_str s) <= 2 * length s)%nat /\ forall n, (length (cl_out (clean_all (firstn n s))) <= 2 * length s)%nat.
Proof.
  split.
  - unfold clean_str. cbv zeta. pose proof (clean_debt s (mkCl [] (-1) O false)) as H. fold (clean_all s) in H. unfold debt in H at 2. cbn [cl_out cl_br cl_q length] in H. unfold debt in H.
    rewrite rev_length, app_length, repeat_length. destruct (cl_q (clean_all s)); cbn [length]; lia.
  - intros n. pose proof (clean_debt (firstn n s) (mkCl [] (-1) O false)) as H. fold (clean_all (firstn n s)) in H. unfold debt in H at 2. cbn [cl_out cl_br cl_q length] in H. unfold debt in H.
    pose proof (firstn_le_length n s). pose proof (firstn_length n s). lia.
Qed.

(* ---------- cleaning: balance *)
Lemma bals_app : forall a b st, bals st (a ++ b) = match bals st a with Some st' => bals st' b | None => None end.
Proof. induction a as [|x a IH]; intros b st; [reflexivity|]. cbn [app bals]. destruct (bal1 st x); auto. Qed.
Lemma bals_deeper : forall s e q d e' q' d', bals (e, q, d) s = Some (e', q', d') -> bals (e, q, S d) s = Some (e', q', S d').
Proof.
  induction s as [|b s IH]; intros e q d e' q' d' H; cbn [bals] in *.
  - inversion H. reflexivity.
  - unfold bal1 in *. destruct e; [apply IH; exact H|]. destruct (b =? 92); [apply IH; exact H|]. destruct (b =? 34); [apply IH; exact H|].
    destruct ((b =? 40) || (b =? 41)); [|apply IH; exact H]. destruct q; [discriminate|]. destruct (b =? 40); [apply IH; exact H|]. destruct d; [discriminate|]. apply IH; exact H.
Qed.
Notation start := (false, false, O) (only parsing).
(* the string so far *)
Definition goes (c : clean) : Prop :=
  (if cl_pb c =? 92 then (if cl_q c then bals start (rev (cl_out c)) = Some (false, true, cl_br c) else bals start (rev (cl_out c)) = Some (true, false, cl_br c))
   else bals start (rev (cl_out c)) = Some (false, cl_q c, cl_br c)) /\
  (cl_pb c = 60 -> cl_q c = true -> exists r, cl_out c = 60 :: 92 :: r /\ bals start (rev r) = Some (false, true, cl_br c)).
Lemma bals_snoc out b st : bals start (rev out) = Some st -> bals start (rev (b :: out)) = bal1 st b.
Proof. intros H. cbn [rev]. rewrite bals_app, H. cbn [bals]. destruct (bal1 st b); reflexivity. Qed.
Lemma special_paren b : (b =? 40) || (b =? 41) = true -> memz b special_char = true.
Proof. intros H. apply orb_true_iff in H. destruct H as [H|H]; apply Z.eqb_eq in H; subst; reflexivity. Qed.
Lemma clean1_goes c b st st' : goes c -> st = ((cl_pb c =? 92), cl_q c) -> tidy1 st b = Some st' -> goes (clean1 c b) /\ st' = ((cl_pb (clean1 c b) =? 92), cl_q (clean1 c b)).
Proof.
  destruct c as [out pb br q]. unfold goes, clean1. cbn [cl_out cl_pb cl_br cl_q]. intros [G L] -> T. unfold tidy1 in T.
  destruct (pb =? 92) eqn:EP.
  - (* after a backslash *)
    assert (NB : ((if b =? 92 then 114 else b) =? 92) = false) by (destruct (b =? 92) eqn:E; [reflexivity|exact E]).
    destruct q; cbn [andb] in *.
    + destruct (memz b special_char && negb (memz b [60; 62; 124; 34]) || (b =? 92)) eqn:ET; [discriminate|]. apply orb_false_iff in ET. destruct ET as [ET E92].
      inversion T. subst st'. cbn [cl_out cl_pb cl_br cl_q]. rewrite E92 in *. rewrite E92. split; [|reflexivity].
      fold PHRASE_CHARS in ET. destruct (memz b PHRASE_CHARS) eqn:EM.
      * rewrite (bals_snoc _ _ (true, true, br)) by (rewrite (bals_snoc _ _ _ G); reflexivity). split; [reflexivity|].
        intros E _. subst b. exists out. auto.
      * rewrite andb_true_r in ET. rewrite (bals_snoc _ _ _ G). unfold bal1. rewrite E92.
        assert (E34 : (b =? 34) = false) by (apply Z.eqb_neq; intros ->; discriminate). rewrite E34.
        destruct ((b =? 40) || (b =? 41)) eqn:EPA; [rewrite (special_paren _ EPA) in ET; discriminate|]. split; [reflexivity|].
        intros E _. subst b. discriminate.
    + inversion T. subst st'. cbn [cl_out cl_pb cl_br cl_q]. rewrite NB. split; [|reflexivity]. rewrite (bals_snoc _ _ _ G). split; [reflexivity|discriminate].
  - destruct (b =? 92) eqn:E92.
    + apply Z.eqb_eq in E92. subst b. inversion T. subst st'. cbn [cl_out cl_pb cl_br cl_q]. change (92 =? 92) with true. cbv iota. split; [|reflexivity].
      destruct q; (split; [|discriminate]); [exact G|]. rewrite (bals_snoc _ _ _ G). reflexivity.
    + destruct (b =? 34) eqn:E34.
      * apply Z.eqb_eq in E34. subst b. inversion T. subst st'. cbn [cl_out cl_pb cl_br cl_q]. change (34 =? 92) with false. cbv iota. split; [|reflexivity].
        rewrite (bals_snoc _ _ _ G). split; [reflexivity|discriminate].
      * inversion T. subst st'. clear T.
        assert (ESC : q = true -> bals start (rev (b :: 92 :: out)) = Some (false, true, br)).
        { intros ->. rewrite (bals_snoc _ _ (true, true, br)) by (rewrite (bals_snoc _ _ _ G); reflexivity). reflexivity. }
        destruct (b =? 40) eqn:E40.
        { apply Z.eqb_eq in E40. subst b. cbn [cl_out cl_pb cl_br cl_q]. change (40 =? 92) with false. cbv iota. split; [|reflexivity]. split; [|discriminate].
          destruct q; [exact (ESC eq_refl)|]. rewrite (bals_snoc _ _ _ G). reflexivity. }
        destruct (b =? 41) eqn:E41.
        { apply Z.eqb_eq in E41. subst b. destruct q.
          - cbn [cl_out cl_pb cl_br cl_q]. change (41 =? 92) with false. cbv iota. split; [|reflexivity]. split; [exact (ESC eq_refl)|discriminate].
          - destruct br as [|n]; cbn [cl_out cl_pb cl_br cl_q]; change (41 =? 92) with false; cbv iota; (split; [|reflexivity]); (split; [|discriminate]).
            + assert (D : bals start (rev (out ++ [40])) = Some (false, false, 1%nat)).
              { rewrite rev_app_distr. cbn [rev app bals]. apply bals_deeper. exact G. }
              rewrite (bals_snoc _ _ _ D). reflexivity.
            + rewrite (bals_snoc _ _ _ G). reflexivity. }
        assert (PL : bals start (rev (b :: out)) = Some (false, q, br)).
        { rewrite (bals_snoc _ _ _ G). unfold bal1. rewrite E92, E34, E40, E41. reflexivity. }
        destruct (b =? 62) eqn:E62.
        { apply Z.eqb_eq in E62. subst b. destruct q.
          - destruct (pb =? 60) eqn:E60.
            + apply Z.eqb_eq in E60. destruct (L E60 eq_refl) as (r & -> & R). cbn [cl_out cl_pb cl_br cl_q]. change (62 =? 92) with false. cbv iota. split; [|reflexivity]. split; [|discriminate].
              rewrite (bals_snoc _ _ (false, true, br)) by (rewrite (bals_snoc _ _ _ R); reflexivity). reflexivity.
            + cbn [cl_out cl_pb cl_br cl_q]. change (62 =? 92) with false. cbv iota. split; [|reflexivity]. split; [exact (ESC eq_refl)|discriminate].
          - cbn [cl_out cl_pb cl_br cl_q]. change (62 =? 92) with false. cbv iota. split; [|reflexivity]. split; [exact PL|discriminate]. }
        cbn [cl_out cl_pb cl_br cl_q]. rewrite E92. split; [|reflexivity].
        destruct q; cbn [andb].
        { destruct (memz b special_char && negb (b =? 124)) eqn:EM.
          - split; [exact (ESC eq_refl)|]. intros -> _. exists out. auto.
          - split; [exact PL|]. intros -> _. discriminate EM. }
        split; [exact PL|]. discriminate.
Qed.
Lemma clean_goes : forall s c st, goes c -> tidys ((cl_pb c =? 92), cl_q c) s = Some st -> goes (fold_left clean1 s c) /\ st = ((cl_pb (fold_left clean1 s c) =? 92), cl_q (fold_left clean1 s c)).
Proof.
  induction s as [|b s IH]; intros c st G T; cbn [fold_left tidys] in *.
  - inversion T. auto.
  - destruct (tidy1 _ b) as [st'|] eqn:E; [|discriminate]. destruct (clean1_goes c b _ _ G eq_refl E) as [G2 ->]. apply IH; assumption.
Qed.
Lemma bals_close : forall n e, bals (false, e, n) (repeat 41 n) = if e then (match n with O => Some (false, e, O) | _ => None end) else Some (false, false, O).
Proof. induction n as [|n IH]; intros e; [destruct e; reflexivity|]. cbn [repeat bals]. destruct e; [reflexivity|]. cbn [bal1]. change (41 =? 92) with false. change (41 =? 34) with false. change (41 =? 40) with false. change (41 =? 41) with true. cbn [orb]. rewrite (IH false). reflexivity. Qed.
Lemma rev_repeat {A} (x : A) n : rev (repeat x n) = repeat x n.
Proof. induction n as [|n IH]; [reflexivity|]. cbn [repeat rev]. rewrite IH. clear IH. induction n as [|n IH]; [reflexivity|]. cbn [repeat app]. rewrite IH. reflexivity. Qed.
Lemma clean_balanced s : tidy s -> balanced (clean_str s).
Proof.
  intros (st & T & N). assert (G0 : goes (mkCl [] (-1) O false)) by (split; [reflexivity|discriminate]).
  destruct (clean_goes s _ _ G0 T) as [[G _] E]. fold (clean_all s) in G, E. unfold balanced, clean_str. cbv zeta. destruct (clean_all s) as [out pb br q]. cbn [cl_out cl_pb cl_br cl_q] in *.
  rewrite rev_app_distr, rev_repeat, bals_app. destruct q.
  - assert (G2 : bals start (rev out) = Some (false, true, br)) by (destruct (pb =? 92); exact G).
    rewrite (bals_snoc _ _ _ G2). cbn [bal1]. change (34 =? 92) with false. change (34 =? 34) with true. cbv iota. cbn [negb]. apply (bals_close br false).
  - destruct (pb =? 92); [congruence|]. rewrite G. apply (bals_close br false).
Qed.

(* ---------- cleaning: without quotes only parentheses are added *)
Lemma clean_adds_go : forall s c, ~ In 34 s -> cl_q c = false -> let c' := fold_left clean1 s c in cl_q c' = false /\ exists k, rev (cl_out c') = repeat 40 k ++ rev (cl_out c) ++ s.
Proof.
  induction s as [|b s IH]; intros c N Q; cbn [fold_left]; cbv zeta.
  - split; [exact Q|]. exists O. rewrite app_nil_r. reflexivity.
  - assert (Nb : (b =? 34) = false) by (apply Z.eqb_neq; intros ->; apply N; left; reflexivity).
    assert (S1 : cl_q (clean1 c b) = false /\ exists k, rev (cl_out (clean1 c b)) = repeat 40 k ++ rev (cl_out c) ++ [b]).
    { destruct c as [out pb br q]. cbn [cl_q] in Q. subst q. unfold clean1. cbn [cl_out cl_pb cl_br cl_q andb]. rewrite Nb.
      ifs; cbn [cl_out cl_q rev]; (try (split; [reflexivity|exists O; reflexivity])).
      destruct br as [|n]; cbn [cl_out cl_q rev]; (split; [reflexivity|]); [|exists O; reflexivity]. exists 1%nat. rewrite rev_app_distr. reflexivity. }
    destruct S1 as [Q1 [k1 E1]]. destruct (IH (clean1 c b)) as [Q2 [k2 E2]]; [intros X; apply N; right; exact X|exact Q1|]. split; [exact Q2|].
    exists (k2 + k1)%nat. rewrite E2, E1, repeat_app, <- !app_assoc. reflexivity.
Qed.
Lemma clean_adds s : ~ In 34 s -> exists k m, clean_str s = repeat 40 k ++ s ++ repeat 41 m.
Proof.
  intros N. destruct (clean_adds_go s (mkCl [] (-1) O false) N eq_refl) as [Q [k E]]. fold (clean_all s) in Q, E. unfold clean_str. cbv zeta. rewrite Q.
  rewrite rev_app_distr, rev_repeat, E. cbn [cl_out rev app]. exists k, (cl_br (clean_all s)). rewrite <- app_assoc. reflexivity.
Qed.
(* a balanced string without quotes is left alone *)
Definition same_as (c : clean) (st : bal) : Prop := cl_q c = false /\ (let '(e, q, d) := st in e = (cl_pb c =? 92) /\ q = false /\ d = cl_br c).
Lemma clean_same_go : forall s c st st', ~ In 34 s -> same_as c st -> bals st s = Some st' -> rev (cl_out (fold_left clean1 s c)) = rev (cl_out c) ++ s /\ same_as (fold_left clean1 s c) st'.
Proof.
  induction s as [|b s IH]; intros c st st' N S1 B; cbn [fold_left bals] in *.
  - inversion B. subst. rewrite app_nil_r. auto.
  - destruct (bal1 st b) as [st1|] eqn:E; [|discriminate].
    assert (Nb : (b =? 34) = false) by (apply Z.eqb_neq; intros ->; apply N; left; reflexivity).
    assert (X : rev (cl_out (clean1 c b)) = rev (cl_out c) ++ [b] /\ same_as (clean1 c b) st1).
    { destruct c as [out pb br q]. destruct st as [[e q'] d]. destruct S1 as [Q (E1 & E2 & E3)]. cbn [cl_q cl_pb cl_br] in *. subst q q' d e. unfold bal1 in E. unfold clean1, same_as. cbn [cl_out cl_pb cl_br cl_q andb]. rewrite Nb in *.
      destruct (pb =? 92) eqn:EP.
      - inversion E. subst st1. cbn [cl_out cl_pb cl_br cl_q rev]. split; [reflexivity|]. split; [reflexivity|]. split; [|auto]. destruct (b =? 92) eqn:E92; [reflexivity|symmetry; exact E92].
      - destruct (b =? 92) eqn:E92; [inversion E; subst st1; cbn [cl_out cl_pb cl_br cl_q rev]; rewrite E92; auto|].
        destruct (b =? 40) eqn:E40; [inversion E; subst st1; cbn [orb cl_out cl_pb cl_br cl_q rev]; rewrite E92; auto|].
        destruct (b =? 41) eqn:E41; cbn [orb] in E.
        + destruct br as [|n]; [discriminate|]. inversion E; subst st1; cbn [cl_out cl_pb cl_br cl_q rev]; rewrite E92; auto.
        + inversion E; subst st1. destruct (b =? 62); cbn [cl_out cl_pb cl_br cl_q rev]; rewrite E92; auto. }
    destruct X as [X1 X2]. destruct (IH (clean1 c b) st1 st') as [Y1 Y2]; [intros X; apply N; right; exact X|exact X2|exact B|]. split; [|exact Y2]. rewrite Y1, X1, <- app_assoc. reflexivity.
Qed.
Lemma clean_same s : ~ In 34 s -> balanced s -> clean_str s = s.
Proof.
  intros N B. destruct (clean_same_go s (mkCl [] (-1) O false) (false, false, O) _ N (conj eq_refl (conj eq_refl (conj eq_refl eq_refl))) B) as [E [Q (_ & _ & D)]].
  fold (clean_all s) in *. unfold clean_str. cbv zeta. rewrite Q, <- D. cbn [repeat app]. exact E.
Qed.

(* ---------- escaping *)
Lemma word_escape : forall w, word (escape w) = (w, false, []).
Proof. induction w as [|b w IH]; [reflexivity|]. cbn [escape flat_map app word]. change (memz 92 not_word) with false. change (92 =? 92) with true. cbv iota. fold (escape w). rewrite IH. reflexivity. Qed.
Lemma keyword_none w : ~ is_keyword w -> keyword w = None.
Proof.
  intros N. unfold keyword. assert (L : forall a b, list_eqb a b = true -> a = b).
  { induction a as [|x a IH]; intros [|y b] H; cbn in H; try discriminate; [reflexivity|]. apply andb_true_iff in H. destruct H as [H1 H2]. apply Z.eqb_eq in H1. subst. f_equal. apply IH. exact H2. }
  destruct (list_eqb w [65; 78; 68]) eqn:E1; [apply L in E1; destruct N; left; exact E1|].
  destruct (list_eqb w [78; 79; 84]) eqn:E2; [apply L in E2; destruct N; right; right; left; exact E2|].
  destruct (list_eqb w [82; 69; 81]) eqn:E3; [apply L in E3; destruct N; right; right; right; exact E3|].
  destruct (list_eqb w [79; 82]) eqn:E4; [apply L in E4; destruct N; right; left; exact E4|]. reflexivity.
Qed.
Lemma tokens_escape kw w : w <> [] -> ~ is_keyword w -> tokens kw (escape w) = [TWord w].
Proof.
  intros NE NK. rewrite tokens_eq. destruct w as [|b w]; [congruence|]. unfold lex1. cbn [escape flat_map app skip_sp]. cbn [Z.eqb Pos.eqb orb]. unfold lex_word.
  change (92 :: b :: flat_map (fun b0 => [92; b0]) w) with (escape (b :: w)). rewrite word_escape. cbv iota. unfold word_tok. rewrite (keyword_none _ NK).
  destruct kw; rewrite tokens_eq; reflexivity.
Qed.
Lemma clean_escape w : clean_str (escape w) = escape w.
Proof.
  assert (G : forall l c, cl_q c = false -> (cl_pb c =? 92) = false -> let c' := fold_left clean1 (escape l) c in rev (cl_out c') = rev (cl_out c) ++ escape l /\ cl_br c' = cl_br c /\ cl_q c' = false).
  { induction l as [|b l IH]; intros c Q P; cbv zeta; [cbn [escape flat_map fold_left]; rewrite app_nil_r; auto|].
    cbn [escape flat_map fold_left app]. fold (escape l). destruct c as [out pb br q]. cbn [cl_q cl_pb] in Q, P. subst q.
    assert (E : clean1 (clean1 (mkCl out pb br false) 92) b = mkCl (b :: 92 :: out) (if b =? 92 then 114 else b) br false).
    { unfold clean1. cbn [cl_out cl_pb cl_br cl_q andb]. rewrite P. reflexivity. }
    rewrite E. destruct (IH (mkCl (b :: 92 :: out) (if b =? 92 then 114 else b) br false)) as (E1 & E2 & E3).
    - reflexivity.
    - cbn [cl_pb]. destruct (b =? 92) eqn:E9; [reflexivity|exact E9].
    - split; [|split; assumption]. rewrite E1. cbn [cl_out rev]. rewrite <- !app_assoc. reflexivity. }
  destruct (G w (mkCl [] (-1) O false) eq_refl eq_refl) as (E1 & E2 & E3). fold (clean_all (escape w)) in *. unfold clean_str. cbv zeta. rewrite E3, E2. cbn [cl_br repeat app]. exact E1.
Qed.
Lemma parsed_escape cf w : parsed cf (escape w) = escape w.
Proof. unfold parsed. destruct (q_clean cf); [apply clean_escape|reflexivity]. Qed.
Lemma escape_writes cf w : w <> [] -> ~ is_keyword w -> writes cf (escape w) (single (ATerm w)).
Proof. intros NE NK. split; [cbn; auto|]. unfold toks_of. rewrite parsed_escape, tokens_escape by assumption. reflexivity. Qed.
Lemma escape_moderate cf w : w <> [] -> ~ is_keyword w -> (length w < 254)%nat -> moderate cf (escape w).
Proof.
  intros NE NK L. unfold moderate. unfold toks_of. rewrite parsed_escape, tokens_escape by assumption. split; [constructor; [exact L|constructor]|]. cbn [length]. apply Nat.leb_le. vm_compute. reflexivity.
Qed.
Lemma escape_answer cf p f w : ready cf p -> w <> [] -> ~ is_keyword w -> (length w < 254)%nat -> q_def cf = [f] -> (exists l, q_tok cf = Some l /\ has l f = false) ->
  exists p', answers cf p (escape w) (AnsQ (q_new (NTerm f w))) p'.
Proof.
  intros RE NE NK L D (l & T & H). pose proof (escape_writes cf w NE NK) as W. pose proof (escape_moderate cf w NE NK L) as MO.
  assert (V : value cf (escape w) (single (ATerm w)) = EOk (Some (q_new (NTerm f w)))).
  { unfold value, single, top_eval. cbn [c_eval m_eval eval]. rewrite D. unfold over, flds, one_by_one, get_term_q, get_ts. rewrite T, H. cbn [obind non_tokenize]. unfold tk_set.
    destruct (MAX_WORD_SIZE <=? length w)%nat eqn:E; [apply Nat.leb_le in E; unfold MAX_WORD_SIZE in E; lia|]. cbn [t_text]. rewrite firstn_all. reflexivity. }
  destruct (q_handle cf) eqn:HF.
  - eapply lenient_mean; eauto.
  - apply (strict_mean cf p (escape w) RE MO HF). exists (single (ATerm w)), (Some (q_new (NTerm f w))). auto.
Qed.

(* ---------- connectives *)
Lemma must_required x : must x = required x.
Proof. destruct x as [[] q]; reflexivity. Qed.
Lemma required_idem x : required (required x) = required x.
Proof. destruct x as [[] q]; reflexivity. Qed.
Lemma m_eval_chain cf cap fs k : forall cs l acc, evals cf cap fs cs = Some l -> m_eval cf cap fs acc (chain k cs) = EOk (fold_left (fun a x => e_add cf k a (Some x)) l acc).
Proof.
  induction cs as [|c cs IH]; intros l acc E; cbn [evals chain] in *.
  - apply some_inj in E. subst. reflexivity.
  - change (m_eval cf cap fs acc (MCons k c (chain k cs))) with (ebind (c_eval cf cap fs c) (fun x => m_eval cf cap fs (e_add cf k acc x) (chain k cs))).
    destruct (c_eval cf cap fs c) as [[x|]| |]; try discriminate. destruct (evals cf cap fs cs) as [l'|]; [|discriminate]. apply some_inj in E. subst l. cbn [ebind fold_left]. apply IH. reflexivity.
Qed.
Lemma fold_or : forall l acc, fold_left (fun a x => add_or_cls a (Some x)) l acc = acc ++ l.
Proof. induction l as [|x l IH]; intros acc; cbn [fold_left]; [rewrite app_nil_r; reflexivity|]. rewrite IH. cbn [add_or_cls]. rewrite <- app_assoc. reflexivity. Qed.
Lemma fold_and : forall l acc, (2 <= length acc)%nat -> fold_left (fun a x => add_and_cls a (Some x)) l acc = acc ++ map required l.
Proof.
  induction l as [|x l IH]; intros acc L; cbn [fold_left map]; [rewrite app_nil_r; reflexivity|].
  assert (E : add_and_cls acc (Some x) = acc ++ [required x]) by (destruct acc as [|a [|b r]]; cbn [length] in L; try lia; unfold add_and_cls; rewrite must_required; reflexivity).
  rewrite E, IH by (rewrite app_length; cbn; lia). rewrite <- app_assoc. reflexivity.
Qed.
Definition ands (cf : qconf) (k : conn) : bool := match k with CAnd => true | COr => false | CNone => negb (q_or cf) end.
Lemma chain_value cf cap fs k c cs l : evals cf cap fs (c :: cs) = Some l -> cs <> [] ->
  top_eval cf cap fs (Some (c, chain k cs)) = EOk (Some (bq_new (if ands cf k then map required l else l))).
Proof.
  intros E NE. cbn [evals] in E. unfold top_eval. destruct (c_eval cf cap fs c) as [[x|]| |]; try discriminate. destruct (evals cf cap fs cs) as [l'|] eqn:E2; [|discriminate]. apply some_inj in E. subst l.
  cbn [ebind first_cls]. rewrite (m_eval_chain _ _ _ _ _ _ _ E2). cbn [ebind].
  destruct l' as [|y l']; [destruct cs as [|c' cs]; [congruence|]; cbn [evals] in E2; destruct (c_eval cf cap fs c') as [[z|]| |]; try discriminate; destruct (evals cf cap fs cs); discriminate|].
  assert (A : fold_left (fun a z => e_add cf k a (Some z)) (y :: l') [x] = if ands cf k then map required (x :: y :: l') else x :: y :: l').
  { assert (A1 : fold_left (fun a z => add_and_cls a (Some z)) (y :: l') [x] = map required (x :: y :: l')).
    { cbn [fold_left]. unfold add_and_cls at 2. rewrite fold_and by (cbn; lia). rewrite !must_required. reflexivity. }
    assert (A2 : fold_left (fun a z => add_or_cls a (Some z)) (y :: l') [x] = x :: y :: l') by (rewrite fold_or; reflexivity).
    unfold e_add, ands, add_default_cls. destruct k; [exact A1|exact A2|]. destruct (q_or cf); cbn [negb]; [exact A2|exact A1]. }
  rewrite A. destruct (ands cf k); destruct x as [[] x]; destruct y as [[] y]; reflexivity.
Qed.

(* ---------- fields *)
Section FLD.
  Variable cf : qconf.
  Variable func : list Z -> option (option qry).
  Hypothesis ALL : forall f, exists o, func f = Some o.
  Definition alone (f : list Z) : option qry := match func f with Some o => o | None => None end.
  Lemma flds_more_join : forall fs cs, Z.of_nat (length cs) + Z.of_nat (length fs) <= q_max cf ->
    flds_more cf (one_by_one func) fs tt cs = FOk (match cs ++ map (fun q => (Should, q)) (somes (map alone fs)) with [] => None | l => Some (q_new (NBool false (q_max cf) l)) end).
  Proof.
    induction fs as [|f fs IH]; intros cs L; cbn [flds_more map somes flat_map].
    - rewrite app_nil_r. destruct cs; reflexivity.
    - cbn [length] in L. unfold one_by_one at 1, alone at 1. destruct (ALL f) as [o E]. rewrite E. destruct o as [q|].
      + destruct (q_max cf <=? Z.of_nat (length cs)) eqn:EL; [apply Z.leb_le in EL; lia|]. rewrite IH by (rewrite app_length; cbn [length]; lia). cbn [app map]. rewrite <- app_assoc. reflexivity.
      + rewrite IH by lia. cbn [app]. reflexivity.
  Qed.
  Lemma flds_join fs : small cf fs -> flds cf (one_by_one func) (Some fs) tt = FOk (join cf (map alone fs)).
  Proof.
    intros S. unfold flds. destruct fs as [|f [|g r]].
    - reflexivity.
    - unfold one_by_one, alone. cbn [map join]. destruct (ALL f) as [o E]. rewrite E. reflexivity.
    - rewrite flds_more_join by (unfold small in S; cbn [length] in *; lia). cbn [app]. unfold join. cbn [map].
      destruct (somes (alone f :: alone g :: map alone r)) as [|q l]; reflexivity.
  Qed.
End FLD.
Lemma get_term_all cf x : q_tok cf <> None -> forall f, exists o, get_term_q cf f x = Some o.
Proof. intros TK f. unfold get_term_q, get_ts. destruct (q_tok cf); [|congruence]. cbn [obind]. destruct (if has l f then q_ana cf f x else non_tokenize x) as [|t [|t' r]]; eexists; reflexivity. Qed.
Lemma get_fuzzy_all cf x y : q_tok cf <> None -> forall f, exists o, get_fuzzy_q cf f x y = Some o.
Proof. intros TK f. unfold get_fuzzy_q, get_ts. destruct (q_tok cf); [|congruence]. cbn [obind]. destruct (if has l f then q_ana cf f x else non_tokenize x) as [|t r]; eexists; reflexivity. Qed.
Lemma alone_eval cf func f : (exists o, func f = Some o) -> alone func f = ev_opt (over cf (one_by_one func) [f] tt) .
Proof. intros [o E]. unfold alone, over, flds, one_by_one. rewrite E. reflexivity. Qed.
Lemma term_fields cf cap fs x : q_tok cf <> None -> small cf fs -> eval cf cap fs (ATerm x) = EOk (join cf (map (fun f => ev_opt (eval cf cap [f] (ATerm x))) fs)).
Proof.
  intros TK S. cbn [eval]. unfold over at 1. rewrite (flds_join cf _ (get_term_all cf x TK) fs S). f_equal. f_equal. apply map_ext. intros f. apply alone_eval. apply get_term_all. exact TK.
Qed.
Lemma fuzzy_fields cf cap fs x y : q_tok cf <> None -> small cf fs -> eval cf cap fs (AFuzzy x y) = EOk (join cf (map (fun f => ev_opt (eval cf cap [f] (AFuzzy x y))) fs)).
Proof.
  intros TK S. cbn [eval]. unfold over at 1. rewrite (flds_join cf _ (get_fuzzy_all cf x y TK) fs S). f_equal. f_equal. apply map_ext. intros f. apply alone_eval. apply get_fuzzy_all. exact TK.
Qed.
(* wildcards, where all of the fields are put in lower case or none *)
Section WILD.
  Variable cf : qconf.
  Variable cap : nat.
  Hypothesis SA : sane cf.
  Variable b : bool.
  Definition low (x : list Z) : list Z := if b then q_lower cf x else x.
  Definition wq (f x : list Z) : qry :=
    match x with
    | [42] => q_new NAll
    | _ => if (last x 0 =? 42) && negb (existsb wildc (removelast x)) then q_new (NPrefix f (removelast x) (q_max cf)) else q_new (NWild f x (q_max cf))
    end.
  Lemma wild_one f x : lowers cf f = b -> (length x < 254)%nat -> get_wild_q cf cap f x = GOk (Some (wq f (low x))) (low x).
  Proof.
    intros L N. unfold get_wild_q, lower_for, low. rewrite L. destruct b; [|reflexivity]. unfold lower_str.
    destruct (length x <=? 253)%nat eqn:E; [reflexivity|]. apply Nat.leb_gt in E. lia.
  Qed.
  Lemma low_low x : low (low x) = low x.
  Proof. unfold low. destruct b; [apply (sane_idem _ SA)|reflexivity]. Qed.
  Lemma low_len x : (length (low x) <= length x)%nat.
  Proof. unfold low. destruct b; [apply (sane_len _ SA)|lia]. Qed.
  Lemma wild_more : forall fs x cs, (forall f, In f fs -> lowers cf f = b) -> (length x < 254)%nat -> Z.of_nat (length cs) + Z.of_nat (length fs) <= q_max cf ->
    flds_more cf (get_wild_q cf cap) fs x cs = FOk (match cs ++ map (fun f => (Should, wq f (low x))) fs with [] => None | l => Some (q_new (NBool false (q_max cf) l)) end).
  Proof.
    induction fs as [|f fs IH]; intros x cs A N L; cbn [flds_more map].
    - rewrite app_nil_r. destruct cs; reflexivity.
    - cbn [length] in L. rewrite wild_one by (auto; apply A; left; reflexivity). destruct (q_max cf <=? Z.of_nat (length cs)) eqn:EL; [apply Z.leb_le in EL; lia|].
      rewrite IH.
      + rewrite low_low, <- app_assoc. reflexivity.
      + intros g G. apply A. right. exact G.
      + pose proof (low_len x). lia.
      + rewrite app_length. cbn [length]. lia.
  Qed.
  Lemma somes_map {A} (g : A -> qry) l : somes (map (fun f => Some (g f)) l) = map g l.
  Proof. unfold somes. induction l as [|a l IH]; [reflexivity|]. cbn [map flat_map app]. rewrite IH. reflexivity. Qed.
  Lemma wild_fields fs x : (forall f, In f fs -> lowers cf f = b) -> (length x < 254)%nat -> small cf fs ->
    eval cf cap fs (AWild x) = EOk (join cf (map (fun f => ev_opt (eval cf cap [f] (AWild x))) fs)).
  Proof.
    intros A N S. assert (ON : forall f, In f fs -> ev_opt (eval cf cap [f] (AWild x)) = Some (wq f (low x))).
    { intros f F. cbn [eval]. unfold over, flds. rewrite wild_one by auto. reflexivity. }
    rewrite (map_ext_in _ (fun f => Some (wq f (low x))) fs ON). cbn [eval]. unfold over, flds. destruct fs as [|f [|g r]].
    - reflexivity.
    - rewrite wild_one by (auto; apply A; left; reflexivity). reflexivity.
    - rewrite wild_more by (auto; unfold small in S; cbn [length] in *; lia). unfold join. cbn [map]. 
      change (Some (wq f (low x)) :: Some (wq g (low x)) :: map (fun f0 => Some (wq f0 (low x))) r) with (map (fun f0 => Some (wq f0 (low x))) (f :: g :: r)). rewrite somes_map. cbn [app map].
      rewrite map_map. reflexivity.
  Qed.
End WILD.
