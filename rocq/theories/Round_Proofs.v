(* The words and marks of the string of a query. *)
From Coq Require Import List ZArith Bool Arith Lia.
From Verif Require Import Util Text_Model Text_Spec.
From Verif Require Import Token_Model QpLex_Model QpAct_Model QpClean_Model Qp_Model Qp_Spec QpAst_Spec QpMean_Spec QpUse_Spec QpLex_Proofs QpUse_Proofs QpTop_Proofs Round_Spec.
Import ListNotations.
Open Scope Z_scope.

(* ---------- bytes *)
Lemma memz_false c l : memz c l = false -> forall x, In x l -> (c =? x) = false.
Proof. intros H x I. destruct (c =? x) eqn:E; [|reflexivity]. assert (memz c l = true); [|congruence]. unfold memz. apply existsb_exists. exists x. split; [exact I|]. exact E. Qed.
Lemma simple_facts c : simple c = true -> memz c special_char = false /\ memz c [32; 9; 92] = false.
Proof. unfold simple. intros H. apply andb_true_iff in H. destruct H as [A B]. apply negb_true_iff in A, B. auto. Qed.
Lemma inner_facts c : inner c = true -> memz c not_word = false /\ memz c [92; 58; 42; 63] = false.
Proof. unfold inner. intros H. apply andb_true_iff in H. destruct H as [A B]. apply negb_true_iff in A, B. auto. Qed.
Ltac inl := solve [unfold special_char, not_word, PHRASE_CHARS; cbn [In]; tauto].
Lemma not_word_of c : memz c special_char = false -> memz c [32; 9; 92] = false -> memz c not_word = false.
Proof.
  intros A B. unfold not_word, memz. cbn [existsb].
  rewrite (memz_false _ _ B 32) by inl. rewrite (memz_false _ _ B 9) by inl.
  rewrite !(memz_false _ _ A) by inl. reflexivity.
Qed.
Lemma simple_inner c : simple c = true -> inner c = true.
Proof.
  intros H. destruct (simple_facts c H) as [A B]. unfold inner. rewrite (not_word_of c A B). cbn [negb andb]. apply negb_true_iff. unfold memz. cbn [existsb].
  rewrite (memz_false _ _ B 92) by inl. rewrite !(memz_false _ _ A) by inl. reflexivity.
Qed.
Lemma wild_not_word c : wildc c = true -> memz c not_word = false /\ (c =? 92) = false /\ (c =? 58) = false.
Proof. unfold wildc. intros H. apply orb_true_iff in H. destruct H as [H|H]; apply Z.eqb_eq in H; subst c; repeat split; reflexivity. Qed.

(* ---------- words *)
Definition stop (r : list Z) : Prop := match r with [] => True | c :: r' => memz c not_word = true \/ (c = 58 /\ begins 58 r' = false) end.
Lemma word_stop r : stop r -> Qp_Spec.word r = ([], false, r).
Proof.
  destruct r as [|c r]; [reflexivity|]. cbn [stop]. intros [H|[-> H]]; cbn [Qp_Spec.word].
  - rewrite H. reflexivity.
  - change (memz 58 not_word) with false. cbv iota. change (58 =? 92) with false. change (58 =? 58) with true. cbv iota. destruct r as [|c2 r]; [reflexivity|]. cbn [begins] in H. rewrite H. reflexivity.
Qed.
Lemma word_bytes w r : stop r -> forallb (fun c => inner c || wildc c) w = true -> Qp_Spec.word (w ++ r) = (w, existsb wildc w, r).
Proof.
  intros S. induction w as [|c w IH]; intros H; [cbn [List.app]; apply word_stop; exact S|].
  cbn [forallb] in H. apply andb_true_iff in H. destruct H as [H1 H2]. cbn [List.app Qp_Spec.word]. rewrite (IH H2). cbn [existsb].
  apply orb_true_iff in H1. destruct H1 as [H1|H1].
  - destruct (inner_facts c H1) as [A B]. rewrite A. rewrite !(memz_false _ _ B) by inl. unfold wildc at 2. rewrite !(memz_false _ _ B) by inl. reflexivity.
  - destruct (wild_not_word c H1) as (A & B & C). rewrite A, B, C. reflexivity.
Qed.
Lemma inner_or w : forallb inner w = true -> forallb (fun c => inner c || wildc c) w = true /\ existsb wildc w = false.
Proof.
  induction w as [|c w IH]; intros H; [auto|]. cbn [forallb existsb] in *. apply andb_true_iff in H. destruct H as [H1 H2]. destruct (IH H2) as [I1 I2]. rewrite H1, I1, I2.
  destruct (inner_facts c H1) as [_ B]. unfold wildc. rewrite !(memz_false _ _ B) by inl. auto.
Qed.
Lemma simple_head c r kw : simple c = true -> lex1 kw (c :: r) = Some (lex_word kw (c :: r)).
Proof.
  intros H. destruct (simple_facts c H) as [A B]. unfold lex1. cbn [skip_sp]. rewrite (memz_false _ _ B 32), (memz_false _ _ B 9) by inl. cbn [orb].
  rewrite !(memz_false _ _ A) by inl. reflexivity.
Qed.
Lemma good_bytes w : good_word w -> exists c r, w = c :: r /\ simple c = true /\ forallb inner w = true /\ ~ is_keyword w /\ (length w < 254)%nat.
Proof. intros [G [K L]]. destruct w as [|c r]; [contradiction|]. destruct G as [G1 G2]. exists c, r. cbn [forallb]. rewrite (simple_inner c G1), G2. auto. Qed.
Lemma tok_word kw w r : good_word w -> stop r -> tokens kw (w ++ r) = TWord w :: tokens kw r.
Proof.
  intros G S. destruct (good_bytes w G) as (c & v & E & S1 & I & K & L). destruct (inner_or w I) as [J1 J2]. rewrite tokens_eq.
  assert (X : lex1 kw (w ++ r) = Some (lex_word kw (w ++ r))) by (rewrite E; cbn [List.app]; apply simple_head; exact S1). rewrite X. unfold lex_word. rewrite (word_bytes w r S J1), J2. unfold word_tok. rewrite (keyword_none w K). destruct kw; reflexivity.
Qed.
Lemma tok_wild kw p r : pattern p -> stop r -> begins 58 r = false -> tokens kw (p ++ r) = TWild p :: tokens kw r.
Proof.
  intros [G [W L]] S NB. destruct p as [|c v]; [contradiction|]. destruct G as [G1 G2]. rewrite tokens_eq.
  assert (J : forallb (fun c => inner c || wildc c) (c :: v) = true).
  { cbn [forallb]. rewrite G2, andb_true_r. apply orb_true_iff in G1. destruct G1 as [G1|G1]; [rewrite (simple_inner c G1); reflexivity|rewrite G1; apply orb_true_r]. }
  assert (K : keyword (c :: v) = None).
  { apply keyword_none. intros [E|[E|[E|E]]]; rewrite E in W; discriminate W. }
  assert (X : lex1 kw ((c :: v) ++ r) = Some (lex_word kw ((c :: v) ++ r))).
  { cbn [List.app]. apply orb_true_iff in G1. destruct G1 as [G1|G1]; [apply simple_head; exact G1|]. unfold wildc in G1. apply orb_true_iff in G1. destruct G1 as [G1|G1]; apply Z.eqb_eq in G1; subst c.
    - unfold lex1. cbn [skip_sp]. change ((42 =? 32) || (42 =? 9)) with false. cbv iota. change ((42 =? 45) || (42 =? 33)) with false. change (42 =? 43) with false. change (42 =? 42) with true. cbv iota.
      assert (B : begins 58 (v ++ r) = false). { destruct v as [|c2 v]; [exact NB|]. cbn [List.app begins]. cbn [forallb] in G2. apply andb_true_iff in G2. destruct G2 as [G2 _]. apply orb_true_iff in G2.
        destruct G2 as [G2|G2]; [destruct (inner_facts _ G2) as [_ B]; apply (memz_false _ _ B); inl|apply wild_not_word in G2; apply G2]. }
      rewrite B. reflexivity.
    - reflexivity. }
  rewrite X. unfold lex_word. rewrite (word_bytes _ r S J), W. unfold word_tok. rewrite K. destruct kw; reflexivity.
Qed.
(* marks *)
Lemma tok_space kw r : tokens kw (32 :: r) = tokens kw r.
Proof. rewrite (tokens_eq kw (32 :: r)), (tokens_eq kw r). reflexivity. Qed.
Lemma tok_lp kw r : tokens kw (40 :: r) = TLp :: tokens kw r. Proof. rewrite tokens_eq. reflexivity. Qed.
Lemma tok_rp kw r : tokens kw (41 :: r) = TRp :: tokens kw r. Proof. rewrite tokens_eq. reflexivity. Qed.
Lemma tok_caret kw r : tokens kw (94 :: r) = TCaret :: tokens kw r. Proof. rewrite tokens_eq. reflexivity. Qed.
Lemma tok_colon kw r : tokens kw (58 :: r) = TColon :: tokens kw r. Proof. rewrite tokens_eq. reflexivity. Qed.
Lemma tok_tilde kw r : tokens kw (126 :: r) = TTilde :: tokens kw r. Proof. rewrite tokens_eq. reflexivity. Qed.
Lemma tok_quote kw r : tokens kw (34 :: r) = TQuote :: tokens kw r. Proof. rewrite tokens_eq. reflexivity. Qed.
Lemma tok_lt kw r : tokens kw (60 :: r) = TLt :: tokens kw r. Proof. rewrite tokens_eq. reflexivity. Qed.
Lemma tok_gt kw r : tokens kw (62 :: r) = TGt :: tokens kw r. Proof. rewrite tokens_eq. reflexivity. Qed.
Lemma tok_lb kw (b : bool) r : tokens kw ((if b then 91 else 123) :: r) = (if b then TLb else TLc) :: tokens kw r. Proof. rewrite tokens_eq. destruct b; reflexivity. Qed.
Lemma tok_rb kw (b : bool) r : tokens kw ((if b then 93 else 125) :: r) = (if b then TRb else TRc) :: tokens kw r. Proof. rewrite tokens_eq. destruct b; reflexivity. Qed.
Lemma tok_bar kw r : begins 124 r = false -> tokens kw (124 :: r) = TBar :: tokens kw r.
Proof. intros H. rewrite tokens_eq. unfold lex1. cbn [skip_sp]. change ((124 =? 32) || (124 =? 9)) with false. cbn [Z.eqb Pos.eqb orb]. rewrite H. reflexivity. Qed.
Lemma good_begins w r c : good_word w -> simple c = false -> begins c (w ++ r) = false.
Proof. intros G N. destruct (good_bytes w G) as (d & v & E & S1 & _). rewrite E. cbn [List.app begins]. destruct (d =? c) eqn:X; [|reflexivity]. apply Z.eqb_eq in X. congruence. Qed.

(* ---------- boosts *)
Definition t_boost (b : Text_Model.boost) : option (list Z) := match b with Some x => Some (number x) | None => None end.
(* what may follow a clause *)
Definition after (r : list Z) : Prop := match r with [] => True | c :: _ => c = 32 \/ c = 41 end.
Lemma after_stop r : after r -> stop r /\ begins 58 r = false.
Proof. destruct r as [|c r]; [split; [exact Logic.I|reflexivity]|]. intros [->| ->]; split; try reflexivity; left; reflexivity. Qed.
Lemma tok_tail cf bits kw b r : reads_b cf bits b -> after r -> tokens kw (tail b ++ r) = t_opt TCaret (t_boost b) ++ tokens kw r.
Proof.
  intros R A. destruct b as [x|]; [|reflexivity]. destruct R as [G _]. cbn [tail t_boost t_opt List.app]. rewrite tok_caret.
  rewrite tok_word; [reflexivity|exact G|apply after_stop; exact A].
Qed.
Lemma tail_stop b r : after r -> stop (tail b ++ r) /\ begins 58 (tail b ++ r) = false.
Proof. intros A. destruct b as [x|]; [split; [left; reflexivity|reflexivity]|apply after_stop; exact A]. Qed.

(* ---------- the query as something of the grammar *)
Section CLAUSE.
  Variable df : option (list Z).
  Definition fld (f : list Z) (a : ast) : ast := if same df f then a else AField f [] a.
  Fixpoint elems (prev : Z) (ps : list (Z * list (list Z))) : list elem :=
    match ps with
    | [] => []
    | (p, ts) :: r => repeat PGap (Z.to_nat (p - prev - 1)) ++ match ts with w :: ws => PWord w :: map PAlt ws | [] => [] end ++ elems p r
    end.
  Definition a_slop (n : Z) : option (list Z) := if n =? 0 then None else Some (dec n).
  Definition a_phrase (ps : list (Z * list (list Z))) (slop : Z) : ast :=
    match ps with
    | (p, w :: ws) :: r => APhrase (Some w) (map PAlt ws ++ elems p r) (a_slop slop)
    | _ => AEmpty None
    end.
  Definition a_range (r : Text_Model.range) : ast :=
    match r_lower r, r_upper r with
    | Some x, Some y => ARange (RBoth (r_incl r) (r_incu r) x y)
    | Some x, None => ARange (RFrom (r_incl r) x)
    | None, Some y => ARange (RUpTo (r_incu r) y)
    | None, None => ANothing
    end.
  (* one that is no BooleanQuery *)
  Definition leaf (q : query) : ast * Text_Model.boost :=
    match q with
    | Term f t b => (fld f (ATerm t), b)
    | Phrase f ps slop b => (fld f (a_phrase ps slop), b)
    | MultiTerm f ts b => (fld f (a_phrase [(0, map fst ts)] 0), b)
    | Prefix f p b => (fld f (AWild (p ++ [42])), b)
    | Wild f p b => (fld f (AWild p), b)
    | Fuzzy f t s b => (fld f (AFuzzy t (t_boost s)), b)
    | Range r b => (fld (r_field r) (a_range r), b)
    | All b => (AWild [42], b)
    | _ => (ANothing, None)
    end.
  Fixpoint clause (o : occ) (q : query) {struct q} : cls :=
    match q with
    | Bool cs b =>
        let g := match cs with
                 | [] => ANothing
                 | (o1, q1) :: l =>
                     AGroup (clause (occ_of o1) q1)
                       ((fix rest (l : list (occur * query)) : more := match l with [] => MNil | (o', q') :: l' => MCons CNone (clause (occ_of o') q') (rest l') end) l)
                 end in
        match b with None => Cls o g None | Some x => Cls o (AGroup (Cls Should g (Some (number x))) MNil) None end
    | _ => Cls o (fst (leaf q)) (t_boost (snd (leaf q)))
    end.
  Fixpoint rest (l : list (occur * query)) : more := match l with [] => MNil | (o', q') :: l' => MCons CNone (clause (occ_of o') q') (rest l') end.
  Definition group (cs : list (occur * query)) : ast := match cs with [] => ANothing | (o1, q1) :: l => AGroup (clause (occ_of o1) q1) (rest l) end.
  Lemma clause_leaf o q : is_bool q = false -> clause o q = Cls o (fst (leaf q)) (t_boost (snd (leaf q))).
  Proof. destruct q; try reflexivity. discriminate. Qed.
  Lemma clause_bool o cs b : clause o (Bool cs b) = match b with None => Cls o (group cs) None | Some x => Cls o (AGroup (Cls Should (group cs) (Some (number x))) MNil) None end.
  Proof. reflexivity. Qed.
  Definition whole (q : query) : top :=
    match q with
    | Bool ((o1, q1) :: l) None => Some (clause (occ_of o1) q1, rest l)
    | Bool cs (Some x) => Some (Cls Should (group cs) (Some (number x)), MNil)
    | _ => Some (clause Should q, MNil)
    end.
End CLAUSE.

Lemma query_bool_ind (P : query -> Prop) :
  (forall cs b, Forall (fun c => P (snd c)) cs -> P (Bool cs b)) -> (forall q, is_bool q = false -> P q) -> forall q, P q.
Proof.
  intros HB HL. fix IH 1. intros q. destruct q; try (apply HL; reflexivity). apply HB. induction cs as [|c cs IHc]; [constructor|]. constructor; [destruct c as [o q]; apply IH|exact IHc].
Qed.

Section TOKENS.
  Variable cf : qconf.
  Variable bits : num -> Z.
  Variable df : option (list Z).
  Variable kw : bool.
  Notation tk := (tokens kw).

  Lemma tok_named f a x y : known cf f -> begins 58 x = false -> tk x = toks a ++ y -> tk (named df f ++ x) = toks (fld df f a) ++ y.
  Proof.
    intros [G _] B E. unfold named, fld. destruct (same df f); [exact E|]. rewrite <- app_assoc. rewrite tok_word; [|exact G|right; split; [reflexivity|exact B]].
    cbn [List.app]. rewrite tok_colon, E. reflexivity.
  Qed.
  Lemma plain_good ws f : Forall (fun w => plain_word w /\ kept cf f w) ws -> Forall (fun w => good_word w) ws.
  Proof. apply Forall_impl. intros w [[G _] _]. exact G. Qed.
  (* w|w|w *)
  Lemma tok_join w ws r : Forall (fun w => good_word w) (w :: ws) -> stop r ->
    tk (Text_Spec.join [124] (w :: ws) ++ r) = TWord w :: flat_map t_elem (map PAlt ws) ++ tk r.
  Proof.
    revert w. induction ws as [|v ws IH]; intros w F S.
    - cbn [Text_Spec.join map flat_map List.app]. inversion F. apply tok_word; assumption.
    - inversion F as [|? ? Fw F']. subst. inversion F' as [|? ? Fv ?]. subst.
      change (Text_Spec.join [124] (w :: v :: ws)) with (w ++ [124] ++ Text_Spec.join [124] (v :: ws)). rewrite <- !app_assoc. cbn [List.app].
      rewrite tok_word; [|exact Fw|left; reflexivity]. rewrite tok_bar.
      + rewrite (IH v F' S). reflexivity.
      + destruct ws as [|u ws]; [apply good_begins; [exact Fv|reflexivity]|].
        change (Text_Spec.join [124] (v :: u :: ws)) with (v ++ [124] ++ Text_Spec.join [124] (u :: ws)). rewrite <- app_assoc. apply good_begins; [exact Fv|reflexivity].
  Qed.
  Lemma tok_gaps n r : tk (concat (repeat [60; 62; 32] n) ++ r) = flat_map t_elem (repeat PGap n) ++ tk r.
  Proof. induction n as [|n IH]; [reflexivity|]. cbn [repeat concat List.app flat_map t_elem]. rewrite tok_lt, tok_gt, tok_space, IH. reflexivity. Qed.
  Definition good_place (p : Z * list (list Z)) : Prop := snd p <> [] /\ Forall (fun w => good_word w) (snd p).
  Lemma tok_places prev ps r : rising prev ps -> Forall good_place ps ->
    tk (places prev ps ++ 34 :: r) = flat_map t_elem (elems prev ps) ++ tk (34 :: r).
  Proof.
    revert prev. induction ps as [|[p ts] ps IH]; intros prev R F; [reflexivity|]. inversion F as [|? ? [N G] F']. subst. cbn [fst snd] in *. destruct R as [R1 R2].
    cbn [places elems]. cbn [fst] in R1. destruct (p =? prev) eqn:E; [apply Z.eqb_eq in E; lia|]. destruct ts as [|w ws]; [congruence|].
    rewrite <- !app_assoc. cbn [List.app]. rewrite tok_space, tok_gaps. rewrite !flat_map_app. rewrite <- !app_assoc. f_equal.
    rewrite tok_join; [|exact G|].
    - rewrite (IH p R2 F'). cbn [List.app flat_map t_elem]. rewrite flat_map_app. rewrite <- app_assoc. reflexivity.
    - destruct ps as [|[p2 ts2] ps]; [left; reflexivity|]. destruct R2 as [R2 _]. cbn [fst] in R2. cbn [places]. destruct (p2 =? p) eqn:E2; [apply Z.eqb_eq in E2; lia|]. left. reflexivity.
  Qed.
  Definition good_slop (n : Z) : Prop := n = 0 \/ good_word (dec n).
  Lemma tok_slop n r : good_slop n -> stop r -> tk (slop_s n ++ r) = t_opt TTilde (a_slop n) ++ tk r.
  Proof.
    intros [->|G] S; [reflexivity|]. unfold slop_s, a_slop. destruct (n =? 0); [reflexivity|]. cbn [List.app t_opt]. rewrite tok_tilde, tok_word; [reflexivity|exact G|exact S].
  Qed.
  (* places in order are left so *)
  Lemma insert_low p l : match l with q :: _ => fst p < fst q | [] => True end -> insert p l = p :: l.
  Proof. destruct l as [|q l]; [reflexivity|]. cbn [insert]. intros H. unfold pos_le. destruct (fst p <? fst q) eqn:E; [reflexivity|]. apply Z.ltb_ge in E. lia. Qed.
  Lemma sort_rising p l : rising (fst p) l -> sort (p :: l) = p :: l.
  Proof.
    revert p. induction l as [|q l IH]; intros p R; [reflexivity|]. destruct R as [R1 R2]. change (sort (p :: q :: l)) with (insert p (sort (q :: l))). rewrite (IH q R2). apply insert_low. exact R1.
  Qed.
  Lemma tok_phrase ps slop r : (1 <= length ps)%nat -> match ps with p :: l => rising (fst p) l | [] => True end -> Forall good_place ps -> good_slop slop -> stop r ->
    tk ([34] ++ Text_Spec.phrase ps ++ [34] ++ slop_s slop ++ r) = toks (a_phrase ps slop) ++ tk r.
  Proof.
    intros L R F SL S. destruct ps as [|[p ts] ps]; [cbn in L; lia|]. inversion F as [|? ? [N G] F']. subst. cbn [snd fst] in *. destruct ts as [|w ws]; [congruence|].
    cbn [List.app]. rewrite tok_quote. unfold Text_Spec.phrase. rewrite (sort_rising (p, w :: ws) ps R). rewrite <- app_assoc. rewrite tok_join; [|exact G|].
    - rewrite (tok_places p ps _ R F'), tok_quote, (tok_slop slop r SL S). cbn [a_phrase toks t_first List.app]. rewrite flat_map_app, <- !app_assoc. reflexivity.
    - destruct ps as [|[p2 ts2] ps]; [left; reflexivity|]. destruct R as [R2 _]. cbn [fst] in R2. cbn [places]. destruct (p2 =? p) eqn:E2; [apply Z.eqb_eq in E2; lia|]. left. reflexivity.
  Qed.
  Lemma places_good f ps : Forall (place cf f) ps -> Forall good_place ps.
  Proof. apply Forall_impl. intros p [N G]. split; [exact N|]. exact (plain_good _ _ G). Qed.
  Lemma multi_join ts : Forall (fun t : list Z * Text_Model.boost => snd t = None) ts -> map (fun t => fst t ++ tail (snd t)) ts = map fst ts.
  Proof. induction 1 as [|[t b] ts H F IH]; [reflexivity|]. cbn [map fst snd] in *. rewrite H, IH. cbn [tail]. rewrite app_nil_r. reflexivity. Qed.
  Lemma tok_leaf q r : is_bool q = false -> again cf bits q -> after r -> tk (spell df q ++ r) = c_toks (clause df Should q) ++ tk r.
  Proof.
    intros NB A AF. rewrite (clause_leaf _ _ _ NB). cbn [c_toks t_sign List.app].
    assert (T : forall b, reads_b cf bits b -> stop (tail b ++ r) /\ begins 58 (tail b ++ r) = false /\ tk (tail b ++ r) = t_opt TCaret (t_boost b) ++ tk r).
    { intros b R. split; [apply tail_stop; exact AF|]. split; [apply tail_stop; exact AF|]. apply (tok_tail cf bits); assumption. }
    destruct q; cbn [again is_bool] in *; try discriminate; try contradiction; cbn [leaf fst snd spell].
    - destruct A as (K & G & _ & R). destruct (T b R) as (S & _ & E). rewrite <- !app_assoc. apply tok_named; [exact K|apply good_begins; [exact G|reflexivity]|]. rewrite tok_word, E by assumption. reflexivity.
    - destruct A as (K & L & RI & F & SL & R). destruct (T b R) as (S & _ & E). destruct ps as [|p0 ps]; [cbn in L; lia|]. set (ps' := p0 :: ps) in *.
      rewrite <- !app_assoc. apply tok_named; [exact K|reflexivity|]. rewrite tok_phrase; [rewrite E; reflexivity|cbn; lia|exact RI|exact (places_good f ps' F)| |exact S].
      destruct SL as [->|[SL _]]; [left; reflexivity|right; exact SL].
    - destruct A as (K & L & F & R). destruct (T b R) as (S & _ & E). rewrite <- !app_assoc. apply tok_named; [exact K|reflexivity|].
      assert (F1 : Forall (fun t : list Z * Text_Model.boost => snd t = None) ts) by (revert F; apply Forall_impl; tauto).
      assert (F2 : Forall (fun w => good_word w) (map fst ts)). { apply Forall_map. revert F. apply Forall_impl. intros t [[G _] _]. exact G. }
      pose proof (multi_join ts F1) as MJ. match goal with |- context [map ?g ts] => change (map g ts) with (map (fun t : list Z * Text_Model.boost => fst t ++ tail (snd t)) ts) end. rewrite MJ.
      pose proof (tok_phrase [(0, map fst ts)] 0 (tail b ++ r)) as P. unfold Text_Spec.phrase in P. cbn [sort fold_right insert places slop_s List.app] in P. rewrite app_nil_r in P. change (slop_s 0 ++ tail b ++ r) with (tail b ++ r) in P. cbn [List.app]. etransitivity; [apply P|].
      + cbn; lia.
      + exact Logic.I.
      + constructor; [|constructor]. split; [|exact F2]. cbn [snd]. destruct ts; [cbn in L; lia|discriminate].
      + left; reflexivity.
      + exact S.
      + rewrite E. reflexivity.
    - destruct A as (K & N & W & P & _ & R). destruct (T b R) as (S & B & E). rewrite <- !app_assoc. apply tok_named; [exact K| |].
      + destruct p as [|c p]; [congruence|]. destruct P as [[P _] _]. cbn [List.app begins]. destruct (c =? 58) eqn:X; [|reflexivity]. apply Z.eqb_eq in X. subst c. discriminate P.
      + rewrite (app_assoc p [42]). rewrite tok_wild, E by assumption. reflexivity.
    - destruct A as (K & P & _ & _ & R). destruct (T b R) as (S & B & E). rewrite <- !app_assoc. apply tok_named; [exact K| |].
      + destruct p as [|c p]; [destruct P as [[] _]|]. destruct P as [[P _] _]. cbn [List.app begins]. destruct (c =? 58) eqn:X; [|reflexivity]. apply Z.eqb_eq in X. subst c. discriminate P.
      + rewrite tok_wild, E by assumption. reflexivity.
    - destruct sim as [s|]; [|contradiction]. destruct A as (K & G & _ & [RS _] & _ & _ & R). destruct (T b R) as (S & B & E). rewrite <- !app_assoc. apply tok_named; [exact K|apply good_begins; [exact G|reflexivity]|].
      rewrite tok_word; [|exact G|left; reflexivity]. cbn [List.app]. rewrite tok_tilde, tok_word, E by assumption. reflexivity.
    - destruct A as (K & BL & BU & NE & _ & R). destruct (T b R) as (S & B & E). unfold range_s. rewrite <- !app_assoc. unfold a_range, bound in *. destruct (r_lower r0) as [x|], (r_upper r0) as [y|].
      + apply tok_named; [exact K|destruct (r_incl r0); reflexivity|]. rewrite <- !app_assoc. cbn [List.app]. destruct BL as [BL _], BU as [BU _].
        rewrite tok_lb, tok_word; [|exact BL|left; reflexivity]. rewrite tok_space, tok_word; [|exact BU|left; destruct (r_incu r0); reflexivity]. rewrite tok_rb, E. reflexivity.
      + apply tok_named; [exact K|destruct (r_incl r0); reflexivity|]. rewrite <- !app_assoc. cbn [List.app]. destruct BL as [BL _].
        rewrite tok_lb, tok_word; [|exact BL|left; reflexivity]. rewrite tok_gt, E. reflexivity.
      + apply tok_named; [exact K|reflexivity|]. rewrite <- !app_assoc. cbn [List.app]. destruct BU as [BU _].
        rewrite tok_lt, tok_word; [|exact BU|left; destruct (r_incu r0); reflexivity]. rewrite tok_rb, E. reflexivity.
      + destruct NE as [NE|NE]; congruence.
    - destruct A as [_ R]. destruct (T b R) as (S & B & E). rewrite <- app_assoc. rewrite tok_wild, E; [reflexivity| |exact S|exact B]. split; [split; reflexivity|]. split; [reflexivity|cbn; lia].
  Qed.
  (* a query as a clause *)
  Definition as_clause (q : query) : list Z := if is_bool q then [40] ++ spell df q ++ [41] else spell df q.
  Definition body (cs : list (occur * query)) : list Z := Text_Spec.join [32] (map (fun c => sign_of (fst c) ++ as_clause (snd c)) cs).
  Lemma spell_bool cs b : spell df (Bool cs b) = match b with None => body cs | Some x => [40] ++ body cs ++ [41; 94] ++ number x end.
  Proof. reflexivity. Qed.
  Lemma c_toks_sign o q : c_toks (clause df o q) = t_sign o ++ c_toks (clause df Should q).
  Proof. destruct (is_bool q) eqn:B; [destruct q; try discriminate; rewrite !clause_bool; destruct b; reflexivity|rewrite !clause_leaf by exact B; reflexivity]. Qed.
  Lemma again_all cs : (fix all (l : list (occur * query)) := match l with [] => True | c :: l' => again cf bits (snd c) /\ all l' end) cs <-> Forall (fun c => again cf bits (snd c)) cs.
  Proof. induction cs as [|c cs IH]; [split; constructor|]. split; [intros [H1 H2]; constructor; [exact H1|apply IH; exact H2]|intros H; inversion H; subst; split; [assumption|apply IH; assumption]]. Qed.
  Definition says (q : query) : Prop := forall r, after r -> tk (as_clause q ++ r) = c_toks (clause df Should q) ++ tk r.
  Lemma tok_sign o r : tk (sign_of o ++ r) = t_sign (occ_of o) ++ tk r.
  Proof. destruct o; cbn [sign_of occ_of t_sign List.app]; try reflexivity; rewrite tokens_eq; reflexivity. Qed.
  Lemma tok_body c cs r : Forall (fun c => says (snd c)) (c :: cs) -> after r ->
    tk (body (c :: cs) ++ r) = c_toks (clause df (occ_of (fst c)) (snd c)) ++ m_toks (rest df cs) ++ tk r.
  Proof.
    revert c. induction cs as [|d cs IH]; intros c F A; inversion F as [|? ? Fc F']; subst.
    - unfold body. cbn [map Text_Spec.join rest m_toks List.app]. rewrite <- app_assoc, tok_sign, (Fc r A), (c_toks_sign (occ_of (fst c))), <- app_assoc. reflexivity.
    - change (body (c :: d :: cs)) with ((sign_of (fst c) ++ as_clause (snd c)) ++ [32] ++ body (d :: cs)). rewrite <- !app_assoc. rewrite tok_sign, Fc; [|left; reflexivity].
      cbn [List.app]. rewrite tok_space, (IH d F' A), (c_toks_sign (occ_of (fst c))), <- !app_assoc. destruct d as [o q]. cbn [rest m_toks t_conn List.app fst snd]. rewrite <- !app_assoc. reflexivity.
  Qed.
  Lemma tok_group cs r : Forall (fun c => says (snd c)) cs -> cs <> [] -> tk ([40] ++ body cs ++ 41 :: r) = toks (group df cs) ++ tk r.
  Proof.
    intros F N. destruct cs as [|[o q] cs]; [congruence|]. cbn [List.app]. rewrite tok_lp, (tok_body _ cs); [|exact F|right; reflexivity]. rewrite tok_rp. cbn [group toks fst snd List.app]. rewrite <- !app_assoc. reflexivity.
  Qed.
  Lemma says_all q : again cf bits q -> says q.
  Proof.
    revert q. apply (query_bool_ind (fun q => again cf bits q -> says q)).
    - intros cs b IH A r AF. cbn [again] in A. destruct A as (L & A & R). apply again_all in A.
      assert (F : Forall (fun c => says (snd c)) cs). { rewrite Forall_forall in *. intros c I. exact (IH c I (A c I)). }
      assert (N : cs <> []) by (intros ->; cbn in L; lia).
      unfold as_clause. cbn [is_bool]. rewrite spell_bool, clause_bool. destruct b as [x|].
      + destruct R as [G _]. rewrite <- !app_assoc. cbn [List.app]. rewrite tok_lp. pose proof (tok_group cs (94 :: number x ++ 41 :: r) F N) as TG. cbn [List.app] in TG. rewrite TG.
        rewrite tok_caret, tok_word; [|exact G|left; reflexivity]. rewrite tok_rp. cbn [c_toks t_sign toks m_toks t_opt List.app]. rewrite <- !app_assoc. reflexivity.
      + pose proof (tok_group cs r F N) as TG. rewrite <- !app_assoc. cbn [List.app] in *. rewrite TG. cbn [c_toks t_sign t_opt List.app]. rewrite app_nil_r. reflexivity.
    - intros q NB A r AF. unfold as_clause. rewrite NB. apply tok_leaf; assumption.
  Qed.
  Lemma tok_whole q : again cf bits q -> tk (spell df q) = top_toks (whole df q).
  Proof.
    intros A. assert (N0 : tk [] = []) by reflexivity. destruct (is_bool q) eqn:B.
    - destruct q; try discriminate. cbn [again] in A. destruct A as (L & A & R). apply again_all in A.
      assert (F : Forall (fun c => says (snd c)) cs) by (revert A; apply Forall_impl; intros c; apply says_all).
      assert (N : cs <> []) by (intros ->; cbn in L; lia). rewrite spell_bool. destruct b as [x|].
      + destruct R as [G _]. pose proof (tok_group cs (94 :: number x) F N) as TG. cbn [List.app] in *. rewrite TG.
        pose proof (tok_word kw (number x) [] G Logic.I) as TW. rewrite app_nil_r in TW. rewrite tok_caret, TW, N0. destruct cs as [|[o q] cs]; [congruence|]. cbn [whole top_toks c_toks t_sign t_opt m_toks List.app]. rewrite app_nil_r. reflexivity.
      + destruct cs as [|[o q] cs]; [congruence|]. pose proof (tok_body (o, q) cs [] F Logic.I) as TB. rewrite app_nil_r in TB. rewrite TB, N0, app_nil_r. reflexivity.
    - pose proof (tok_leaf q [] B A Logic.I) as TL. rewrite app_nil_r in TL. rewrite TL, N0.
      destruct q; try discriminate; cbn [whole top_toks m_toks]; reflexivity.
  Qed.
End TOKENS.
