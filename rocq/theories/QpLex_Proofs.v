(* The lexer with its buffers yields the words and marks of the string, as long as the words are short. *)
From Verif Require Import Util QpLex_Model QpAct_Model QpClean_Model Qp_Model Qp_Spec.
Open Scope Z_scope.

Ltac splits := repeat match goal with |- _ /\ _ => split end.

Lemma word_len s : forall w b r, word s = (w, b, r) -> (length w + length r <= length s)%nat.
Proof.
  enough (H : forall n s, (length s <= n)%nat -> forall w b r, word s = (w, b, r) -> (length w + length r <= length s)%nat) by (intros; eapply H; eauto).
  clear s. induction n as [|n IH]; intros s L w b r E.
  - destruct s; [|cbn in L; lia]. cbn in E. inversion E; subst. cbn. lia.
  - destruct s as [|c s1]; cbn [word] in E; [inversion E; subst; cbn; lia|]. cbn [length] in *.
    destruct (memz c not_word); [inversion E; subst; cbn; lia|].
    destruct (c =? 92).
    + destruct s1 as [|c2 s2]; [inversion E; subst; cbn; lia|]. destruct (word s2) as [[w' b'] r'] eqn:E2. inversion E; subst. cbn [length] in *.
      apply IH in E2; lia.
    + destruct (c =? 58).
      * destruct s1 as [|c2 s2]; [inversion E; subst; cbn; lia|]. destruct (c2 =? 58); [|inversion E; subst; cbn; lia].
        destruct (word s2) as [[w' b'] r'] eqn:E2. inversion E; subst. cbn [length] in *. apply IH in E2; lia.
      * destruct (word s1) as [[w' b'] r'] eqn:E2. inversion E; subst. cbn [length] in *. apply IH in E2; lia.
Qed.

Lemma put_short buf l : (length (buf ++ l) < 255)%nat -> put buf false l = Some (buf ++ l, false).
Proof.
  intros H. unfold put, WORD_MAX. replace (255 <? length (buf ++ l))%nat with false by (symmetry; apply Nat.ltb_ge; lia).
  replace (length (buf ++ l) =? 255)%nat with false by (symmetry; apply Nat.eqb_neq; lia). reflexivity.
Qed.
Lemma gw_short s : forall w b r buf wild, word s = (w, b, r) -> (length (buf ++ w) < 255)%nat ->
  gw s buf false wild = Some (buf ++ w, false, wild || b, r).
Proof.
  enough (H : forall n s, (length s <= n)%nat -> forall w b r buf wild, word s = (w, b, r) -> (length (buf ++ w) < 255)%nat ->
    gw s buf false wild = Some (buf ++ w, false, wild || b, r)) by (intros; eapply H; eauto).
  clear s. induction n as [|n IH]; intros s L w b r buf wild E H.
  - destruct s; [|cbn in L; lia]. cbn in E. inversion E; subst. cbn. rewrite app_nil_r, orb_false_r. reflexivity.
  - destruct s as [|c s1]; cbn [word gw] in *; [inversion E; subst; rewrite app_nil_r, orb_false_r; reflexivity|]. cbn [length] in L.
    destruct (memz c not_word); [inversion E; subst; rewrite app_nil_r, orb_false_r; reflexivity|].
    rewrite app_length in H.
    destruct (c =? 92).
    + destruct s1 as [|c2 s2].
      * inversion E; subst. rewrite put_short by (rewrite app_length; cbn in *; lia). cbn [obind fst snd]. rewrite orb_false_r. reflexivity.
      * destruct (word s2) as [[w' b'] r'] eqn:E2. inversion E; subst. cbn [length] in *.
        rewrite put_short by (rewrite app_length; cbn [length]; lia). cbn [obind fst snd].
        rewrite (IH s2 ltac:(lia) _ _ _ _ _ E2) by (rewrite !app_length; cbn [length]; lia). rewrite <- app_assoc. reflexivity.
    + destruct (c =? 58).
      * destruct s1 as [|c2 s2]; [inversion E; subst; rewrite app_nil_r, orb_false_r; reflexivity|].
        destruct (c2 =? 58); [|inversion E; subst; rewrite app_nil_r, orb_false_r; reflexivity].
        destruct (word s2) as [[w' b'] r'] eqn:E2. inversion E; subst. cbn [length] in *.
        rewrite put_short by (rewrite app_length; cbn [length]; lia). cbn [obind fst snd].
        rewrite (IH s2 ltac:(lia) _ _ _ _ _ E2) by (rewrite !app_length; cbn [length]; lia). rewrite <- app_assoc. reflexivity.
      * destruct (word s1) as [[w' b'] r'] eqn:E2. inversion E; subst. cbn [length] in *.
        rewrite put_short by (rewrite app_length; cbn [length]; lia). cbn [obind fst snd].
        rewrite (IH s1 ltac:(lia) _ _ _ _ _ E2) by (rewrite !app_length; cbn [length]; lia). rewrite <- app_assoc, !orb_assoc. reflexivity.
Qed.

(* the number of a token for the parser *)
Definition tnum (k : tok) : Z :=
  match k with
  | TWord _ => 3 | TWild _ => 4 | TOr => 6 | TAnd => 7 | TNot => 8 | TReq => 9 | TColon => 10 | TCaret => 12 | TLp => 13 | TRp => 14 | TTilde => 15
  | TStar => 16 | TBar => 17 | TQuote => 18 | TLt => 19 | TGt => 20 | TLb => 21 | TRb => 22 | TRc => 23 | TLc => 24 | TEq => 25
  end.
Definition word_of (k : tok) : option (list Z) := match k with TWord w | TWild w => Some w | _ => None end.

(* the most recent word, in the buffer that is not the next one *)
Definition held (x : lexer) (v : val) (w : list Z) : Prop := v = VStr (RBuf (negb (l_idx x))) /\ str x v = Some w.
(* a mark leaves the buffers alone *)
Definition mark (k : tok) : bool := match k with TWord _ | TWild _ | TAnd | TOr | TNot | TReq => false | _ => true end.

Lemma skip_len s : (length (skip_sp s) <= length s)%nat.
Proof. induction s as [|c s IH]; cbn; [lia|]. destruct ((c =? 32) || (c =? 9)); cbn [length]; lia. Qed.
Lemma skip_head s c r : skip_sp s = c :: r -> c <> 32 /\ c <> 9.
Proof. induction s as [|d s IH]; cbn; [discriminate|]. destruct ((d =? 32) || (d =? 9)) eqn:E; [exact IH|]. intros H. inversion H; subst. apply orb_false_iff in E. lia. Qed.

Lemma memz_in c l : memz c l = true <-> In c l.
Proof. unfold memz. rewrite existsb_exists. split. - intros (y & H & E). apply Z.eqb_eq in E. subst. exact H. - intros H. exists c. rewrite Z.eqb_refl. auto. Qed.

Lemma lex1_len kw s k r : lex1 kw s = Some (k, r) -> (length r < length s)%nat.
Proof.
  unfold lex1. intros E. pose proof (skip_len s) as L. destruct (skip_sp s) as [|c s1] eqn:ES; [discriminate|]. cbn [length] in L.
  assert (T : (length (tl s1) <= length s1)%nat) by (destruct s1; cbn; lia).
  assert (W : forall k' r', memz c not_word = false -> c <> 58 -> lex_word kw (c :: s1) = (k', r') -> (length r' < length s)%nat).
  { intros k' r' M N E'. unfold lex_word in E'. destruct (word (c :: s1)) as [[w b] r0] eqn:EW. inversion E'; subst.
    pose proof (word_len _ _ _ _ EW) as LW. cbn [length] in LW.
    assert (w <> []); [|destruct w; [congruence|cbn in LW; lia]].
    intros ->. cbn [word] in EW. rewrite M in EW. destruct (c =? 92) eqn:Q1.
    - destruct s1 as [|c2 s2]; [discriminate|]. destruct (word s2) as [[? ?] ?]. discriminate.
    - rewrite (proj2 (Z.eqb_neq c 58) N) in EW. destruct (word s1) as [[? ?] ?]. discriminate. }
  pose proof (skip_head _ _ _ ES) as [N1 N2].
  apply some_inj in E. revert E.
  repeat match goal with |- context[if ?x =? ?y then _ else _] => destruct (Z.eqb_spec x y) end;
  repeat match goal with |- context[if ?x then _ else _] => destruct x eqn:? end;
  intros E; try (inversion E; subst; lia); apply W in E; auto; try lia;
  apply Bool.not_true_is_false; rewrite memz_in; unfold not_word; cbn [In]; rewrite ?orb_true_iff, ?orb_false_iff, ?Z.eqb_eq, ?Z.eqb_neq in *; lia.
Qed.
Lemma lexn_eq kw : forall n m s, (length s < n)%nat -> (length s < m)%nat -> lexn n kw s = lexn m kw s.
Proof.
  induction n as [|n IH]; intros [|m] s H1 H2; try lia. cbn [lexn]. destruct (lex1 kw s) as [[k r]|] eqn:E; [|reflexivity].
  apply lex1_len in E. f_equal. apply IH; lia.
Qed.
Lemma tokens_eq kw s : tokens kw s = match lex1 kw s with Some (k, r) => k :: tokens kw r | None => [] end.
Proof.
  unfold tokens at 1. cbn [lexn]. destruct (lex1 kw s) as [[k r]|] eqn:E; [|reflexivity]. apply lex1_len in E. f_equal. apply lexn_eq; lia.
Qed.

Lemma keyword_cases w k : keyword w = Some k -> (k = AND \/ k = NOT \/ k = REQ \/ k = OR) /\ (length w <= 3)%nat.
Proof.
  unfold keyword. assert (L : forall a b, list_eqb a b = true -> length a = length b).
  { induction a; destruct b; cbn; try discriminate; auto. intros H. apply andb_true_iff in H. destruct H. f_equal. auto. }
  destruct (list_eqb w [65; 78; 68]) eqn:E1; [apply L in E1; cbn in E1; intros H; apply some_inj in H; split; [auto|lia]|].
  destruct (list_eqb w [78; 79; 84]) eqn:E2; [apply L in E2; cbn in E2; intros H; apply some_inj in H; split; [auto|lia]|].
  destruct (list_eqb w [82; 69; 81]) eqn:E3; [apply L in E3; cbn in E3; intros H; apply some_inj in H; split; [auto|lia]|].
  destruct (list_eqb w [79; 82]) eqn:E4; [apply L in E4; cbn in E4; intros H; apply some_inj in H; split; [auto 6|lia]|].
  discriminate.
Qed.

Lemma get_word_ok kw x c s k r : memz c not_word = false -> c <> 58 -> lex_word kw (c :: s) = (k, r) -> short_tok k ->
  exists t o x', get_word kw x (c :: s) = Some (t, o, x') /\ translate t = tnum k /\ l_str x' = r /\ l_cap x' = l_cap x /\
    (forall w, word_of k = Some w -> held x' (val_of o) w) /\ (forall v w, held x v w -> str x' v = Some w) /\ mark k = false.
Proof.
  intros M N E SW. unfold lex_word in E. destruct (word (c :: s)) as [[w b] r0] eqn:EW. apply pair_equal_spec in E. destruct E as [E1 E2]. subst r0.
  assert (L : (length w < 254)%nat).
  { subst k. unfold word_tok in SW. destruct kw; cbn in SW.
    - destruct (keyword w) as [q|] eqn:K; [apply keyword_cases in K; lia|]. destruct b; exact SW.
    - destruct b; exact SW. }
  unfold get_word. rewrite (gw_short _ _ _ _ _ _ EW) by (cbn [app]; lia). cbn [obind app orb]. cbv zeta.
  set (x' := mkLx r (negb (l_idx x)) (if Bool.eqb (l_idx x) false then w else l_b0 x) (if Bool.eqb (l_idx x) true then w else l_b1 x) None (S (l_gen x)) (l_cap x)).
  assert (HH : forall v w', held x v w' -> str x' v = Some w').
  { intros v w' [-> Hv]. subst x'. cbn [str read l_b0 l_b1] in *. destruct (l_idx x); cbn [negb Bool.eqb] in *; exact Hv. }
  destruct (if kw then keyword w else None) as [q|] eqn:K.
  - destruct kw; [|discriminate]. destruct (keyword_cases _ _ K) as [C _].
    eexists _, _, _. split; [reflexivity|]. subst k. unfold word_tok. cbn [negb]. rewrite K. subst x'. cbn [l_str l_cap].
    destruct C as [->|[->|[->| ->]]]; splits; try reflexivity; try (intros ? HX; discriminate HX); exact HH.
  - eexists _, _, _. split; [reflexivity|]. subst k. unfold word_tok. rewrite K. subst x'. cbn [l_str l_cap].
    destruct b; splits; try reflexivity; try exact HH; intros w' HX; apply some_inj in HX; subst w'; split; cbn [val_of l_idx]; rewrite ?negb_involutive; try reflexivity;
      cbn [str read]; destruct (l_idx x); reflexivity.
Qed.

(* what the parser sees next: the look-ahead token, or what the lexer will read *)
Definition la_ok (kw : bool) (la : option (Z * val)) (x : lexer) (ts : list tok) : Prop :=
  match la with
  | None => tokens kw (l_str x) = ts
  | Some (t, v) => match ts with
                   | [] => t = 0
                   | k :: r => t = tnum k /\ tokens kw (l_str x) = r /\ (forall w, word_of k = Some w -> held x v w)
                   end
  end.

Lemma yylex_ok kw x ts : tokens kw (l_str x) = ts -> Forall short_tok ts ->
  exists t o x', yylex kw x = Some (t, o, x') /\ translate t = match ts with k :: _ => tnum k | [] => 0 end /\
    la_ok kw (Some (translate t, val_of o)) x' ts /\ l_cap x' = l_cap x /\ (forall v w, held x v w -> str x' v = Some w) /\
    (match ts with k :: _ => mark k = true | [] => True end -> exists r, x' = at_str x r).
Proof.
  intros E SH. rewrite tokens_eq in E. unfold lex1, yylex in *. destruct (skip_sp (l_str x)) as [|c s] eqn:ES.
  - exists 0, None, (at_str x []). subst ts. splits; try reflexivity; eauto. intros v w [-> H]. exact H.
  - pose proof (skip_head _ _ _ ES) as [N1 N2].
    assert (K : forall t k r (CH : translate t = tnum k) (WO : word_of k = None) (E' : k :: tokens kw r = ts),
      exists t0 o x', Some (t, @None sref, at_str x r) = Some (t0, o, x') /\ translate t0 = match ts with k :: _ => tnum k | [] => 0 end /\
       la_ok kw (Some (translate t0, val_of o)) x' ts /\ l_cap x' = l_cap x /\ (forall v w, held x v w -> str x' v = Some w) /\
       (match ts with k :: _ => mark k = true | [] => True end -> exists r, x' = at_str x r)).
    { intros t k r CH WO E'. exists t, None, (at_str x r). clear E. subst ts. splits; eauto.
      - cbn [la_ok]. split; [auto|split; [reflexivity|]]. intros w HW. rewrite WO in HW. discriminate HW.
      - intros v w [-> H]. exact H. }
    assert (W : forall (M : memz c not_word = false) (N : c <> 58) (E' : (let '(k, r) := lex_word kw (c :: s) in k :: tokens kw r) = ts),
      exists t0 o x', get_word kw x (c :: s) = Some (t0, o, x') /\ translate t0 = match ts with k :: _ => tnum k | [] => 0 end /\
       la_ok kw (Some (translate t0, val_of o)) x' ts /\ l_cap x' = l_cap x /\ (forall v w, held x v w -> str x' v = Some w) /\
       (match ts with k :: _ => mark k = true | [] => True end -> exists r, x' = at_str x r)).
    { intros M N E'. destruct (lex_word kw (c :: s)) as [k r] eqn:EL. clear E. subst ts. inversion SH as [|? ? S1 S2]; subst.
      destruct (get_word_ok kw x c s k r M N EL S1) as (t & o & x' & G1 & G2 & G3 & G4 & G5 & G6 & G7).
      exists t, o, x'. splits; auto.
      - cbn [la_ok]. splits; auto. rewrite G3. reflexivity.
      - rewrite G7. discriminate. }
    cbv zeta.
    replace (memz c special_char) with (if memz c special_char then true else false) by (destruct (memz c special_char); reflexivity).
    destruct (memz c special_char) eqn:MS.
    + destruct (Z.eqb_spec c 45) as [->|?]; [eapply (K _ TNot); [reflexivity|reflexivity|exact E]|].
      destruct (Z.eqb_spec c 33) as [->|?]; [eapply (K _ TNot); [reflexivity|reflexivity|exact E]|]. cbn [orb] in *.
      destruct (Z.eqb_spec c 43) as [->|?]; [eapply (K _ TReq); [reflexivity|reflexivity|exact E]|].
      destruct (Z.eqb_spec c 42) as [->|?].
      { unfold begins in E. destruct s as [|nx s]; [apply W; [reflexivity|lia|exact E]|]. destruct (Z.eqb_spec nx 58) as [->|?].
        - eapply (K _ TStar); [reflexivity|reflexivity|exact E].
        - apply W; [reflexivity|lia|exact E]. }
      destruct (Z.eqb_spec c 63) as [->|?]; [apply W; [reflexivity|lia|exact E]|].
      destruct (Z.eqb_spec c 38) as [->|?].
      { unfold begins in E. destruct s as [|nx s]; [apply W; [reflexivity|lia|exact E]|]. destruct (Z.eqb_spec nx 38) as [->|?].
        - eapply (K _ TAnd); [reflexivity|reflexivity|exact E].
        - apply W; [reflexivity|lia|exact E]. }
      destruct (Z.eqb_spec c 124) as [->|?].
      { unfold begins in E. destruct s as [|nx s]; [eapply (K _ TBar); [reflexivity|reflexivity|exact E]|]. destruct (Z.eqb_spec nx 124) as [->|?].
        - eapply (K _ TOr); [reflexivity|reflexivity|exact E].
        - eapply (K _ TBar); [reflexivity|reflexivity|exact E]. }
      destruct (Z.eqb_spec c 58) as [->|?]; [eapply (K _ TColon); [reflexivity|reflexivity|exact E]|].
      destruct (Z.eqb_spec c 94) as [->|?]; [eapply (K _ TCaret); [reflexivity|reflexivity|exact E]|].
      destruct (Z.eqb_spec c 40) as [->|?]; [eapply (K _ TLp); [reflexivity|reflexivity|exact E]|].
      destruct (Z.eqb_spec c 41) as [->|?]; [eapply (K _ TRp); [reflexivity|reflexivity|exact E]|].
      destruct (Z.eqb_spec c 126) as [->|?]; [eapply (K _ TTilde); [reflexivity|reflexivity|exact E]|].
      destruct (Z.eqb_spec c 34) as [->|?]; [eapply (K _ TQuote); [reflexivity|reflexivity|exact E]|].
      destruct (Z.eqb_spec c 60) as [->|?]; [eapply (K _ TLt); [reflexivity|reflexivity|exact E]|].
      destruct (Z.eqb_spec c 62) as [->|?]; [eapply (K _ TGt); [reflexivity|reflexivity|exact E]|].
      destruct (Z.eqb_spec c 91) as [->|?]; [eapply (K _ TLb); [reflexivity|reflexivity|exact E]|].
      destruct (Z.eqb_spec c 93) as [->|?]; [eapply (K _ TRb); [reflexivity|reflexivity|exact E]|].
      destruct (Z.eqb_spec c 125) as [->|?]; [eapply (K _ TRc); [reflexivity|reflexivity|exact E]|].
      destruct (Z.eqb_spec c 123) as [->|?]; [eapply (K _ TLc); [reflexivity|reflexivity|exact E]|].
      destruct (Z.eqb_spec c 61) as [->|?]; [eapply (K _ TEq); [reflexivity|reflexivity|exact E]|].
      exfalso. apply memz_in in MS. unfold special_char in MS. cbn [In] in MS. lia.
    + assert (NI : ~ In c special_char) by (rewrite <- memz_in, MS; discriminate). unfold special_char in NI. cbn [In] in NI.
      repeat match type of E with context[?a =? ?b] => destruct (Z.eqb_spec a b) as [->|?]; [exfalso; tauto|] end. cbn [orb] in E.
      apply W; [|lia|exact E]. apply Bool.not_true_is_false. rewrite memz_in. unfold not_word. cbn [In]. lia.
Qed.
