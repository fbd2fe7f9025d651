(* The engine with its tables does what the recursive descent does. *)
From Verif Require Import Util QpLex_Model QpAct_Model QpClean_Model Qp_Model Qp_Spec QpLex_Proofs.
Open Scope Z_scope.

Section SIM.
  Variable cf : qconf.
  Variable cap : nat.
  Notation MAX := YYMAXDEPTH.
  Notation RUN := (run cf).
  Notation STEP := (step cf).

  Definition tn (ts : list tok) : Z := match ts with k :: _ => tnum k | [] => 0 end.
  Definition inv (la : option (Z * val)) (x : lexer) (ts : list tok) : Prop := la_ok (q_kw cf) la x ts /\ l_cap x = cap /\ Forall short_tok ts.
  Definition reach (c c' : conf) : Prop := exists n, forall m, RUN (n + m) c = RUN m c'.
  Definition ends (c : conf) (o : outcome) : Prop := exists n, forall m, RUN (n + m) c = Some o.

  Definition simo {A} (o : outcome) (r : res A) : Prop :=
    match r with
    | ROk _ _ _ => False
    | RBad w => exists x, o = ORej w x
    | RAbort w => exists x, o = OAbort w x
    | RUb => o = OUb
    | RFuel => True
    end.
  Definition sim {A} (c : conf) (r : res A) (K : A -> option (Z * val) -> lexer -> world -> conf) : Prop :=
    match r with
    | ROk a w ts => exists la x, reach c (K a la x w) /\ inv la x ts /\ (length (c_stk (K a la x w)) < MAX)%nat
    | RFuel => True
    | _ => exists o, ends c o /\ simo o r
    end.
  Definition sims {A} (s : conf + outcome) (r : res A) K : Prop := match s with inl c => sim c r K | inr o => simo o r end.

  Lemma reach_refl c : reach c c.
  Proof. exists O. reflexivity. Qed.
  Lemma reach_trans c1 c2 c3 : reach c1 c2 -> reach c2 c3 -> reach c1 c3.
  Proof. intros [n H] [k G]. exists (n + k)%nat. intros m. rewrite <- Nat.add_assoc, H, G. reflexivity. Qed.
  Lemma reach_ends c1 c2 o : reach c1 c2 -> ends c2 o -> ends c1 o.
  Proof. intros [n H] [k G]. exists (n + k)%nat. intros m. rewrite <- Nat.add_assoc, H, G. reflexivity. Qed.
  Lemma reach_step c c' : STEP c = inl c' -> reach c c'.
  Proof. intros E. exists 1%nat. intros m. cbn [Nat.add run]. rewrite E. reflexivity. Qed.
  Lemma ends_step c o : STEP c = inr o -> ends c o.
  Proof. intros E. exists 1%nat. intros m. cbn [Nat.add run]. rewrite E. reflexivity. Qed.
  Lemma sim_reach {A} c c' (r : res A) K : reach c c' -> sim c' r K -> sim c r K.
  Proof.
    intros R S. destruct r; cbn [sim] in *; auto.
    - destruct S as (la & x & H & G). exists la, x. split; [eapply reach_trans; eauto|exact G].
    - destruct S as (o & H & G). exists o. split; [eapply reach_ends; eauto|exact G].
    - destruct S as (o & H & G). exists o. split; [eapply reach_ends; eauto|exact G].
    - destruct S as (o & H & G). exists o. split; [eapply reach_ends; eauto|exact G].
  Qed.
  Lemma sim_step {A} c (r : res A) K : sims (STEP c) r K -> sim c r K.
  Proof.
    destruct (STEP c) as [c'|o] eqn:E; cbn [sims].
    - apply sim_reach. apply reach_step. exact E.
    - intros H. destruct r; cbn [sim simo] in *; try contradiction; auto; exists o; split; auto; apply ends_step; exact E.
  Qed.
  Lemma sim_bind {A B} c (r : res A) (k : A -> world -> list tok -> res B) K1 K :
    sim c r K1 ->
    (forall a w ts la x, inv la x ts -> (length (c_stk (K1 a la x w)) < MAX)%nat -> r = ROk a w ts -> sim (K1 a la x w) (k a w ts) K) ->
    sim c (rbind r k) K.
  Proof.
    intros H G. destruct r as [a w ts|w|w| |]; cbn [sim rbind] in *; auto.
    destruct H as (la & x & R & I & L). eapply sim_reach; [exact R|]. apply G; auto.
  Qed.
  Lemma sim_done {A} (a : A) la x w ts K : inv la x ts -> (length (c_stk (K a la x w)) < MAX)%nat -> sim (K a la x w) (ROk a w ts) K.
  Proof. intros I L. exists la, x. split; [apply reach_refl|]. auto. Qed.

  (* what reading one more token keeps *)
  Definition pres (ts : list tok) (x x' : lexer) : Prop :=
    (forall v w, held x v w -> str x' v = Some w) /\
    (match ts with k :: _ => mark k = true | [] => True end -> forall v w, (held x v w -> held x' v w) /\ (str x v = Some w -> str x' v = Some w)).

  Lemma at_keeps x r v w : (held x v w -> held (at_str x r) v w) /\ (str x v = Some w -> str (at_str x r) v = Some w).
  Proof. split; [intros [-> H]; split; [reflexivity|exact H]|]. intros H. destruct v as [|[b|g]| | | |]; exact H. Qed.
  Lemma peek s v0 stk la x w ts : inv la x ts -> needs_la s = true ->
    exists v x', STEP (mkC ((s, v0) :: stk) la x w) = step_la cf ((s, v0) :: stk) (tn ts) v x' w /\ inv (Some (tn ts, v)) x' ts /\ (la = None -> pres ts x x').
  Proof.
    intros (I & C & S) N. destruct la as [[t v]|].
    - exists v, x. assert (t = tn ts) as -> by (cbn [la_ok] in I; destruct ts; [exact I|apply I]).
      splits; [|exact (conj I (conj C S))|discriminate]. unfold step. cbn [c_stk hd fst c_la]. rewrite N. reflexivity.
    - cbn [la_ok] in I. destruct (yylex_ok _ _ _ I S) as (t & o & x' & E & T & L & C' & H & M).
      exists (val_of o), x'. assert (translate t = tn ts) as T' by exact T. rewrite T' in *. splits.
      + unfold step. cbn [c_stk hd fst c_la c_lx]. rewrite N, E, T'. reflexivity.
      + split; [exact L|]. split; [congruence|exact S].
      + intros _. split; [exact H|]. intros Mk. destruct (M Mk) as [r ->]. intros v w'. apply at_keeps.
  Qed.

  Lemma tnum_pos k : tnum k =? 0 = false.
  Proof. destruct k; reflexivity. Qed.
  Lemma sim_sh {A} s v0 stk la x w k r s' d (f : nat -> res A) K :
    inv la x (k :: r) -> needs_la s = true -> decide s (tnum k) = Shift s' -> d = length ((s, v0) :: stk) ->
    (forall v x', inv None x' r -> (forall y, word_of k = Some y -> held x' v y) -> (la = None -> pres (k :: r) x x') -> (S d < MAX)%nat ->
       sim (mkC ((s', v) :: (s, v0) :: stk) None x' w) (f (S d)) K) ->
    sim (mkC ((s, v0) :: stk) la x w) (sh MAX d w f) K.
  Proof.
    intros I N D -> H. destruct (peek _ v0 stk _ _ w _ I N) as (v & x' & E & I' & P). apply sim_step. rewrite E.
    cbn [tn] in *. unfold step_la. cbn [hd fst]. rewrite D, tnum_pos. unfold push, sh.
    destruct (MAX <=? S (length ((s, v0) :: stk)))%nat eqn:EL; cbn [sims].
    - cbn [simo]. exists x'. reflexivity.
    - apply Nat.leb_gt in EL. destruct I' as ((_ & L & W) & C & S). apply H; auto.
      split; [exact L|]. split; [exact C|exact (Forall_inv_tail S)].
  Qed.
  (* two tokens are shifted; a second one that does not fit is an error, as an overflow is *)
  Lemma sim_sh_bad {A} s v0 stk la x w k r s' K :
    inv la x (k :: r) -> needs_la s = true -> decide s (tnum k) = Shift s' -> needs_la s' = true -> decide s' (tn r) = Error ->
    sim (A := A) (mkC ((s, v0) :: stk) la x w) (bad w) K.
  Proof.
    intros I N D N' D'. destruct (peek _ v0 stk _ _ w _ I N) as (v & x' & E & I' & P). apply sim_step. rewrite E.
    cbn [tn] in *. unfold step_la. cbn [hd fst]. rewrite D, tnum_pos. unfold push.
    destruct (MAX <=? S (length ((s, v0) :: stk)))%nat eqn:EL; cbn [sims].
    - cbn [simo]. exists x'. reflexivity.
    - destruct I' as ((_ & L & W) & C & S). 
      assert (I2 : inv None x' r) by (split; [exact L|split; [exact C|exact (Forall_inv_tail S)]]).
      destruct (peek _ v ((s, v0) :: stk) _ _ w _ I2 N') as (v2 & x2 & E2 & _). apply sim_step. rewrite E2. unfold step_la. cbn [hd fst]. rewrite D'.
      cbn [sims simo bad]. exists x2. reflexivity.
  Qed.
  Lemma sim_bad {A} s v0 stk la x w ts K : inv la x ts -> needs_la s = true -> decide s (tn ts) = Error -> sim (A := A) (mkC ((s, v0) :: stk) la x w) (bad w) K.
  Proof.
    intros I N D. destruct (peek _ v0 stk _ _ w _ I N) as (v & x' & E & I' & P). apply sim_step. rewrite E. unfold step_la. cbn [hd fst]. rewrite D.
    cbn [sims simo bad]. exists x'. reflexivity.
  Qed.

  (* what an action yields, and the state that follows *)
  Definition sima {A} (a : ares) (p : Z) (pv : val) (stk : list (Z * val)) (g : Z) la x (r : res A) K : Prop :=
    match a with
    | AOk v w => sim (mkC ((g, v) :: (p, pv) :: stk) la x w) r K
    | AAbort w => simo (OAbort w x) r
    | AUb => simo OUb r
    end.
  Lemma sims_reduce {A} r top p pv stk la x w (rs : res A) K :
    length top = Z.to_nat (at_ yyr2 r) -> top <> [] -> (length (top ++ (p, pv) :: stk) < MAX)%nat ->
    sima (act cf x w r (rev (map snd top))) p pv stk (goto p (at_ yyr1 r)) la x rs K ->
    sims (reduce cf r (top ++ (p, pv) :: stk) la x w) rs K.
  Proof.
    intros L NE M H. unfold reduce. rewrite <- L. rewrite app_length in M. cbn [length] in M.
    replace (length (top ++ (p, pv) :: stk) <=? length top)%nat with false by (symmetry; apply Nat.leb_gt; rewrite app_length; cbn [length]; lia).
    rewrite firstn_app, Nat.sub_diag, firstn_all, app_nil_r, skipn_app, Nat.sub_diag, skipn_all. cbn [skipn app hd fst firstn].
    destruct (act cf x w r (rev (map snd top))); cbn [sima sims] in *; try exact H.
    unfold push. replace (MAX <=? S (length ((p, pv) :: stk)))%nat with false; [exact H|]. symmetry. apply Nat.leb_gt. cbn [length].
    assert (1 <= length top)%nat by (destruct top; [congruence|cbn; lia]). lia.
  Qed.
  Lemma sims_reduce0 {A} r p pv stk la x w (rs : res A) K v w' :
    at_ yyr2 r = 0 -> act cf x w r [] = AOk v w' ->
    sims (push ((p, pv) :: stk) (goto p (at_ yyr1 r)) v la x w') rs K ->
    sims (reduce cf r ((p, pv) :: stk) la x w) rs K.
  Proof. intros L E H. unfold reduce. rewrite L. cbn [Z.to_nat length Nat.leb firstn skipn map rev hd fst]. rewrite E. exact H. Qed.
  (* an empty rule *)
  Lemma sim_sh0 {A} r s v0 stk la x w w' v s' d (f : nat -> res A) K :
    needs_la s = false -> default s = Reduce r -> at_ yyr2 r = 0 -> act cf x w r [] = AOk v w' -> goto s (at_ yyr1 r) = s' -> d = length ((s, v0) :: stk) ->
    ((S d < MAX)%nat -> sim (mkC ((s', v) :: (s, v0) :: stk) la x w') (f (S d)) K) ->
    sim (mkC ((s, v0) :: stk) la x w) (sh MAX d w' f) K.
  Proof.
    intros N D L E <- -> H. apply sim_step. unfold step. cbn [c_stk hd fst c_la c_lx c_w]. rewrite N, D. eapply sims_reduce0; [exact L|exact E|].
    unfold push, sh. destruct (MAX <=? S (length ((s, v0) :: stk)))%nat eqn:EL; cbn [sims simo].
    - exists x. reflexivity.
    - apply H. apply Nat.leb_gt. exact EL.
  Qed.
  Lemma sim_red {A} s v0 stk r p pv top tail la x w (rs : res A) K :
    needs_la s = false -> default s = Reduce r -> (s, v0) :: tail = top ++ (p, pv) :: stk -> (length ((s, v0) :: tail) < MAX)%nat ->
    length top = Z.to_nat (at_ yyr2 r) -> top <> [] ->
    sima (act cf x w r (rev (map snd top))) p pv stk (goto p (at_ yyr1 r)) la x rs K ->
    sim (mkC ((s, v0) :: tail) la x w) rs K.
  Proof.
    intros N D E M L NE H. apply sim_step. unfold step. cbn [c_stk hd fst c_la c_lx c_w]. rewrite N, D, E. apply sims_reduce; auto. rewrite <- E. exact M.
  Qed.
  Lemma sim_red_la {A} s v0 stk r p pv top tail la x w ts (rs : res A) K :
    inv la x ts -> needs_la s = true -> decide s (tn ts) = Reduce r -> (s, v0) :: tail = top ++ (p, pv) :: stk -> (length ((s, v0) :: tail) < MAX)%nat ->
    length top = Z.to_nat (at_ yyr2 r) -> top <> [] ->
    (forall v x', inv (Some (tn ts, v)) x' ts -> (la = None -> pres ts x x') ->
       sima (act cf x' w r (rev (map snd top))) p pv stk (goto p (at_ yyr1 r)) (Some (tn ts, v)) x' rs K) ->
    sim (mkC ((s, v0) :: tail) la x w) rs K.
  Proof.
    intros I N D E M L NE H. destruct (peek _ v0 tail _ _ w _ I N) as (v & x' & E' & I' & P). apply sim_step. rewrite E'. unfold step_la. cbn [hd fst]. rewrite D, E.
    apply sims_reduce; auto. rewrite <- E. exact M.
  Qed.

  (* ---------- the tables *)
  Definition qctx (p : Z) : Prop := In p [0; 3; 4; 5; 13; 27; 40; 41; 44; 48].
  Definition bctx (p : Z) : Prop := In p [0; 3; 4; 5; 13; 27; 40; 41].
  Definition cctx (p : Z) : Prop := In p [0; 5; 13; 27; 40; 41].
  Definition qstart (ts : list tok) : bool :=
    match ts with (TWord _ | TWild _ | TLp | TStar | TQuote | TLt | TGt | TLb | TLc) :: _ => true | _ => false end.
  Ltac ctx H := repeat (destruct H as [<-|H]; [|]); [..|destruct H].
  Lemma bq_ctx p : bctx p -> qctx p. Proof. unfold bctx, qctx. cbn [In]. tauto. Qed.
  Lemma cb_ctx p : cctx p -> bctx p. Proof. unfold bctx, cctx. cbn [In]. tauto. Qed.
  Lemma q_la p : qctx p -> needs_la p = true.
  Proof. intros H. ctx H; reflexivity. Qed.
  Lemma q_shift p k : qctx p -> match k with TWord _ => decide p (tnum k) = Shift 1 | TWild _ => decide p (tnum k) = Shift 2 | TLp => decide p (tnum k) = Shift 5
    | TStar => decide p (tnum k) = Shift 6 | TQuote => decide p (tnum k) = Shift 7 | TLt => decide p (tnum k) = Shift 8 | TGt => decide p (tnum k) = Shift 9
    | TLb => decide p (tnum k) = Shift 10 | TLc => decide p (tnum k) = Shift 11 | _ => True end.
  Proof. intros H. ctx H; destruct k; exact Logic.I || reflexivity. Qed.
  Lemma c_shift p : cctx p -> decide p 8 = Shift 3 /\ decide p 9 = Shift 4.
  Proof. intros H. ctx H; split; reflexivity. Qed.
  Lemma q_goto p : qctx p -> goto p 32 = 17 /\ goto p 33 = 18 /\ goto p 34 = 19 /\ goto p 38 = 20 /\ goto p 39 = 21 /\ goto p 41 = 22.
  Proof. intros H. ctx H; splits; reflexivity. Qed.
  Lemma b_goto p : bctx p -> goto p 31 = 16.
  Proof. intros H. ctx H; reflexivity. Qed.
  Lemma c_goto p : cctx p -> goto p 30 = 15.
  Proof. intros H. ctx H; reflexivity. Qed.

  Definition Kq (p : Z) (pv : val) (stk : list (Z * val)) : option qry -> option (Z * val) -> lexer -> world -> conf :=
    fun q la x w => mkC ((goto p 31, VQ q) :: (p, pv) :: stk) la x w.

  (* the kinds of queries are queries *)
  Lemma sim_unit t p pv stk v la x w (r : res (option qry)) K : In t [17; 18; 19; 21; 22] -> (S (length ((p, pv) :: stk)) < MAX)%nat ->
    sim (mkC ((goto p 31, v) :: (p, pv) :: stk) la x w) r K -> sim (mkC ((t, v) :: (p, pv) :: stk) la x w) r K.
  Proof.
    intros T M H. ctx T.
    - eapply (sim_red _ _ stk 13 p pv [(17, v)]); try reflexivity; try discriminate; [exact M|exact H].
    - eapply (sim_red _ _ stk 19 p pv [(18, v)]); try reflexivity; try discriminate; [exact M|exact H].
    - eapply (sim_red _ _ stk 16 p pv [(19, v)]); try reflexivity; try discriminate; [exact M|exact H].
    - eapply (sim_red _ _ stk 17 p pv [(21, v)]); try reflexivity; try discriminate; [exact M|exact H].
    - eapply (sim_red _ _ stk 18 p pv [(22, v)]); try reflexivity; try discriminate; [exact M|exact H].
  Qed.
  Lemma sim_q t p pv stk q la x w ts : In t [17; 18; 19; 21; 22] -> (S (length ((p, pv) :: stk)) < MAX)%nat -> inv la x ts ->
    sim (mkC ((t, VQ q) :: (p, pv) :: stk) la x w) (ROk q w ts) (Kq p pv stk).
  Proof. intros T M I. apply sim_unit; auto. apply (sim_done q la x w ts (Kq p pv stk)); auto. Qed.
  Lemma sim_each t p pv stk la x w ts fr : In t [17; 18; 19; 21; 22] -> (S (length ((p, pv) :: stk)) < MAX)%nat -> inv la x ts ->
    sima (fy w fr) p pv stk t la x (each fr w ts) (Kq p pv stk).
  Proof.
    intros T M I. unfold fy, each, fine. destruct fr as [q|q|]; cbn [sima simo]; auto.
    destruct (w_des w); cbn [sima simo]; [exists x; reflexivity|]. apply sim_q; auto.
  Qed.
  Lemma sim_phrase t p pv stk la x w ts ph sl : In t [17; 18; 19; 21; 22] -> (S (length ((p, pv) :: stk)) < MAX)%nat -> inv la x ts ->
    sima (fp w (flds cf (get_phrase_query cf sl) (w_cur w) ph)) p pv stk t la x (r_phrase cf ph sl w ts) (Kq p pv stk).
  Proof.
    intros T M I. unfold fp, r_phrase. destruct (flds cf (get_phrase_query cf sl) (w_cur w) ph) as [q|q|]; cbn [sima simo]; auto; apply sim_q; auto.
  Qed.
  Lemma sim_fine t p pv stk la x w ts q : (S (length ((p, pv) :: stk)) < MAX)%nat -> inv la x ts -> t = goto p 31 ->
    sima (te (VQ q) w) p pv stk t la x (fine q w ts) (Kq p pv stk).
  Proof.
    intros M I ->. unfold te, fine. destruct (w_des w); cbn [sima simo]; [exists x; reflexivity|]. apply (sim_done q la x w ts (Kq p pv stk)); auto.
  Qed.

  Ltac shift v x I H P M := eapply sim_sh; [eassumption|reflexivity|reflexivity|reflexivity|]; intros v x I H P M.
  Ltac err := eapply sim_bad; [eassumption|reflexivity|reflexivity].
  Ltac err2 := eapply sim_sh_bad; [eassumption|reflexivity|reflexivity|reflexivity|reflexivity].
  Ltac rdc r p pv stk top := eapply (sim_red _ _ stk r p pv top); [reflexivity|reflexivity|reflexivity|cbn [length] in *; lia|reflexivity|discriminate|].
  Ltac rdc_la r p pv stk top v x I P := eapply (sim_red_la _ _ stk r p pv top); [eassumption|reflexivity|reflexivity|reflexivity|cbn [length] in *; lia|reflexivity|discriminate|]; intros v x I P.
  Lemma pres_str ts x x' (la : option (Z * val)) v w : la = None -> (la = None -> pres ts x x') -> held x v w -> str x' v = Some w.
  Proof. intros E P H. apply (proj1 (P E)). exact H. Qed.
  Lemma pres_held k r x x' (la : option (Z * val)) v w : la = None -> (la = None -> pres (k :: r) x x') -> mark k = true -> held x v w -> held x' v w.
  Proof. intros E P M H. apply (proj2 (P E) M v w). exact H. Qed.
  Lemma pres_mark k r x x' (la : option (Z * val)) v w : la = None -> (la = None -> pres (k :: r) x x') -> mark k = true -> str x v = Some w -> str x' v = Some w.
  Proof. intros E P M H. apply (proj2 (P E) M v w). exact H. Qed.
  Lemma held_str x v w : held x v w -> str x v = Some w.
  Proof. intros [_ H]. exact H. Qed.

  Lemma sim_words p pv v7 stk : qctx p -> forall n ts ph la x w, (length ts <= n)%nat -> inv la x ts ->
    (S (S (length ((p, pv) :: stk))) < MAX)%nat ->
    sim (mkC ((32, VPh ph) :: (7, v7) :: (p, pv) :: stk) la x w) (p_words cf MAX (S (S (length ((p, pv) :: stk)))) w ph ts) (Kq p pv stk).
  Proof.
    intros Q. destruct (q_goto _ Q) as (G1 & G2 & G3 & G4 & G5 & G6).
    induction n as [|n IH]; intros ts ph la x w L I M.
    { destruct ts; [|cbn in L; lia]. cbn [p_words]. err. }
    destruct ts as [|k r]; [cbn [p_words]; err|]. cbn [length] in L.
    destruct k; cbn [p_words]; try err.
    - (* a word *)
      shift v1 x1 I1 H1 P1 M1. rdc 37 7 v7 ((p, pv) :: stk) [(51, v1); (32, VPh ph)]. cbn [act rev map snd app]. unfold on_str. rewrite (held_str _ _ _ (H1 _ eq_refl)).
      cbn [sima]. apply IH; auto. lia.
    - (* | *)
      destruct r as [|[] r]; try err2.
      shift v1 x1 I1 H1 P1 M1. shift v2 x2 I2 H2 P2 M2.
      rdc 39 7 v7 ((p, pv) :: stk) [(70, v2); (52, v1); (32, VPh ph)]. cbn [act rev map snd app]. unfold on_str. rewrite (held_str _ _ _ (H2 _ eq_refl)).
      destruct (ph_add_multi_word ph w0) as [ph'|]; cbn [sima simo]; auto. apply IH; auto. cbn [length] in L. lia.
    - (* the quote *)
      shift v1 x1 I1 H1 P1 M1.
      assert (NS : decide 53 (tn r) = Reduce 31 -> sim (mkC ((53, v1) :: (32, VPh ph) :: (7, v7) :: (p, pv) :: stk) None x1 w) (r_phrase cf ph None w r) (Kq p pv stk)).
      { intros D. eapply (sim_red_la _ _ stk 31 p pv [(53, v1); (32, VPh ph); (7, v7)]);
          [eassumption|reflexivity|exact D|reflexivity|cbn [length] in *; lia|reflexivity|discriminate|]. intros v2 x2 I2 P2.
        cbn [act rev map snd app]. unfold phrase_act, on_opt. change (goto p (at_ yyr1 31)) with (goto p 39). rewrite G5. apply sim_phrase; auto; [cbn [In]; tauto|cbn [length] in *; lia]. }
      destruct r as [|[] r]; try (apply NS; reflexivity).
      destruct r as [|[] r]; try err2.
      shift v2 x2 I2 H2 P2 M2. shift v3 x3 I3 H3 P3 M3.
      rdc 32 p pv stk [(79, v3); (71, v2); (53, v1); (32, VPh ph); (7, v7)]. cbn [act rev map snd app]. unfold phrase_act, on_opt, on_str. rewrite (held_str _ _ _ (H3 _ eq_refl)).
      change (goto p (at_ yyr1 32)) with (goto p 39). rewrite G5. apply sim_phrase; auto; [cbn [In]; tauto|cbn [length] in *; lia].
    - (* <> *)
      destruct r as [|[] r]; try err2.
      shift v1 x1 I1 H1 P1 M1. shift v2 x2 I2 H2 P2 M2.
      rdc 38 7 v7 ((p, pv) :: stk) [(72, v2); (54, v1); (32, VPh ph)]. cbn [act rev map snd app sima]. apply IH; auto. cbn [length] in L. lia.
  Qed.

  Lemma sim_pphrase p pv v7 stk ts la x w : qctx p -> inv la x ts -> (S (length ((p, pv) :: stk)) < MAX)%nat ->
    sim (mkC ((7, v7) :: (p, pv) :: stk) la x w) (p_phrase cf MAX (S (length ((p, pv) :: stk))) w ts) (Kq p pv stk).
  Proof.
    intros Q I M. destruct (q_goto _ Q) as (G1 & G2 & G3 & G4 & G5 & G6). unfold p_phrase.
    destruct ts as [|[] r]; try err.
    - shift v1 x1 I1 H1 P1 M1. rdc 35 7 v7 ((p, pv) :: stk) [(29, v1)]. cbn [act rev map snd app]. unfold on_str. rewrite (held_str _ _ _ (H1 _ eq_refl)).
      cbn [sima]. eapply sim_words; eauto.
    - shift v1 x1 I1 H1 P1 M1.
      assert (NS : decide 30 (tn r) = Reduce 33 -> sim (mkC ((30, v1) :: (7, v7) :: (p, pv) :: stk) None x1 w) (ROk None w r) (Kq p pv stk)).
      { intros D. eapply (sim_red_la _ _ stk 33 p pv [(30, v1); (7, v7)]);
          [eassumption|reflexivity|exact D|reflexivity|cbn [length] in *; lia|reflexivity|discriminate|]. intros v2 x2 I2 P2.
        cbn [act rev map snd app sima]. change (goto p (at_ yyr1 33)) with (goto p 39). rewrite G5. apply sim_q; auto. cbn [In]; tauto. }
      destruct r as [|[] r]; try (apply NS; reflexivity).
      destruct r as [|[] r]; try err2.
      shift v2 x2 I2 H2 P2 M2. shift v3 x3 I3 H3 P3 M3.
      rdc 34 p pv stk [(69, v3); (49, v2); (30, v1); (7, v7)]. cbn [act rev map snd app sima].
      change (goto p (at_ yyr1 34)) with (goto p 39). rewrite G5. apply sim_q; auto. cbn [In]; tauto.
    - destruct r as [|[] r]; try err2.
      shift v1 x1 I1 H1 P1 M1. shift v2 x2 I2 H2 P2 M2. rdc 36 7 v7 ((p, pv) :: stk) [(50, v2); (31, v1)]. cbn [act rev map snd app sima]. eapply sim_words; eauto.
  Qed.

  Lemma sim_range p pv stk la x w ts a b oa ob il iu : qctx p -> (S (length ((p, pv) :: stk)) < MAX)%nat -> inv la x ts ->
    match a, oa with Some v, Some s => str x v = Some s | None, None => True | _, _ => False end ->
    match b, ob with Some v, Some s => str x v = Some s | None, None => True | _, _ => False end ->
    sima (range_act cf x w a b il iu) p pv stk (goto p 41) la x (r_range cf cap oa ob il iu w ts) (Kq p pv stk).
  Proof.
    intros Q M I HA HB. destruct (q_goto _ Q) as (G1 & G2 & G3 & G4 & G5 & G6). rewrite G6. destruct I as (I & C & S).
    unfold range_act, r_range, on_opt, on_str. rewrite C.
    assert (I2 : inv la x ts) by (split; auto).
    destruct a, oa; try contradiction; rewrite ?HA; destruct b, ob; try contradiction; rewrite ?HB; apply sim_each; auto; cbn [In]; tauto.
  Qed.
  Lemma sim_less p pv v8 stk ts la x w : qctx p -> inv la x ts -> (S (length ((p, pv) :: stk)) < MAX)%nat ->
    sim (mkC ((8, v8) :: (p, pv) :: stk) la x w) (p_less cf cap MAX (S (length ((p, pv) :: stk))) w ts) (Kq p pv stk).
  Proof.
    intros Q I M. unfold p_less. destruct ts as [|[] r]; try err.
    - shift v1 x1 I1 H1 P1 M1. specialize (H1 _ eq_refl).
      assert (NS : decide 33 (tn r) = Reduce 48 -> sim (mkC ((33, v1) :: (8, v8) :: (p, pv) :: stk) None x1 w) (r_range cf cap None (Some w0) false false w r) (Kq p pv stk)).
      { intros D. eapply (sim_red_la _ _ stk 48 p pv [(33, v1); (8, v8)]);
          [eassumption|reflexivity|exact D|reflexivity|cbn [length] in *; lia|reflexivity|discriminate|]. intros v2 x2 I2 P2.
        cbn [act rev map snd app sima]. apply sim_range; auto. eapply pres_str; eauto. }
      destruct r as [|[] r]; try (apply NS; reflexivity).
      + shift v2 x2 I2 H2 P2 M2. rdc 45 p pv stk [(55, v2); (33, v1); (8, v8)]. cbn [act rev map snd app]. apply sim_range; auto. eapply pres_str; eauto.
      + shift v2 x2 I2 H2 P2 M2. rdc 44 p pv stk [(56, v2); (33, v1); (8, v8)]. cbn [act rev map snd app]. apply sim_range; auto. eapply pres_str; eauto.
    - destruct r as [|[] r]; try err2. shift v1 x1 I1 H1 P1 M1. shift v2 x2 I2 H2 P2 M2.
      rdc 49 p pv stk [(57, v2); (34, v1); (8, v8)]. cbn [act rev map snd app]. apply sim_range; auto. apply held_str. auto.
  Qed.
  Lemma sim_more p pv v9 stk ts la x w : qctx p -> inv la x ts -> (S (length ((p, pv) :: stk)) < MAX)%nat ->
    sim (mkC ((9, v9) :: (p, pv) :: stk) la x w) (p_more cf cap MAX (S (length ((p, pv) :: stk))) w ts) (Kq p pv stk).
  Proof.
    intros Q I M. unfold p_more. destruct ts as [|[] r]; try err.
    - shift v1 x1 I1 H1 P1 M1. rdc 51 p pv stk [(35, v1); (9, v9)]. cbn [act rev map snd app]. apply sim_range; auto. apply held_str. auto.
    - destruct r as [|[] r]; try err2. shift v1 x1 I1 H1 P1 M1. shift v2 x2 I2 H2 P2 M2.
      rdc 50 p pv stk [(58, v2); (36, v1); (9, v9)]. cbn [act rev map snd app]. apply sim_range; auto. apply held_str. auto.
  Qed.
  Lemma sim_from p pv v0 stk ts la x w (il : bool) : qctx p -> inv la x ts -> (S (length ((p, pv) :: stk)) < MAX)%nat ->
    sim (mkC ((if il then 10 else 11, v0) :: (p, pv) :: stk) la x w) (p_from cf cap MAX il (S (length ((p, pv) :: stk))) w ts) (Kq p pv stk).
  Proof.
    intros Q I M. unfold p_from. destruct ts as [|[] r]; try (destruct il; err). destruct il.
    - shift v1 x1 I1 H1 P1 M1. specialize (H1 _ eq_refl). destruct r as [|[] r]; try err.
      + shift v2 x2 I2 H2 P2 M2. specialize (H2 _ eq_refl). pose proof (pres_str _ _ _ _ _ _ eq_refl P2 H1) as H1'.
        destruct r as [|[] r]; try err.
        * shift v3 x3 I3 H3 P3 M3. rdc 40 p pv stk [(73, v3); (59, v2); (37, v1); (10, v0)]. cbn [act rev map snd app]. apply sim_range; auto; [eapply pres_mark; eauto|eapply pres_str; eauto].
        * shift v3 x3 I3 H3 P3 M3. rdc 41 p pv stk [(74, v3); (59, v2); (37, v1); (10, v0)]. cbn [act rev map snd app]. apply sim_range; auto; [eapply pres_mark; eauto|eapply pres_str; eauto].
      + shift v2 x2 I2 H2 P2 M2. rdc 46 p pv stk [(60, v2); (37, v1); (10, v0)]. cbn [act rev map snd app]. apply sim_range; auto. eapply pres_str; eauto.
    - shift v1 x1 I1 H1 P1 M1. specialize (H1 _ eq_refl). destruct r as [|[] r]; try err.
      + shift v2 x2 I2 H2 P2 M2. specialize (H2 _ eq_refl). pose proof (pres_str _ _ _ _ _ _ eq_refl P2 H1) as H1'.
        destruct r as [|[] r]; try err.
        * shift v3 x3 I3 H3 P3 M3. rdc 42 p pv stk [(75, v3); (61, v2); (38, v1); (11, v0)]. cbn [act rev map snd app]. apply sim_range; auto; [eapply pres_mark; eauto|eapply pres_str; eauto].
        * shift v3 x3 I3 H3 P3 M3. rdc 43 p pv stk [(76, v3); (61, v2); (38, v1); (11, v0)]. cbn [act rev map snd app]. apply sim_range; auto; [eapply pres_mark; eauto|eapply pres_str; eauto].
      + shift v2 x2 I2 H2 P2 M2. rdc 47 p pv stk [(62, v2); (38, v1); (11, v0)]. cbn [act rev map snd app]. apply sim_range; auto. eapply pres_str; eauto.
  Qed.

  (* ---------- queries *)
  Section REC.
    Variable pq : nat -> world -> list tok -> res (option qry).
    (* pq is right wherever a query is expected *)
    Definition right_q : Prop := forall p pv stk la x w ts, qctx p -> inv la x ts -> (length ((p, pv) :: stk) < MAX)%nat ->
      qstart ts = true \/ decide p (tn ts) = Error ->
      sim (mkC ((p, pv) :: stk) la x w) (pq (length ((p, pv) :: stk)) w ts) (Kq p pv stk).
    Hypothesis RQ : right_q.
    Lemma q_starts ts p : In p [3; 4; 44; 48] -> qstart ts = true \/ decide p (tn ts) = Error.
    Proof. intros H. destruct ts as [|[] r]; auto; right; ctx H; reflexivity. Qed.
    Lemma c_starts ts p : In p [40; 41] -> starts ts = true \/ decide p (tn ts) = Error.
    Proof. intros H. destruct ts as [|[] r]; auto; right; ctx H; reflexivity. Qed.

    Lemma sim_scoped p pv v20 v44 stk la x w ts : qctx p -> inv la x ts -> (S (S (length ((p, pv) :: stk))) < MAX)%nat ->
      sim (mkC ((44, v44) :: (20, v20) :: (p, pv) :: stk) la x w) (scoped MAX pq (S (S (length ((p, pv) :: stk)))) w ts) (Kq p pv stk).
    Proof.
      intros Q I M. unfold scoped. destruct (q_goto _ Q) as (G1 & G2 & G3 & G4 & G5 & G6).
      eapply sim_bind; [apply (RQ 44 v44 ((20, v20) :: (p, pv) :: stk)); auto; [cbn; tauto|apply q_starts; cbn; tauto]|].
      intros q w1 ts1 la1 x1 I1 L1 _. unfold Kq at 1. eapply (sim_sh0 24); try reflexivity. intros M2.
      rdc 25 p pv stk [(77, VNone); (66, VQ q); (44, v44); (20, v20)]. cbn [act rev map snd app sima].
      change (goto p (at_ yyr1 25)) with (goto p 34). rewrite G3. apply sim_q; auto; [cbn; tauto|cbn [length] in *; lia].
    Qed.
    Lemma sim_scoped_all p pv v6 v28 v48 stk la x w ts : qctx p -> inv la x ts -> (S (S (S (length ((p, pv) :: stk)))) < MAX)%nat ->
      sim (mkC ((48, v48) :: (28, v28) :: (6, v6) :: (p, pv) :: stk) la x w) (scoped MAX pq (S (S (S (length ((p, pv) :: stk))))) w ts) (Kq p pv stk).
    Proof.
      intros Q I M. unfold scoped. destruct (q_goto _ Q) as (G1 & G2 & G3 & G4 & G5 & G6).
      eapply sim_bind; [apply (RQ 48 v48 ((28, v28) :: (6, v6) :: (p, pv) :: stk)); auto; [cbn; tauto|apply q_starts; cbn; tauto]|].
      intros q w1 ts1 la1 x1 I1 L1 _. unfold Kq at 1. eapply (sim_sh0 27); try reflexivity. intros M2.
      rdc 28 p pv stk [(78, VNone); (68, VQ q); (48, v48); (28, v28); (6, v6)]. cbn [act rev map snd app sima].
      change (goto p (at_ yyr1 28)) with (goto p 34). rewrite G3. apply sim_q; auto; [cbn; tauto|cbn [length] in *; lia].
    Qed.
    Lemma sim_fields p pv stk : qctx p -> forall n ts v20 la x w, (length ts <= n)%nat -> inv la x ts -> (S (length ((p, pv) :: stk)) < MAX)%nat ->
      sim (mkC ((20, v20) :: (p, pv) :: stk) la x w) (p_fields cf MAX pq (S (length ((p, pv) :: stk))) w ts) (Kq p pv stk).
    Proof.
      intros Q. destruct (q_goto _ Q) as (G1 & G2 & G3 & G4 & G5 & G6).
      induction n as [|n IH]; intros ts v20 la x w L I M.
      { destruct ts; [|cbn in L; lia]. cbn [p_fields]. err. }
      destruct ts as [|k r]; [cbn [p_fields]; err|]. cbn [length] in L.
      destruct k; cbn [p_fields]; try err.
      - shift v1 x1 I1 H1 P1 M1. apply sim_scoped; auto.
      - destruct r as [|[] r]; try err2. shift v1 x1 I1 H1 P1 M1. shift v2 x2 I2 H2 P2 M2.
        rdc 30 p pv stk [(67, v2); (45, v1); (20, v20)]. cbn [act rev map snd app]. unfold on_str. rewrite (held_str _ _ _ (H2 _ eq_refl)). unfold fields_act.
        destruct (add_field cf w w0) as [w1|]; cbn [sima simo]; auto.
        change (goto p (at_ yyr1 30)) with (goto p 38). rewrite G4. apply IH; auto. cbn [length] in L. lia.
    Qed.

    Definition Kb (p : Z) (pv : val) (stk : list (Z * val)) : option qry -> option (Z * val) -> lexer -> world -> conf :=
      fun q la x w => mkC ((goto p 30, VQ q) :: (p, pv) :: stk) la x w.
    Lemma sim_boosted p pv stk la x w ts : bctx p -> inv la x ts -> (length ((p, pv) :: stk) < MAX)%nat -> qstart ts = true \/ decide p (tn ts) = Error ->
      sim (mkC ((p, pv) :: stk) la x w) (p_boosted cf MAX pq (length ((p, pv) :: stk)) w ts) (Kb p pv stk).
    Proof.
      intros Q I M ST. unfold p_boosted. pose proof (b_goto _ Q) as G.
      eapply sim_bind; [apply RQ; auto; apply bq_ctx; exact Q|].
      intros q w1 ts1 la1 x1 I1 L1 _. unfold Kq in *. rewrite G in *. cbn [c_stk] in L1.
      assert (NS : decide 16 (tn ts1) = Reduce 11 -> sim (mkC ((16, VQ q) :: (p, pv) :: stk) la1 x1 w1) (ROk q w1 ts1) (Kb p pv stk)).
      { intros D. eapply (sim_red_la _ _ stk 11 p pv [(16, VQ q)]);
          [eassumption|reflexivity|exact D|reflexivity|exact L1|reflexivity|discriminate|]. intros v2 x2 I2 P2.
        cbn [act rev map snd app sima]. apply (sim_done q _ _ _ _ (Kb p pv stk)); auto. }
      destruct ts1 as [|[] r]; try (apply NS; reflexivity).
      destruct r as [|[] r]; try err2.
      shift v1 x2 I2 H1 P1 M1. shift v2 x3 I3 H2 P2 M2. rdc 12 p pv stk [(65, v2); (43, v1); (16, VQ q)]. cbn [rev map snd app].
      assert (E : act cf x3 w1 12 [VQ q; v1; v2] = te (VQ (set_boost cf q w0)) w1).
      { destruct q as [q|]; cbn [act]; [|reflexivity]. unfold on_str. rewrite (held_str _ _ _ (H2 _ eq_refl)). reflexivity. }
      rewrite E. unfold te, fine. destruct (w_des w1); cbn [sima simo]; [exists x3; reflexivity|]. apply (sim_done (set_boost cf q w0) _ _ _ _ (Kb p pv stk)); auto.
    Qed.

    Definition Kc (p : Z) (pv : val) (stk : list (Z * val)) : option (occ * qry) -> option (Z * val) -> lexer -> world -> conf :=
      fun c la x w => mkC ((goto p 29, VCls c) :: (p, pv) :: stk) la x w.
    Lemma sim_cls p pv stk la x w ts : cctx p -> inv la x ts -> (length ((p, pv) :: stk) < MAX)%nat -> starts ts = true \/ decide p (tn ts) = Error ->
      sim (mkC ((p, pv) :: stk) la x w) (p_cls cf MAX pq (length ((p, pv) :: stk)) w ts) (Kc p pv stk).
    Proof.
      intros Q I M ST. pose proof (c_shift _ Q) as [SN SR]. pose proof (c_goto _ Q) as G. pose proof (q_la _ (bq_ctx _ (cb_ctx _ Q))) as NL.
      assert (FIN : forall c la x w ts, inv la x ts -> (S (length ((p, pv) :: stk)) < MAX)%nat ->
        sima (te (VCls c) w) p pv stk (goto p 29) la x (fine c w ts) (Kc p pv stk)).
      { intros c la' x' w' ts' I' M'. unfold te, fine. destruct (w_des w'); cbn [sima simo]; [exists x'; reflexivity|]. apply (sim_done c _ _ _ _ (Kc p pv stk)); auto. }
      assert (PL : qstart ts = true \/ decide p (tn ts) = Error ->
        sim (mkC ((p, pv) :: stk) la x w) (rbind (p_boosted cf MAX pq (length ((p, pv) :: stk)) w ts) (fun q w1 t => fine (get_bool_cls q Should) w1 t)) (Kc p pv stk)).
      { intros ST'. eapply sim_bind; [apply sim_boosted; auto; apply cb_ctx; exact Q|]. intros q w1 ts1 la1 x1 I1 L1 _. unfold Kb in *. rewrite G in *. cbn [c_stk] in L1.
        rdc 10 p pv stk [(15, VQ q)]. cbn [act rev map snd app]. apply FIN; auto. }
      unfold p_cls. destruct ts as [|[] r]; try (apply PL; cbn [qstart starts tn] in *; tauto).
      - eapply sim_sh; [eassumption|exact NL|exact SN|reflexivity|]. intros v1 x1 I1 H1 P1 M1.
        eapply sim_bind; [apply (sim_boosted 3 v1 ((p, pv) :: stk)); auto; [cbn; tauto|apply q_starts; cbn; tauto]|].
        intros q w1 ts1 la1 x2 I2 L2 _. unfold Kb in *. cbn [c_stk] in L2. rdc 9 p pv stk [(24, VQ q); (3, v1)]. cbn [act rev map snd app]. apply FIN; auto.
      - eapply sim_sh; [eassumption|exact NL|exact SR|reflexivity|]. intros v1 x1 I1 H1 P1 M1.
        eapply sim_bind; [apply (sim_boosted 4 v1 ((p, pv) :: stk)); auto; [cbn; tauto|apply q_starts; cbn; tauto]|].
        intros q w1 ts1 la1 x2 I2 L2 _. unfold Kb in *. cbn [c_stk] in L2. rdc 8 p pv stk [(25, VQ q); (4, v1)]. cbn [act rev map snd app]. apply FIN; auto.
    Qed.

    (* the clauses: in state 13 above 0, in state 27 above 5 *)
    Definition lctx (p l : Z) : Prop := p = 0 /\ l = 13 \/ p = 5 /\ l = 27.
    Definition Kl (p l : Z) (pv : val) (stk : list (Z * val)) : list (occ * qry) -> option (Z * val) -> lexer -> world -> conf :=
      fun cs la x w => mkC ((l, VBca cs) :: (p, pv) :: stk) la x w.
    Lemma sim_loop p l pv stk : lctx p l -> forall n ts cs la x w, inv la x ts -> (S (length ((p, pv) :: stk)) < MAX)%nat ->
      sim (mkC ((l, VBca cs) :: (p, pv) :: stk) la x w) (p_loop cf MAX pq n (S (length ((p, pv) :: stk))) w cs ts) (Kl p l pv stk).
    Proof.
      intros Q. assert (GL : goto p 28 = l) by (destruct Q as [[-> ->]|[-> ->]]; reflexivity).
      assert (QL : cctx l) by (destruct Q as [[-> ->]|[-> ->]]; cbn; tauto).
      induction n as [|n IH]; intros ts cs la x w I M; [exact Logic.I|].
      assert (FIN : forall cs' la x w ts, inv la x ts ->
        sima (te (VBca cs') w) p pv stk l la x (rbind (fine cs' w ts) (fun cs' w2 t2 => p_loop cf MAX pq n (S (length ((p, pv) :: stk))) w2 cs' t2)) (Kl p l pv stk)).
      { intros cs' la' x' w' ts' I'. unfold te, fine. destruct (w_des w'); cbn [sima simo rbind]; [exists x'; reflexivity|]. apply IH; auto. }
      assert (DEF : starts ts = true -> sim (mkC ((l, VBca cs) :: (p, pv) :: stk) la x w)
        (rbind (p_cls cf MAX pq (S (length ((p, pv) :: stk))) w ts) (fun c w1 t => rbind (fine (add_default_cls cf cs c) w1 t) (fun cs' w2 t2 => p_loop cf MAX pq n (S (length ((p, pv) :: stk))) w2 cs' t2)))
        (Kl p l pv stk)).
      { intros ST. eapply sim_bind; [apply (sim_cls l (VBca cs) ((p, pv) :: stk)); auto|]. intros c w1 ts1 la1 x1 I1 L1 _. unfold Kc in *.
        replace (goto l 29) with 42 in * by (destruct Q as [[-> ->]|[-> ->]]; reflexivity). cbn [c_stk] in L1.
        rdc 7 p pv stk [(42, VCls c); (l, VBca cs)]. cbn [act rev map snd app]. change (goto p (at_ yyr1 7)) with (goto p 28). rewrite GL. apply FIN; auto. }
      assert (STOP : sim (mkC ((l, VBca cs) :: (p, pv) :: stk) la x w) (ROk cs w ts) (Kl p l pv stk)) by (apply (sim_done cs _ _ _ _ (Kl p l pv stk)); auto).
      cbn [p_loop]. destruct ts as [|[] r]; cbn [starts]; try exact STOP; try (apply DEF; reflexivity).
      - (* AND *)
        eapply (sim_sh l _ _ _ _ _ _ _ 41); [eassumption|apply q_la; apply bq_ctx, cb_ctx; exact QL|destruct Q as [[-> ->]|[-> ->]]; reflexivity|reflexivity|]. intros v1 x1 I1 H1 P1 M1.
        eapply sim_bind; [apply (sim_cls 41 v1 ((l, VBca cs) :: (p, pv) :: stk)); auto; [cbn; tauto|apply c_starts; cbn; tauto]|]. intros c w1 ts1 la1 x2 I2 L2 _.
        unfold Kc in *. cbn [c_stk] in L2. rdc 5 p pv stk [(64, VCls c); (41, v1); (l, VBca cs)]. cbn [act rev map snd app]. change (goto p (at_ yyr1 5)) with (goto p 28). rewrite GL. apply FIN; auto.
      - (* OR *)
        eapply (sim_sh l _ _ _ _ _ _ _ 40); [eassumption|apply q_la; apply bq_ctx, cb_ctx; exact QL|destruct Q as [[-> ->]|[-> ->]]; reflexivity|reflexivity|]. intros v1 x1 I1 H1 P1 M1.
        eapply sim_bind; [apply (sim_cls 40 v1 ((l, VBca cs) :: (p, pv) :: stk)); auto; [cbn; tauto|apply c_starts; cbn; tauto]|]. intros c w1 ts1 la1 x2 I2 L2 _.
        unfold Kc in *. cbn [c_stk] in L2. rdc 6 p pv stk [(63, VCls c); (40, v1); (l, VBca cs)]. cbn [act rev map snd app]. change (goto p (at_ yyr1 6)) with (goto p 28). rewrite GL. apply FIN; auto.
    Qed.
    Lemma sim_clss p l pv stk n la x w ts : lctx p l -> inv la x ts -> (length ((p, pv) :: stk) < MAX)%nat -> starts ts = true \/ decide p (tn ts) = Error ->
      sim (mkC ((p, pv) :: stk) la x w) (p_clss cf MAX pq n (length ((p, pv) :: stk)) w ts) (Kl p l pv stk).
    Proof.
      intros Q I M ST. unfold p_clss.
      eapply sim_bind; [apply sim_cls; auto; destruct Q as [[-> ->]|[-> ->]]; cbn; tauto|]. intros c w1 ts1 la1 x1 I1 L1 _. unfold Kc in *.
      replace (goto p 29) with 14 in * by (destruct Q as [[-> ->]|[-> ->]]; reflexivity). cbn [c_stk] in L1.
      rdc 4 p pv stk [(14, VCls c)]. cbn [act rev map snd app]. change (goto p (at_ yyr1 4)) with (goto p 28).
      replace (goto p 28) with l by (destruct Q as [[-> ->]|[-> ->]]; reflexivity).
      unfold te, fine. destruct (w_des w1); cbn [sima simo rbind]; [exists x1; reflexivity|]. apply sim_loop; auto.
    Qed.
  End REC.

  (* the clauses end where none begins *)
  Definition at_end (ts : list tok) : Prop := starts ts = false /\ match ts with TAnd :: _ | TOr :: _ => False | _ => True end.
  Lemma loop_end pq n : forall d w cs ts cs' w' ts', p_loop cf MAX pq n d w cs ts = ROk cs' w' ts' -> at_end ts'.
  Proof.
    induction n as [|n IH]; intros d w cs ts cs' w' ts' E; [discriminate|]. cbn [p_loop] in E.
    assert (C : forall (r : res (option (occ * qry))) g, rbind r (fun c w1 t => rbind (fine (g c) w1 t) (fun cs' w2 t2 => p_loop cf MAX pq n d w2 cs' t2)) = ROk cs' w' ts' -> at_end ts').
    { intros r g H. destruct r as [c w1 t| | | |]; cbn [rbind] in H; try discriminate. unfold fine in H. destruct (w_des w1); cbn [rbind] in H; [discriminate|]. eapply IH; eauto. }
    destruct ts as [|[] r]; cbn [starts] in E; try (inversion E; subst; split; [reflexivity|exact Logic.I]); try (eapply C; exact E);
      unfold sh in E; destruct (MAX <=? S d)%nat; try discriminate; eapply C; exact E.
  Qed.
  Lemma clss_end pq n d w ts cs' w' ts' : p_clss cf MAX pq n d w ts = ROk cs' w' ts' -> at_end ts'.
  Proof.
    unfold p_clss. intros H. destruct (p_cls cf MAX pq d w ts) as [c w1 t| | | |]; cbn [rbind] in H; try discriminate.
    unfold fine in H. destruct (w_des w1); cbn [rbind] in H; [discriminate|]. eapply loop_end; eauto.
  Qed.

  Theorem sim_pq : forall n, right_q (p_q cf cap MAX n).
  Proof.
    induction n as [|n IH]; intros p pv stk la x w ts Q I M ST; [exact Logic.I|].
    pose proof (q_la _ Q) as NL. destruct (q_goto _ Q) as (G1 & G2 & G3 & G4 & G5 & G6).
    cbn [p_q]. destruct ts as [|k r]; [destruct ST as [ST|ST]; [discriminate|]; eapply sim_bad; eassumption|].
    pose proof (q_shift p k Q) as SK.
    destruct k; cbn [qstart] in ST; try (destruct ST as [ST|ST]; [discriminate|]; eapply sim_bad; eassumption); clear ST.
    - (* a word *)
      eapply sim_sh; [eassumption|exact NL|exact SK|reflexivity|]. intros v1 x1 I1 H1 P1 M1. specialize (H1 _ eq_refl).
      assert (TERM : decide 1 (tn r) = Reduce 20 -> sim (mkC ((1, v1) :: (p, pv) :: stk) None x1 w) (r_term cf w0 w r) (Kq p pv stk)).
      { intros D. eapply (sim_red_la _ _ stk 20 p pv [(1, v1)]); [eassumption|reflexivity|exact D|reflexivity|exact M1|reflexivity|discriminate|]. intros v2 x2 I2 P2.
        cbn [act rev map snd app]. unfold on_str. rewrite (pres_str _ _ _ _ _ _ eq_refl P2 H1). change (goto p (at_ yyr1 20)) with (goto p 32). rewrite G1.
        apply sim_each; auto. cbn; tauto. }
      assert (FLD : decide 1 (tn r) = Reduce 29 ->
        sim (mkC ((1, v1) :: (p, pv) :: stk) None x1 w) (match first_field cf w w0 with Some w1 => p_fields cf MAX (p_q cf cap MAX n) (S (length ((p, pv) :: stk))) w1 r | None => RUb end) (Kq p pv stk)).
      { intros D. eapply (sim_red_la _ _ stk 29 p pv [(1, v1)]); [eassumption|reflexivity|exact D|reflexivity|exact M1|reflexivity|discriminate|]. intros v2 x2 I2 P2.
        cbn [act rev map snd app]. unfold on_str. rewrite (pres_str _ _ _ _ _ _ eq_refl P2 H1). change (goto p (at_ yyr1 29)) with (goto p 38). rewrite G4. unfold fields_act.
        destruct (first_field cf w w0) as [w1|]; cbn [sima simo]; auto. eapply sim_fields; eauto. }
      destruct r as [|[] r]; try (apply TERM; reflexivity); try (apply FLD; reflexivity).
      (* ~ *)
      assert (FUZ : forall d, d = S (length ((p, pv) :: stk)) -> decide 23 (tn r) = Reduce 22 ->
        sim (mkC ((1, v1) :: (p, pv) :: stk) None x1 w) (sh MAX d w (fun _ => r_fuzzy cf w0 None w r)) (Kq p pv stk)).
      { intros d -> D. shift v2 x2 I2 H2 P2 M2.
        eapply (sim_red_la _ _ stk 22 p pv [(23, v2); (1, v1)]); [eassumption|reflexivity|exact D|reflexivity|exact M2|reflexivity|discriminate|]. intros v3 x3 I3 P3.
        cbn [act rev map snd app]. unfold on_str. rewrite (pres_str _ _ _ _ _ _ eq_refl P3 (pres_held _ _ _ _ _ _ _ eq_refl P2 eq_refl H1)).
        change (goto p (at_ yyr1 22)) with (goto p 32). rewrite G1. apply sim_each; auto. cbn; tauto. }
      destruct r as [|k2 r]; [apply FUZ; reflexivity|]. destruct k2; [|apply FUZ; reflexivity ..].
      shift v2 x2 I2 H2 P2 M2. shift v3 x3 I3 H3 P3 M3. specialize (H3 _ eq_refl).
      rdc 21 p pv stk [(46, v3); (23, v2); (1, v1)]. cbn [act rev map snd app]. unfold on_str.
      rewrite (pres_str _ _ _ _ _ _ eq_refl P3 (pres_held _ _ _ _ _ _ _ eq_refl P2 eq_refl H1)), (held_str _ _ _ H3).
      change (goto p (at_ yyr1 21)) with (goto p 32). rewrite G1. apply sim_each; auto. cbn; tauto.
    - (* a word with wild characters *)
      eapply sim_sh; [eassumption|exact NL|exact SK|reflexivity|]. intros v1 x1 I1 H1 P1 M1. specialize (H1 _ eq_refl).
      rdc 23 p pv stk [(2, v1)]. cbn [act rev map snd app]. unfold on_str. rewrite (held_str _ _ _ H1). change (goto p (at_ yyr1 23)) with (goto p 33). rewrite G2.
      destruct I1 as (I1 & C1 & S1). rewrite C1. apply sim_each; auto; [cbn; tauto|]. split; auto.
    - (* ( *)
      eapply sim_sh; [eassumption|exact NL|exact SK|reflexivity|]. intros v1 x1 I1 H1 P1 M1.
      assert (CL : starts r = true \/ decide 5 (tn r) = Error -> sim (mkC ((5, v1) :: (p, pv) :: stk) None x1 w)
        (rbind (p_clss cf MAX (p_q cf cap MAX n) n (S (length ((p, pv) :: stk))) w r) (fun cs w1 t =>
           match t with TRp :: r1 => sh MAX (S (S (length ((p, pv) :: stk)))) w1 (fun _ => fine (get_bool_q cs) w1 r1) | _ => bad w1 end)) (Kq p pv stk)).
      { intros ST. eapply sim_bind; [apply (sim_clss _ IH 5 27 v1 ((p, pv) :: stk)); auto; right; split; reflexivity|].
        intros cs w1 t la2 x2 I2 L2 ER. unfold Kl in *. cbn [c_stk] in L2.
        apply clss_end in ER. destruct ER as [E1 E2].
        destruct t as [|[] t]; try discriminate; try contradiction; try (eapply sim_bad; [eassumption|reflexivity|reflexivity]).
        shift v2 x3 I3 H3 P3 M3. rdc 15 p pv stk [(47, v2); (27, VBca cs); (5, v1)]. cbn [act rev map snd app]. apply sim_fine; auto. }
      destruct r as [|[] r]; try (apply CL; (left; reflexivity) || (right; reflexivity)).
      shift v2 x2 I2 H2 P2 M2. rdc 14 p pv stk [(26, v2); (5, v1)]. cbn [act rev map snd app]. apply sim_fine; auto.
    - (* * *)
      eapply sim_sh; [eassumption|exact NL|exact SK|reflexivity|]. intros v1 x1 I1 H1 P1 M1. cbv zeta.
      eapply (sim_sh0 26); try reflexivity. intros M2.
      destruct r as [|[] r]; try err. shift v2 x2 I2 H2 P2 M3. apply sim_scoped_all; auto.
    - eapply sim_sh; [eassumption|exact NL|exact SK|reflexivity|]. intros v1 x1 I1 H1 P1 M1. apply sim_pphrase; auto.
    - eapply sim_sh; [eassumption|exact NL|exact SK|reflexivity|]. intros v1 x1 I1 H1 P1 M1. apply sim_less; auto.
    - eapply sim_sh; [eassumption|exact NL|exact SK|reflexivity|]. intros v1 x1 I1 H1 P1 M1. apply sim_more; auto.
    - eapply sim_sh; [eassumption|exact NL|exact SK|reflexivity|]. intros v1 x1 I1 H1 P1 M1. apply (sim_from p pv v1 stk r None x1 w true); auto.
    - eapply sim_sh; [eassumption|exact NL|exact SK|reflexivity|]. intros v1 x1 I1 H1 P1 M1. apply (sim_from p pv v1 stk r None x1 w false); auto.
  Qed.

  (* ---------- the whole *)
  Definition agrees (c : conf) (r : res unit) : Prop :=
    match r with
    | ROk _ w _ => exists x, ends c (OAcc w x)
    | RBad w => exists x, ends c (ORej w x)
    | RAbort w => exists x, ends c (OAbort w x)
    | RUb => ends c OUb
    | RFuel => True
    end.
  Lemma sim_fail {A B} c (r : res A) K (k : A -> world -> list tok -> res B) :
    sim c r K -> (forall a w ts, r <> ROk a w ts) -> match rbind r k with ROk _ _ _ => False | RBad w => exists x, ends c (ORej w x) | RAbort w => exists x, ends c (OAbort w x) | RUb => ends c OUb | RFuel => True end.
  Proof.
    intros H N. destruct r as [a w ts|w|w| |]; cbn [sim simo rbind] in *; auto.
    - exfalso. eapply N. reflexivity.
    - destruct H as (o & E & x & ->). eauto.
    - destruct H as (o & E & x & ->). eauto.
    - destruct H as (o & E & ->). exact E.
  Qed.
  Lemma ends_sims c o : STEP c = inr o -> ends c o.
  Proof. apply ends_step. Qed.
  Lemma agrees_reach c c' r : reach c c' -> agrees c' r -> agrees c r.
  Proof.
    intros R H. destruct r; cbn [agrees] in *; auto; try (eapply reach_ends; eassumption); destruct H as [x H]; exists x; eapply reach_ends; eassumption.
  Qed.
  (* state 12: the end of the string is expected *)
  Lemma at_top v stk la x w ts : inv la x ts -> agrees (mkC ((12, v) :: stk) la x w) (match ts with [] => ROk tt w [] | _ => bad w end).
  Proof.
    intros I. destruct (peek 12 v stk _ _ w _ I eq_refl) as (v1 & x1 & E & _ & _).
    unfold step_la in E. cbn [hd fst] in E. destruct ts as [|[] r]; cbn [agrees bad]; exists x1; apply ends_step; rewrite E; reflexivity.
  Qed.
  Lemma max_big : (2 < MAX)%nat.
  Proof. apply Nat.ltb_lt. vm_compute. reflexivity. Qed.
  Theorem engine_agrees n x w ts : inv None x ts -> agrees (mkC [(0, VNone)] None x w) (p_top cf cap MAX n w ts).
  Proof.
    intros I. pose proof max_big as MB. unfold p_top. destruct (starts ts) eqn:ST.
    - pose proof (sim_clss _ (sim_pq n) 0 13 VNone [] n None x w ts ltac:(left; split; reflexivity) I ltac:(cbn [length]; lia) (or_introl ST)) as H.
      cbn [length] in H. destruct (p_clss cf MAX (p_q cf cap MAX n) n 1 w ts) as [cs w1 t|w1|w1| |] eqn:EC.
      2-5: pose proof (sim_fail _ _ _ (fun cs w1 t => rbind (fine tt (set_res w1 (get_bool_q cs)) t) (fun _ w2 _ => match t with [] => ROk tt w2 [] | _ => bad w2 end)) H ltac:(discriminate)) as F; cbn [rbind agrees] in *; exact F.
      cbn [rbind sim] in *. destruct H as (la & x1 & R & I1 & L1). eapply agrees_reach; [exact R|]. clear R.
      apply clss_end in EC. destruct EC as [E1 E2].
      assert (D : decide 13 (tn t) = Reduce 3) by (destruct t as [|[] t]; try discriminate; try contradiction; reflexivity).
      unfold Kl in *. cbn [c_stk length] in L1.
      destruct (peek 13 (VBca cs) [(0, VNone)] _ _ w1 _ I1 eq_refl) as (v2 & x2 & E & I2 & _). unfold step_la in E. cbn [hd fst] in E. rewrite D in E.
      unfold fine. cbn [w_des set_res].
      unfold reduce in E. change (Z.to_nat (at_ yyr2 3)) with 1%nat in E. cbn [length Nat.leb firstn map snd rev app act skipn hd fst] in E. unfold te in E. cbn [w_des set_res] in E.
      destruct (w_des w1) eqn:DW.
      + cbn [rbind agrees]. exists x2. apply ends_step. rewrite E. unfold set_res. rewrite DW. reflexivity.
      + cbn [rbind]. unfold push in E. replace (MAX <=? S (length [(0, VNone)]))%nat with false in E by (symmetry; apply Nat.leb_gt; cbn [length]; lia).
        eapply agrees_reach; [apply reach_step; exact E|]. change (goto 0 (at_ yyr1 3)) with 12. unfold set_res. rewrite DW. apply at_top. exact I2.
    - assert (D : decide 0 (tn ts) = Reduce 2) by (destruct ts as [|[] t]; try discriminate; reflexivity).
      destruct (peek 0 VNone [] _ _ w _ I eq_refl) as (v2 & x2 & E & I2 & _). unfold step_la in E. cbn [hd fst] in E. rewrite D in E.
      unfold reduce in E. change (Z.to_nat (at_ yyr2 2)) with 0%nat in E. cbn [length Nat.leb firstn map snd rev app act skipn hd fst] in E.
      unfold push in E. replace (MAX <=? S (length [(0, VNone)]))%nat with false in E by (symmetry; apply Nat.leb_gt; cbn [length]; lia).
      eapply agrees_reach; [apply reach_step; exact E|]. change (goto 0 (at_ yyr1 2)) with 12. apply at_top. exact I2.
  Qed.
End SIM.
