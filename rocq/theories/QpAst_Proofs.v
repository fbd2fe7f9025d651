(* What is written in the grammar is parsed to its meaning, and nothing else is accepted. *)
From Verif Require Import Util QpLex_Model QpAct_Model QpClean_Model Qp_Model Qp_Spec QpLex_Proofs QpAst_Spec.
Open Scope Z_scope.

Section AST.
  Variable cf : qconf.
  Variable cap : nat.
  Variable MD : nat.
  Notation PQ := (p_q cf cap MD).
  Notation EV := (eval cf cap).

  Definition inw (F : list (list Z)) (w : world) : Prop := w_cur w = Some F /\ hd_error (w_fs w) = Some (Some F) /\ w_des w = false.
  Definition okq (r : res (option qry)) (e : ev (option qry)) (w : world) (rest : list tok) : Prop :=
    match e with
    | EOk q => r = ROk q w rest
    | EUb => r = RUb
    | EAbort => (exists w', r = RAbort w') \/ (exists w', r = ROk None w' rest /\ w_des w' = true)
    end.
  Definition okc {A} (r : res A) (e : ev A) (w : world) (rest : list tok) : Prop :=
    match e with
    | EOk q => r = ROk q w rest
    | EUb => r = RUb
    | EAbort => exists w', r = RAbort w'
    end.
  Definition after (o : bool) (rest : list tok) : Prop :=
    match rest with
    | (TTilde | TColon | TBar | TRb | TRc) :: _ => False
    | TWord _ :: _ => o = false
    | _ => True
    end.
  Definition not_caret (rest : list tok) : Prop := match rest with TCaret :: _ => False | _ => True end.

  Lemma sh_ok {A} d w (f : nat -> res A) : (S d < MD)%nat -> sh MD d w f = f (S d).
  Proof. intros H. unfold sh. rewrite (proj2 (Nat.leb_gt _ _) H). reflexivity. Qed.
  Lemma each_ok (fr : fres) w rest F : inw F w -> okq (each fr w rest) (match fr with FOk q => EOk q | _ => EUb end) w rest.
  Proof. intros (_ & _ & D). unfold each, fine. destruct fr; cbn; auto. rewrite D. reflexivity. Qed.
  Lemma over_ok {A} (func : list Z -> A -> gres A) (a : A) w rest F : inw F w -> okq (each (flds cf func (w_cur w) a) w rest) (over cf func F a) w rest.
  Proof. intros I. unfold over. pose proof I as (C & _). rewrite C. eapply each_ok; eauto. Qed.
  Lemma phrase_ok p sl w rest F : inw F w -> okq (r_phrase cf p sl w rest) (e_phrase cf F (Some p) sl) w rest.
  Proof.
    intros (C & _ & D). unfold r_phrase, e_phrase. rewrite C, D. destruct (flds cf (get_phrase_query cf sl) (Some F) p); cbn; auto. right. eauto.
  Qed.
  Ltac sho := rewrite sh_ok by lia.

  Lemma words_fwd w F : inw F w -> forall es p sl rest d, after false rest -> (d + 4 <= MD)%nat ->
    okq (p_words cf MD d w p (flat_map t_elem es ++ TQuote :: t_opt TTilde sl ++ rest)) (e_phrase cf F (words_of p es) sl) w rest.
  Proof.
    intros I. induction es as [|e es IH]; intros p sl rest d A L.
    - cbn [flat_map app p_words words_of]. sho. destruct sl as [y|]; cbn [t_opt app].
      + sho. sho. apply phrase_ok. exact I.
      + destruct rest as [|[] rest]; cbn in A; try contradiction; apply phrase_ok; exact I.
    - destruct e as [x| |x]; cbn [flat_map t_elem app p_words words_of].
      + sho. apply IH; auto.
      + sho. sho. apply IH; auto.
      + sho. sho. destruct (ph_add_multi_word p x); [apply IH; auto|]. reflexivity.
  Qed.
  Lemma phrase_fwd w F x es sl rest d : inw F w -> after false rest -> (d + 5 <= MD)%nat ->
    okq (p_phrase cf MD d w ((t_first x ++ flat_map t_elem es ++ TQuote :: t_opt TTilde sl) ++ rest)) (EV F (APhrase x es sl)) w rest.
  Proof.
    intros I A L. cbn [eval]. rewrite <- !app_assoc. cbn [app]. destruct x as [x|]; cbn [t_first app p_phrase].
    - sho. apply words_fwd; auto. lia.
    - sho. sho. apply words_fwd; auto. lia.
  Qed.
  Lemma range_fwd n w F r rest d : inw F w -> after false rest -> (d + 6 <= MD)%nat -> okq (PQ (S n) d w (t_range r ++ rest)) (e_range cf cap F r) w rest.
  Proof.
    intros I A L. destruct r as [il iu x y|il x|iu x|x|x|x|x]; cbn [t_range app e_range].
    - destruct il, iu; cbn [p_q p_from]; repeat sho; apply over_ok; exact I.
    - destruct il; cbn [p_q p_from]; repeat sho; apply over_ok; exact I.
    - destruct iu; cbn [p_q p_less]; repeat sho; apply over_ok; exact I.
    - cbn [p_q p_less]. repeat sho. destruct rest as [|[] rest]; cbn in A; try contradiction; apply over_ok; exact I.
    - cbn [p_q p_less]. repeat sho. apply over_ok; exact I.
    - cbn [p_q p_more]. repeat sho. apply over_ok; exact I.
    - cbn [p_q p_more]. repeat sho. apply over_ok; exact I.
  Qed.
  Lemma len1 a : (1 <= length (toks a))%nat.
  Proof. destruct a as [| | | | | | |[]| |]; cbn; lia. Qed.

  Lemma first_push w x : first_field cf w x = Some (push_fields w (Some (add1 cf [] x))).
  Proof. reflexivity. Qed.
  Lemma add_push w F x : add_field cf (push_fields w (Some F)) x = Some (push_fields w (Some (add1 cf F x))).
  Proof. reflexivity. Qed.
  Lemma pop_push F G w : inw F w -> pop_fields (push_fields w G) = w.
  Proof. intros (C & H & D). destruct w as [[|f fs] c d r]; unfold pop_fields, push_fields; cbn in *; [discriminate|]. congruence. Qed.
  Lemma push_in F w : w_des w = false -> inw F (push_fields w (Some F)).
  Proof. intros H. repeat split; auto. Qed.
  Lemma pop_des w : w_des (pop_fields w) = w_des w.
  Proof. reflexivity. Qed.

  (* a query that pq parses, parses n tokens at most *)
  Definition fwd (pq : nat -> world -> list tok -> res (option qry)) (n : nat) : Prop := forall a F w rest d,
    (length (toks a ++ rest) < n)%nat -> wf a -> inw F w -> (d + 2 * length (toks a) + 2 <= MD)%nat -> after (open a) rest ->
    okq (pq d w (toks a ++ rest)) (EV F a) w rest.

  Section REC.
    Variable pq : nat -> world -> list tok -> res (option qry).
    Variable n : nat.
    Hypothesis RQ : fwd pq n.
    Lemma scoped_fwd a F G w rest d : inw F w -> (length (toks a ++ rest) < n)%nat -> wf a -> (d + 2 * length (toks a) + 2 <= MD)%nat -> after (open a) rest ->
      okq (scoped MD pq d (push_fields w (Some G)) (toks a ++ rest)) (EV G a) w rest.
    Proof.
      intros I L W D A. unfold scoped. pose proof (RQ a G (push_fields w (Some G)) rest d L W (push_in G w (proj2 (proj2 I))) D A) as H.
      pose proof (len1 a). destruct (EV G a) as [q| |]; cbn [okq] in *.
      - rewrite H. cbn [rbind]. sho. rewrite (pop_push F) by exact I. reflexivity.
      - destruct H as [[w' ->]|(w' & -> & DW)]; cbn [rbind]; [left; eauto|]. right. sho. exists (pop_fields w'). auto.
      - rewrite H. reflexivity.
    Qed.
    Lemma fields_fwd a F w rest d : inw F w -> forall xs G, (length (toks a ++ rest) < n)%nat -> wf a -> (d + 2 * length (toks a) + 3 <= MD)%nat -> after (open a) rest ->
      okq (p_fields cf MD pq d (push_fields w (Some G)) ((flat_map (fun y => [TBar; TWord y]) xs ++ TColon :: toks a) ++ rest)) (EV (fold_left (add1 cf) xs G) a) w rest.
    Proof.
      intros I. pose proof (len1 a) as LA. induction xs as [|x xs IH]; intros G L W D A; cbn [flat_map app p_fields fold_left].
      - sho. eapply scoped_fwd; eauto. lia.
      - sho. sho. rewrite add_push. apply IH; auto.
    Qed.
    Lemma boosted_fwd a b F w rest d : inw F w -> (length (toks a ++ t_opt TCaret b ++ rest) < n)%nat -> wf a -> (d + 2 * length (toks a ++ t_opt TCaret b) + 2 <= MD)%nat ->
      after (match b with None => open a | Some _ => false end) rest -> not_caret rest ->
      okq (p_boosted cf MD pq d w (toks a ++ t_opt TCaret b ++ rest)) (ebind (EV F a) (fun x => EOk (e_boost cf x b))) w rest.
    Proof.
      intros I L W D A NC. unfold p_boosted. pose proof (len1 a) as LA. rewrite app_length in D.
      assert (A' : after (open a) (t_opt TCaret b ++ rest)) by (destruct b; [exact Logic.I|exact A]).
      pose proof (RQ a F w _ d L W I ltac:(lia) A') as H. destruct (EV F a) as [q| |]; cbn [okq ebind] in *.
      - rewrite H. cbn [rbind]. destruct b as [y|]; cbn [t_opt app e_boost length] in *.
        + repeat sho. unfold fine. rewrite (proj2 (proj2 I)). reflexivity.
        + destruct rest as [|[] rest]; cbn in NC; try contradiction; reflexivity.
      - destruct H as [[w' ->]|(w' & -> & DW)]; cbn [rbind]; [left; eauto|].
        destruct b as [y|]; cbn [t_opt app e_boost length] in *.
        + left. exists w'. repeat sho. unfold fine. rewrite DW. reflexivity.
        + right. exists w'. split; [|exact DW]. destruct rest as [|[] rest]; cbn in NC; try contradiction; reflexivity.
      - rewrite H. reflexivity.
    Qed.
    Lemma not_sign a rest : match toks a ++ rest with (TReq | TNot) :: _ => False | _ => True end.
    Proof. destruct a as [| | | | | | |[[] ? ? ?|[] ?| | | | |]| |]; exact Logic.I. Qed.
    Lemma cls_fwd c F w rest d : inw F w -> (length (c_toks c ++ rest) < n)%nat -> c_wf c -> (d + 2 * length (c_toks c) + 2 <= MD)%nat ->
      after (c_open c) rest -> not_caret rest ->
      okc (p_cls cf MD pq d w (c_toks c ++ rest)) (c_eval cf cap F c) w rest.
    Proof.
      destruct c as [s a b]. intros I L W D A NC. cbn [c_toks c_wf c_eval] in *. rewrite <- !app_assoc in *. rewrite !app_length in *.
      assert (FIN : forall d, (d + 2 * length (toks a ++ t_opt TCaret b) + 2 <= MD)%nat ->
        okc (rbind (p_boosted cf MD pq d w (toks a ++ t_opt TCaret b ++ rest)) (fun q w1 t => fine (get_bool_cls q s) w1 t)) (ebind (EV F a) (fun x => EOk (get_bool_cls (e_boost cf x b) s))) w rest).
      { intros d' D'. pose proof (boosted_fwd a b F w rest d' I ltac:(rewrite !app_length; lia) W D' ltac:(destruct b; exact A) NC) as H.
        destruct (EV F a) as [q| |]; cbn [okq ebind okc] in *.
        - rewrite H. cbn [rbind]. unfold fine. rewrite (proj2 (proj2 I)). reflexivity.
        - destruct H as [[w' ->]|(w' & -> & DW)]; cbn [rbind]; [eauto|]. unfold fine. rewrite DW. eauto.
        - rewrite H. reflexivity. }
      rewrite app_length in FIN. destruct s; cbn [t_sign app length] in *.
      - pose proof (not_sign a (t_opt TCaret b ++ rest)) as NS. specialize (FIN d ltac:(lia)). unfold p_cls. destruct (toks a ++ t_opt TCaret b ++ rest) as [|[] r]; try contradiction; exact FIN.
      - cbn [p_cls]. sho. apply FIN. lia.
      - cbn [p_cls]. sho. apply FIN. lia.
    Qed.

    (* what may follow the clauses *)
    Definition stops (rest : list tok) : Prop := match rest with [] | TRp :: _ => True | _ => False end.
    Lemma c_starts_ c rest : starts (c_toks c ++ rest) = true.
    Proof. destruct c as [[] a b]; cbn [c_toks t_sign app]; try reflexivity. destruct a as [| | | | | | |[[] ? ? ?|[] ?| | | | |]| |]; reflexivity. Qed.
    Lemma loop_starts mm d w cs ts : starts ts = true -> p_loop cf MD pq (S mm) d w cs ts =
      rbind (p_cls cf MD pq d w ts) (fun c w1 t => rbind (fine (add_default_cls cf cs c) w1 t) (fun cs' w2 t2 => p_loop cf MD pq mm d w2 cs' t2)).
    Proof. intros H. cbn [p_loop]. destruct ts as [|[] r]; try discriminate; reflexivity. Qed.
    Lemma c_len1 c : (1 <= length (c_toks c))%nat.
    Proof. destruct c as [s a b]. cbn [c_toks]. rewrite !app_length. pose proof (len1 a). lia. Qed.
    (* what follows a clause *)
    Lemma after_cls o m rest : m_wf o m -> stops rest -> after o (m_toks m ++ rest) /\ not_caret (m_toks m ++ rest).
    Proof.
      intros W S. destruct m as [|k c m]; cbn [m_toks app].
      - destruct rest as [|[] rest]; cbn in *; try contradiction; auto.
      - cbn [m_wf] in W. destruct W as (H & _). rewrite <- !app_assoc. destruct k; cbn [t_conn app] in *; try (split; exact Logic.I).
        destruct c as [[] a b]; cbn [c_toks t_sign app] in *; try (split; exact Logic.I).
        destruct o.
        + specialize (H eq_refl). destruct a as [| | | | | | |[[] ? ? ?|[] ?| | | | |]| |]; cbn in *; try discriminate; split; exact Logic.I.
        + destruct a as [| | | | | | |[[] ? ? ?|[] ?| | | | |]| |]; cbn in *; split; reflexivity || exact Logic.I.
    Qed.
    Lemma loop_fwd F w rest d : inw F w -> stops rest -> forall m o mm cs, m_wf o m -> (length (m_toks m ++ rest) < mm)%nat -> (length (m_toks m ++ rest) < n)%nat ->
      (d + 2 * length (m_toks m) + 2 <= MD)%nat ->
      okc (p_loop cf MD pq mm d w cs (m_toks m ++ rest)) (m_eval cf cap F cs m) w rest.
    Proof.
      intros I S. induction m as [|k c m IH]; intros o mm cs W LM L D; (destruct mm as [|mm]; [lia|]).
      - cbn [m_toks app m_eval okc p_loop]. destruct rest as [|[] rest]; cbn in S; try contradiction; reflexivity.
      - cbn [m_toks m_wf m_eval] in *. destruct W as (H & WC & WM). rewrite <- !app_assoc in *. rewrite !app_length in *.
        pose proof (after_cls _ _ _ WM S) as [A NC]. pose proof (c_len1 c) as LC.
        assert (FIN : forall d1, (d1 + 2 * length (c_toks c) + 2 <= MD)%nat ->
          okc (rbind (p_cls cf MD pq d1 w (c_toks c ++ m_toks m ++ rest)) (fun c w1 t => rbind (fine (e_add cf k cs c) w1 t) (fun cs' w2 t2 => p_loop cf MD pq mm d w2 cs' t2)))
            (ebind (c_eval cf cap F c) (fun x => m_eval cf cap F (e_add cf k cs x) m)) w rest).
        { intros d1 D1. pose proof (cls_fwd c F w (m_toks m ++ rest) d1 I ltac:(rewrite !app_length; lia) WC D1 A NC) as HC.
          destruct (c_eval cf cap F c) as [x| |]; cbn [okc ebind] in *.
          - rewrite HC. cbn [rbind]. unfold fine. rewrite (proj2 (proj2 I)). cbn [rbind]. eapply IH; eauto; rewrite ?app_length; lia.
          - destruct HC as [w' ->]. cbn [rbind]. eauto.
          - rewrite HC. reflexivity. }
        destruct k; cbn [t_conn app length] in *.
        + cbn [p_loop]. sho. apply FIN. lia.
        + cbn [p_loop]. sho. apply FIN. lia.
        + rewrite loop_starts by (apply c_starts_). apply FIN. lia.
    Qed.
    Lemma clss_fwd F w rest d c m mm : inw F w -> stops rest -> c_wf c -> m_wf (c_open c) m -> (length (c_toks c ++ m_toks m ++ rest) < mm)%nat -> (length (c_toks c ++ m_toks m ++ rest) < n)%nat ->
      (d + 2 * length (c_toks c ++ m_toks m) + 2 <= MD)%nat ->
      okc (p_clss cf MD pq mm d w (c_toks c ++ m_toks m ++ rest)) (ebind (c_eval cf cap F c) (fun x => m_eval cf cap F (first_cls x) m)) w rest.
    Proof.
      intros I S WC WM LM L D. unfold p_clss. rewrite !app_length in *. pose proof (after_cls _ _ _ WM S) as [A NC]. pose proof (c_len1 c) as LC.
      pose proof (cls_fwd c F w (m_toks m ++ rest) d I ltac:(rewrite !app_length; lia) WC ltac:(lia) A NC) as HC.
      destruct (c_eval cf cap F c) as [x| |]; cbn [okc ebind] in *.
      - rewrite HC. cbn [rbind]. unfold fine. rewrite (proj2 (proj2 I)). cbn [rbind]. eapply loop_fwd; eauto; rewrite ?app_length; lia.
      - destruct HC as [w' ->]. cbn [rbind]. eauto.
      - rewrite HC. reflexivity.
    Qed.
  End REC.

  Theorem q_fwd : forall n, fwd (PQ n) n.
  Proof.
    induction n as [|n IH]; intros a F w rest d L W I D A; [lia|].
    destruct a as [x|x y|x| |c m|x es sl|sl|r|x xs q|q].
    - cbn [toks app p_q]. sho. cbn [open eval] in *. destruct rest as [|[] rest]; cbn in A; try contradiction; apply over_ok; exact I.
    - cbn [toks app p_q length] in *. sho. cbn [eval]. destruct y as [y|]; cbn [app length] in *.
      + repeat sho. apply over_ok. exact I.
      + destruct rest as [|[] rest]; cbn in A; try contradiction; try discriminate; sho; apply over_ok; exact I.
    - cbn [toks app p_q]. sho. apply over_ok. exact I.
    - cbn [toks app p_q length] in *. repeat sho. cbn [eval okq]. unfold fine. rewrite (proj2 (proj2 I)). reflexivity.
    - cbn [toks app p_q length wf eval] in *. sho. destruct W as [WC WM]. rewrite <- !app_assoc in *. rewrite !app_length in *. cbn [length app] in *.
      pose proof (clss_fwd _ n IH F w (TRp :: rest) (S d) c m n I Logic.I WC WM ltac:(rewrite !app_length; cbn [length]; lia) ltac:(rewrite !app_length; cbn [length]; lia) ltac:(rewrite !app_length; lia)) as H.
      assert (G : forall X, okq (rbind (p_clss cf MD (PQ n) n (S d) w (c_toks c ++ m_toks m ++ TRp :: rest)) (fun cs w1 t =>
                       match t with TRp :: r1 => sh MD (S (S d)) w1 (fun _ => fine (get_bool_q cs) w1 r1) | _ => bad w1 end))
                  (ebind (c_eval cf cap F c) (fun x => ebind (m_eval cf cap F (first_cls x) m) (fun cs => EOk (get_bool_q cs)))) w rest ->
                okq match c_toks c ++ m_toks m ++ TRp :: rest with
                    | TRp :: r1 => X r1
                    | _ => rbind (p_clss cf MD (PQ n) n (S d) w (c_toks c ++ m_toks m ++ TRp :: rest)) (fun cs w1 t =>
                       match t with TRp :: r1 => sh MD (S (S d)) w1 (fun _ => fine (get_bool_q cs) w1 r1) | _ => bad w1 end) end
                  (ebind (c_eval cf cap F c) (fun x => ebind (m_eval cf cap F (first_cls x) m) (fun cs => EOk (get_bool_q cs)))) w rest).
      { intros X Y. pose proof (c_starts_ c (m_toks m ++ TRp :: rest)) as ST. destruct (c_toks c ++ m_toks m ++ TRp :: rest) as [|[] r]; try exact Y. discriminate. }
      apply G. clear G. pose proof (c_len1 c) as LC.
      destruct (c_eval cf cap F c) as [x| |]; cbn [ebind okc okq] in *.
      + destruct (m_eval cf cap F (first_cls x) m) as [cs| |]; cbn [ebind okc okq] in *.
        * rewrite H. cbn [rbind]. sho. unfold fine. rewrite (proj2 (proj2 I)). reflexivity.
        * destruct H as [w' ->]. left. exists w'. reflexivity.
        * rewrite H. reflexivity.
      + destruct H as [w' ->]. left. exists w'. reflexivity.
      + rewrite H. reflexivity.
    - cbn [toks app p_q length open] in *. rewrite !app_length in *. cbn [length] in *. sho. apply phrase_fwd; auto.
      assert (1 <= length (t_first x))%nat by (destruct x; cbn; lia). lia.
    - cbn [toks app p_q length open p_phrase eval] in *. repeat sho. destruct sl as [y|]; cbn [t_opt app length okq] in *; repeat sho; [reflexivity|].
      destruct rest as [|[] rest]; cbn in A; try contradiction; reflexivity.
    - cbn [toks eval open] in *. apply range_fwd; auto. destruct r; cbn [t_range length] in D; lia.
    - cbn [toks app p_q length open wf eval fields_of fold_left] in *. sho. rewrite !app_length in *. cbn [length] in *. pose proof (len1 q) as LQ. rewrite first_push.
      pose proof (fields_fwd _ n IH q F w rest (S d) I xs (add1 cf [] x) ltac:(rewrite app_length; lia) W ltac:(lia) A) as H.
      unfold fields_of. cbn [fold_left]. destruct xs; exact H.
    - cbn [toks app p_q length open wf eval] in *. cbv zeta. repeat sho. eapply scoped_fwd; eauto; lia.
  Qed.

  (* ---------- what is accepted can be written in the grammar *)
  Lemma sh_inv {A} d w (f : nat -> res A) a w' t : sh MD d w f = ROk a w' t -> f (S d) = ROk a w' t.
  Proof. unfold sh. destruct (MD <=? S d)%nat; [discriminate|auto]. Qed.
  Lemma fine_inv {A} (a b : A) w w' t t' : fine a w t = ROk b w' t' -> t' = t /\ b = a /\ w' = w.
  Proof. unfold fine. destruct (w_des w); [discriminate|]. intros H. inversion H. auto. Qed.
  Lemma each_inv fr w t a w' t' : each fr w t = ROk a w' t' -> t' = t.
  Proof. unfold each. destruct fr; try discriminate. intros H. apply fine_inv in H. tauto. Qed.
  Lemma phrase_inv p sl w t a w' t' : r_phrase cf p sl w t = ROk a w' t' -> t' = t.
  Proof. unfold r_phrase. destruct (flds cf (get_phrase_query cf sl) (w_cur w) p); try discriminate; intros H; inversion H; auto. Qed.
  Ltac shi H := repeat apply sh_inv in H.

  Lemma words_bwd : forall n ts d w p q w' t, (length ts <= n)%nat -> p_words cf MD d w p ts = ROk q w' t -> exists es sl, ts = flat_map t_elem es ++ TQuote :: t_opt TTilde sl ++ t.
  Proof.
    induction n as [|n IH]; intros ts d w p q w' t L E; (destruct ts as [|k r]; [discriminate|]); cbn [length] in L; [lia|].
    destruct k; cbn [p_words] in E; try discriminate.
    - shi E. apply IH in E; [|lia]. destruct E as (es & sl & ->). exists (PWord w0 :: es), sl. reflexivity.
    - destruct r as [|[] r]; try discriminate. shi E. destruct (ph_add_multi_word p w0); [|discriminate]. cbn [length] in L. apply IH in E; [|lia].
      destruct E as (es & sl & ->). exists (PAlt w0 :: es), sl. reflexivity.
    - shi E.
      assert (NS : r_phrase cf p None w r = ROk q w' t -> exists es sl, TQuote :: r = flat_map t_elem es ++ TQuote :: t_opt TTilde sl ++ t).
      { intros H. apply phrase_inv in H. subst t. exists [], None. reflexivity. }
      destruct r as [|[] r]; try (apply NS; exact E). destruct r as [|[] r]; try discriminate. shi E. apply phrase_inv in E. subst t. exists [], (Some w0). reflexivity.
    - destruct r as [|[] r]; try discriminate. shi E. cbn [length] in L. apply IH in E; [|lia]. destruct E as (es & sl & ->). exists (PGap :: es), sl. reflexivity.
  Qed.
  Definition wrote (ts t : list tok) : Prop := exists a, wf a /\ ts = toks a ++ t /\ (open a = true -> on_word t = false).
  Lemma wrote_closed a ts t : wf a -> open a = false -> ts = toks a ++ t -> wrote ts t.
  Proof. intros W O E. exists a. split; [exact W|]. split; [exact E|]. rewrite O. discriminate. Qed.
  Lemma pphrase_bwd d w ts q w' t : p_phrase cf MD d w ts = ROk q w' t -> wrote (TQuote :: ts) t.
  Proof.
    unfold p_phrase. intros E. destruct ts as [|[] r]; try discriminate.
    - shi E. apply (words_bwd _ _ _ _ _ _ _ _ (le_n _)) in E. destruct E as (es & sl & ->). apply (wrote_closed (APhrase (Some w0) es sl)); [exact Logic.I|reflexivity|]. cbn [toks t_first app]. rewrite <- !app_assoc. reflexivity.
    - shi E. assert (NS : ROk None w r = ROk q w' t -> wrote (TQuote :: TQuote :: r) t).
      { intros H. inversion H; subst. apply (wrote_closed (AEmpty None)); reflexivity || exact Logic.I. }
      destruct r as [|[] r]; try (apply NS; exact E). destruct r as [|[] r]; try discriminate. shi E. inversion E; subst. apply (wrote_closed (AEmpty (Some w0))); reflexivity || exact Logic.I.
    - destruct r as [|[] r]; try discriminate. shi E. apply (words_bwd _ _ _ _ _ _ _ _ (le_n _)) in E. destruct E as (es & sl & ->). apply (wrote_closed (APhrase None es sl)); [exact Logic.I|reflexivity|]. cbn [toks t_first app]. rewrite <- !app_assoc. reflexivity.
  Qed.
  Ltac rng a := apply (wrote_closed (ARange a)); [exact Logic.I|reflexivity|reflexivity].
  Lemma less_bwd d w ts q w' t : p_less cf cap MD d w ts = ROk q w' t -> wrote (TLt :: ts) t.
  Proof.
    unfold p_less, r_range. intros E. destruct ts as [|[] r]; try discriminate.
    - shi E. destruct r as [|[] r]; shi E; apply each_inv in E; subst t; try rng (RLess w0); [rng (RUpTo true w0)|rng (RUpTo false w0)].
    - destruct r as [|[] r]; try discriminate. shi E. apply each_inv in E. subst t. rng (RLessEq w0).
  Qed.
  Lemma more_bwd d w ts q w' t : p_more cf cap MD d w ts = ROk q w' t -> wrote (TGt :: ts) t.
  Proof.
    unfold p_more, r_range. intros E. destruct ts as [|[] r]; try discriminate.
    - shi E. apply each_inv in E. subst t. rng (RMore w0).
    - destruct r as [|[] r]; try discriminate. shi E. apply each_inv in E. subst t. rng (RMoreEq w0).
  Qed.
  Lemma from_bwd (il : bool) d w ts q w' t : p_from cf cap MD il d w ts = ROk q w' t -> wrote ((if il then TLb else TLc) :: ts) t.
  Proof.
    unfold p_from, r_range. intros E. destruct ts as [|[] r]; try discriminate. shi E. destruct r as [|[] r]; try discriminate; shi E.
    - destruct r as [|[] r]; try discriminate; shi E; apply each_inv in E; subst t; [rng (RBoth il true w0 w1)|rng (RBoth il false w0 w1)].
    - apply each_inv in E. subst t. rng (RFrom il w0).
  Qed.

  Section BACK.
    Variable pq : nat -> world -> list tok -> res (option qry).
    Hypothesis RQ : forall d w ts q w' t, pq d w ts = ROk q w' t -> wrote ts t.
    Lemma bind_inv {A B} (r : res A) (k : A -> world -> list tok -> res B) b w' t' : rbind r k = ROk b w' t' -> exists a w t, r = ROk a w t /\ k a w t = ROk b w' t'.
    Proof. destruct r; cbn [rbind]; try discriminate. eauto. Qed.
    Lemma scoped_bwd d w ts q w' t : scoped MD pq d w ts = ROk q w' t -> wrote ts t.
    Proof. unfold scoped. intros E. apply bind_inv in E. destruct E as (a & w1 & t1 & E1 & E2). shi E2. inversion E2; subst. eapply RQ; eauto. Qed.
    Lemma fields_bwd : forall n ts d w q w' t, (length ts <= n)%nat -> p_fields cf MD pq d w ts = ROk q w' t ->
      exists xs r, ts = flat_map (fun y => [TBar; TWord y]) xs ++ TColon :: r /\ wrote r t.
    Proof.
      induction n as [|n IH]; intros ts d w q w' t L E; (destruct ts as [|k r]; [discriminate|]); cbn [length] in L; [lia|].
      destruct k; cbn [p_fields] in E; try discriminate.
      - shi E. exists [], r. split; [reflexivity|]. eapply scoped_bwd; eauto.
      - destruct r as [|[] r]; try discriminate. shi E. destruct (add_field cf w w0); [|discriminate]. cbn [length] in L. apply IH in E; [|lia].
        destruct E as (xs & r' & -> & W). exists (w0 :: xs), r'. split; [reflexivity|exact W].
    Qed.
    Definition c_wrote (ts t : list tok) : Prop := exists c, c_wf c /\ ts = c_toks c ++ t /\ (c_open c = true -> on_word t = false).
    Lemma boosted_bwd d w ts q w' t : p_boosted cf MD pq d w ts = ROk q w' t ->
      exists a b, wf a /\ ts = toks a ++ t_opt TCaret b ++ t /\ (b = None -> open a = true -> on_word t = false).
    Proof.
      unfold p_boosted. intros E. apply bind_inv in E. destruct E as (a & w1 & t1 & E1 & E2). apply RQ in E1. destruct E1 as (x & W & -> & O).
      assert (NS : ROk a w1 t1 = ROk q w' t -> exists a b, wf a /\ toks x ++ t1 = toks a ++ t_opt TCaret b ++ t /\ (b = None -> open a = true -> on_word t = false)).
      { intros H. inversion H; subst. exists x, None. auto. }
      destruct t1 as [|[] r]; try (apply NS; exact E2). destruct r as [|[] r]; try discriminate. shi E2. apply fine_inv in E2. destruct E2 as (-> & _).
      exists x, (Some w0). split; [exact W|]. split; [reflexivity|]. discriminate.
    Qed.
    Lemma cls_bwd d w ts q w' t : p_cls cf MD pq d w ts = ROk q w' t -> c_wrote ts t.
    Proof.
      intros E. unfold p_cls in E.
      assert (PL : forall d r (g : option qry -> option (occ * qry)) s, rbind (p_boosted cf MD pq d w r) (fun q w1 t => fine (g q) w1 t) = ROk q w' t -> t_sign s ++ r = ts -> c_wrote ts t).
      { intros d' r g s H <-. apply bind_inv in H. destruct H as (a & w1 & t1 & E1 & E2). apply fine_inv in E2. destruct E2 as (-> & _).
        apply boosted_bwd in E1. destruct E1 as (x & b & W & -> & O). exists (Cls s x b). split; [exact W|]. split; [cbn [c_toks]; rewrite <- !app_assoc; reflexivity|].
        cbn [c_open]. destruct b; [discriminate|]. auto. }
      destruct ts as [|[] r]; try (eapply (PL _ _ _ Should); [exact E|reflexivity]).
      - shi E. eapply (PL _ _ _ MustNot); [exact E|reflexivity].
      - shi E. eapply (PL _ _ _ Must); [exact E|reflexivity].
    Qed.
    Lemma loop_bwd : forall n d w cs ts q w' t o, p_loop cf MD pq n d w cs ts = ROk q w' t -> (o = true -> on_word ts = false) -> exists m, m_wf o m /\ ts = m_toks m ++ t.
    Proof.
      induction n as [|n IH]; intros d w cs ts q w' t o E O; [discriminate|]. cbn [p_loop] in E.
      assert (C : forall d1 r g k, rbind (p_cls cf MD pq d1 w r) (fun c w1 t => rbind (fine (g c) w1 t) (fun cs' w2 t2 => p_loop cf MD pq n d w2 cs' t2)) = ROk q w' t -> t_conn k ++ r = ts -> exists m, m_wf o m /\ ts = m_toks m ++ t).
      { intros d1 r g k H <-. apply bind_inv in H. destruct H as (c & w1 & t1 & E1 & E2). apply bind_inv in E2. destruct E2 as (cs' & w2 & t2 & E2 & E3).
        apply fine_inv in E2. destruct E2 as (-> & _). apply cls_bwd in E1. destruct E1 as (x & W & -> & OX). apply (IH _ _ _ _ _ _ _ (c_open x)) in E3; [|exact OX].
        destruct E3 as (m & WM & ->). exists (MCons k x m). cbn [m_wf m_toks]. split; [|rewrite <- !app_assoc; reflexivity]. split; [|auto].
        intros HO. specialize (O HO). rewrite app_assoc in O. pose proof (c_len1 x) as LX. destruct k; try reflexivity. cbn [t_conn app] in *. destruct (c_toks x); [cbn in LX; lia|exact O]. }
      assert (N : ROk cs w ts = ROk q w' t -> exists m, m_wf o m /\ ts = m_toks m ++ t) by (intros H; inversion H; subst; exists MNil; split; [exact Logic.I|reflexivity]).
      destruct ts as [|[] r]; cbn [starts] in E; try (apply N; exact E); try (eapply (C _ _ _ CNone); [exact E|reflexivity]); shi E.
      - eapply (C _ _ _ CAnd); [exact E|reflexivity].
      - eapply (C _ _ _ COr); [exact E|reflexivity].
    Qed.
    Lemma clss_bwd n d w ts q w' t : p_clss cf MD pq n d w ts = ROk q w' t -> exists c m, c_wf c /\ m_wf (c_open c) m /\ ts = c_toks c ++ m_toks m ++ t.
    Proof.
      unfold p_clss. intros E. apply bind_inv in E. destruct E as (c & w1 & t1 & E1 & E2). apply bind_inv in E2. destruct E2 as (cs' & w2 & t2 & E2 & E3).
      apply fine_inv in E2. destruct E2 as (-> & _). apply cls_bwd in E1. destruct E1 as (x & W & -> & OX). apply (loop_bwd _ _ _ _ _ _ _ _ (c_open x)) in E3; [|exact OX].
      destruct E3 as (m & WM & ->). exists x, m. auto.
    Qed.
  End BACK.

  Theorem q_bwd : forall n d w ts q w' t, PQ n d w ts = ROk q w' t -> wrote ts t.
  Proof.
    induction n as [|n IH]; intros d w ts q w' t E; [discriminate|]. cbn [p_q] in E. destruct ts as [|k r]; [discriminate|].
    destruct k; try discriminate; shi E.
    - assert (T : r_term cf w0 w r = ROk q w' t -> wrote (TWord w0 :: r) t).
      { intros H. apply each_inv in H. subst t. apply (wrote_closed (ATerm w0)); [exact Logic.I|reflexivity|reflexivity]. }
      assert (FL : match first_field cf w w0 with Some w1 => p_fields cf MD (PQ n) (S d) w1 r | None => RUb end = ROk q w' t -> wrote (TWord w0 :: r) t).
      { intros H. destruct (first_field cf w w0); [|discriminate]. eapply (fields_bwd _ IH) in H; [|apply le_n]. destruct H as (xs & r' & -> & a & W & -> & O).
        exists (AField w0 xs a). split; [exact W|]. split; [|exact O]. cbn [toks app]. rewrite <- !app_assoc. reflexivity. }
      destruct r as [|[] r]; try (apply T; exact E); try (apply FL; exact E).
      assert (FZ : on_word r = false -> sh MD (S d) w (fun _ => r_fuzzy cf w0 None w r) = ROk q w' t -> wrote (TWord w0 :: TTilde :: r) t).
      { intros O H. shi H. apply each_inv in H. subst t. exists (AFuzzy w0 None). split; [exact Logic.I|]. split; [reflexivity|]. auto. }
      destruct r as [|k2 r]; [apply FZ; [reflexivity|exact E]|]. destruct k2; [|apply FZ; [reflexivity|exact E]..].
      shi E. apply each_inv in E. subst t. apply (wrote_closed (AFuzzy w0 (Some w1))); [exact Logic.I|reflexivity|reflexivity].
    - apply each_inv in E. subst t. apply (wrote_closed (AWild w0)); [exact Logic.I|reflexivity|reflexivity].
    - assert (C : rbind (p_clss cf MD (PQ n) n (S d) w r) (fun cs w1 t => match t with TRp :: r1 => sh MD (S (S d)) w1 (fun _ => fine (get_bool_q cs) w1 r1) | _ => bad w1 end) = ROk q w' t -> wrote (TLp :: r) t).
      { intros H. apply bind_inv in H. destruct H as (cs & w1 & t1 & E1 & E2). destruct t1 as [|[] t1]; try discriminate. shi E2. apply fine_inv in E2. destruct E2 as (-> & _).
        apply (clss_bwd _ IH) in E1. destruct E1 as (c & m & WC & WM & ->). apply (wrote_closed (AGroup c m)); [split; auto|reflexivity|]. cbn [toks app]. rewrite <- !app_assoc. reflexivity. }
      destruct r as [|[] r]; try (apply C; exact E). shi E. apply fine_inv in E. destruct E as (-> & _). apply (wrote_closed ANothing); [exact Logic.I|reflexivity|reflexivity].
    - cbv zeta in E. shi E. destruct r as [|[] r]; try discriminate. shi E. apply (scoped_bwd _ IH) in E. destruct E as (a & W & -> & O). exists (AAll a). auto.
    - eapply pphrase_bwd; eauto.
    - eapply less_bwd; eauto.
    - eapply more_bwd; eauto.
    - apply (from_bwd true) in E. exact E.
    - apply (from_bwd false) in E. exact E.
  Qed.

  (* ---------- the whole *)
  Lemma set_res_in w F q : inw F w -> inw F (set_res w q).
  Proof. intros (A & B & C). repeat split; auto. Qed.
  Theorem top_fwd n w F t : (length (top_toks t) < n)%nat -> (2 * length (top_toks t) + 3 <= MD)%nat -> top_wf t -> inw F w ->
    match top_eval cf cap F t with
    | EOk q => p_top cf cap MD n w (top_toks t) = ROk tt (set_res w q) []
    | EAbort => exists w', p_top cf cap MD n w (top_toks t) = RAbort w'
    | EUb => p_top cf cap MD n w (top_toks t) = RUb
    end.
  Proof.
    intros L D W I. destruct t as [[c m]|]; [|reflexivity]. cbn [top_toks top_eval top_wf] in *. destruct W as [WC WM].
    unfold p_top. pose proof (c_starts_ c (m_toks m)) as ST. rewrite ST. rewrite app_length in *.
    pose proof (clss_fwd _ n (q_fwd n) F w [] 1%nat c m n I Logic.I WC WM) as H. rewrite app_nil_r in H. specialize (H ltac:(rewrite app_length; lia) ltac:(rewrite app_length; lia) ltac:(rewrite app_length; lia)).
    destruct (c_eval cf cap F c) as [x| |]; cbn [ebind okc] in *.
    - destruct (m_eval cf cap F (first_cls x) m) as [cs| |]; cbn [ebind okc] in *.
      + rewrite H. cbn [rbind]. unfold fine. cbn [w_des set_res]. rewrite (proj2 (proj2 I)). reflexivity.
      + destruct H as [w' ->]. cbn [rbind]. eauto.
      + rewrite H. reflexivity.
    - destruct H as [w' ->]. cbn [rbind]. eauto.
    - rewrite H. reflexivity.
  Qed.
  Theorem top_bwd n w ts u w' t' : p_top cf cap MD n w ts = ROk u w' t' -> exists t, top_wf t /\ ts = top_toks t.
  Proof.
    unfold p_top. intros E. destruct (starts ts).
    - apply bind_inv in E. destruct E as (cs & w1 & t1 & E1 & E2). apply bind_inv in E2. destruct E2 as (u1 & w2 & t2 & E2 & E3).
      destruct t1; [|discriminate]. apply (clss_bwd _ (q_bwd n)) in E1. destruct E1 as (c & m & WC & WM & ->). exists (Some (c, m)). split; [split; auto|]. cbn [top_toks]. rewrite app_nil_r. reflexivity.
    - destruct ts; [|discriminate]. exists None. split; [exact Logic.I|reflexivity].
  Qed.
End AST.
