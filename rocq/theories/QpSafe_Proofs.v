(* The stack of fields is restored; and without undefined behaviour in the pieces there is none in the whole. *)
From Verif Require Import Util QpLex_Model QpAct_Model QpClean_Model Qp_Model Qp_Spec QpAst_Spec QpMean_Spec QpLex_Proofs.
Open Scope Z_scope.

Section KEEP.
  Variable cf : qconf.
  Variable cap : nat.
  Variable MD : nat.

  (* the current fields are those on top of the stack *)
  Definition cons_ (w : world) : Prop := hd_error (w_fs w) = Some (w_cur w).
  Definition same (w1 w : world) : Prop := w_fs w1 = w_fs w /\ w_cur w1 = w_cur w.
  (* the sets of fields on the stack stay below what comes *)
  Definition keeps {A} (w : world) (r : res A) : Prop :=
    match r with
    | ROk _ w' _ => same w' w
    | RBad w' => exists x pre, w' = yyerror x /\ w_fs x = pre ++ w_fs w /\ cons_ x
    | RAbort w' => w_des w' = true /\ cons_ w' /\ exists pre, w_fs w' = pre ++ w_fs w
    | _ => True
    end.
  Lemma same_refl w : same w w.
  Proof. split; reflexivity. Qed.
  Lemma same_cons w1 w : same w1 w -> cons_ w -> cons_ w1.
  Proof. intros [A B] C. unfold cons_. rewrite A, B. exact C. Qed.
  Lemma keeps_bad {A} w : cons_ w -> keeps (A := A) w (bad w).
  Proof. intros C. exists w, []. auto. Qed.
  Lemma keeps_sh {A} d w w1 (f : nat -> res A) : (exists pre, w_fs w1 = pre ++ w_fs w) -> cons_ w1 -> keeps w (f (S d)) -> keeps w (sh MD d w1 f).
  Proof. intros [pre E] C H. unfold sh. destruct (MD <=? S d)%nat; auto. exists w1, pre. auto. Qed.
  Lemma keeps_sh_ {A} d w (f : nat -> res A) : cons_ w -> keeps w (f (S d)) -> keeps w (sh MD d w f).
  Proof. intros C. apply keeps_sh; [|exact C]. exists []. reflexivity. Qed.
  Lemma keeps_bind {A B} w (r : res A) (k : A -> world -> list tok -> res B) : keeps w r -> (forall a w1 t, same w1 w -> keeps w (k a w1 t)) -> keeps w (rbind r k).
  Proof. destruct r; cbn; auto. Qed.
  Lemma keeps_fs {A} w w1 (r : res A) : same w1 w -> keeps w1 r -> keeps w r.
  Proof. intros [E F]. unfold keeps, same. rewrite E, F. auto. Qed.
  Lemma keeps_fine {A} (a : A) w t : cons_ w -> keeps w (fine a w t).
  Proof. intros C. unfold fine. destruct (w_des w) eqn:D; cbn; [|apply same_refl]. split; [exact D|]. split; [exact C|]. exists []. reflexivity. Qed.
  Lemma keeps_fine' {A} (a : A) w w1 t : cons_ w -> same w1 w -> keeps w (fine a w1 t).
  Proof. intros C E. eapply keeps_fs; [exact E|]. apply keeps_fine. eapply same_cons; eauto. Qed.
  Lemma keeps_each fr w t : cons_ w -> keeps w (each fr w t).
  Proof. unfold each. destruct fr; try (intros; exact Logic.I). apply keeps_fine. Qed.
  Lemma keeps_phrase p s w t : keeps w (r_phrase cf p s w t).
  Proof. unfold r_phrase. destruct (flds cf (get_phrase_query cf s) (w_cur w) p); cbn; auto; split; reflexivity. Qed.
  Ltac fin := first [exact Logic.I | apply keeps_bad; assumption | apply keeps_each; assumption | apply keeps_phrase | apply keeps_fine; assumption | apply same_refl].
  Ltac shs := repeat (apply keeps_sh_; [assumption|]).

  Lemma keeps_words w : cons_ w -> forall n ts d p, (length ts <= n)%nat -> keeps w (p_words cf MD d w p ts).
  Proof.
    intros CW. induction n as [|n IH]; intros ts d p L; (destruct ts as [|k r]; [fin|]); cbn [length] in L; [lia|].
    destruct k; cbn [p_words]; try fin.
    - shs. apply IH. lia.
    - destruct r as [|[] r]; try fin. shs. destruct (ph_add_multi_word p w0); [|exact Logic.I]. cbn [length] in *. apply IH. lia.
    - shs. destruct r as [|[] r]; try fin. destruct r as [|[] r]; try fin. shs. fin.
    - destruct r as [|[] r]; try fin. shs. cbn [length] in *. apply IH. lia.
  Qed.
  Lemma keeps_pphrase ts d w : cons_ w -> keeps w (p_phrase cf MD d w ts).
  Proof.
    intros CW. unfold p_phrase. destruct ts as [|[] r]; try fin.
    - shs. eapply keeps_words; eauto.
    - shs. destruct r as [|[] r]; try fin. destruct r as [|[] r]; try fin. shs. fin.
    - destruct r as [|[] r]; try fin. shs. eapply keeps_words; eauto.
  Qed.
  Lemma keeps_less ts d w : cons_ w -> keeps w (p_less cf cap MD d w ts).
  Proof. intros CW. unfold p_less, r_range. destruct ts as [|[] r]; try fin; [shs; destruct r as [|[] r]; shs; fin|]. destruct r as [|[] r]; try fin. shs. fin. Qed.
  Lemma keeps_more ts d w : cons_ w -> keeps w (p_more cf cap MD d w ts).
  Proof. intros CW. unfold p_more, r_range. destruct ts as [|[] r]; try fin; [shs; fin|]. destruct r as [|[] r]; try fin. shs. fin. Qed.
  Lemma keeps_from il ts d w : cons_ w -> keeps w (p_from cf cap MD il d w ts).
  Proof. intros CW. unfold p_from, r_range. destruct ts as [|[] r]; try fin. shs. destruct r as [|[] r]; try fin; shs; [|fin]. destruct r as [|[] r]; try fin; shs; fin. Qed.

  Section REC.
    Variable pq : nat -> world -> list tok -> res (option qry).
    Hypothesis RQ : forall d w ts, cons_ w -> keeps w (pq d w ts).
    (* parsed with f on top of the stack *)
    Lemma keeps_scoped ts d w w0 f : cons_ w0 -> cons_ w -> w_fs w = f :: w_fs w0 -> keeps w0 (scoped MD pq d w ts).
    Proof.
      intros C0 CW E. unfold scoped. pose proof (RQ d w ts CW) as H. destruct (pq d w ts) as [q w1 t|w1|w1| |]; cbn [rbind keeps] in *; auto.
      - assert (P : same (pop_fields w1) w0).
        { destruct H as [H1 H2]. split; cbn [pop_fields w_fs w_cur]; rewrite H1, E; cbn [tl]; [reflexivity|]. unfold cons_ in C0. destruct (w_fs w0) as [|g gs]; [discriminate|]. cbn in C0. congruence. }
        apply keeps_sh; [exists []; exact (proj1 P)|eapply same_cons; eauto|]. exact P.
      - destruct H as (x & pre & E1 & E2 & E3). exists x, (pre ++ [f]). split; [exact E1|]. split; [|exact E3]. rewrite E2, E, <- app_assoc. reflexivity.
      - destruct H as (D & E3 & pre & E2). split; [exact D|]. split; [exact E3|]. exists (pre ++ [f]). rewrite E2, E, <- app_assoc. reflexivity.
    Qed.
    Lemma keeps_fields w0 : cons_ w0 -> forall n ts d w f, (length ts <= n)%nat -> w_fs w = f :: w_fs w0 -> cons_ w -> keeps w0 (p_fields cf MD pq d w ts).
    Proof.
      intros C0. induction n as [|n IH]; intros ts d w f L E CW;
        assert (B : forall A, keeps (A := A) w0 (bad w)) by (intros A; exists w, [f]; auto);
        assert (SH : forall d (g : nat -> res (option qry)), keeps w0 (g (S d)) -> keeps w0 (sh MD d w g)) by (intros d' g; apply keeps_sh; [exists [f]; exact E|exact CW]).
      { destruct ts; [apply B|cbn in L; lia]. }
      destruct ts as [|k r]; [apply B|]. cbn [length] in L. destruct k; cbn [p_fields]; try apply B.
      - apply SH. eapply keeps_scoped; eauto.
      - destruct r as [|[] r]; try apply B. apply SH, SH. destruct (add_field cf w w1) as [w2|] eqn:EA; [|exact Logic.I]. cbn [length] in L.
        unfold add_field in EA. destruct (w_cur w) as [fs|]; [|discriminate]. apply some_inj in EA. subst w2. eapply IH; [lia| |reflexivity]. cbn [w_fs]. rewrite E. reflexivity.
    Qed.
    Lemma keeps_boosted ts d w : cons_ w -> keeps w (p_boosted cf MD pq d w ts).
    Proof.
      intros CW. unfold p_boosted. apply keeps_bind; [apply RQ; exact CW|]. intros a w1 t E. eapply keeps_fs; [exact E|]. pose proof (same_cons _ _ E CW) as C1. destruct t as [|[] t]; try fin.
      destruct t as [|[] t]; try fin. shs. fin.
    Qed.
    Lemma keeps_cls ts d w : cons_ w -> keeps w (p_cls cf MD pq d w ts).
    Proof.
      intros CW. assert (F : forall (g : option qry -> option (occ * qry)) d r, keeps w (rbind (p_boosted cf MD pq d w r) (fun q w1 t => fine (g q) w1 t))).
      { intros g d' r. apply keeps_bind; [apply keeps_boosted; exact CW|]. intros. apply keeps_fine'; assumption. }
      unfold p_cls. destruct ts as [|[] r]; try apply F; shs; apply F.
    Qed.
    Lemma keeps_loop : forall m ts d w cs, cons_ w -> keeps w (p_loop cf MD pq m d w cs ts).
    Proof.
      induction m as [|m IH]; intros ts d w cs CW; [exact Logic.I|]. cbn [p_loop].
      assert (C : forall r g d1, keeps w (rbind (p_cls cf MD pq d1 w r) (fun c w1 t => rbind (fine (g c) w1 t) (fun cs' w2 t2 => p_loop cf MD pq m d w2 cs' t2)))).
      { intros r g d1. apply keeps_bind; [apply keeps_cls; exact CW|]. intros c w1 t E. apply keeps_bind; [apply keeps_fine'; assumption|]. intros cs' w2 t2 E2. eapply keeps_fs; [exact E2|]. apply IH. eapply same_cons; eauto. }
      destruct ts as [|[] r]; cbn [starts]; try apply same_refl; shs; apply C.
    Qed.
    Lemma keeps_clss m ts d w : cons_ w -> keeps w (p_clss cf MD pq m d w ts).
    Proof.
      intros CW. unfold p_clss. apply keeps_bind; [apply keeps_cls; exact CW|]. intros c w1 t E. apply keeps_bind; [apply keeps_fine'; assumption|]. intros cs' w2 t2 E2. eapply keeps_fs; [exact E2|]. apply keeps_loop. eapply same_cons; eauto.
    Qed.
  End REC.

  Lemma keeps_q : forall n d w ts, cons_ w -> keeps w (p_q cf cap MD n d w ts).
  Proof.
    induction n as [|n IH]; intros d w ts CW; [exact Logic.I|]. cbn [p_q]. destruct ts as [|k r]; [fin|]. destruct k; try fin; shs.
    - assert (FL : keeps w match first_field cf w w0 with Some w1 => p_fields cf MD (p_q cf cap MD n) (S d) w1 r | None => RUb end).
      { unfold first_field, add_field. cbn [push_fields w_cur w_fs w_des w_res tl]. eapply keeps_fields; [exact IH|exact CW|reflexivity|reflexivity|reflexivity]. }
      unfold r_term, r_fuzzy. destruct r as [|[] r]; try fin; try exact FL. destruct r as [|[] r]; shs; fin.
    - unfold r_wild. fin.
    - assert (C : keeps w (rbind (p_clss cf MD (p_q cf cap MD n) n (S d) w r)
          (fun cs w1 t => match t with TRp :: r1 => sh MD (S (S d)) w1 (fun _ => fine (get_bool_q cs) w1 r1) | _ => bad w1 end))).
      { apply keeps_bind; [apply keeps_clss; [exact IH|exact CW]|]. intros cs w1 t E. eapply keeps_fs; [exact E|]. pose proof (same_cons _ _ E CW) as C1. destruct t as [|[] t]; try fin. shs. fin. }
      destruct r as [|[] r]; try exact C. shs. fin.
    - cbv zeta. apply keeps_sh; [exists [Some (q_all cf)]; reflexivity|reflexivity|]. destruct r as [|[] r]; try (exists (push_fields w (Some (q_all cf))), [Some (q_all cf)]; split; [reflexivity|split; reflexivity]).
      apply keeps_sh; [exists [Some (q_all cf)]; reflexivity|reflexivity|]. eapply keeps_scoped; [exact IH|exact CW|reflexivity|reflexivity].
    - apply keeps_pphrase; exact CW.
    - apply keeps_less; exact CW.
    - apply keeps_more; exact CW.
    - apply keeps_from; exact CW.
    - apply keeps_from; exact CW.
  Qed.
  Lemma keeps_top n w ts : cons_ w -> keeps w (p_top cf cap MD n w ts).
  Proof.
    intros CW. unfold p_top. destruct (starts ts).
    - apply keeps_bind; [apply keeps_clss; [apply keeps_q|exact CW]|]. intros cs w1 t E. apply keeps_bind; [apply keeps_fine'; [exact CW|exact E]|]. intros u w2 t2 E2. eapply keeps_fs; [exact E2|].
      destruct t; [apply same_refl|apply keeps_bad; eapply same_cons; eauto].
    - eapply keeps_fs with (w1 := set_res w None); [split; reflexivity|]. destruct ts; [apply same_refl|apply keeps_bad; exact CW].
  Qed.
End KEEP.

Section SAFE.
  Variable cf : qconf.
  Variable cap : nat.
  Variable MD : nat.
  Hypothesis TK : q_tok cf <> None.
  Hypothesis LL : forall w, (length (q_lower cf w) <= length w)%nat.
  Hypothesis LI : forall w, q_lower cf (q_lower cf w) = q_lower cf w.
  Local Notation small := (QpMean_Spec.small cf).
  Hypothesis SA : small (q_all cf).

  Lemma ts_some f x : exists l, get_ts cf f x = Some l.
  Proof. unfold get_ts. destruct (q_tok cf); [eauto|contradiction]. Qed.
  Lemma flds_more_ok {A} (P : A -> Prop) (func : list Z -> A -> gres A) : (forall f a, P a -> exists q a', func f a = GOk q a' /\ P a') ->
    forall F a cs, P a -> Z.of_nat (length cs) + Z.of_nat (length F) <= q_max cf -> exists q, flds_more cf func F a cs = FOk q.
  Proof.
    intros H. induction F as [|f F IH]; intros a cs PA L; [cbn; eauto|]. cbn [flds_more]. cbn [length] in L. destruct (H f a PA) as (q & a' & E & PA'). rewrite E.
    destruct q as [q|]; [|apply IH; auto; lia]. replace (q_max cf <=? Z.of_nat (length cs)) with false by (symmetry; apply Z.leb_gt; lia).
    apply IH; auto. rewrite app_length. cbn [length]. lia.
  Qed.
  Lemma flds_ok {A} (P : A -> Prop) (func : list Z -> A -> gres A) F a : (forall f a, P a -> exists q a', func f a = GOk q a' /\ P a') -> P a -> small F ->
    exists q, flds cf func (Some F) a = FOk q.
  Proof.
    intros H PA S. unfold flds. destruct F as [|f [|g F]]; [eauto| |].
    - destruct (H f a PA) as (q & a' & E & _). rewrite E. eauto.
    - eapply flds_more_ok; eauto.
  Qed.
  Lemma term_ok F x : small F -> exists q, flds cf (one_by_one (fun f => get_term_q cf f x)) (Some F) tt = FOk q.
  Proof.
    apply (flds_ok (fun _ => True)); auto. intros f [] _. unfold one_by_one, get_term_q. destruct (ts_some f x) as [l ->]. cbn [obind].
    destruct l as [|t [|t2 l]]; eexists _, tt; split; reflexivity || exact Logic.I.
  Qed.
  Lemma fuzzy_ok F x y : small F -> exists q, flds cf (one_by_one (fun f => get_fuzzy_q cf f x y)) (Some F) tt = FOk q.
  Proof.
    apply (flds_ok (fun _ => True)); auto. intros f [] _. unfold one_by_one, get_fuzzy_q. destruct (ts_some f x) as [l ->]. cbn [obind].
    destruct l as [|t l]; eexists _, tt; split; reflexivity || exact Logic.I.
  Qed.
  Lemma lower_ok f w : (length w < 254)%nat -> exists w', lower_for cf cap f w = Some w' /\ (w' = w \/ w' = q_lower cf w) /\ (length w' < 254)%nat.
  Proof.
    intros L. unfold lower_for, lower_str. pose proof (LL w). destruct (lowers cf f); [|exists w; auto].
    replace (length w <=? 253)%nat with true by (symmetry; apply Nat.leb_le; lia). cbn [orb]. exists (q_lower cf w). split; [reflexivity|]. split; [auto|lia].
  Qed.
  Lemma wild_ok F x : small F -> (length x < 254)%nat -> exists q, flds cf (get_wild_q cf cap) (Some F) x = FOk q.
  Proof.
    intros S L. apply (flds_ok (fun w => (length w < 254)%nat)); auto. intros f a LA. unfold get_wild_q. destruct (lower_ok f a LA) as (w' & -> & _ & L'). eauto.
  Qed.
  (* the bounds of a range are in order, lower case or not *)
  Local Notation ordered := (QpMean_Spec.ordered cf).
  Definition short_opt (a : option (list Z)) : Prop := match a with Some w => (length w < 254)%nat | None => True end.
  Lemma lower_opt_ok f w : short_opt w -> exists w', lower_opt cf cap f w = Some w' /\ w' = (if lowers cf f then option_map (q_lower cf) w else w) /\ short_opt w'.
  Proof.
    intros L. destruct w as [w|]; cbn [lower_opt]; [|exists None; split; [reflexivity|]; split; [destruct (lowers cf f); reflexivity|exact Logic.I]].
    cbn [short_opt] in L. unfold lower_for, lower_str. pose proof (LL w). destruct (lowers cf f).
    - replace (length w <=? 253)%nat with true by (symmetry; apply Nat.leb_le; lia). cbn [orb obind]. exists (Some (q_lower cf w)). split; [reflexivity|]. split; [reflexivity|cbn; lia].
    - exists (Some w). auto.
  Qed.
  Lemma map_idem w : option_map (q_lower cf) (option_map (q_lower cf) w) = option_map (q_lower cf) w.
  Proof. destruct w; cbn; rewrite ?LI; reflexivity. Qed.
  Lemma range_ok F a b il iu : small F -> short_opt a -> short_opt b -> ordered a b -> exists q, flds cf (get_r_q cf cap il iu) (Some F) (a, b) = FOk q.
  Proof.
    intros S SA' SB O. apply (flds_ok (fun p => short_opt (fst p) /\ short_opt (snd p) /\ ordered (fst p) (snd p))); auto.
    intros f [x y] (LX & LY & OR). cbn [fst snd] in *. unfold get_r_q. cbn [fst snd].
    destruct (lower_opt_ok f x LX) as (x' & -> & EX & LX'). destruct (lower_opt_ok f y LY) as (y' & -> & EY & LY').
    assert (O' : ordered x' y').
    { subst x' y'. destruct (lowers cf f); [|exact OR]. destruct OR as [O1 O2]. split; [exact O2|]. rewrite !map_idem. exact O2. }
    destruct O' as [O1 O2]. rewrite O1. eexists _, _. split; [reflexivity|]. cbn [fst snd]. split; [exact LX'|]. split; [exact LY'|]. split; assumption.
  Qed.
  Lemma first_tokens_ok f ws : exists x, first_tokens cf f ws = Some x.
  Proof.
    induction ws as [|w ws [[[vs n] l] IH]]; cbn [first_tokens]; [eauto|]. destruct (ts_some f w) as [ts ->]. cbn [obind]. rewrite IH. cbn [obind]. destruct ts; eauto.
  Qed.
  Lemma add_alts_ok f ws : forall b i ps, exists x, add_alts cf f ws b i ps = Some x.
  Proof. induction ws as [|w ws IH]; intros b i ps; cbn [add_alts]; [eauto|]. destruct (ts_some f w) as [ts ->]. cbn [obind]. destruct ts, b; eauto. Qed.
  Lemma add_positions_ok f l : forall i s ps, exists x, add_positions cf f l i s ps = Some x.
  Proof.
    induction l as [|[j ws] l IH]; intros i s ps; cbn [add_positions]; [eauto|]. cbv zeta.
    destruct ws as [|w [|w2 ws]].
    - cbn [add_alts obind]. apply IH.
    - destruct (ts_some f w) as [ts ->]. cbn [obind]. destruct (add_tokens ts (i + (j + 1)) (if i =? 0 then s else s + 1) ps) as [[p2 s2] ps2]. apply IH.
    - destruct (add_alts_ok f (w :: w2 :: ws) false (i + (j + 1)) ps) as [x ->]. cbn [obind]. apply IH.
  Qed.
  Lemma phrase_ok_ F p sl : small F -> match sl with Some y => q_scand cf y <> None | None => True end -> exists q, flds cf (get_phrase_query cf sl) (Some F) p = FOk q.
  Proof.
    intros S SL. apply (flds_ok (fun _ => True)); auto. intros f a _. unfold get_phrase_query. destruct (ph_pos a) as [|[i ws] [|b l]].
    - eauto.
    - destruct ws as [|w [|w2 ws]].
      + destruct (first_tokens_ok f []) as [[[vs n] l] ->]. eauto.
      + unfold get_term_q. destruct (ts_some f w) as [ts ->]. cbn [obind]. destruct ts as [|t [|t2 ts]]; eauto.
      + destruct (first_tokens_ok f (w :: w2 :: ws)) as [[[vs n] l] ->]. eauto.
    - assert (E : exists s, match sl with Some s => q_scand cf s | None => Some 0 end = Some s) by (destruct sl as [y|]; [destruct (q_scand cf y); [eauto|contradiction]|eauto]).
      destruct E as [s ->]. destruct (add_positions_ok f ((i, ws) :: b :: l) 0 s []) as [x ->]. eauto.
  Qed.

  (* ---------- strings that are parsed without undefined behaviour *)
  Local Notation head_ok := (QpMean_Spec.head_ok cf).
  Local Notation plain := (QpMean_Spec.plain cf).
  (* the condition on what is left to read *)
  Local Notation nice := (QpMean_Spec.nice cf).
  Lemma nice_tl k r : nice (k :: r) -> nice r.
  Proof. intros (P & S & L). split; [exact (proj2 P)|]. split; [exact (Forall_inv_tail S)|]. cbn [length] in L. lia. Qed.

  Definition wi (w : world) : Prop := exists F, w_cur w = Some F /\ hd_error (w_fs w) = Some (Some F) /\ small F /\ w_des w = false.
  Definition safe {A} (w : world) (r : res A) : Prop :=
    match r with
    | ROk _ w' t => w' = w /\ nice t
    | RBad _ | RFuel => True
    | RAbort _ | RUb => False
    end.
  Lemma safe_sh {A} d w w1 (f : nat -> res A) : safe w (f (S d)) -> safe w (sh MD d w1 f).
  Proof. unfold sh. destruct (MD <=? S d)%nat; cbn; auto. Qed.
  Lemma safe_bind {A B} w (r : res A) (k : A -> world -> list tok -> res B) : safe w r -> (forall a t, nice t -> safe w (k a w t)) -> safe w (rbind r k).
  Proof. intros H G. destruct r; cbn in *; auto. destruct H as [-> N]. auto. Qed.
  Lemma safe_fine {A} (a : A) w t : wi w -> nice t -> safe w (fine a w t).
  Proof. intros (F & _ & _ & _ & D) N. unfold fine. rewrite D. cbn. auto. Qed.
  Lemma safe_each (g : option (list (list Z)) -> fres) w t : wi w -> nice t -> (forall F, small F -> exists q, g (Some F) = FOk q) -> safe w (each (g (w_cur w)) w t).
  Proof. intros W N H. pose proof W as (F & C & _ & S & D). rewrite C. destruct (H F S) as [q ->]. cbn [each]. apply safe_fine; auto. Qed.
  Lemma safe_phrase w p sl t : wi w -> nice t -> match sl with Some y => q_scand cf y <> None | None => True end -> safe w (r_phrase cf p sl w t).
  Proof. intros (F & C & _ & S & D) N SL. unfold r_phrase. rewrite C. destruct (phrase_ok_ F p sl S SL) as [q ->]. cbn. auto. Qed.
  Lemma safe_range w a b il iu t : wi w -> nice t -> short_opt a -> short_opt b -> ordered a b -> safe w (r_range cf cap a b il iu w t).
  Proof. intros W N A B O. unfold r_range. apply (safe_each (fun c => flds cf (get_r_q cf cap il iu) c (a, b))); auto. intros F S. apply range_ok; auto. Qed.
  Ltac nt H := first [exact H | eapply nice_tl; nt H].
  Ltac shs := repeat apply safe_sh.

  Lemma sh1 x r : nice (TWord x :: r) -> short_opt (Some x).
  Proof. intros (_ & S & _). exact (Forall_inv S). Qed.
  Lemma safe_words w : wi w -> forall n ts d p, (length ts <= n)%nat -> nice ts -> (ph_pos p <> [] \/ match ts with TBar :: _ => False | _ => True end) -> safe w (p_words cf MD d w p ts).
  Proof.
    intros W. induction n as [|n IH]; intros ts d p L N PB; (destruct ts as [|k r]; [exact Logic.I|]); cbn [length] in L; [lia|].
    destruct k; cbn [p_words]; try exact Logic.I.
    - shs. apply IH; [lia|nt N|]. left. cbn. intros E. apply app_eq_nil in E. destruct E. discriminate.
    - destruct r as [|[] r]; try exact Logic.I. shs. destruct PB as [PB|[]]. unfold ph_add_multi_word.
      destruct (rev (ph_pos p)) as [|[i ws] l] eqn:ER.
      { exfalso. apply PB. rewrite <- (rev_involutive (ph_pos p)), ER. reflexivity. }
      cbn [length] in L. apply IH; [lia|nt N|]. left. cbn. intros E. apply app_eq_nil in E. destruct E. discriminate.
    - shs. destruct r as [|[] r]; try (apply safe_phrase; [exact W|nt N|exact Logic.I]). destruct r as [|[] r]; try exact Logic.I. shs. apply safe_phrase; [exact W|nt N|]. apply N.
    - destruct r as [|[] r]; try exact Logic.I. shs. cbn [length] in L. apply IH; [lia|nt N|]. right. destruct r as [|[] r]; try exact Logic.I. destruct N as ((_ & B & _) & _). exact B.
  Qed.
  Lemma safe_pphrase ts d w : wi w -> nice (TQuote :: ts) -> safe w (p_phrase cf MD d w ts).
  Proof.
    intros W N. unfold p_phrase. destruct ts as [|[] r]; try exact Logic.I.
    - shs. eapply safe_words; [exact W|reflexivity|nt N|]. left. discriminate.
    - shs. destruct r as [|[] r]; try (split; [reflexivity|nt N]). destruct r as [|[] r]; try exact Logic.I. shs. split; [reflexivity|nt N].
    - destruct r as [|[] r]; try exact Logic.I. shs. eapply safe_words; [exact W|reflexivity|nt N|]. right. destruct r as [|[] r]; try exact Logic.I. destruct N as ((_ & _ & B & _) & _). exact B.
  Qed.
  Lemma ord_l x : ordered (Some x) None. Proof. split; reflexivity. Qed.
  Lemma ord_r x : ordered None (Some x). Proof. split; reflexivity. Qed.
  Ltac rg N := apply safe_range; [assumption|nt N|first [exact Logic.I|eapply sh1; nt N]|first [exact Logic.I|eapply sh1; nt N]|first [apply ord_l|apply ord_r|idtac]].
  Lemma safe_less ts d w : wi w -> nice (TLt :: ts) -> safe w (p_less cf cap MD d w ts).
  Proof.
    intros W N. unfold p_less. destruct ts as [|[] r]; try exact Logic.I.
    - pose proof (sh1 _ _ (nice_tl _ _ N)) as SX. shs. destruct r as [|[] r]; shs; rg N.
    - destruct r as [|[] r]; try exact Logic.I. shs. rg N.
  Qed.
  Lemma safe_more ts d w : wi w -> nice (TGt :: ts) -> safe w (p_more cf cap MD d w ts).
  Proof. intros W N. unfold p_more. destruct ts as [|[] r]; try exact Logic.I; [shs; rg N|]. destruct r as [|[] r]; try exact Logic.I. shs. rg N. Qed.
  Lemma safe_from (il : bool) ts d w : wi w -> nice ((if il then TLb else TLc) :: ts) -> safe w (p_from cf cap MD il d w ts).
  Proof.
    intros W N. unfold p_from. destruct ts as [|[] r]; try exact Logic.I. shs. destruct r as [|[] r]; try exact Logic.I; shs.
    - assert (O : ordered (Some w0) (Some w1)) by (destruct il; apply N). destruct r as [|[] r]; try exact Logic.I; shs; rg N; exact O.
    - rg N.
  Qed.

    Lemma add1_len F x : (length (if q_any cf || has (q_all cf) x then hs_add F x else F) <= S (length F))%nat.
    Proof. unfold hs_add. destruct (q_any cf || has (q_all cf) x); [|lia]. destruct (has F x); [lia|]. rewrite app_length. cbn. lia. Qed.
  Section REC.
    Variable pq : nat -> world -> list tok -> res (option qry).
    Hypothesis RQ : forall d w ts, wi w -> nice ts -> safe w (pq d w ts).
    Lemma wi_push G w : small G -> wi w -> wi (push_fields w (Some G)).
    Proof. intros S (F & _ & _ & _ & D). exists G. repeat split; auto. Qed.
    Lemma wi_pop G w : wi w -> pop_fields (push_fields w G) = w.
    Proof. intros (F & C & H & S & D). destruct w as [[|f fs] c d r]; unfold pop_fields, push_fields; cbn in *; [discriminate|]. congruence. Qed.
    Lemma safe_scoped ts d w G : wi w -> small G -> nice ts -> safe w (scoped MD pq d (push_fields w (Some G)) ts).
    Proof.
      intros W S N. unfold scoped. pose proof (RQ d (push_fields w (Some G)) ts (wi_push G w S W) N) as H.
      destruct (pq d (push_fields w (Some G)) ts) as [q w1 t| | | |]; cbn [safe rbind] in *; auto. destruct H as [-> N']. rewrite wi_pop by exact W. shs. split; auto.
    Qed.
    Lemma safe_fields w : wi w -> forall n ts d G, (length ts <= n)%nat -> Z.of_nat (length G) + Z.of_nat (length ts) <= q_max cf + 1 -> nice ts ->
      safe w (p_fields cf MD pq d (push_fields w (Some G)) ts).
    Proof.
      intros W. induction n as [|n IH]; intros ts d G L LG N; (destruct ts as [|k r]; [exact Logic.I|]); cbn [length] in L, LG; [lia|].
      destruct k; cbn [p_fields]; try exact Logic.I.
      - shs. apply safe_scoped; [exact W|unfold small; lia|nt N].
      - destruct r as [|[] r]; try exact Logic.I. shs. cbn [add_field push_fields w_cur w_fs tl w_des w_res]. cbn [length] in *. pose proof (add1_len G w0).
        apply IH; [lia|lia|nt N].
    Qed.
    Lemma safe_boosted ts d w : wi w -> nice ts -> safe w (p_boosted cf MD pq d w ts).
    Proof.
      intros W N. unfold p_boosted. apply safe_bind; [apply RQ; auto|]. intros a t NT. destruct t as [|[] t]; try (split; [reflexivity|exact NT]).
      destruct t as [|[] t]; try exact Logic.I. shs. apply safe_fine; [exact W|nt NT].
    Qed.
    Lemma safe_cls ts d w : wi w -> nice ts -> safe w (p_cls cf MD pq d w ts).
    Proof.
      intros W N.
      assert (F : forall (g : option qry -> option (occ * qry)) d r, nice r -> safe w (rbind (p_boosted cf MD pq d w r) (fun q w1 t => fine (g q) w1 t))).
      { intros g d' r NR. apply safe_bind; [apply safe_boosted; auto|]. intros. apply safe_fine; auto. }
      unfold p_cls. destruct ts as [|[] r]; try (apply F; exact N); shs; apply F; nt N.
    Qed.
    Lemma safe_loop w : wi w -> forall m ts d cs, nice ts -> safe w (p_loop cf MD pq m d w cs ts).
    Proof.
      intros W. induction m as [|m IH]; intros ts d cs N; [exact Logic.I|]. cbn [p_loop].
      assert (C : forall r g d1, nice r -> safe w (rbind (p_cls cf MD pq d1 w r) (fun c w1 t => rbind (fine (g c) w1 t) (fun cs' w2 t2 => p_loop cf MD pq m d w2 cs' t2)))).
      { intros r g d1 NR. apply safe_bind; [apply safe_cls; auto|]. intros c t NT. apply safe_bind; [apply safe_fine; auto|]. intros cs' t2 N2. apply IH. exact N2. }
      destruct ts as [|[] r]; cbn [starts]; try (split; [reflexivity|exact N]); shs; apply C; nt N.
    Qed.
    Lemma safe_clss m ts d w : wi w -> nice ts -> safe w (p_clss cf MD pq m d w ts).
    Proof.
      intros W N. unfold p_clss. apply safe_bind; [apply safe_cls; auto|]. intros c t NT. apply safe_bind; [apply safe_fine; auto|]. intros cs' t2 N2. apply safe_loop; auto.
    Qed.
  End REC.

  Lemma safe_q : forall n d w ts, wi w -> nice ts -> safe w (p_q cf cap MD n d w ts).
  Proof.
    induction n as [|n IH]; intros d w ts W N; [exact Logic.I|]. cbn [p_q]. destruct ts as [|k r]; [exact Logic.I|]. destruct k; try exact Logic.I; shs.
    - assert (FL : safe w match first_field cf w w0 with Some w1 => p_fields cf MD (p_q cf cap MD n) (S d) w1 r | None => RUb end).
      { unfold first_field, add_field. cbn [push_fields w_cur w_fs w_des w_res tl]. pose proof (add1_len [] w0). cbn [length] in *. destruct N as (P & S & L). cbn [length] in L.
        eapply (safe_fields _ IH w W _ r _ _ (le_n _)); [lia|]. split; [exact (proj2 P)|]. split; [exact (Forall_inv_tail S)|]. lia. }
      unfold r_term, r_fuzzy.
      assert (T : safe w (each (flds cf (one_by_one (fun f => get_term_q cf f w0)) (w_cur w) tt) w r)).
      { apply (safe_each (fun c => flds cf (one_by_one (fun f => get_term_q cf f w0)) c tt)); [exact W|nt N|]. intros. apply term_ok; auto. }
      assert (FZ : forall y r', nice r' -> safe w (each (flds cf (one_by_one (fun f => get_fuzzy_q cf f w0 y)) (w_cur w) tt) w r')).
      { intros y r' NR. apply (safe_each (fun c => flds cf (one_by_one (fun f => get_fuzzy_q cf f w0 y)) c tt)); auto. intros. apply fuzzy_ok; auto. }
      destruct r as [|[] r]; try exact T; try exact FL. destruct r as [|[] r]; shs; apply FZ; nt N.
    - unfold r_wild. apply (safe_each (fun c => flds cf (get_wild_q cf cap) c w0)); [exact W|nt N|]. intros. apply wild_ok; auto. destruct N as (_ & S & _). exact (Forall_inv S).
    - assert (C : safe w (rbind (p_clss cf MD (p_q cf cap MD n) n (S d) w r)
          (fun cs w1 t => match t with TRp :: r1 => sh MD (S (S d)) w1 (fun _ => fine (get_bool_q cs) w1 r1) | _ => bad w1 end))).
      { apply safe_bind; [apply safe_clss; [exact IH|exact W|nt N]|]. intros cs t NT. destruct t as [|[] t]; try exact Logic.I. shs. apply safe_fine; [exact W|nt NT]. }
      destruct r as [|[] r]; try exact C. shs. apply safe_fine; [exact W|nt N].
    - cbv zeta. shs. destruct r as [|[] r]; try exact Logic.I. shs. apply safe_scoped; [exact IH|exact W|exact SA|nt N].
    - apply safe_pphrase; auto.
    - apply safe_less; auto.
    - apply safe_more; auto.
    - apply safe_from; auto.
    - apply safe_from; auto.
  Qed.
  Lemma safe_top n w ts : wi w -> nice ts -> match p_top cf cap MD n w ts with RUb | RAbort _ => False | _ => True end.
  Proof.
    intros W N. unfold p_top. destruct (starts ts).
    - pose proof (safe_clss (p_q cf cap MD n) (fun d w ts => safe_q n d w ts) n ts 1 w W N) as H.
      destruct (p_clss cf MD (p_q cf cap MD n) n 1 w ts) as [cs w1 t| | | |]; cbn [safe rbind] in *; auto. destruct H as [-> _].
      unfold fine. cbn [set_res w_des]. destruct W as (F & _ & _ & _ & D). rewrite D. cbn [rbind]. destruct t; exact Logic.I.
    - destruct ts; exact Logic.I.
  Qed.
End SAFE.
