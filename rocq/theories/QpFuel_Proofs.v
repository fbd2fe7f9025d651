(* The recursive descent reads on: its fuel suffices when it exceeds the number of tokens. *)
From Verif Require Import Util QpLex_Model QpAct_Model QpClean_Model Qp_Model Qp_Spec QpLex_Proofs.
Open Scope Z_scope.

Section FUEL.
  Variable cf : qconf.
  Variable cap : nat.
  Variable MD : nat.

  (* no lack of fuel, and at most m tokens left *)
  Definition left {A} (m : nat) (r : res A) : Prop := match r with RFuel => False | ROk _ _ t => (length t <= m)%nat | _ => True end.
  Lemma left_le {A} m m' (r : res A) : left m r -> (m <= m')%nat -> left m' r.
  Proof. destruct r; cbn; auto. lia. Qed.
  Lemma left_sh {A} m d w (f : nat -> res A) : left m (f (S d)) -> left m (sh MD d w f).
  Proof. unfold sh. destruct (MD <=? S d)%nat; cbn; auto. Qed.
  Lemma left_bind {A B} m m' (r : res A) (k : A -> world -> list tok -> res B) :
    left m r -> (forall a w t, (length t <= m)%nat -> left m' (k a w t)) -> left m' (rbind r k).
  Proof. destruct r; cbn; auto. Qed.
  Lemma left_fine {A} m (a : A) w t : (length t <= m)%nat -> left m (fine a w t).
  Proof. unfold fine. destruct (w_des w); cbn; auto. Qed.
  Lemma left_each m fr w t : (length t <= m)%nat -> left m (each fr w t).
  Proof. unfold each. destruct fr; cbn; auto. apply left_fine. Qed.
  Lemma left_phrase m p s w t : (length t <= m)%nat -> left m (r_phrase cf p s w t).
  Proof. unfold r_phrase. destruct (flds cf (get_phrase_query cf s) (w_cur w) p); cbn; auto. Qed.
  Ltac fin := first [exact Logic.I | apply left_each; cbn [length] in *; lia | apply left_phrase; cbn [length] in *; lia | apply left_fine; cbn [length] in *; lia | cbn [left length] in *; lia].
  Ltac shs := repeat (apply left_sh).

  Lemma left_words : forall n ts d w p, (length ts <= n)%nat -> left (length ts) (p_words cf MD d w p ts).
  Proof.
    induction n as [|n IH]; intros ts d w p L.
    { destruct ts; [exact Logic.I|cbn in L; lia]. }
    destruct ts as [|k r]; [exact Logic.I|]. cbn [length] in L. destruct k; cbn [p_words]; try exact Logic.I.
    - shs. eapply left_le; [apply IH; lia|cbn; lia].
    - destruct r as [|[] r]; try exact Logic.I. shs. destruct (ph_add_multi_word p w0); [|exact Logic.I]. cbn [length] in *. eapply left_le; [apply IH; lia|lia].
    - shs. destruct r as [|[] r]; try fin. destruct r as [|[] r]; try fin. shs. fin.
    - destruct r as [|[] r]; try exact Logic.I. shs. cbn [length] in *. eapply left_le; [apply IH; lia|lia].
  Qed.
  Lemma left_pphrase ts d w : left (length ts) (p_phrase cf MD d w ts).
  Proof.
    unfold p_phrase. destruct ts as [|[] r]; try fin.
    - shs. eapply left_le; [eapply left_words; eauto|cbn; lia].
    - shs. destruct r as [|[] r]; try fin. destruct r as [|[] r]; try fin. shs. fin.
    - destruct r as [|[] r]; try fin. shs. eapply left_le; [eapply left_words; eauto|cbn; lia].
  Qed.
  Lemma left_less ts d w : left (length ts) (p_less cf cap MD d w ts).
  Proof.
    unfold p_less, r_range. destruct ts as [|[] r]; try fin.
    - shs. destruct r as [|[] r]; shs; fin.
    - destruct r as [|[] r]; try fin. shs. fin.
  Qed.
  Lemma left_more ts d w : left (length ts) (p_more cf cap MD d w ts).
  Proof. unfold p_more, r_range. destruct ts as [|[] r]; try fin; [shs; fin|]. destruct r as [|[] r]; try fin. shs. fin. Qed.
  Lemma left_from il ts d w : left (length ts) (p_from cf cap MD il d w ts).
  Proof. unfold p_from, r_range. destruct ts as [|[] r]; try fin. shs. destruct r as [|[] r]; try fin; shs; [|fin]. destruct r as [|[] r]; try fin; shs; fin. Qed.

  Section REC.
    Variable pq : nat -> world -> list tok -> res (option qry).
    Variable n : nat.
    (* pq reads on, on fewer than n tokens *)
    Hypothesis RQ : forall d w ts, (length ts < n)%nat -> left (pred (length ts)) (pq d w ts).
    Lemma left_scoped ts d w : (length ts < n)%nat -> left (length ts) (scoped MD pq d w ts).
    Proof. intros L. unfold scoped. eapply left_bind; [apply RQ; exact L|]. intros a w1 t H. shs. cbn [left]. lia. Qed.
    Lemma left_fields : forall m ts d w, (length ts <= m)%nat -> (length ts <= n)%nat -> left (length ts) (p_fields cf MD pq d w ts).
    Proof.
      induction m as [|m IH]; intros ts d w L LN.
      { destruct ts; [exact Logic.I|cbn in L; lia]. }
      destruct ts as [|k r]; [exact Logic.I|]. cbn [length] in L, LN. destruct k; cbn [p_fields]; try exact Logic.I.
      - shs. eapply left_le; [apply left_scoped; lia|cbn; lia].
      - destruct r as [|[] r]; try exact Logic.I. shs. destruct (add_field cf w w0); [|exact Logic.I]. cbn [length] in *. eapply left_le; [apply IH; lia|lia].
    Qed.
    Lemma left_boosted ts d w : (length ts < n)%nat -> left (pred (length ts)) (p_boosted cf MD pq d w ts).
    Proof.
      intros L. unfold p_boosted. eapply left_bind; [apply RQ; exact L|]. intros a w1 t H. destruct t as [|[] t]; try exact H; try (cbn [left length] in *; lia).
      destruct t as [|[] t]; try fin. shs. fin.
    Qed.
    Lemma left_cls ts d w : (length ts < n)%nat -> left (pred (length ts)) (p_cls cf MD pq d w ts).
    Proof.
      intros L. unfold p_cls. destruct ts as [|[] r]; try (eapply left_bind; [apply left_boosted; exact L|]; intros; fin).
      - shs. cbn [length] in L. eapply left_bind; [apply left_boosted; lia|]. intros. apply left_fine. cbn [length pred]. lia.
      - shs. cbn [length] in L. eapply left_bind; [apply left_boosted; lia|]. intros. apply left_fine. cbn [length pred]. lia.
    Qed.
    Lemma left_loop : forall m ts d w cs, (length ts < m)%nat -> (length ts < n)%nat -> left (length ts) (p_loop cf MD pq m d w cs ts).
    Proof.
      induction m as [|m IH]; intros ts d w cs L LN; [lia|]. cbn [p_loop].
      assert (C : forall r g d1, (length r <= length ts)%nat -> (0 < length ts)%nat -> left (length ts) (rbind (p_cls cf MD pq d1 w r) (fun c w1 t => rbind (fine (g c) w1 t) (fun cs' w2 t2 => p_loop cf MD pq m d w2 cs' t2)))).
      { intros r g d1 LR LP. eapply left_bind; [apply left_cls; lia|]. intros c w1 t H. eapply left_bind; [apply left_fine; exact H|]. intros cs' w2 t2 H2. eapply left_le; [apply IH; lia|lia]. }
      assert (E : left (length ts) (ROk cs w ts)) by (cbn; lia).
      destruct ts as [|[] r]; cbn [starts]; try exact E; shs; apply C; cbn [length]; lia.
    Qed.
    Lemma left_clss m ts d w : (length ts < m)%nat -> (length ts < n)%nat -> left (pred (length ts)) (p_clss cf MD pq m d w ts).
    Proof.
      intros L LN. unfold p_clss. eapply left_bind; [apply left_cls; exact LN|]. intros c w1 t H. eapply left_bind; [apply left_fine; exact H|]. intros cs' w2 t2 H2.
      eapply left_le; [apply left_loop; lia|lia].
    Qed.
  End REC.

  Lemma left_q : forall n d w ts, (length ts < n)%nat -> left (pred (length ts)) (p_q cf cap MD n d w ts).
  Proof.
    induction n as [|n IH]; intros d w ts L; [lia|]. cbn [p_q]. destruct ts as [|k r]; [exact Logic.I|]. cbn [length pred] in *.
    assert (LR : (length r < n)%nat) by lia.
    destruct k; try exact Logic.I; shs.
    - unfold r_term, r_fuzzy. destruct r as [|[] r]; try fin.
      + destruct (first_field cf w w0); [|exact Logic.I]. eapply left_fields; [exact IH|reflexivity|lia].
      + destruct r as [|[] r]; shs; fin.
      + destruct (first_field cf w w0); [|exact Logic.I]. eapply left_fields; [exact IH|reflexivity|lia].
    - unfold r_wild. fin.
    - assert (C : left (length r) (rbind (p_clss cf MD (p_q cf cap MD n) n (S d) w r)
          (fun cs w1 t => match t with TRp :: r1 => sh MD (S (S d)) w1 (fun _ => fine (get_bool_q cs) w1 r1) | _ => bad w1 end))).
      { eapply left_bind; [eapply left_clss; [exact IH|exact LR|exact LR]|]. intros cs w1 t H. destruct t as [|[] t]; try fin. shs. apply left_fine. cbn [length] in H. lia. }
      destruct r as [|[] r]; try exact C. shs. fin.
    - cbv zeta. shs. destruct r as [|[] r]; try fin. shs. eapply left_le; [eapply left_scoped; [exact IH|cbn [length] in *; lia]|cbn; lia].
    - apply left_pphrase.
    - apply left_less.
    - apply left_more.
    - apply left_from.
    - apply left_from.
  Qed.
  Lemma top_fuel n w ts : (length ts < n)%nat -> p_top cf cap MD n w ts <> RFuel.
  Proof.
    intros L. unfold p_top. destruct (starts ts).
    - pose proof (left_clss (p_q cf cap MD n) n (fun d w ts H => left_q n d w ts H) n ts 1 w L L) as H.
      destruct (p_clss cf MD (p_q cf cap MD n) n 1 w ts) as [cs w1 t| | | |]; cbn [rbind left] in *; try discriminate; [|contradiction].
      unfold fine. destruct (w_des (set_res w1 (get_bool_q cs))); cbn [rbind]; [discriminate|]. destruct t; discriminate.
    - destruct ts; discriminate.
  Qed.
End FUEL.
