From Verif Require Import Util PQueue_Model PQueue_Spec PQueue_Proofs RubyPq_Model RubyPq_Spec.
From Coq Require Import Sorting.Permutation.
Open Scope nat_scope.

Section ANY.
  Variables A P : Type.
  Variable less : option P -> nat -> A -> A -> option bool.
  Variable Q : A -> Prop.
  (* the cells of the queue hold elements, whatever was compared *)
  Definition held (h : list (option A)) (n : nat) : Prop := forall k, 1 <= k <= n -> exists x, elt A h k = Some x /\ Q x.
  Lemma held_upd h n i x : held h n -> Q x -> i < length h -> held (upd h i (Some x)) n.
  Proof. intros H Hx L k Hk. destruct (Nat.eq_dec i k) as [->|E]; [exists x; split; auto; apply elt_upd_eq; auto|]. rewrite elt_upd_neq by auto. auto. Qed.
  Lemma up_any q n : q_freed q = false -> forall fuel t h i node, held h n -> Q node -> 1 <= i <= n -> n < length h -> i < fuel -> exists h' t' r, RubyPq_Model.pq_up A P less fuel q t h i node = Some (h', t', r) /\ length h' = length h /\ held h' n.
  Proof.
    intros NF. induction fuel as [|fuel IH]; intros t h i node H Hn Hi L Hf; [lia|]. cbn [RubyPq_Model.pq_up]. assert (U : held (upd h i (Some node)) n) by (apply held_upd; auto; lia). destruct (Nat.ltb_spec 0 (i / 2)) as [Hj|Hj].
    - assert (i / 2 < i) by (apply Nat.div_lt; lia). destruct (H (i / 2)) as (p & Ep & Hp); [lia|]. rewrite Ep. unfold frb_pq_lt. rewrite NF. cbn [obind]. destruct (less (q_proc q) t node p) as [[|]|].
      + destruct (IH (S t) (upd h i (Some p)) (i / 2) node) as (h' & t' & r & E & L' & H'); auto; try (rewrite upd_length); try lia; [apply held_upd; auto; lia|]. exists h', t', r. rewrite upd_length in L'. auto.
      + eexists _, _, _. split; [reflexivity|]. rewrite upd_length. auto.
      + eexists _, _, _. split; [reflexivity|]. auto.
    - eexists _, _, _. split; [reflexivity|]. rewrite upd_length. auto.
  Qed.
  Lemma down_any q : q_freed q = false -> forall fuel t h i node, held h (q_size q) -> (0 < q_size q -> exists x, node = Some x /\ Q x) -> 1 <= i -> (0 < q_size q -> i <= q_size q) -> q_size q < length h -> i < length h -> q_size q < fuel + i -> 0 < fuel ->
    exists h' t' r, down A P less fuel q t h i node = Some (h', t', r) /\ length h' = length h /\ held h' (q_size q).
  Proof.
    intros NF. induction fuel as [|fuel IH]; intros t h i node H Hn Hi Hi' L Li Hf F0; [lia|]. cbn [down].
    assert (C : exists c t1, pq_child A P less q t h i = Some (c, t1) /\ match c with Some j => j = 2 * i \/ j = 2 * i + 1 /\ 2 * i + 1 <= q_size q | None => True end).
    { unfold pq_child. destruct (Nat.leb_spec (2 * i + 1) (q_size q)) as [K|K]; [|eexists _, _; split; [reflexivity|left; reflexivity]]. destruct (H (2 * i + 1)) as (a & Ea & _); [lia|]. destruct (H (2 * i)) as (b & Eb & _); [lia|]. rewrite Ea, Eb. unfold frb_pq_lt. rewrite NF. cbn [obind]. eexists _, _. split; [reflexivity|]. destruct (less (q_proc q) t a b) as [[|]|]; [right; split; [reflexivity|exact K]|left; reflexivity|exact Logic.I]. }
    assert (U : held (upd h i node) (q_size q)). { destruct (q_size q) as [|s] eqn:Es; [intros k Hk; lia|]. destruct Hn as (x & -> & Hx); [lia|]. apply held_upd; auto. }
    destruct C as ([j|] & t1 & Ec & Hj); rewrite Ec; cbn [obind fst snd]; [|eexists _, _, _; split; [reflexivity|]; auto].
    destruct (Nat.leb_spec j (q_size q)) as [K|K]; [|eexists _, _, _; split; [reflexivity|]; rewrite upd_length; auto].
    destruct (H j) as (x & Ex & Hx); [lia|]. rewrite Ex. destruct Hn as (n & -> & Hnn); [lia|]. unfold frb_pq_lt. rewrite NF. cbn [obind]. destruct (less (q_proc q) t1 x n) as [[|]|].
    - destruct (IH (S t1) (upd h i (Some x)) j (Some n)) as (h' & t' & r & E & L' & H'); try (rewrite upd_length); try lia; [apply held_upd; auto|eauto|]. exists h', t', r. rewrite upd_length in L'. auto.
    - eexists _, _, _. split; [reflexivity|]. rewrite upd_length. auto.
    - eexists _, _, _. split; [reflexivity|]. auto.
  Qed.
  Record ainv (q : priq A P) : Prop := { a_freed : q_freed q = false; a_held : held (q_heap q) (q_size q); a_len : q_size q < length (q_heap q); a_len1 : 1 < length (q_heap q); a_capa : q_size q <= q_capa q }.
  Lemma down_ainv q t : ainv q -> exists q' t' r, RubyPq_Model.pq_down A P less q t = Some (q', t', r) /\ ainv q' /\ q_size q' = q_size q /\ q_capa q' = q_capa q.
  Proof.
    intros [F H L L1 C]. unfold RubyPq_Model.pq_down. destruct (nth_error (q_heap q) 1) as [node|] eqn:E1; [|apply nth_error_None in E1; lia]. cbn [obind].
    destruct (down_any q F (S (q_size q)) t (q_heap q) 1 node) as (h' & t' & r & E & L' & H'); auto; try lia.
    - intros Hs. destruct (H 1) as (x & Ex & Hx); [lia|]. exists x. split; auto. apply elt_some in Ex. congruence.
    - rewrite E. cbn [obind fst snd]. eexists _, _, _. split; [reflexivity|]. unfold with_heap. cbn. split; auto. split; cbn; auto; lia.
  Qed.
  Lemma push_ainv q t e : ainv q -> Q e -> q_size q < q_capa q -> exists q' t' r, RubyPq_Model.pq_push A P less q t e = Some (q', t', r) /\ ainv q'.
  Proof.
    intros [F H L L1 C] He K. unfold RubyPq_Model.pq_push. set (h := if length (q_heap q) <=? q_size q + 1 then q_heap q ++ repeat None (length (q_heap q)) else q_heap q).
    assert (Lh : q_size q + 1 < length h /\ 1 < length h). { unfold h. destruct (Nat.leb_spec (length (q_heap q)) (q_size q + 1)); [rewrite app_length, repeat_length; lia|lia]. }
    assert (Hh : held h (q_size q)). { intros k Hk. destruct (H k Hk) as (x & Ex & Hx). exists x. split; auto. unfold h. destruct (Nat.leb_spec (length (q_heap q)) (q_size q + 1)); auto. unfold elt in *. rewrite nth_error_app1 by lia. auto. }
    destruct (nth_error h (q_size q + 1)) eqn:En; [|apply nth_error_None in En; lia]. cbn [obind].
    destruct (up_any q (q_size q + 1) F (S (q_size q + 1)) t (upd h (q_size q + 1) (Some e)) (q_size q + 1) e) as (h' & t' & r & E & L' & H'); auto; try (rewrite upd_length); try lia.
    - intros k Hk. destruct (Nat.eq_dec (q_size q + 1) k) as [<-|Ne]; [exists e; split; auto; apply elt_upd_eq; lia|]. rewrite elt_upd_neq by auto. apply Hh. lia.
    - rewrite E. cbn [obind fst snd]. rewrite upd_length in L'. eexists _, _, _. split; [reflexivity|]. unfold with_heap. split; cbn; auto; lia.
  Qed.
  Lemma insert_ainv q t e : ainv q -> Q e -> exists q' t' r, frb_pq_insert A P less q t e = Some (q', t', r) /\ ainv q'.
  Proof.
    intros I He. unfold frb_pq_insert. destruct (Nat.ltb_spec (q_size q) (q_capa q)) as [K|K]; [apply push_ainv; auto|]. destruct I as [F H L L1 C]. destruct (Nat.ltb_spec 0 (q_size q)) as [S0|S0].
    - destruct (H 1) as (x & Ex & Hx); [lia|]. rewrite Ex. unfold frb_pq_lt. rewrite F. cbn [obind]. destruct (less (q_proc q) t x e) as [[|]|]; [|eexists _, _, _; split; [reflexivity|]; split; auto|eexists _, _, _; split; [reflexivity|]; split; auto].
      destruct (down_ainv (with_heap q (upd (q_heap q) 1 (Some e)) (q_size q)) (S t)) as (q' & t' & r & E & I' & _); [|eauto]. unfold with_heap. split; cbn; auto; try (rewrite upd_length; auto). apply held_upd; auto.
    - eexists _, _, _. split; [reflexivity|]. split; auto.
  Qed.
  Lemma adjust_ainv q t f : ainv q -> (forall x, Q x -> Q (f x)) -> exists q' t' r, frb_pq_adjust A P less (change_top A P q f) t = Some (q', t', r) /\ ainv q'.
  Proof.
    intros I Hf. unfold frb_pq_adjust. destruct (down_ainv (change_top A P q f) t) as (q' & t' & r & E & I' & _); [|eauto]. unfold change_top. destruct (Nat.ltb_spec 0 (q_size q)) as [S0|S0]; auto. destruct I as [F H L L1 C]. destruct (H 1) as (x & Ex & Hx); [lia|]. rewrite Ex. cbn [obind].
    unfold with_heap. split; cbn; auto; try (rewrite upd_length; auto). apply held_upd; auto.
  Qed.
  Lemma pop_ainv q t : ainv q -> exists x q' t' r, frb_pq_pop A P less q t = Some (x, (q', t', r)) /\ ainv q' /\ (forall y, x = Some y -> Q y).
  Proof.
    intros I. unfold frb_pq_pop. destruct (Nat.ltb_spec 0 (q_size q)) as [S0|S0]; [|eexists _, _, _, _; split; [reflexivity|]; split; auto; discriminate]. destruct I as [F H L L1 C]. destruct (H 1) as (x & Ex & Hx); [lia|]. destruct (H (q_size q)) as (l & El & Hl); [lia|].
    pose proof (proj1 (elt_some _ _ _ _) Ex) as Ex'. pose proof (proj1 (elt_some _ _ _ _) El) as El'. rewrite Ex', El'. cbn [obind].
    destruct (down_ainv (with_heap q (upd (upd (q_heap q) 1 (Some l)) (q_size q) None) (q_size q - 1)) t) as (q' & t' & r & E & I' & _).
    - unfold with_heap. split; cbn; auto; try (rewrite !upd_length); try lia. intros k Hk. rewrite elt_upd_neq by lia. destruct (Nat.eq_dec 1 k) as [<-|Ne]; [exists l; split; auto; apply elt_upd_eq; lia|]. rewrite elt_upd_neq by auto. apply H. lia.
    - rewrite E. cbn [obind]. eexists _, _, _, _. split; [reflexivity|]. split; auto. intros y Hy. apply some_inj in Hy. subst. auto.
  Qed.
  Lemma clone_ainv q : ainv q -> ainv (frb_pq_clone A P q).
  Proof.
    intros [F H L L1 C]. unfold frb_pq_clone. assert (LN : length (firstn (q_size q + 1) (q_heap q) ++ repeat None (length (q_heap q) - (q_size q + 1))) = length (q_heap q)) by (rewrite app_length, firstn_length, repeat_length; lia). split; cbn; auto; try lia.
    intros k Hk. destruct (H k Hk) as (x & Ex & Hx). exists x. split; auto. unfold elt in *. rewrite nth_error_app1 by (rewrite firstn_length; lia). rewrite nth_error_firstn. destruct (Nat.ltb_spec k (q_size q + 1)); [auto|lia].
  Qed.
  Lemma init_asked a more b : match frb_pq_init A P a more b, asked A P a more b with inl e, inl e' => e = e' | inr q, inr m => ainv q /\ q_size q = 0 /\ q_capa q = m_capa m /\ m_elems m = [] | _, _ => False end.
  Proof.
    assert (AI : forall p, ainv (mkQ (repeat None 32) 0 p None false)). { intros p. split; cbn; auto; try lia. intros k Hk. lia. }
    assert (AJ : forall k p, ainv (mkQ (repeat None 32) 0 k p false)). { intros k p. split; cbn; auto; try lia. intros j Hj. lia. }
    unfold frb_pq_init, asked, frb_pq_alloc, PQ_START_CAPA. destruct a as [|k|[k|] l l'|]; cbn [q_heap q_capa m_capa m_elems].
    - cbn [q_size q_capa m_capa m_elems]. split; [apply AJ|]. auto.
    - destruct (k <? 0)%Z; auto. destruct more; auto.
    - destruct (k <? 0)%Z; auto. destruct more; auto.
    - destruct (Z.of_nat 32 <? 0)%Z eqn:E; [discriminate|]. destruct (32 <? 0)%Z eqn:E'; [discriminate|]. destruct more; auto.
    - reflexivity.
  Qed.
  Lemma upd_forall (qs : list (priq A P)) i q : Forall ainv qs -> ainv q -> Forall ainv (upd qs i q).
  Proof. intros H Hq. revert i. induction H as [|x l Hx Hl IH]; intros [|i]; cbn; auto. Qed.
  Lemma nth_q (qs : list (priq A P)) i : Forall ainv qs -> i < length qs -> exists q, nth_error qs i = Some q /\ ainv q.
  Proof. intros H L. destruct (nth_error qs i) as [q|] eqn:E; [|apply nth_error_None in E; lia]. exists q. split; auto. eapply Forall_forall; eauto. eapply nth_error_In; eauto. Qed.
  Definition next_n (n : nat) (o : call A P) : nat := match o with New a more b => match asked A P a more b with inl _ => n | inr _ => S n end | Clone _ => S n | _ => n end.
  Lemma known_cons n o os : known A P n (o :: os) -> (match o with New _ _ _ => True | Clone i | Insert i _ | Adjust i _ | Top i | Pop i | Size i | Capa i | Clear i | Collect i => i < n end) /\ known A P (next_n n o) os.
  Proof. destruct o; cbn; tauto. Qed.
  Lemma step_any qs t o : Forall ainv qs -> ~ collects A P o -> puts A P Q o -> (match o with New _ _ _ => True | Clone i | Insert i _ | Adjust i _ | Top i | Pop i | Size i | Capa i | Clear i | Collect i => i < length qs end) ->
    exists r qs' t', step A P less (qs, t) o = Some (r, (qs', t')) /\ Forall ainv qs' /\ length qs' = next_n (length qs) o /\ gives A Q r.
  Proof.
    intros F NC HQ Hi. destruct o; cbn [step next_n]; unfold back; try (destruct (nth_q qs i F Hi) as (q & Eq & Iq); rewrite Eq; cbn [obind]).
    - pose proof (init_asked a more block) as K. destruct (frb_pq_init A P a more block) as [e|q] eqn:Ei, (asked A P a more block) as [e'|m] eqn:Ea; try contradiction.
      + eexists _, _, _. split; [reflexivity|]. split; auto. split; auto. clear -Ei. unfold frb_pq_init in Ei. destruct a as [|k|k l l'|]; try discriminate; try (inversion Ei; exact Logic.I); repeat match type of Ei with context [if ?b then _ else _] => destruct b end; try discriminate; inversion Ei; exact Logic.I.
      + eexists _, _, _. split; [reflexivity|]. split; [apply Forall_app; split; auto; constructor; [apply K|auto]|]. split; [rewrite app_length; cbn; lia|exact Logic.I].
    - eexists _, _, _. split; [reflexivity|]. split; [apply Forall_app; split; auto; constructor; [apply clone_ainv; auto|auto]|]. split; [rewrite app_length; cbn; lia|exact Logic.I].
    - destruct (insert_ainv q t e Iq HQ) as (q' & t' & r & E & I'). rewrite E. cbn [obind fst snd]. eexists _, _, _. split; [reflexivity|]. split; [apply upd_forall; auto|]. split; [apply upd_length|]. destruct r; exact Logic.I.
    - destruct (adjust_ainv q t f Iq HQ) as (q' & t' & r & E & I'). rewrite E. cbn [obind fst snd]. eexists _, _, _. split; [reflexivity|]. split; [apply upd_forall; auto|]. split; [apply upd_length|]. destruct r; exact Logic.I.
    - unfold frb_pq_top. destruct (Nat.ltb_spec 0 (q_size q)) as [S0|S0].
      + destruct (a_held q Iq 1) as (x & Ex & Hx); [lia|]. rewrite (proj1 (elt_some _ _ _ _) Ex). cbn [obind]. eexists _, _, _. split; [reflexivity|]. auto.
      + cbn [obind]. eexists _, _, _. split; [reflexivity|]. cbn. auto.
    - destruct (pop_ainv q t Iq) as (x & q' & t' & r & E & I' & Hx). rewrite E. cbn [obind fst snd]. eexists _, _, _. split; [reflexivity|]. split; [apply upd_forall; auto|]. split; [apply upd_length|]. destruct r; [exact Logic.I|]. destruct x; cbn; auto.
    - eexists _, _, _. split; [reflexivity|]. cbn. auto.
    - eexists _, _, _. split; [reflexivity|]. cbn. auto.
    - eexists _, _, _. split; [reflexivity|]. split; [apply upd_forall; auto|]. { destruct Iq as [F' H L L1 C]. unfold frb_pq_clear, with_heap. split; cbn; auto; try lia. intros k Hk. lia. } split; [apply upd_length|exact Logic.I].
    - exfalso. apply NC. exact Logic.I.
  Qed.
  Lemma run_any os : forall qs t, Forall ainv qs -> Forall (fun o => ~ collects A P o) os -> Forall (puts A P Q) os -> known A P (length qs) os ->
    exists rs qs' t', run A P less (qs, t) os = Some (rs, (qs', t')) /\ Forall ainv qs' /\ Forall (gives A Q) rs.
  Proof.
    induction os as [|o os IH]; intros qs t F NC HQ K; cbn [run].
    - eexists _, _, _. split; [reflexivity|]. auto.
    - apply known_cons in K. destruct K as (K1 & K2). inversion NC; subst. inversion HQ; subst. destruct (step_any qs t o F) as (r & qs1 & t1 & E & F1 & L1 & G); auto. rewrite E. cbn [obind fst snd]. destruct (IH qs1 t1) as (rs & qs' & t' & E' & F' & G'); auto; [rewrite L1; auto|]. rewrite E'. cbn [obind fst snd]. eexists _, _, _. split; [reflexivity|]. auto.
  Qed.
End ANY.

Lemma any_order (A P : Type) (less : option P -> nat -> A -> A -> option bool) (Q : A -> Prop) os : Forall (fun o => ~ collects A P o) os -> Forall (puts A P Q) os -> known A P 0 os ->
  exists rs qs t, run A P less ([], 0) os = Some (rs, (qs, t)) /\ Forall (gives A Q) rs /\ Forall (fun q => q_size q <= q_capa q) qs.
Proof.
  intros NC HQ K. destruct (run_any A P less Q os [] 0) as (rs & qs & t & E & F & G); auto. exists rs, qs, t. split; auto. split; auto. eapply Forall_impl; [|exact F]. intros q I. apply I.
Qed.

Section GOOD.
  Variables A P : Type.
  Variable less : option P -> nat -> A -> A -> option bool.
  Variable lt : option P -> A -> A -> bool.
  Hypothesis Hless : forall p t a b, less p t a b = Some (lt p a b).
  Hypothesis Hpre : forall p, preorder A (lt p).
  Definition toP (q : priq A P) : pq A := mkPq (q_heap q) (q_size q) (q_capa q).
  Lemma up_good q : q_freed q = false -> forall fuel t h i node h', up A (lt (q_proc q)) fuel h i node = Some h' -> exists t', RubyPq_Model.pq_up A P less fuel q t h i node = Some (h', t', false).
  Proof.
    intros NF. induction fuel as [|fuel IH]; intros t h i node h' E; cbn [up RubyPq_Model.pq_up] in *; [discriminate|]. destruct (0 <? i / 2); [|apply some_inj in E; subst; eauto]. destruct (elt A h (i / 2)) as [p|]; [|discriminate]. cbn [obind] in *. unfold frb_pq_lt. rewrite NF. cbn [obind]. rewrite Hless. destruct (lt (q_proc q) node p); [eauto|]. apply some_inj in E. subst. eauto.
  Qed.
  Lemma child_good q t h i j : q_freed q = false -> child A (lt (q_proc q)) h i (q_size q) = Some j -> exists t', pq_child A P less q t h i = Some (Some j, t').
  Proof.
    intros NF. unfold child, pq_child. destruct (2 * i + 1 <=? q_size q); [|intros E; apply some_inj in E; subst; eauto]. destruct (elt A h (2 * i + 1)) as [a|]; [|discriminate]. destruct (elt A h (2 * i)) as [b|]; [|discriminate]. cbn [obind]. unfold frb_pq_lt. rewrite NF. cbn [obind]. rewrite Hless. intros E. apply some_inj in E. subst. eauto.
  Qed.
  Lemma down_good q : q_freed q = false -> forall fuel t h i node h', PQueue_Model.down A (lt (q_proc q)) fuel h i (q_size q) node = Some h' -> exists t', RubyPq_Model.down A P less fuel q t h i node = Some (h', t', false).
  Proof.
    intros NF. induction fuel as [|fuel IH]; intros t h i node h' E; cbn [PQueue_Model.down RubyPq_Model.down] in *; [discriminate|]. destruct (child A (lt (q_proc q)) h i (q_size q)) as [j|] eqn:Ec; [|discriminate]. cbn [obind] in E. destruct (child_good q t h i j NF Ec) as (t1 & Ec'). rewrite Ec'. cbn [obind fst snd].
    destruct (j <=? q_size q); [|apply some_inj in E; subst; eauto]. destruct (elt A h j) as [x|]; [|discriminate]. destruct node as [n|]; [|discriminate]. cbn [obind] in *. unfold frb_pq_lt. rewrite NF. cbn [obind]. rewrite Hless. destruct (lt (q_proc q) x n); [eauto|]. apply some_inj in E. subst. eauto.
  Qed.
  Definition of_pq (q : priq A P) (p : pq A) : priq A P := with_heap q (pq_heap p) (pq_size p).
  Lemma pq_down_good q t p : q_freed q = false -> PQueue_Model.pq_down A (lt (q_proc q)) (toP q) = Some p -> exists t', RubyPq_Model.pq_down A P less q t = Some (of_pq q p, t', false).
  Proof.
    intros NF. unfold PQueue_Model.pq_down, RubyPq_Model.pq_down, toP. cbn [pq_heap pq_size pq_capa]. destruct (nth_error (q_heap q) 1) as [node|]; [|discriminate]. cbn [obind]. destruct (PQueue_Model.down A (lt (q_proc q)) (S (q_size q)) (q_heap q) 1 (q_size q) node) as [h'|] eqn:E; [|discriminate]. cbn [obind]. intros K. apply some_inj in K. subst p. destruct (down_good q NF _ t _ _ _ _ E) as (t' & E'). rewrite E'. cbn [obind fst snd]. eauto.
  Qed.
  Lemma push_good q t e p : q_freed q = false -> PQueue_Model.pq_push A (lt (q_proc q)) (toP q) e = Some p -> exists t', RubyPq_Model.pq_push A P less q t e = Some (of_pq q p, t', false).
  Proof.
    intros NF. unfold PQueue_Model.pq_push, RubyPq_Model.pq_push, toP. cbn [pq_heap pq_size pq_capa]. match goal with |- context [nth_error ?h (q_size q + 1)] => destruct (nth_error h (q_size q + 1)); [|discriminate] end. cbn [obind].
    match goal with |- context [up ?a ?b ?f ?h ?i ?n] => destruct (up a b f h i n) as [h'|] eqn:E; [|discriminate] end. cbn [obind]. intros K. apply some_inj in K. subst p. destruct (up_good q NF _ t _ _ _ _ E) as (t' & E'). rewrite E'. cbn [obind fst snd]. eauto.
  Qed.
  Lemma insert_good q t e k p : q_freed q = false -> PQueue_Model.pq_insert A (lt (q_proc q)) (toP q) e = Some (k, p) -> exists t', frb_pq_insert A P less q t e = Some (of_pq q p, t', false).
  Proof.
    assert (SM : forall q : priq A P, of_pq q (toP q) = q) by (intros []; reflexivity).
    intros NF. unfold PQueue_Model.pq_insert, frb_pq_insert. cbn [toP pq_heap pq_size pq_capa]. fold (toP q). destruct (q_size q <? q_capa q).
    - destruct (PQueue_Model.pq_push A (lt (q_proc q)) (toP q) e) as [p'|] eqn:E; [|discriminate]. cbn [obind]. intros K. apply some_inj in K. inversion K. subst. apply push_good; auto.
    - destruct (0 <? q_size q); [|intros K; apply some_inj in K; inversion K; subst; rewrite SM; eauto]. destruct (elt A (q_heap q) 1) as [x|] eqn:Ex; [|discriminate]. cbn [obind]. unfold frb_pq_lt. rewrite NF. cbn [obind]. rewrite Hless. destruct (lt (q_proc q) x e); [|intros K; apply some_inj in K; inversion K; subst; rewrite SM; eauto].
      unfold pq_replace_top. cbn [toP pq_heap pq_size pq_capa]. destruct (nth_error (q_heap q) 1); [|discriminate]. cbn [obind]. destruct (PQueue_Model.pq_down A (lt (q_proc q)) (mkPq (upd (q_heap q) 1 (Some e)) (q_size q) (q_capa q))) as [p'|] eqn:E; [|discriminate]. cbn [obind]. intros K. apply some_inj in K. inversion K. subst. apply (pq_down_good (with_heap q (upd (q_heap q) 1 (Some e)) (q_size q)) (S t) p NF E).
  Qed.
  Lemma pop_good q t x p : q_freed q = false -> PQueue_Model.pq_pop A (lt (q_proc q)) (toP q) = Some (x, p) -> exists t', frb_pq_pop A P less q t = Some (x, (of_pq q p, t', false)).
  Proof.
    assert (SM : forall q : priq A P, of_pq q (toP q) = q) by (intros []; reflexivity).
    intros NF. unfold PQueue_Model.pq_pop, frb_pq_pop. cbn [toP pq_heap pq_size pq_capa]. fold (toP q). destruct (0 <? q_size q) eqn:E0; [|intros K; apply some_inj in K; inversion K; subst; rewrite SM; eauto]. destruct (nth_error (q_heap q) 1) as [r|]; [|discriminate]. destruct (nth_error (q_heap q) (q_size q)) as [l|]; [|discriminate]. cbn [obind].
    match goal with |- context [PQueue_Model.pq_down A ?b ?c] => destruct (PQueue_Model.pq_down A b c) as [p'|] eqn:E; [|discriminate] end. cbn [obind]. intros K. apply some_inj in K. inversion K. subst.
    destruct (pq_down_good (with_heap q (upd (upd (q_heap q) 1 l) (q_size q) None) (q_size q - 1)) t p NF E) as (t' & E'). rewrite E'. cbn [obind]. eauto.
  Qed.
  Definition ginv (q : priq A P) (m : mset A P) : Prop := q_freed q = false /\ q_proc q = m_by m /\ 1 < length (q_heap q) /\ PInv A (lt (m_by m)) (m_capa m) (toP q) (m_elems m).
  Lemma of_ginv q m p l : ginv q m -> 1 < length (pq_heap p) -> PInv A (lt (m_by m)) (m_capa m) p l -> ginv (of_pq q p) (now m l).
  Proof. intros (F & B & L & I) L' [P1 P2 P3 P4 P5]. split; auto. split; auto. split; auto. destruct I as [_ _ _ _ C]. cbn in C. split; cbn; auto. Qed.
  Lemma up_length fuel f : forall h i node h', up A f fuel h i node = Some h' -> length h' = length h.
  Proof.
    induction fuel as [|fuel IH]; intros h i node h' E; cbn [up] in E; [discriminate|]. destruct (0 <? i / 2); [|apply some_inj in E; subst; apply upd_length]. destruct (elt A h (i / 2)); [|discriminate]. cbn [obind] in E. destruct (f node a); [apply IH in E; rewrite upd_length in E; auto|apply some_inj in E; subst; apply upd_length].
  Qed.
  Lemma down_length fuel f : forall h i n node h', PQueue_Model.down A f fuel h i n node = Some h' -> length h' = length h.
  Proof.
    induction fuel as [|fuel IH]; intros h i n node h' E; cbn [PQueue_Model.down] in E; [discriminate|]. destruct (child A f h i n) as [j|]; [|discriminate]. cbn [obind] in E. destruct (j <=? n); [|apply some_inj in E; subst; apply upd_length]. destruct (elt A h j); [|discriminate]. destruct node as [x|]; [|discriminate]. cbn [obind] in E. destruct (f a x); [apply IH in E; rewrite upd_length in E; auto|apply some_inj in E; subst; apply upd_length].
  Qed.
  Lemma pq_down_length f q p : PQueue_Model.pq_down A f q = Some p -> length (pq_heap p) = length (pq_heap q).
  Proof.
    unfold PQueue_Model.pq_down. destruct (nth_error (pq_heap q) 1); [|discriminate]. cbn [obind]. destruct (PQueue_Model.down A f (S (pq_size q)) (pq_heap q) 1 (pq_size q) o) eqn:E; [|discriminate]. cbn [obind]. intros K. apply some_inj in K. subst. cbn. eapply down_length; eauto.
  Qed.
  Lemma insert_length f q e k p : PQueue_Model.pq_insert A f q e = Some (k, p) -> length (pq_heap q) <= length (pq_heap p).
  Proof.
    unfold PQueue_Model.pq_insert. destruct (pq_size q <? pq_capa q).
    - unfold PQueue_Model.pq_push. match goal with |- context [nth_error ?h (pq_size q + 1)] => set (h0 := h); destruct (nth_error h0 (pq_size q + 1)); [|discriminate] end. cbn [obind].
      match goal with |- context [up ?a ?b ?f ?h ?i ?n] => destruct (up a b f h i n) as [h'|] eqn:E; [|discriminate] end. cbn [obind]. intros K. apply some_inj in K. inversion K. subst. cbn. apply up_length in E. rewrite upd_length in E. rewrite E. unfold h0. destruct (length (pq_heap q) <=? pq_size q + 1); [rewrite app_length; lia|lia].
    - destruct (0 <? pq_size q); [|intros K; apply some_inj in K; inversion K; subst; lia]. destruct (elt A (pq_heap q) 1); [|discriminate]. cbn [obind]. destruct (f a e); [|intros K; apply some_inj in K; inversion K; subst; lia]. unfold pq_replace_top. destruct (nth_error (pq_heap q) 1); [|discriminate]. cbn [obind].
      match goal with |- context [PQueue_Model.pq_down A ?b ?c] => destruct (PQueue_Model.pq_down A b c) as [p'|] eqn:E; [|discriminate] end. cbn [obind]. intros K. apply some_inj in K. inversion K. subst. apply pq_down_length in E. cbn in E. rewrite upd_length in E. lia.
  Qed.
  Lemma pop_length f q x p : PQueue_Model.pq_pop A f q = Some (x, p) -> length (pq_heap q) <= length (pq_heap p).
  Proof.
    unfold PQueue_Model.pq_pop. destruct (0 <? pq_size q); [|intros K; apply some_inj in K; inversion K; subst; lia]. destruct (nth_error (pq_heap q) 1); [|discriminate]. destruct (nth_error (pq_heap q) (pq_size q)); [|discriminate]. cbn [obind].
    match goal with |- context [PQueue_Model.pq_down A ?b ?c] => destruct (PQueue_Model.pq_down A b c) as [p'|] eqn:E; [|discriminate] end. cbn [obind]. intros K. apply some_inj in K. inversion K. subst. apply pq_down_length in E. cbn in E. rewrite !upd_length in E. lia.
  Qed.
  Lemma insert_ginv q m t e : ginv q m -> exists k l q' t', frb_pq_insert A P less q t e = Some (q', t', false) /\ q_step A (lt (m_by m)) (m_capa m) (m_elems m) (QInsert e) (QIns k) l /\ ginv q' (now m l).
  Proof.
    intros G. pose proof G as (F & B & L & I). destruct (insert_ok A (lt (m_by m)) (Hpre _) _ _ _ e I) as (k & p & l & E & S & I'). rewrite <- B in E. destruct (insert_good q t e k p F E) as (t' & E'). eexists _, _, _, _. split; [exact E'|]. split; [exact S|]. apply of_ginv; auto. apply insert_length in E. cbn in E. lia.
  Qed.
  Lemma pop_ginv q m t : ginv q m -> exists x l q' t', frb_pq_pop A P less q t = Some (x, (q', t', false)) /\ q_step A (lt (m_by m)) (m_capa m) (m_elems m) QPop (QElem x) l /\ ginv q' (now m l).
  Proof.
    intros G. pose proof G as (F & B & L & I). destruct (Nat.ltb_spec 0 (q_size q)) as [S0|S0].
    - destruct (pop_ok A (lt (m_by m)) (Hpre _) _ _ _ I S0) as (x & l & p & E & Pm & Le & I'). rewrite <- B in E. destruct (pop_good q t (Some x) p F E) as (t' & E'). eexists _, _, _, _. split; [exact E'|]. split; [econstructor; eauto|]. apply of_ginv; auto. apply pop_length in E. cbn in E. lia.
    - unfold frb_pq_pop. destruct (Nat.ltb_spec 0 (q_size q)); [lia|]. pose proof (pi_size _ _ _ _ _ I) as Es. cbn in Es. assert (Em : m_elems m = []) by (apply length_zero_iff_nil; lia). exists None, [], q, t. split; [reflexivity|]. split; [constructor; auto|]. split; auto. split; auto. split; auto. cbn [now m_by m_capa m_elems]. rewrite Em in I. exact I.
  Qed.
  Lemma adjust_ginv q m t f : ginv q m -> exists q' t', frb_pq_adjust A P less (change_top A P q f) t = Some (q', t', false) /\
    ((exists x l, Permutation (m_elems m) (x :: l) /\ least A (lt (m_by m)) x (m_elems m) /\ ginv q' (now m (f x :: l))) \/ (m_elems m = [] /\ ginv q' m)).
  Proof.
    intros G. pose proof G as (F & B & L & I). unfold frb_pq_adjust, change_top. pose proof (pi_size _ _ _ _ _ I) as Es. cbn in Es. destruct (Nat.ltb_spec 0 (q_size q)) as [S0|S0].
    - destruct (top_elt A (lt (m_by m)) _ _ _ I S0) as (x & l & Ex & Pm). cbn in Ex. rewrite Ex. cbn [obind]. destruct (replace_top_ok A (lt (m_by m)) (Hpre _) _ _ _ x l (f x) I Ex Pm) as (p & E & I'). unfold pq_replace_top in E. cbn [toP pq_heap pq_size pq_capa] in E. rewrite (proj1 (elt_some _ _ _ _) Ex) in E. cbn [obind] in E. rewrite <- B in E.
      destruct (pq_down_good (with_heap q (upd (q_heap q) 1 (Some (f x))) (q_size q)) t p F E) as (t' & E'). eexists _, _. split; [exact E'|]. left. exists x, l. split; auto. split; [eapply PInv_least; eauto|]. apply (of_ginv q); auto. apply pq_down_length in E. cbn in E. rewrite upd_length in E. lia.
    - assert (Em : m_elems m = []) by (apply length_zero_iff_nil; lia). assert (Z0 : q_size q = 0) by lia. unfold RubyPq_Model.pq_down. destruct (nth_error (q_heap q) 1) as [node|] eqn:En; [|apply nth_error_None in En; lia]. cbn [obind]. rewrite Z0. cbn [down]. unfold pq_child. rewrite Z0. cbn [Nat.mul Nat.add Nat.leb obind fst snd]. eexists _, _. split; [reflexivity|]. right. split; auto.
      split; auto. split; auto. split; [unfold with_heap; cbn; rewrite upd_length; auto|]. rewrite Em. destruct I as [P1 P2 P3 P4 P5]. cbn in P5. split; cbn; auto; [intros i Hi; lia|rewrite upd_length; lia].
  Qed.
  Lemma clone_ginv q m : ginv q m -> ginv (frb_pq_clone A P q) m.
  Proof.
    intros (F & B & L & [P1 P2 P3 P4 P5]). cbn [toP pq_heap pq_size pq_capa] in *. assert (LN : length (firstn (q_size q + 1) (q_heap q) ++ repeat None (length (q_heap q) - (q_size q + 1))) = length (q_heap q)) by (rewrite app_length, firstn_length, repeat_length; lia).
    assert (X : forall i, 1 <= i <= q_size q -> nth_error (firstn (q_size q + 1) (q_heap q) ++ repeat None (length (q_heap q) - (q_size q + 1))) i = nth_error (q_heap q) i). { intros i Hi. rewrite nth_error_app1 by (rewrite firstn_length; lia). rewrite nth_error_firstn. destruct (Nat.ltb_spec i (q_size q + 1)); [auto|lia]. }
    split; auto. split; auto. split; [cbn [frb_pq_clone q_heap]; rewrite LN; auto|]. split; cbn [toP frb_pq_clone q_heap q_size q_capa pq_heap pq_size pq_capa]; auto; try lia.
    - rewrite (contents_ext A _ (q_heap q)); auto.
    - eapply ord_ext; [|exact P2]. intros i Hi. symmetry. apply X. auto.
  Qed.
  Lemma init_ginv a more b : heard A P (New a more b) -> match frb_pq_init A P a more b, asked A P a more b with inl e, inl e' => e = e' | inr q, inr m => ginv q m | _, _ => False end.
  Proof.
    intros H. assert (AJ : forall k p, ginv (mkQ (repeat None 32) 0 k p false) (mkM k p [])). { intros k p. split; auto. split; auto. split; [cbn; lia|]. split; cbn; auto; try lia. intros i Hi. lia. }
    unfold frb_pq_init, asked, frb_pq_alloc, PQ_START_CAPA. destruct a as [|k|[k|] l [l'|]|]; cbn [heard] in H; try contradiction; cbn [q_heap].
    - destruct b; [contradiction|]. apply AJ.
    - destruct (k <? 0)%Z; auto. destruct more; auto. destruct b; apply AJ.
    - destruct (k <? 0)%Z; auto. destruct more; auto. destruct b, l; apply AJ.
    - destruct (Z.of_nat 32 <? 0)%Z eqn:E; [discriminate|]. destruct (32 <? 0)%Z eqn:E'; [discriminate|]. destruct more; auto. destruct b, l; apply AJ.
    - reflexivity.
  Qed.
  Lemma F2_upd qs ms i q m : Forall2 ginv qs ms -> ginv q m -> Forall2 ginv (upd qs i q) (upd ms i m).
  Proof. intros H G. revert i. induction H; intros [|i]; cbn; auto. Qed.
  Lemma F2_nth qs ms i : Forall2 ginv qs ms -> i < length qs -> exists q m, nth_error qs i = Some q /\ nth_error ms i = Some m /\ ginv q m.
  Proof. intros H. revert i. induction H as [|q m qs ms G H IH]; intros [|i] L; cbn in *; try lia; [eauto|]. apply IH. lia. Qed.
  Lemma F2_len qs ms : Forall2 ginv qs ms -> length qs = length ms.
  Proof. induction 1; cbn; auto. Qed.
  Lemma F2_id qs ms i q m : Forall2 ginv qs ms -> nth_error ms i = Some m -> ginv q m -> Forall2 ginv (upd qs i q) ms.
  Proof. intros H. revert i. induction H; intros [|i] E G; cbn in *; try discriminate; [apply some_inj in E; subst; constructor; auto|]. constructor; auto. Qed.
  Lemma step_good qs ms t o : Forall2 ginv qs ms -> heard A P o -> ~ collects A P o \/ Forall (fun m => m_by m = None) ms -> (match o with New _ _ _ => True | Clone i | Insert i _ | Adjust i _ | Top i | Pop i | Size i | Capa i | Clear i | Collect i => i < length qs end) ->
    exists r qs' t' ms', step A P less (qs, t) o = Some (r, (qs', t')) /\ Forall2 ginv qs' ms' /\ may A P lt ms o r ms' /\ length qs' = next_n A P (length qs) o.
  Proof.
    intros F HH NC Hi. pose proof (F2_len _ _ F) as LL. destruct o; cbn [step next_n]; unfold back; try (destruct (F2_nth qs ms i F Hi) as (q & m & Eq & Em & G); rewrite Eq; cbn [obind]).
    - pose proof (init_ginv a more block HH) as K. destruct (frb_pq_init A P a more block) as [e|q] eqn:Ei, (asked A P a more block) as [e'|m] eqn:Ea; try contradiction.
      + subst e'. eexists _, _, _, _. split; [reflexivity|]. split; eauto. split; auto. constructor. auto.
      + eexists _, _, _, _. split; [reflexivity|]. split; [apply Forall2_app; eauto|]. split; [rewrite LL; constructor; auto|rewrite app_length; cbn; lia].
    - eexists _, _, _, _. split; [reflexivity|]. split; [apply Forall2_app; eauto; constructor; [apply clone_ginv; exact G|auto]|]. split; [rewrite LL; constructor; auto|rewrite app_length; cbn; lia].
    - destruct (insert_ginv q m t e G) as (k & l & q' & t' & E & S & G'). rewrite E. cbn [obind fst snd]. eexists _, _, _, _. split; [reflexivity|]. split; [apply F2_upd; eauto|]. split; [econstructor; eauto|apply upd_length].
    - destruct (adjust_ginv q m t f G) as (q' & t' & E & [(x & l & Pm & Le & G')|(E0 & G')]); rewrite E; cbn [obind fst snd]; eexists _, _, _, _; (split; [reflexivity|]).
      + split; [apply F2_upd; eauto|]. split; [eapply M_adjust; eauto|apply upd_length].
      + split; [eapply F2_id; eauto|]. split; [eapply M_adjust_none; eauto|apply upd_length].
    - pose proof G as (F' & B & L & I). unfold frb_pq_top. destruct (Nat.ltb_spec 0 (q_size q)) as [S0|S0].
      + destruct (top_elt A (lt (m_by m)) _ _ _ I S0) as (x & l & Ex & Pm). cbn in Ex. rewrite (proj1 (elt_some _ _ _ _) Ex). cbn [obind]. eexists _, _, _, _. split; [reflexivity|]. split; eauto. split; auto. econstructor; eauto. constructor. eapply PInv_least; eauto.
      + cbn [obind]. pose proof (pi_size _ _ _ _ _ I) as Es. cbn in Es. assert (E0 : m_elems m = []) by (apply length_zero_iff_nil; lia). eexists _, _, _, _. split; [reflexivity|]. split; eauto. split; auto. econstructor; eauto. rewrite E0. constructor. auto.
    - destruct (pop_ginv q m t G) as (x & l & q' & t' & E & S & G'). rewrite E. cbn [obind fst snd]. eexists _, _, _, _. split; [reflexivity|]. split; [apply F2_upd; eauto|]. split; [econstructor; eauto|apply upd_length].
    - pose proof G as (F' & B & L & I). pose proof (pi_size _ _ _ _ _ I) as Es. cbn in Es. eexists _, _, _, _. split; [reflexivity|]. split; eauto. split; auto. rewrite Es. constructor. auto.
    - pose proof G as (F' & B & L & I). pose proof (pi_capa _ _ _ _ _ I) as Es. cbn in Es. eexists _, _, _, _. split; [reflexivity|]. split; eauto. split; auto. rewrite Es. constructor. auto.
    - eexists _, _, _, _. split; [reflexivity|]. split; [apply F2_upd; eauto|]. 2: split; [econstructor; eauto|apply upd_length].
      destruct G as (F' & B & L & [P1 P2 P3 P4 P5]). split; auto. split; auto. split; auto. split; cbn in *; auto; [intros i0 Hi0; lia|lia].
    - destruct NC as [NC|NC]; [exfalso; apply NC; exact Logic.I|]. rewrite Forall_forall in NC. specialize (NC m (nth_error_In _ _ Em)). eexists _, _, _, _. split; [reflexivity|]. split; [eapply F2_id; eauto|]. 2: split; [econstructor; eauto|apply upd_length].
      destruct G as (F' & B & L & I). split; [|split; [exact B|split; [exact L|exact I]]]. unfold collect. cbn [q_freed]. rewrite B, NC. exact F'.
  Qed.
  Lemma plain_may ms o r ms' : may A P lt ms o r ms' -> heard A P o -> plain A P o -> Forall (fun m => m_by m = None) ms -> Forall (fun m => m_by m = None) ms'.
  Proof.
    intros M H Pl F. assert (U : forall i m l, nth_error ms i = Some m -> Forall (fun m => m_by m = None) (upd ms i (now m l))). { intros i m l E. rewrite Forall_forall in F. pose proof (F m (nth_error_In _ _ E)) as Fm. apply Forall_forall. intros x Hx. apply In_nth_error in Hx. destruct Hx as (k & Hk). destruct (Nat.eq_dec i k) as [<-|D]; [rewrite upd_eq in Hk by (apply nth_error_Some; congruence); apply some_inj in Hk; subst; exact Fm|]. rewrite upd_neq in Hk by auto. apply F. eapply nth_error_In; eauto. }
    inversion M; subst; auto.
    - apply Forall_app. split; auto. constructor; auto. destruct a as [|k|[k|] [l|] [l'|]|], b; cbn in H, Pl; try contradiction; unfold asked in H0; try discriminate;
        repeat match type of H0 with context [if ?x then _ else _] => destruct x; try discriminate end; inversion H0; reflexivity.
    - apply Forall_app. split; auto. constructor; auto. rewrite Forall_forall in F. apply F. eapply nth_error_In; eauto.
  Qed.
  Lemma run_good os : forall qs ms t, Forall2 ginv qs ms -> Forall (heard A P) os -> Forall (fun o => ~ collects A P o) os \/ Forall (plain A P) os /\ Forall (fun m => m_by m = None) ms -> known A P (length qs) os ->
    exists rs qs' t' ms', run A P less (qs, t) os = Some (rs, (qs', t')) /\ mays A P lt ms os rs ms'.
  Proof.
    induction os as [|o os IH]; intros qs ms t F HH NC K; cbn [run].
    - exists [], qs, t, ms. split; [reflexivity|]. constructor.
    - apply (known_cons A P (fun _ _ _ _ => None) (fun _ => True)) in K. destruct K as (K1 & K2). inversion HH; subst. destruct (step_good qs ms t o F) as (r & qs1 & t1 & ms1 & E & F1 & M & L1); [auto| |auto|].
      { destruct NC as [NC|[_ NC]]; [inversion NC; auto|auto]. }
      rewrite E. cbn [obind fst snd]. destruct (IH qs1 ms1 t1) as (rs & qs' & t' & ms' & E' & M'); auto; [|rewrite L1; auto|].
      { destruct NC as [NC|[NC NC']]; [inversion NC; auto|]. inversion NC; subst. right. split; auto. eapply plain_may; eauto. }
      rewrite E'. cbn [obind fst snd]. exists (r :: rs), qs', t', ms'. split; [reflexivity|]. eapply Ms_cons; eauto.
  Qed.
End GOOD.
Lemma good_order (A P : Type) (less : option P -> nat -> A -> A -> option bool) (lt : option P -> A -> A -> bool) os : (forall p t a b, less p t a b = Some (lt p a b)) -> (forall p, preorder A (lt p)) ->
  Forall (heard A P) os -> Forall (fun o => ~ collects A P o) os \/ Forall (plain A P) os -> known A P 0 os -> exists rs w ms, run A P less ([], 0) os = Some (rs, w) /\ mays A P lt [] os rs ms.
Proof. intros H1 H2 H3 H4 H5. destruct (run_good A P less lt H1 H2 os [] [] 0) as (rs & qs & t & ms & E & M); auto; [destruct H4; auto|]. exists rs, (qs, t), ms. auto. Qed.

(* two elements popped one after the other *)
Lemma mays_app (A P : Type) lt os os' : forall s rs s', mays A P lt s (os ++ os') rs s' -> exists rs1 rs2 s1, rs = rs1 ++ rs2 /\ mays A P lt s os rs1 s1 /\ mays A P lt s1 os' rs2 s'.
Proof.
  induction os as [|o os IH]; cbn; intros s rs s' M; [exists [], rs, s; split; auto; split; auto; constructor|]. inversion M as [|s0 o0 r s1 os0 rs0 s2 M1 M2]; subst. apply IH in M2. destruct M2 as (r1 & r2 & s3 & -> & Ma & Mb). exists (r :: r1), r2, s3. split; auto. split; auto. econstructor; eauto.
Qed.
Lemma pops_sorted (A P : Type) lt os i x y rs s : mays A P lt [] (os ++ [Pop i; Pop i]) (rs ++ [Elem (Some x); Elem (Some y)]) s -> exists m s1, mays A P lt [] os rs s1 /\ nth_error s1 i = Some m /\ lt (m_by m) y x = false.
Proof.
  intros M. apply mays_app in M. destruct M as (r1 & r2 & s1 & E & M1 & M2). inversion M2 as [|a1 a2 ra s2 a5 rb a7 Ma Mb]; subst. inversion Mb as [|b1 b2 rc s3 b5 rd b7 Mc Md]; subst. inversion Md; subst. change [Elem (Some x); Elem (Some y)] with ([Elem (Some x)] ++ [Elem (Some y)]) in E. change [ra; rc] with ([ra] ++ [rc]) in E. rewrite !app_assoc in E. apply app_inj_tail in E. destruct E as (E & E2). apply app_inj_tail in E. destruct E as (-> & E1). subst.
  inversion Ma as [| | | |i1 m1 x1 l1 N1 Q1| | | | | | |]; subst. inversion Mc as [| | | |i2 m2 x2 l2 N2 Q2| | | | | | |]; subst. rewrite upd_eq in N2 by (apply nth_error_Some; congruence). apply some_inj in N2. subst m2. exists m1, s1. split; auto. split; auto.
  inversion Q1; subst. inversion Q2; subst. cbn in *. match goal with L : least A (lt (m_by m1)) x (m_elems m1), Pa : Permutation (m_elems m1) (x :: l1), Pb : Permutation l1 (y :: l2) |- _ => destruct L as [_ L]; apply L; eapply Permutation_in; [apply Permutation_sym; exact Pa|]; right; eapply Permutation_in; [apply Permutation_sym; exact Pb|]; left; reflexivity end.
Qed.
