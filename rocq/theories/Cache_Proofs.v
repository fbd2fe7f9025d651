From Verif Require Import Util RamDir_Model RamDir_Proofs Cache_Model Cache_Spec.
Open Scope nat_scope.

Lemma at_rem_same {A} k (l : list (nat * A)) : at_key k (rem k l) = None.
Proof. unfold rem. induction l as [|[j x] l IH]; cbn; auto. destruct (Nat.eqb_spec j k) as [E|E]; cbn; auto. rewrite (proj2 (Nat.eqb_neq j k)) by auto. auto. Qed.
Lemma at_rem_other {A} k j (l : list (nat * A)) : j <> k -> at_key j (rem k l) = at_key j l.
Proof.
  intros H. unfold rem. induction l as [|[i x] l IH]; cbn; auto. destruct (Nat.eqb_spec i k) as [->|E]; cbn; [rewrite (proj2 (Nat.eqb_neq k j)) by auto; auto|]. rewrite IH. auto.
Qed.
Lemma at_rem {A} k j (l : list (nat * A)) : at_key j (rem k l) = if Nat.eq_dec j k then None else at_key j l.
Proof. destruct (Nat.eq_dec j k) as [->|]; [apply at_rem_same|apply at_rem_other; auto]. Qed.
Lemma at_put {A} k j (x : A) l : at_key j ((k, x) :: rem k l) = if Nat.eq_dec j k then Some x else at_key j l.
Proof. cbn. destruct (Nat.eq_dec j k) as [->|E]; [rewrite Nat.eqb_refl; auto|]. rewrite (proj2 (Nat.eqb_neq k j)) by auto. apply at_rem_other. auto. Qed.
Lemma at_in {A} k (l : list (nat * A)) x : at_key k l = Some x -> In k (map fst l).
Proof. induction l as [|[j y] l IH]; cbn; [discriminate|]. destruct (Nat.eqb_spec j k); auto. Qed.
Lemma rem_none {A} k (l : list (nat * A)) : at_key k l = None -> rem k l = l.
Proof. induction l as [|[j x] l IH]; cbn; auto. unfold rem. cbn. destruct (Nat.eqb_spec j k) as [E|E]; [discriminate|]. intros K. cbn. f_equal. apply IH. auto. Qed.
Lemma set_same {A} (l : list (option A)) p x : cell l p = Some x -> set_nth l p (Some x) = l.
Proof. unfold cell. revert p. induction l as [|a l IH]; intros [|p]; cbn; try discriminate; [destruct a; [intros E; apply some_inj in E; subst; auto|discriminate]|]. intros E. f_equal. apply IH. auto. Qed.
Lemma tab_same h t T : cell (h_tabs h) t = Some T -> set_tab h t (Some T) = h.
Proof. intros E. unfold set_tab. rewrite (set_same _ _ _ E). destruct h; auto. Qed.
Lemma cell_set {A} (l : list (option A)) p q o : p < length l -> cell (set_nth l p o) q = if Nat.eq_dec q p then o else cell l q.
Proof. intros L. destruct (Nat.eq_dec q p) as [->|]; [apply cell_same; auto|apply cell_other; auto]. Qed.

Section CACHE.
Record inv (h : heap) (F : nat -> option nat) (R : nat -> option (nat * nat)) (m : nat -> nat -> option (list Z)) : Prop := mkInv {
  i_F : forall a, F a = option_map f_id (at_key a (h_flts h));
  i_R : forall b, R b = option_map (fun r => (r_id r, r_dels r)) (at_key b (h_rdrs h));
  i_T1 : forall a f, at_key a (h_flts h) = Some f -> exists T, cell (h_tabs h) (f_tab f) = Some T;
  i_T2 : forall b r t, at_key b (h_rdrs h) = Some r -> r_cache r = Some t -> exists T, cell (h_tabs h) t = Some T;
  i_D1 : forall a a' f f', at_key a (h_flts h) = Some f -> at_key a' (h_flts h) = Some f' -> f_tab f = f_tab f' \/ f_id f = f_id f' -> a = a';
  i_D2 : forall b b' r r', at_key b (h_rdrs h) = Some r -> at_key b' (h_rdrs h) = Some r' -> (r_cache r = r_cache r' /\ r_cache r <> None) \/ r_id r = r_id r' -> b = b';
  i_D3 : forall a b f r, at_key a (h_flts h) = Some f -> at_key b (h_rdrs h) = Some r -> r_cache r <> Some (f_tab f);
  i_L1 : forall a b f T c, at_key a (h_flts h) = Some f -> cell (h_tabs h) (f_tab f) = Some T -> at_key b T = Some c ->
    exists r t2 T2 x, at_key b (h_rdrs h) = Some r /\ r_cache r = Some t2 /\ cell (h_tabs h) t2 = Some T2 /\ at_key a T2 = Some c /\ cell (h_cos h) c = Some (mkCo (f_tab f) t2 a b x) /\ m (f_id f) (r_id r) = Some x;
  i_L2 : forall a b r t2 T2 c, at_key b (h_rdrs h) = Some r -> r_cache r = Some t2 -> cell (h_tabs h) t2 = Some T2 -> at_key a T2 = Some c ->
    exists f T, at_key a (h_flts h) = Some f /\ cell (h_tabs h) (f_tab f) = Some T /\ at_key b T = Some c;
  i_L3 : forall c o, cell (h_cos h) c = Some o -> exists f T, at_key (c_ref1 o) (h_flts h) = Some f /\ cell (h_tabs h) (f_tab f) = Some T /\ at_key (c_ref2 o) T = Some c;
  i_M : forall a b f r T, at_key a (h_flts h) = Some f -> at_key b (h_rdrs h) = Some r -> cell (h_tabs h) (f_tab f) = Some T -> at_key b T = None -> m (f_id f) (r_id r) = None;
  i_N1 : forall a f, at_key a (h_flts h) = Some f -> f_id f < h_nf h;
  i_N2 : forall b r, at_key b (h_rdrs h) = Some r -> r_id r < h_nr h;
  i_N3 : forall f r x, m f r = Some x -> f < h_nf h /\ r < h_nr h;
  i_U : forall t T, cell (h_tabs h) t = Some T -> (exists a f, at_key a (h_flts h) = Some f /\ f_tab f = t) \/ (exists b r, at_key b (h_rdrs h) = Some r /\ r_cache r = Some t) }.
Definition forget (m : nat -> nat -> option (list Z)) (f r : nat) : nat -> nat -> option (list Z) := fun g q => if Nat.eq_dec g f then if Nat.eq_dec q r then None else m g q else m g q.

Lemma destroy_ok h F R m a b f T c : inv h F R m -> at_key a (h_flts h) = Some f -> cell (h_tabs h) (f_tab f) = Some T -> at_key b T = Some c ->
  exists h' r t2 T2, co_destroy h c = Some h' /\ h_flts h' = h_flts h /\ h_rdrs h' = h_rdrs h /\ at_key b (h_rdrs h) = Some r /\ r_cache r = Some t2 /\ cell (h_tabs h) t2 = Some T2 /\ h_nf h' = h_nf h /\ h_nr h' = h_nr h /\
  (forall t, cell (h_tabs h') t = if Nat.eq_dec t (f_tab f) then Some (rem b T) else if Nat.eq_dec t t2 then Some (rem a T2) else cell (h_tabs h) t) /\ inv h' F R (forget m (f_id f) (r_id r)).
Proof.
  intros I Ea ET Eb. destruct (i_L1 _ _ _ _ I a b f T c Ea ET Eb) as (r & t2 & T2 & x & Er & Ec & ET2 & Ea2 & Eo & Em). unfold co_destroy. rewrite Eo. cbn [obind c_tab1 c_tab2 c_ref1 c_ref2]. 
  assert (Ne : t2 <> f_tab f). { intros K. apply (i_D3 _ _ _ _ I a b f r Ea Er). congruence. }
  assert (L1 : f_tab f < length (h_tabs h)) by (eapply cell_lt; eauto). assert (L2 : t2 < length (h_tabs h)) by (eapply cell_lt; eauto). assert (L3 : c < length (h_cos h)) by (eapply cell_lt; eauto).
  unfold h_rem at 1. rewrite ET. cbn [obind]. unfold h_rem, set_tab. cbn [h_tabs]. rewrite cell_set by auto. destruct (Nat.eq_dec t2 (f_tab f)) as [K|_]; [contradiction|]. rewrite ET2. cbn [obind h_tabs h_cos h_flts h_rdrs h_nf h_nr]. unfold set_co. cbn [h_tabs h_cos h_flts h_rdrs h_nf h_nr].
  eexists _, r, t2, T2. split; [reflexivity|]. cbn [h_tabs h_cos h_flts h_rdrs h_nf h_nr]. split; auto. split; auto. split; auto. split; auto. split; auto. split; auto. split; auto.
  assert (CT : forall t, cell (set_nth (set_nth (h_tabs h) (f_tab f) (Some (rem b T))) t2 (Some (rem a T2))) t = if Nat.eq_dec t (f_tab f) then Some (rem b T) else if Nat.eq_dec t t2 then Some (rem a T2) else cell (h_tabs h) t).
  { intros t. rewrite cell_set by (rewrite set_length; auto). rewrite cell_set by auto. destruct (Nat.eq_dec t t2), (Nat.eq_dec t (f_tab f)); auto. congruence. }
  split; [exact CT|]. assert (CC : forall k, cell (set_nth (h_cos h) c None) k = if Nat.eq_dec k c then None else cell (h_cos h) k) by (intros k; apply cell_set; auto).
  set (tabs' := set_nth (set_nth (h_tabs h) (f_tab f) (Some (rem b T))) t2 (Some (rem a T2))) in *. set (cos' := set_nth (h_cos h) c None) in *.
  (* the table of a filter, or of a reader, afterwards *)
  assert (TF : forall a' f' T', at_key a' (h_flts h) = Some f' -> cell tabs' (f_tab f') = Some T' -> exists T0, cell (h_tabs h) (f_tab f') = Some T0 /\ forall k, at_key k T' = if Nat.eq_dec a' a then if Nat.eq_dec k b then None else at_key k T0 else at_key k T0).
  { intros a' f' T' E'. rewrite CT. destruct (Nat.eq_dec a' a) as [->|Ha].
    - rewrite Ea in E'. apply some_inj in E'. subst f'. destruct (Nat.eq_dec (f_tab f) (f_tab f)); [|congruence]. intros K. apply some_inj in K. subst T'. exists T. split; auto. intros k. apply at_rem.
    - destruct (Nat.eq_dec (f_tab f') (f_tab f)) as [K|K]; [exfalso; apply Ha; eapply (i_D1 _ _ _ _ I); eauto|]. destruct (Nat.eq_dec (f_tab f') t2) as [K'|K']; [exfalso; apply (i_D3 _ _ _ _ I a' b f' r E' Er); congruence|]. intros K2. exists T'. auto. }
  assert (TR : forall b' r' t' T', at_key b' (h_rdrs h) = Some r' -> r_cache r' = Some t' -> cell tabs' t' = Some T' -> exists T0, cell (h_tabs h) t' = Some T0 /\ forall k, at_key k T' = if Nat.eq_dec b' b then if Nat.eq_dec k a then None else at_key k T0 else at_key k T0).
  { intros b' r' t' T' E' Ec'. rewrite CT. destruct (Nat.eq_dec t' (f_tab f)) as [K|_]; [exfalso; apply (i_D3 _ _ _ _ I a b' f r' Ea E'); congruence|]. destruct (Nat.eq_dec b' b) as [->|Hb].
    - rewrite Er in E'. apply some_inj in E'. subst r'. assert (t' = t2) by congruence. subst t'. destruct (Nat.eq_dec t2 t2); [|congruence]. intros K. apply some_inj in K. subst T'. exists T2. split; auto. intros k. apply at_rem.
    - destruct (Nat.eq_dec t' t2) as [K|K]; [exfalso; apply Hb; eapply (i_D2 _ _ _ _ I); eauto; left; split; congruence|]. intros K2. exists T'. auto. }
  assert (TX : forall t T0, cell (h_tabs h) t = Some T0 -> exists T', cell tabs' t = Some T'). { intros t T0 E. rewrite CT. destruct (Nat.eq_dec t (f_tab f)); eauto. destruct (Nat.eq_dec t t2); eauto. }
  destruct I as [H1 H2 H3 H4 H5 H6 H7 H8 H9 H10 H11 H12 H13 H14 H15]. split; cbn [h_tabs h_cos h_flts h_rdrs h_nf h_nr]; auto.
  - intros a' f' E'. destruct (H3 a' f' E') as (T0 & E0). eauto.
  - intros b' r' t' E' Ec'. destruct (H4 b' r' t' E' Ec') as (T0 & E0). eauto.
  - intros a' b' f' T' c' E' ET' Eb'. destruct (TF a' f' T' E' ET') as (T0 & E0 & K0). rewrite K0 in Eb'. assert (P : ~ (a' = a /\ b' = b) /\ at_key b' T0 = Some c').
    { destruct (Nat.eq_dec a' a) as [->|]; [|split; [tauto|auto]]. destruct (Nat.eq_dec b' b); [discriminate|]. split; [tauto|auto]. }
    destruct P as (P & P0). destruct (H8 a' b' f' T0 c' E' E0 P0) as (r' & t' & T2' & x' & Q1 & Q2 & Q3 & Q4 & Q5 & Q6). destruct (TX t' T2' Q3) as (T2'' & Q3'). destruct (TR b' r' t' T2'' Q1 Q2 Q3') as (T3 & Q7 & Q8). rewrite Q3 in Q7. apply some_inj in Q7. subst T3.
    exists r', t', T2'', x'. split; auto. split; auto. split; auto. split; [rewrite Q8; destruct (Nat.eq_dec b' b) as [->|]; auto; destruct (Nat.eq_dec a' a) as [->|]; auto; exfalso; apply P; auto|].
    split; [rewrite CC; destruct (Nat.eq_dec c' c) as [->|]; auto; exfalso; apply P; rewrite Eo in Q5; inversion Q5; auto|].
    unfold forget. destruct (Nat.eq_dec (f_id f') (f_id f)) as [K|]; auto. destruct (Nat.eq_dec (r_id r') (r_id r)) as [K'|]; auto. exfalso. apply P. split; [eapply H5; eauto|eapply H6; eauto].
  - intros a' b' r' t' T2' c' E' Ec' ET' Ea'. destruct (TR b' r' t' T2' E' Ec' ET') as (T0 & E0 & K0). rewrite K0 in Ea'. assert (P : ~ (a' = a /\ b' = b) /\ at_key a' T0 = Some c').
    { destruct (Nat.eq_dec b' b) as [->|]; [|split; [tauto|auto]]. destruct (Nat.eq_dec a' a); [discriminate|]. split; [tauto|auto]. }
    destruct P as (P & P0). destruct (H9 a' b' r' t' T0 c' E' Ec' E0 P0) as (f' & T1 & Q1 & Q2 & Q3). destruct (TX _ T1 Q2) as (T1' & Q2'). destruct (TF a' f' T1' Q1 Q2') as (T3 & Q7 & Q8). rewrite Q2 in Q7. apply some_inj in Q7. subst T3.
    exists f', T1'. split; auto. split; auto. rewrite Q8. destruct (Nat.eq_dec a' a) as [->|]; auto. destruct (Nat.eq_dec b' b) as [->|]; auto.
  - intros c' o. rewrite CC. destruct (Nat.eq_dec c' c) as [|Hc]; [discriminate|]. intros Eo'. destruct (H10 c' o Eo') as (f' & T1 & Q1 & Q2 & Q3). destruct (TX _ T1 Q2) as (T1' & Q2'). destruct (TF _ f' T1' Q1 Q2') as (T3 & Q7 & Q8). rewrite Q2 in Q7. apply some_inj in Q7. subst T3.
    exists f', T1'. split; auto. split; auto. rewrite Q8. destruct (Nat.eq_dec (c_ref1 o) a) as [Ka|]; auto. destruct (Nat.eq_dec (c_ref2 o) b) as [Kb|]; auto. exfalso. apply Hc. rewrite Ka, Ea in Q1. apply some_inj in Q1. subst f'. rewrite ET in Q2. apply some_inj in Q2. subst T1. rewrite Kb in Q3. congruence.
  - intros a' b' f' r' T' E' Er' ET' Eb'. destruct (TF a' f' T' E' ET') as (T0 & E0 & K0). rewrite K0 in Eb'. unfold forget. destruct (Nat.eq_dec a' a) as [->|Ha].
    + rewrite Ea in E'. apply some_inj in E'. subst f'. destruct (Nat.eq_dec (f_id f) (f_id f)); [|congruence]. destruct (Nat.eq_dec (r_id r') (r_id r)); auto. destruct (Nat.eq_dec b' b) as [->|]; [rewrite Er in Er'; apply some_inj in Er'; congruence|]. eapply H11; eauto.
    + destruct (Nat.eq_dec (f_id f') (f_id f)) as [K|]; [exfalso; apply Ha; eapply H5; eauto|]. eapply H11; eauto.
  - intros g q y. unfold forget. destruct (Nat.eq_dec g (f_id f)); [destruct (Nat.eq_dec q (r_id r)); [discriminate|]|]; apply H14.
  - intros t T'. rewrite CT. destruct (Nat.eq_dec t (f_tab f)) as [->|]; [left; eauto|]. destruct (Nat.eq_dec t t2) as [->|]; [right; eauto|]. apply H15.
Qed.
Lemma rem_rem {A} k (l : list (nat * A)) : rem k (rem k l) = rem k l.
Proof. apply rem_none. apply at_rem_same. Qed.
(* the table of a filter is cleared *)
Lemma clear_filter a f es : forall h F R m T, inv h F R m -> at_key a (h_flts h) = Some f -> cell (h_tabs h) (f_tab f) = Some T ->
  exists h' m' T', clear_slots h (f_tab f) es = Some h' /\ h_flts h' = h_flts h /\ h_rdrs h' = h_rdrs h /\ h_nf h' = h_nf h /\ h_nr h' = h_nr h /\ inv h' F R m' /\ cell (h_tabs h') (f_tab f) = Some T' /\
  (forall k c, at_key k T' = Some c -> at_key k T = Some c /\ ~ In k (map fst es)) /\ (forall g r, g <> f_id f -> m' g r = m g r).
Proof.
  induction es as [|[k z] es IH]; intros h F R m T I Ea ET; cbn [clear_slots].
  - exists h, m, T. repeat (split; auto).
  - rewrite ET. cbn [obind]. destruct (at_key k T) as [c|] eqn:Ek.
    + destruct (destroy_ok h F R m a k f T c I Ea ET Ek) as (h1 & r & t2 & T2 & E1 & Q1 & Q2 & Q3 & Q4 & Q5 & Q6 & Q6' & Q7 & I1). rewrite E1. cbn [obind]. assert (ET1 : cell (h_tabs h1) (f_tab f) = Some (rem k T)) by (rewrite Q7; destruct (Nat.eq_dec (f_tab f) (f_tab f)); congruence).
      rewrite ET1. cbn [obind]. rewrite rem_rem, tab_same by auto. destruct (IH h1 F R _ (rem k T) I1) as (h' & m' & T' & A1 & A2 & A3 & A4 & A5 & A6 & A7 & A8 & A9); [congruence|auto|].
      exists h', m', T'. split; auto. split; [congruence|]. split; [congruence|]. split; [congruence|]. split; [congruence|]. split; auto. split; auto. split.
      * intros j d Hj. destruct (A8 j d Hj) as (B1 & B2). rewrite at_rem in B1. destruct (Nat.eq_dec j k) as [|Hjk]; [discriminate|]. split; auto. cbn. intros [K|K]; auto.
      * intros g q Hg. rewrite A9 by auto. unfold forget. destruct (Nat.eq_dec g (f_id f)); [contradiction|auto].
    + cbn [obind]. rewrite ET. cbn [obind]. rewrite rem_none, tab_same by auto. destruct (IH h F R m T I Ea ET) as (h' & m' & T' & A1 & A2 & A3 & A4 & A5 & A6 & A7 & A8 & A9). exists h', m', T'. split; auto. split; auto. split; auto. split; auto. split; auto. split; auto. split; auto. split; auto.
      intros j d Hj. destruct (A8 j d Hj) as (B1 & B2). split; auto. cbn. intros [K|K]; auto. congruence.
Qed.
Lemma clear_reader b r t2 es : forall h F R m T, inv h F R m -> at_key b (h_rdrs h) = Some r -> r_cache r = Some t2 -> cell (h_tabs h) t2 = Some T ->
  exists h' m' T', clear_slots h t2 es = Some h' /\ h_flts h' = h_flts h /\ h_rdrs h' = h_rdrs h /\ h_nf h' = h_nf h /\ h_nr h' = h_nr h /\ inv h' F R m' /\ cell (h_tabs h') t2 = Some T' /\
  (forall k c, at_key k T' = Some c -> at_key k T = Some c /\ ~ In k (map fst es)) /\ (forall g q, q <> r_id r -> m' g q = m g q).
Proof.
  induction es as [|[k z] es IH]; intros h F R m T I Er Ec ET; cbn [clear_slots].
  - exists h, m, T. repeat (split; auto).
  - rewrite ET. cbn [obind]. destruct (at_key k T) as [c|] eqn:Ek.
    + destruct (i_L2 _ _ _ _ I k b r t2 T c Er Ec ET Ek) as (f & T1 & Ef & ET1 & Eb). destruct (destroy_ok h F R m k b f T1 c I Ef ET1 Eb) as (h1 & r' & t2' & T2 & E1 & Q1 & Q2 & Q3 & Q4 & Q5 & Q6 & Q6' & Q7 & I1). rewrite E1. cbn [obind].
      rewrite Er in Q3. apply some_inj in Q3. subst r'. rewrite Ec in Q4. apply some_inj in Q4. subst t2'. rewrite ET in Q5. apply some_inj in Q5. subst T2.
      assert (ET' : cell (h_tabs h1) t2 = Some (rem k T)). { rewrite Q7. destruct (Nat.eq_dec t2 (f_tab f)) as [K|]; [exfalso; apply (i_D3 _ _ _ _ I k b f r Ef Er); congruence|]. destruct (Nat.eq_dec t2 t2); congruence. }
      rewrite ET'. cbn [obind]. rewrite rem_rem, tab_same by auto. destruct (IH h1 F R _ (rem k T) I1) as (h' & m' & T' & A1 & A2 & A3 & A4 & A5 & A6 & A7 & A8 & A9); [congruence|auto|auto|].
      exists h', m', T'. split; auto. split; [congruence|]. split; [congruence|]. split; [congruence|]. split; [congruence|]. split; auto. split; auto. split.
      * intros j d Hj. destruct (A8 j d Hj) as (B1 & B2). rewrite at_rem in B1. destruct (Nat.eq_dec j k) as [|Hjk]; [discriminate|]. split; auto. cbn. intros [K|K]; auto.
      * intros g q Hq. rewrite A9 by auto. unfold forget. destruct (Nat.eq_dec g (f_id f)); auto. destruct (Nat.eq_dec q (r_id r)); [contradiction|auto].
    + cbn [obind]. rewrite ET. cbn [obind]. rewrite rem_none, tab_same by auto. destruct (IH h F R m T I Er Ec ET) as (h' & m' & T' & A1 & A2 & A3 & A4 & A5 & A6 & A7 & A8 & A9). exists h', m', T'. split; auto. split; auto. split; auto. split; auto. split; auto. split; auto. split; auto. split; auto.
      intros j d Hj. destruct (A8 j d Hj) as (B1 & B2). split; auto. cbn. intros [K|K]; auto. congruence.
Qed.
End CACHE.

Section OPS.
Variable bits : nat -> nat -> nat -> list Z.
Lemma drop_ok h F R m a f : inv h F R m -> at_key a (h_flts h) = Some f -> exists h', drop_filter h a = Some h' /\ inv h' (upd F a None) R m /\ h_nf h' = h_nf h /\ h_nr h' = h_nr h.
Proof.
  intros I Ea. destruct (i_T1 _ _ _ _ I a f Ea) as (T & ET). unfold drop_filter, h_destroy. rewrite Ea. cbn [obind]. rewrite ET. cbn [obind].
  destruct (clear_filter a f T h F R m T I Ea ET) as (h1 & m1 & T1 & E1 & Q1 & Q2 & Q3 & Q4 & I1 & Q5 & Q6 & Q7). rewrite E1. cbn [obind]. eexists. split; [reflexivity|]. unfold set_tab. cbn [h_tabs h_cos h_flts h_rdrs h_nf h_nr]. split; [|auto].
  assert (EM : forall k, at_key k T1 = None). { intros k. destruct (at_key k T1) as [c|] eqn:E; auto. destruct (Q6 k c E) as (A & B). exfalso. apply B. eapply at_in; eauto. }
  assert (L : f_tab f < length (h_tabs h1)) by (eapply cell_lt; eauto). rewrite <- Q1 in Ea. pose proof (i_N3 _ _ _ _ I) as N3. clear E1 Q6 I ET.
  assert (CT : forall t, cell (set_nth (h_tabs h1) (f_tab f) None) t = if Nat.eq_dec t (f_tab f) then None else cell (h_tabs h1) t) by (intros t; apply cell_set; auto).
  destruct I1 as [H1 H2 H3 H4 H5 H6 H7 H8 H9 H10 H11 H12 H13 H14 H15].
  assert (FO : forall a' f', at_key a' (rem a (h_flts h1)) = Some f' -> a' <> a /\ at_key a' (h_flts h1) = Some f' /\ f_tab f' <> f_tab f /\ f_id f' <> f_id f).
  { intros a' f'. rewrite at_rem. destruct (Nat.eq_dec a' a) as [|Ha]; [discriminate|]. intros E. split; auto. split; auto. split; intros K; apply Ha; eapply H5; eauto. }
  assert (TO : forall t T0, t <> f_tab f -> cell (h_tabs h1) t = Some T0 -> cell (set_nth (h_tabs h1) (f_tab f) None) t = Some T0). { intros t T0 Ht. rewrite CT. destruct (Nat.eq_dec t (f_tab f)); [contradiction|auto]. }
  assert (TI : forall t T0, cell (set_nth (h_tabs h1) (f_tab f) None) t = Some T0 -> t <> f_tab f /\ cell (h_tabs h1) t = Some T0). { intros t T0. rewrite CT. destruct (Nat.eq_dec t (f_tab f)); [discriminate|auto]. }
  split; cbn [h_tabs h_cos h_flts h_rdrs h_nf h_nr].
  - intros a'. unfold upd. rewrite at_rem. destruct (Nat.eq_dec a' a); auto.
  - exact H2.
  - intros a' f' E. apply FO in E. destruct E as (_ & E & N1 & _). destruct (H3 a' f' E) as (T0 & E0). eauto.
  - intros b' r' t' E Ec. destruct (H4 b' r' t' E Ec) as (T0 & E0). exists T0. apply TO; auto. intros ->. eapply H7; eauto.
  - intros a1 a2 f1 f2 E E'. apply FO in E. apply FO in E'. apply H5; tauto.
  - exact H6.
  - intros a' b' f' r' E Er. apply FO in E. eapply H7; [apply E|exact Er].
  - intros a' b' f' T' c' E ET' Eb. apply FO in E. destruct E as (Ha & E & N1 & N2). apply TI in ET'. destruct ET' as (_ & ET'). destruct (H8 a' b' f' T' c' E ET' Eb) as (r' & t' & T2' & x' & X1 & X2 & X3 & X4 & X5 & X6).
    exists r', t', T2', x'. split; auto. split; auto. split; [apply TO; auto; intros ->; exact (H7 a b' f r' Ea X1 X2)|]. split; auto. split; auto. rewrite <- Q7; auto.
  - intros a' b' r' t' T2' c' E Ec ET' Ea'. apply TI in ET'. destruct ET' as (_ & ET'). destruct (H9 a' b' r' t' T2' c' E Ec ET' Ea') as (f' & T' & X1 & X2 & X3). destruct (Nat.eq_dec a' a) as [->|Ha].
    + exfalso. rewrite Ea in X1. apply some_inj in X1. subst f'. rewrite Q5 in X2. apply some_inj in X2. subst T'. rewrite EM in X3. discriminate.
    + exists f', T'. assert (X1' : at_key a' (rem a (h_flts h1)) = Some f') by (rewrite at_rem_other; auto). split; auto. apply FO in X1'. split; auto. apply TO; tauto.
  - intros c o Eo. destruct (H10 c o Eo) as (f' & T' & X1 & X2 & X3). destruct (Nat.eq_dec (c_ref1 o) a) as [Ha|Ha].
    + exfalso. rewrite Ha, Ea in X1. apply some_inj in X1. subst f'. rewrite Q5 in X2. apply some_inj in X2. subst T'. rewrite EM in X3. discriminate.
    + exists f', T'. assert (X1' : at_key (c_ref1 o) (rem a (h_flts h1)) = Some f') by (rewrite at_rem_other; auto). split; auto. apply FO in X1'. split; auto. apply TO; tauto.
  - intros a' b' f' r' T' E Er ET' Eb. apply FO in E. destruct E as (Ha & E & N1 & N2). apply TI in ET'. rewrite <- Q7 by auto. eapply H11; eauto. tauto.
  - intros a' f' E. apply FO in E. eapply H12. apply E.
  - exact H13.
  - intros g q x Hx. rewrite Q3, Q4. eapply N3; eauto.
  - intros t T' E. apply TI in E. destruct E as (Ht & E). destruct (H15 t T' E) as [(a' & f' & X1 & X2)|X]; auto. left. exists a', f'. split; auto. rewrite at_rem_other; auto. intros ->. congruence.
Qed.
Lemma close_ok h F R m b r : inv h F R m -> at_key b (h_rdrs h) = Some r -> exists h', close_reader h b = Some h' /\ inv h' F (upd R b None) m /\ h_nf h' = h_nf h /\ h_nr h' = h_nr h.
Proof.
  intros I Er. unfold close_reader. rewrite Er. cbn [obind]. destruct (r_cache r) as [t2|] eqn:Ec.
  - destruct (i_T2 _ _ _ _ I b r t2 Er Ec) as (T & ET). unfold h_destroy. rewrite ET. cbn [obind].
    destruct (clear_reader b r t2 T h F R m T I Er Ec ET) as (h1 & m1 & T1 & E1 & Q1 & Q2 & Q3 & Q4 & I1 & Q5 & Q6 & Q7). rewrite E1. cbn [obind]. eexists. split; [reflexivity|]. unfold set_tab. cbn [h_tabs h_cos h_flts h_rdrs h_nf h_nr]. split; [|auto].
    assert (EM : forall k, at_key k T1 = None). { intros k. destruct (at_key k T1) as [c|] eqn:E; auto. destruct (Q6 k c E) as (A & B). exfalso. apply B. eapply at_in; eauto. }
    assert (L : t2 < length (h_tabs h1)) by (eapply cell_lt; eauto). rewrite <- Q2 in Er. pose proof (i_N3 _ _ _ _ I) as N3. clear E1 Q6 I ET.
    assert (CT : forall t, cell (set_nth (h_tabs h1) t2 None) t = if Nat.eq_dec t t2 then None else cell (h_tabs h1) t) by (intros t; apply cell_set; auto).
    destruct I1 as [H1 H2 H3 H4 H5 H6 H7 H8 H9 H10 H11 H12 H13 H14 H15].
    assert (RO : forall b' r', at_key b' (rem b (h_rdrs h1)) = Some r' -> b' <> b /\ at_key b' (h_rdrs h1) = Some r' /\ r_cache r' <> Some t2 /\ r_id r' <> r_id r).
    { intros b' r'. rewrite at_rem. destruct (Nat.eq_dec b' b) as [|Hb]; [discriminate|]. intros E. split; auto. split; auto. split; intros K; apply Hb; eapply H6; eauto. left. split; congruence. }
    assert (TO : forall t T0, t <> t2 -> cell (h_tabs h1) t = Some T0 -> cell (set_nth (h_tabs h1) t2 None) t = Some T0). { intros t T0 Ht. rewrite CT. destruct (Nat.eq_dec t t2); [contradiction|auto]. }
    assert (TI : forall t T0, cell (set_nth (h_tabs h1) t2 None) t = Some T0 -> t <> t2 /\ cell (h_tabs h1) t = Some T0). { intros t T0. rewrite CT. destruct (Nat.eq_dec t t2); [discriminate|auto]. }
    assert (FT : forall a f, at_key a (h_flts h1) = Some f -> f_tab f <> t2). { intros a f E K. apply (H7 a b f r E Er). congruence. }
    (* no filter has bits for the reader any more *)
    assert (NB : forall a f T', at_key a (h_flts h1) = Some f -> cell (h_tabs h1) (f_tab f) = Some T' -> at_key b T' = None).
    { intros a f T' E ET'. destruct (at_key b T') as [c|] eqn:Eb; auto. destruct (H8 a b f T' c E ET' Eb) as (r' & t' & T2' & x' & X1 & X2 & X3 & X4 & _). rewrite Er in X1. apply some_inj in X1. subst r'. rewrite Ec in X2. apply some_inj in X2. subst t'. rewrite Q5 in X3. apply some_inj in X3. subst T2'. rewrite EM in X4. discriminate. }
    split; cbn [h_tabs h_cos h_flts h_rdrs h_nf h_nr]; auto.
    + intros b'. unfold upd. rewrite at_rem. destruct (Nat.eq_dec b' b); auto.
    + intros a' f' E. destruct (H3 a' f' E) as (T0 & E0). exists T0. apply TO; eauto.
    + intros b' r' t' E E'. apply RO in E. destruct E as (_ & E & N1 & _). destruct (H4 b' r' t' E E') as (T0 & E0). exists T0. apply TO; auto. congruence.
    + intros b1 b2 r1 r2 E E'. apply RO in E. apply RO in E'. apply H6; tauto.
    + intros a' b' f' r' E E'. apply RO in E'. eapply H7; eauto. apply E'.
    + intros a' b' f' T' c' E ET' Eb. apply TI in ET'. destruct ET' as (_ & ET'). assert (Hb : b' <> b) by (intros ->; rewrite (NB a' f' T' E ET') in Eb; discriminate). destruct (H8 a' b' f' T' c' E ET' Eb) as (r' & t' & T2' & x' & X1 & X2 & X3 & X4 & X5 & X6).
      assert (X1' : at_key b' (rem b (h_rdrs h1)) = Some r') by (rewrite at_rem_other; auto). exists r', t', T2', x'. split; auto. apply RO in X1'. split; auto. split; [apply TO; auto; intros ->; tauto|]. split; auto. split; auto. rewrite <- Q7; tauto.
    + intros a' b' r' t' T2' c' E E' ET' Ea'. apply RO in E. apply TI in ET'. destruct (H9 a' b' r' t' T2' c') as (f' & T' & X1 & X2 & X3); try tauto. exists f', T'. split; auto. split; auto. apply TO; eauto.
    + intros c o Eo. destruct (H10 c o Eo) as (f' & T' & X1 & X2 & X3). exists f', T'. split; auto. split; auto. apply TO; eauto.
    + intros a' b' f' r' T' E E' ET' Eb. apply RO in E'. apply TI in ET'. rewrite <- Q7 by tauto. eapply H11; eauto; tauto.
    + intros b' r' E. apply RO in E. eapply H13. apply E.
    + intros g q x Hx. rewrite Q3, Q4. eapply N3; eauto.
    + intros t T' E. apply TI in E. destruct E as (Ht & E). destruct (H15 t T' E) as [X|(b' & r' & X1 & X2)]; auto. right. exists b', r'. split; auto. rewrite at_rem_other; auto. intros ->. congruence.
  - cbn [obind]. eexists. split; [reflexivity|]. cbn [h_nf h_nr]. split; [|auto]. destruct I as [H1 H2 H3 H4 H5 H6 H7 H8 H9 H10 H11 H12 H13 H14 H15].
    assert (RO : forall b' r', at_key b' (rem b (h_rdrs h)) = Some r' -> at_key b' (h_rdrs h) = Some r'). { intros b' r'. rewrite at_rem. destruct (Nat.eq_dec b' b); [discriminate|auto]. }
    split; cbn [h_tabs h_cos h_flts h_rdrs h_nf h_nr]; eauto.
    + intros b'. unfold upd. rewrite at_rem. destruct (Nat.eq_dec b' b); auto.
    + intros a' b' f' T' c' E ET' Eb. destruct (H8 a' b' f' T' c' E ET' Eb) as (r' & t' & T2' & x' & X1 & X2 & X). exists r', t', T2', x'. split; auto. rewrite at_rem_other; auto. intros ->. congruence.
    + intros t T' E. destruct (H15 t T' E) as [X|(b' & r' & X1 & X2)]; auto. right. exists b', r'. split; auto. rewrite at_rem_other; auto. intros ->. congruence.
Qed.
(* tables and readers: a reader gets its table, a filter is made *)
Lemma cache_ok h F R m b r : inv h F R m -> at_key b (h_rdrs h) = Some r -> r_cache r = None ->
  inv (set_rdr (snd (co_hash_create h)) b (mkR (r_id r) (Some (length (h_tabs h))) (r_dels r))) F R m.
Proof.
  intros [H1 H2 H3 H4 H5 H6 H7 H8 H9 H10 H11 H12 H13 H14 H15] Er Ec. unfold set_rdr, co_hash_create. cbn [snd h_tabs h_cos h_flts h_rdrs h_nf h_nr].
  set (r0 := mkR (r_id r) (Some (length (h_tabs h))) (r_dels r)).
  assert (RO : forall b' r', at_key b' ((b, r0) :: rem b (h_rdrs h)) = Some r' -> b' = b /\ r' = r0 \/ b' <> b /\ at_key b' (h_rdrs h) = Some r'). { intros b' r'. rewrite at_put. destruct (Nat.eq_dec b' b); [intros E; apply some_inj in E; auto|auto]. }
  assert (RK : forall b' r' t', at_key b' (h_rdrs h) = Some r' -> r_cache r' = Some t' -> at_key b' ((b, r0) :: rem b (h_rdrs h)) = Some r'). { intros b' r' t' E E'. rewrite at_put. destruct (Nat.eq_dec b' b) as [->|]; auto. congruence. }
  assert (KC : forall t T, cell (h_tabs h) t = Some T -> cell (h_tabs h ++ [Some []]) t = Some T) by (intros; apply cell_keep; auto).
  assert (FT : forall a f, at_key a (h_flts h) = Some f -> f_tab f <> length (h_tabs h)). { intros a f E K. destruct (H3 a f E) as (T & ET). apply cell_lt in ET. lia. }
  assert (RT : forall b' r' t', at_key b' (h_rdrs h) = Some r' -> r_cache r' = Some t' -> t' <> length (h_tabs h)). { intros b' r' t' E E' K. destruct (H4 b' r' t' E E') as (T & ET). apply cell_lt in ET. lia. }
  assert (CI : forall t T, t <> length (h_tabs h) -> cell (h_tabs h ++ [Some []]) t = Some T -> cell (h_tabs h) t = Some T) by (intros t T Ht; rewrite cell_old; auto).
  split; cbn [h_tabs h_cos h_flts h_rdrs h_nf h_nr]; auto.
  - intros b'. rewrite at_put, H2. destruct (Nat.eq_dec b' b) as [->|]; auto. rewrite Er. reflexivity.
  - intros a f E. destruct (H3 a f E) as (T & ET). eauto.
  - intros b' r' t' E E'. destruct (RO b' r' E) as [(-> & ->)|(Hb & E2)]; [cbn in E'; apply some_inj in E'; subst t'; exists []; apply cell_new|]. destruct (H4 b' r' t' E2 E') as (T & ET). eauto.
  - intros b1 b2 r1 r2 E E' K. destruct (RO _ _ E) as [(-> & ->)|(Hb & E1)], (RO _ _ E') as [(-> & ->)|(Hb' & E2)]; auto; cbn [r_cache r_id r0] in K.
    + exfalso. destruct K as [(K & _)|K]; [symmetry in K; eapply RT; eauto|]. apply Hb'. eapply H6; eauto.
    + exfalso. destruct K as [(K & _)|K]; [eapply RT; eauto|]. apply Hb. eapply H6; eauto.
    + eapply H6; eauto.
  - intros a b' f r' E E'. destruct (RO _ _ E') as [(-> & ->)|(Hb & E2)]; [cbn; intros K; apply some_inj in K; symmetry in K; eapply FT; eauto|eapply H7; eauto].
  - intros a b' f T c E ET Eb. apply CI in ET; [|eauto]. destruct (H8 a b' f T c E ET Eb) as (r' & t' & T2' & x' & X1 & X2 & X3 & X). exists r', t', T2', x'. split; eauto.
  - intros a b' r' t' T2' c E E' ET Ea. destruct (RO _ _ E) as [(-> & ->)|(Hb & E2)]; [cbn in E'; apply some_inj in E'; subst t'; rewrite cell_new in ET; apply some_inj in ET; subst T2'; discriminate|]. apply CI in ET; [|eauto].
    destruct (H9 a b' r' t' T2' c E2 E' ET Ea) as (f & T & X1 & X2 & X3). exists f, T. eauto.
  - intros c o Eo. destruct (H10 c o Eo) as (f & T & X1 & X2 & X3). exists f, T. eauto.
  - intros a b' f r' T E E' ET Eb. apply CI in ET; [|eauto]. destruct (RO _ _ E') as [(-> & ->)|(Hb & E2)]; [cbn; eapply H11; eauto|eapply H11; eauto].
  - intros b' r' E. destruct (RO _ _ E) as [(-> & ->)|(Hb & E2)]; [cbn; eauto|eauto].
  - intros t T E. apply cell_inv in E. destruct E as [(-> & ->)|(Ht & E)]; [right; exists b, r0; rewrite at_put; destruct (Nat.eq_dec b b); [auto|congruence]|]. destruct (H15 t T E) as [X|(b' & r' & X1 & X2)]; auto. right. exists b', r'. eauto.
Qed.
Lemma create_ok h F R m a b f r t2 T T2 x : inv h F R m -> at_key a (h_flts h) = Some f -> at_key b (h_rdrs h) = Some r -> r_cache r = Some t2 -> cell (h_tabs h) (f_tab f) = Some T -> cell (h_tabs h) t2 = Some T2 -> at_key b T = None ->
  exists h', co_create h (f_tab f) t2 a b x = Some (length (h_cos h), h') /\ cell (h_cos h') (length (h_cos h)) = Some (mkCo (f_tab f) t2 a b x) /\ inv h' F R (learn m (f_id f) (r_id r) x) /\ h_nf h' = h_nf h /\ h_nr h' = h_nr h.
Proof.
  intros I Ea Er Ec ET ET2 Eb. assert (Ea2 : at_key a T2 = None). { destruct (at_key a T2) as [c|] eqn:E; auto. destruct (i_L2 _ _ _ _ I a b r t2 T2 c Er Ec ET2 E) as (f' & T' & X1 & X2 & X3). congruence. }
  assert (Em : m (f_id f) (r_id r) = None) by (eapply (i_M _ _ _ _ I); eauto).
  assert (Ne : t2 <> f_tab f). { intros K. apply (i_D3 _ _ _ _ I a b f r Ea Er). congruence. }
  assert (L1 : f_tab f < length (h_tabs h)) by (eapply cell_lt; eauto). assert (L2 : t2 < length (h_tabs h)) by (eapply cell_lt; eauto).
  set (c := length (h_cos h)). unfold co_create. fold c. unfold h_set at 1. cbn [h_tabs]. rewrite ET. cbn [obind]. rewrite Eb. cbn [obind h_tabs]. rewrite ET. cbn [obind]. unfold h_set, set_tab. cbn [h_tabs h_cos h_flts h_rdrs h_nf h_nr].
  rewrite (cell_other _ (f_tab f) t2) by auto. rewrite ET2. cbn [obind]. rewrite Ea2. cbn [obind h_tabs]. rewrite (cell_other _ (f_tab f) t2) by auto. rewrite ET2. cbn [obind h_tabs h_cos h_flts h_rdrs h_nf h_nr].
  eexists. split; [reflexivity|]. cbn [h_tabs h_cos h_flts h_rdrs h_nf h_nr]. split; [apply cell_new|]. split; [|auto]. set (o := mkCo (f_tab f) t2 a b x). set (T' := (b, c) :: rem b T). set (T2' := (a, c) :: rem a T2).
  set (tabs' := set_nth (set_nth (h_tabs h) (f_tab f) (Some T')) t2 (Some T2')).
  assert (CT : forall t, cell tabs' t = if Nat.eq_dec t (f_tab f) then Some T' else if Nat.eq_dec t t2 then Some T2' else cell (h_tabs h) t).
  { intros t. unfold tabs'. rewrite cell_set by (rewrite set_length; auto). rewrite cell_set by auto. destruct (Nat.eq_dec t t2), (Nat.eq_dec t (f_tab f)); auto. congruence. }
  assert (TF : forall a' f' U, at_key a' (h_flts h) = Some f' -> cell tabs' (f_tab f') = Some U -> exists T0, cell (h_tabs h) (f_tab f') = Some T0 /\ forall k, at_key k U = if Nat.eq_dec a' a then if Nat.eq_dec k b then Some c else at_key k T0 else at_key k T0).
  { intros a' f' U E'. rewrite CT. destruct (Nat.eq_dec a' a) as [->|Ha].
    - rewrite Ea in E'. apply some_inj in E'. subst f'. destruct (Nat.eq_dec (f_tab f) (f_tab f)); [|congruence]. intros K. apply some_inj in K. subst U. exists T. split; auto. intros k. apply at_put.
    - destruct (Nat.eq_dec (f_tab f') (f_tab f)) as [K|K]; [exfalso; apply Ha; eapply (i_D1 _ _ _ _ I); eauto|]. destruct (Nat.eq_dec (f_tab f') t2) as [K'|K']; [exfalso; apply (i_D3 _ _ _ _ I a' b f' r E' Er); congruence|]. intros K2. exists U. auto. }
  assert (TR : forall b' r' t' U, at_key b' (h_rdrs h) = Some r' -> r_cache r' = Some t' -> cell tabs' t' = Some U -> exists T0, cell (h_tabs h) t' = Some T0 /\ forall k, at_key k U = if Nat.eq_dec b' b then if Nat.eq_dec k a then Some c else at_key k T0 else at_key k T0).
  { intros b' r' t' U E' Ec'. rewrite CT. destruct (Nat.eq_dec t' (f_tab f)) as [K|_]; [exfalso; apply (i_D3 _ _ _ _ I a b' f r' Ea E'); congruence|]. destruct (Nat.eq_dec b' b) as [->|Hb].
    - rewrite Er in E'. apply some_inj in E'. subst r'. assert (t' = t2) by congruence. subst t'. destruct (Nat.eq_dec t2 t2); [|congruence]. intros K. apply some_inj in K. subst U. exists T2. split; auto. intros k. apply at_put.
    - destruct (Nat.eq_dec t' t2) as [K|K]; [exfalso; apply Hb; eapply (i_D2 _ _ _ _ I); eauto; left; split; congruence|]. intros K2. exists U. auto. }
  assert (TX : forall t T0, cell (h_tabs h) t = Some T0 -> exists U, cell tabs' t = Some U). { intros t T0 E. rewrite CT. destruct (Nat.eq_dec t (f_tab f)); eauto. destruct (Nat.eq_dec t t2); eauto. }
  assert (XF : forall a' f' k T0 d, at_key a' (h_flts h) = Some f' -> cell (h_tabs h) (f_tab f') = Some T0 -> at_key k T0 = Some d -> exists U, cell tabs' (f_tab f') = Some U /\ at_key k U = Some d).
  { intros a' f' k T0 d E E0 Ek. destruct (TX _ _ E0) as (U & EU). exists U. split; auto. destruct (TF a' f' U E EU) as (T1 & Q1 & Q2). rewrite E0 in Q1. apply some_inj in Q1. subst T1. rewrite Q2. destruct (Nat.eq_dec a' a) as [->|]; auto. destruct (Nat.eq_dec k b) as [->|]; auto. congruence. }
  destruct I as [H1 H2 H3 H4 H5 H6 H7 H8 H9 H10 H11 H12 H13 H14 H15]. split; cbn [h_tabs h_cos h_flts h_rdrs h_nf h_nr]; auto.
  - intros a' f' E'. destruct (H3 a' f' E') as (T0 & E0). eauto.
  - intros b' r' t' E' Ec'. destruct (H4 b' r' t' E' Ec') as (T0 & E0). eauto.
  - intros a' b' f' U d E' EU Eb'. destruct (TF a' f' U E' EU) as (T0 & E0 & K0). rewrite K0 in Eb'.
    assert (P : (a' = a /\ b' = b /\ d = c) \/ (~ (a' = a /\ b' = b) /\ at_key b' T0 = Some d)).
    { destruct (Nat.eq_dec a' a) as [->|Ha]; [|right; split; [tauto|auto]]. destruct (Nat.eq_dec b' b) as [->|Hb]; [left; apply some_inj in Eb'; auto|right; split; [tauto|auto]]. }
    destruct P as [(-> & -> & ->)|(P & P0)].
    + rewrite Ea in E'. apply some_inj in E'. subst f'. exists r, t2, T2', x. split; auto. split; auto. split; [rewrite CT; destruct (Nat.eq_dec t2 (f_tab f)); [contradiction|]; destruct (Nat.eq_dec t2 t2); congruence|].
      split; [unfold T2'; rewrite at_put; destruct (Nat.eq_dec a a); congruence|]. split; [apply cell_new|]. unfold learn. destruct (Nat.eq_dec (f_id f) (f_id f)); [|congruence]. destruct (Nat.eq_dec (r_id r) (r_id r)); congruence.
    + destruct (H8 a' b' f' T0 d E' E0 P0) as (r' & t' & T3 & x' & Q1 & Q2 & Q3 & Q4 & Q5 & Q6). destruct (TX t' T3 Q3) as (U2 & EU2). destruct (TR b' r' t' U2 Q1 Q2 EU2) as (T4 & Q7 & Q8). rewrite Q3 in Q7. apply some_inj in Q7. subst T4.
      exists r', t', U2, x'. split; auto. split; auto. split; auto. split; [rewrite Q8; destruct (Nat.eq_dec b' b) as [->|]; auto; destruct (Nat.eq_dec a' a) as [->|]; auto; exfalso; apply P; auto|]. split; [apply cell_keep; auto|].
      unfold learn. destruct (Nat.eq_dec (f_id f') (f_id f)) as [K|]; auto. destruct (Nat.eq_dec (r_id r') (r_id r)) as [K'|]; auto. exfalso. apply P. split; [eapply H5; eauto|eapply H6; eauto].
  - intros a' b' r' t' U d E' Ec' EU Ea'. destruct (TR b' r' t' U E' Ec' EU) as (T0 & E0 & K0). rewrite K0 in Ea'.
    assert (P : (a' = a /\ b' = b /\ d = c) \/ at_key a' T0 = Some d).
    { destruct (Nat.eq_dec b' b) as [->|Hb]; [|right; auto]. destruct (Nat.eq_dec a' a) as [->|Ha]; [left; apply some_inj in Ea'; auto|right; auto]. }
    destruct P as [(-> & -> & ->)|P0].
    + exists f, T'. split; auto. split; [rewrite CT; destruct (Nat.eq_dec (f_tab f) (f_tab f)); congruence|]. unfold T'. rewrite at_put. destruct (Nat.eq_dec b b); congruence.
    + destruct (H9 a' b' r' t' T0 d E' Ec' E0 P0) as (f' & T1 & Q1 & Q2 & Q3). destruct (XF a' f' b' T1 d Q1 Q2 Q3) as (U1 & U2 & U3). exists f', U1. auto.
  - intros d q Eo. apply cell_inv in Eo. destruct Eo as [(-> & ->)|(Hd & Eo)].
    + exists f, T'. change (c_ref1 o) with a. change (c_ref2 o) with b. fold c. split; auto. split; [rewrite CT; destruct (Nat.eq_dec (f_tab f) (f_tab f)); congruence|]. unfold T'. rewrite at_put. destruct (Nat.eq_dec b b); congruence.
    + destruct (H10 d q Eo) as (f' & T1 & Q1 & Q2 & Q3). destruct (XF _ f' _ T1 d Q1 Q2 Q3) as (U1 & U2 & U3). exists f', U1. auto.
  - intros a' b' f' r' U E' Er' EU Eb'. destruct (TF a' f' U E' EU) as (T0 & E0 & K0). rewrite K0 in Eb'. unfold learn.
    assert (P : ~ (a' = a /\ b' = b) /\ at_key b' T0 = None). { destruct (Nat.eq_dec a' a) as [->|]; [|split; [tauto|auto]]. destruct (Nat.eq_dec b' b); [discriminate|]. split; [tauto|auto]. }
    destruct P as (P & P0). destruct (Nat.eq_dec (f_id f') (f_id f)) as [K|]; [|eapply H11; eauto]. destruct (Nat.eq_dec (r_id r') (r_id r)) as [K'|]; [|eapply H11; eauto]. exfalso. apply P. split; [eapply H5; eauto|eapply H6; eauto].
  - intros g q y. unfold learn. destruct (Nat.eq_dec g (f_id f)) as [->|]; [|apply H14]. destruct (Nat.eq_dec q (r_id r)) as [->|]; [|apply H14]. intros _. split; eauto.
  - intros t U E. rewrite CT in E. destruct (Nat.eq_dec t (f_tab f)) as [->|]; [left; eauto|]. destruct (Nat.eq_dec t t2) as [->|]; [right; eauto|]. eauto.
Qed.
Lemma bits_ok h F R m a b f r : inv h F R m -> at_key a (h_flts h) = Some f -> at_key b (h_rdrs h) = Some r ->
  exists h', h_nf h' = h_nf h /\ h_nr h' = h_nr h /\ match m (f_id f) (r_id r) with
  | Some x => filt_get_bv bits h a b = Some (x, h') /\ inv h' F R m
  | None => filt_get_bv bits h a b = Some (bits (f_id f) (r_id r) (r_dels r), h') /\ inv h' F R (learn m (f_id f) (r_id r) (bits (f_id f) (r_id r) (r_dels r)))
  end.
Proof.
  intros I Ea Er. unfold filt_get_bv. rewrite Ea, Er. cbn [obind]. destruct (i_T1 _ _ _ _ I a f Ea) as (T & ET). rewrite ET. cbn [obind]. destruct (at_key b T) as [c|] eqn:Eb.
  - destruct (i_L1 _ _ _ _ I a b f T c Ea ET Eb) as (r' & t2 & T2 & x & Er' & Ec & ET2 & Ea2 & Eo & Em). rewrite Er in Er'. apply some_inj in Er'. subst r'. rewrite Em. cbn [obind fst snd]. rewrite Eo. cbn [obind c_obj]. exists h. auto.
  - rewrite (i_M _ _ _ _ I a b f r T Ea Er ET Eb). destruct (r_cache r) as [t2|] eqn:Ec.
    + destruct (i_T2 _ _ _ _ I b r t2 Er Ec) as (T2 & ET2). destruct (create_ok h F R m a b f r t2 T T2 (bits (f_id f) (r_id r) (r_dels r)) I Ea Er Ec ET ET2 Eb) as (h' & E1 & E2 & I' & N1 & N2). rewrite E1. cbn [obind fst snd]. rewrite E2. cbn [obind c_obj]. exists h'. auto.
    + cbn [co_hash_create]. pose proof (cache_ok h F R m b r I Er Ec) as I1. unfold co_hash_create in I1. cbn [snd] in I1. set (r0 := mkR (r_id r) (Some (length (h_tabs h))) (r_dels r)) in *.
      match type of I1 with inv ?x _ _ _ => set (h1 := x) in * end.
      destruct (create_ok h1 F R m a b f r0 (length (h_tabs h)) T [] (bits (f_id f) (r_id r) (r_dels r)) I1) as (h' & E1 & E2 & I' & N1 & N2); auto.
      * unfold h1, set_rdr. cbn [h_rdrs]. rewrite at_put. destruct (Nat.eq_dec b b); congruence.
      * unfold h1, set_rdr. cbn [h_tabs]. apply cell_keep. auto.
      * unfold h1, set_rdr. cbn [h_tabs]. apply cell_new.
      * rewrite E1. cbn [obind fst snd]. rewrite E2. cbn [obind c_obj]. exists h'. auto.
Qed.
Lemma new_filter_ok h F R m a : inv h F R m -> F a = None -> inv (new_filter h a) (upd F a (Some (h_nf h))) R m.
Proof.
  intros [H1 H2 H3 H4 H5 H6 H7 H8 H9 H10 H11 H12 H13 H14 H15] Fa. assert (Ea : at_key a (h_flts h) = None). { rewrite H1 in Fa. destruct (at_key a (h_flts h)); [discriminate|auto]. }
  unfold new_filter, co_hash_create. cbn [h_tabs h_cos h_flts h_rdrs h_nf h_nr]. set (f0 := mkF (h_nf h) (length (h_tabs h))).
  assert (FO : forall a' f', at_key a' ((a, f0) :: rem a (h_flts h)) = Some f' -> a' = a /\ f' = f0 \/ a' <> a /\ at_key a' (h_flts h) = Some f'). { intros a' f'. rewrite at_put. destruct (Nat.eq_dec a' a); [intros E; apply some_inj in E; auto|auto]. }
  assert (FK : forall a' f', at_key a' (h_flts h) = Some f' -> at_key a' ((a, f0) :: rem a (h_flts h)) = Some f'). { intros a' f' E. rewrite at_put. destruct (Nat.eq_dec a' a) as [->|]; auto. congruence. }
  assert (KC : forall t T, cell (h_tabs h) t = Some T -> cell (h_tabs h ++ [Some []]) t = Some T) by (intros; apply cell_keep; auto).
  assert (FT : forall a f, at_key a (h_flts h) = Some f -> f_tab f <> length (h_tabs h)). { intros a1 f E K. destruct (H3 a1 f E) as (T & ET). apply cell_lt in ET. lia. }
  assert (RT : forall b' r' t', at_key b' (h_rdrs h) = Some r' -> r_cache r' = Some t' -> t' <> length (h_tabs h)). { intros b' r' t' E E' K. destruct (H4 b' r' t' E E') as (T & ET). apply cell_lt in ET. lia. }
  assert (CI : forall t T, t <> length (h_tabs h) -> cell (h_tabs h ++ [Some []]) t = Some T -> cell (h_tabs h) t = Some T) by (intros t T Ht; rewrite cell_old; auto).
  split; cbn [h_tabs h_cos h_flts h_rdrs h_nf h_nr]; auto.
  - intros a'. unfold upd. rewrite at_put. destruct (Nat.eq_dec a' a); auto.
  - intros a' f' E. destruct (FO _ _ E) as [(-> & ->)|(Ha & E2)]; [exists []; apply cell_new|]. destruct (H3 _ _ E2) as (T & ET). eauto.
  - intros b' r' t' E E'. destruct (H4 _ _ _ E E') as (T & ET). eauto.
  - intros a1 a2 f1 f2 E E' K. destruct (FO _ _ E) as [(-> & ->)|(Ha & E1)], (FO _ _ E') as [(-> & ->)|(Ha' & E2)]; auto; cbn [f_tab f_id f0] in K.
    + exfalso. destruct K as [K|K]; [eapply FT; eauto|]. specialize (H12 _ _ E2). lia.
    + exfalso. destruct K as [K|K]; [eapply FT; eauto|]. specialize (H12 _ _ E1). lia.
    + eapply H5; eauto.
  - intros a' b' f' r' E E'. destruct (FO _ _ E) as [(-> & ->)|(Ha & E2)]; [cbn; intros K; eapply RT; eauto|eapply H7; eauto].
  - intros a' b' f' T c E ET Eb. destruct (FO _ _ E) as [(-> & ->)|(Ha & E2)]; [cbn in ET; rewrite cell_new in ET; apply some_inj in ET; subst T; discriminate|]. apply CI in ET; [|eauto]. destruct (H8 a' b' f' T c E2 ET Eb) as (r' & t' & T2' & x' & X1 & X2 & X3 & X). exists r', t', T2', x'. split; eauto.
  - intros a' b' r' t' T2' c E E' ET Eb. apply CI in ET; [|eauto]. destruct (H9 a' b' r' t' T2' c E E' ET Eb) as (f & T & X1 & X2 & X3). exists f, T. split; [auto|]. split; auto.
  - intros c o Eo. destruct (H10 c o Eo) as (f & T & X1 & X2 & X3). exists f, T. split; [auto|]. split; auto.
  - intros a' b' f' r' T E E' ET Eb. destruct (FO _ _ E) as [(-> & ->)|(Ha & E2)].
    + cbn [f_id f0]. destruct (m (h_nf h) (r_id r')) as [y|] eqn:Em; auto. apply H14 in Em. lia.
    + apply CI in ET; [|eauto]. eapply H11; eauto.
  - intros a' f' E. destruct (FO _ _ E) as [(-> & ->)|(Ha & E2)]; [cbn; lia|]. specialize (H12 _ _ E2). lia.
  - intros g q y Hy. specialize (H14 _ _ _ Hy). lia.
  - intros t T E. apply cell_inv in E. destruct E as [(-> & ->)|(Ht & E)]; [left; exists a, f0; rewrite at_put; destruct (Nat.eq_dec a a); [auto|congruence]|]. destruct (H15 t T E) as [(a' & f' & X1 & X2)|X]; auto. left. exists a', f'. auto.
Qed.
Lemma new_reader_ok h F R m b : inv h F R m -> R b = None -> inv (new_reader h b) F (upd R b (Some (h_nr h, 0))) m.
Proof.
  intros [H1 H2 H3 H4 H5 H6 H7 H8 H9 H10 H11 H12 H13 H14 H15] Rb. assert (Eb : at_key b (h_rdrs h) = None). { rewrite H2 in Rb. destruct (at_key b (h_rdrs h)); [discriminate|auto]. }
  unfold new_reader. set (r0 := mkR (h_nr h) None 0).
  assert (RO : forall b' r', at_key b' ((b, r0) :: rem b (h_rdrs h)) = Some r' -> b' = b /\ r' = r0 \/ b' <> b /\ at_key b' (h_rdrs h) = Some r'). { intros b' r'. rewrite at_put. destruct (Nat.eq_dec b' b); [intros E; apply some_inj in E; auto|auto]. }
  assert (RK : forall b' r', at_key b' (h_rdrs h) = Some r' -> at_key b' ((b, r0) :: rem b (h_rdrs h)) = Some r'). { intros b' r' E. rewrite at_put. destruct (Nat.eq_dec b' b) as [->|]; auto. congruence. }
  split; cbn [h_tabs h_cos h_flts h_rdrs h_nf h_nr]; auto.
  - intros b'. unfold upd. rewrite at_put. destruct (Nat.eq_dec b' b); auto.
  - intros b' r' t' E E'. destruct (RO _ _ E) as [(-> & ->)|(Hb & E2)]; [discriminate|eauto].
  - intros b1 b2 r1 r2 E E' K. destruct (RO _ _ E) as [(-> & ->)|(Hb & E1)], (RO _ _ E') as [(-> & ->)|(Hb' & E2)]; auto; cbn [r_cache r_id r0] in K.
    + exfalso. destruct K as [(_ & K)|K]; [congruence|]. specialize (H13 _ _ E2). lia.
    + exfalso. destruct K as [(K1 & K)|K]; [congruence|]. specialize (H13 _ _ E1). lia.
    + eapply H6; eauto.
  - intros a b' f r' E E'. destruct (RO _ _ E') as [(-> & ->)|(Hb & E2)]; [discriminate|eapply H7; eauto].
  - intros a b' f T c E ET Eb'. destruct (H8 a b' f T c E ET Eb') as (r' & t' & T2' & x' & X1 & X2 & X3 & X). exists r', t', T2', x'. split; auto.
  - intros a b' r' t' T2' c E E' ET Ea. destruct (RO _ _ E) as [(-> & ->)|(Hb & E2)]; [discriminate|eapply H9; eauto].
  - intros a b' f r' T E E' ET Ebb. destruct (RO _ _ E') as [(-> & ->)|(Hb & E2)]; [|eapply H11; eauto]. cbn [r_id r0]. destruct (m (f_id f) (h_nr h)) as [y|] eqn:Em; auto. apply H14 in Em. lia.
  - intros b' r' E. destruct (RO _ _ E) as [(-> & ->)|(Hb & E2)]; [cbn; lia|]. specialize (H13 _ _ E2). lia.
  - intros g q y Hy. specialize (H14 _ _ _ Hy). lia.
  - intros t T E. destruct (H15 t T E) as [X|(b' & r' & X1 & X2)]; auto. right. exists b', r'. auto.
Qed.
Lemma change_ok h F R m b r : inv h F R m -> at_key b (h_rdrs h) = Some r -> inv (set_rdr h b (mkR (r_id r) (r_cache r) (S (r_dels r)))) F (upd R b (Some (r_id r, S (r_dels r)))) m.
Proof.
  intros [H1 H2 H3 H4 H5 H6 H7 H8 H9 H10 H11 H12 H13 H14 H15] Er. unfold set_rdr. set (r0 := mkR (r_id r) (r_cache r) (S (r_dels r))).
  assert (RO : forall b' r', at_key b' ((b, r0) :: rem b (h_rdrs h)) = Some r' -> exists r1, at_key b' (h_rdrs h) = Some r1 /\ r_id r' = r_id r1 /\ r_cache r' = r_cache r1). { intros b' r'. rewrite at_put. destruct (Nat.eq_dec b' b) as [->|]; [intros E; apply some_inj in E; subst r'; exists r; auto|intros E; exists r'; auto]. }
  assert (RK : forall b' r1, at_key b' (h_rdrs h) = Some r1 -> exists r', at_key b' ((b, r0) :: rem b (h_rdrs h)) = Some r' /\ r_id r' = r_id r1 /\ r_cache r' = r_cache r1). { intros b' r1 E. rewrite at_put. destruct (Nat.eq_dec b' b) as [->|]; [exists r0; rewrite Er in E; apply some_inj in E; subst r1; auto|exists r1; auto]. }
  split; cbn [h_tabs h_cos h_flts h_rdrs h_nf h_nr]; auto.
  - intros b'. unfold upd. rewrite at_put. destruct (Nat.eq_dec b' b); auto.
  - intros b' r' t' E E'. destruct (RO _ _ E) as (r1 & X1 & X2 & X3). eapply H4; eauto. congruence.
  - intros b1 b2 r1 r2 E E' K. destruct (RO _ _ E) as (q1 & X1 & X2 & X3). destruct (RO _ _ E') as (q2 & Y1 & Y2 & Y3). eapply H6; eauto. rewrite <- X2, <- X3, <- Y2, <- Y3. auto.
  - intros a b' f r' E E'. destruct (RO _ _ E') as (r1 & X1 & X2 & X3). rewrite X3. eapply H7; eauto.
  - intros a b' f T c E ET Eb'. destruct (H8 a b' f T c E ET Eb') as (r' & t' & T2' & x' & X1 & X2 & X3 & X4 & X5 & X6). destruct (RK _ _ X1) as (r1 & Y1 & Y2 & Y3). exists r1, t', T2', x'. split; auto. split; [congruence|]. split; auto. split; auto. split; auto. congruence.
  - intros a b' r' t' T2' c E E' ET Ea. destruct (RO _ _ E) as (r1 & X1 & X2 & X3). eapply H9; eauto. congruence.
  - intros a b' f r' T E E' ET Ebb. destruct (RO _ _ E') as (r1 & X1 & X2 & X3). rewrite X2. eapply H11; eauto.
  - intros b' r' E. destruct (RO _ _ E) as (r1 & X1 & X2 & X3). rewrite X2. eauto.
  - intros t T E. destruct (H15 t T E) as [X|(b' & r' & X1 & X2)]; auto. right. destruct (RK _ _ X1) as (r1 & Y1 & Y2 & Y3). exists b', r1. split; auto. congruence.
Qed.
Definition agrees (h : heap) (s : known) : Prop := inv h (k_flts s) (k_rdrs s) (k_found s) /\ h_nf h = k_nf s /\ h_nr h = k_nr s.
Lemma inv_flt h F R m a g : inv h F R m -> F a = Some g -> exists f, at_key a (h_flts h) = Some f /\ f_id f = g.
Proof. intros I. rewrite (i_F _ _ _ _ I). destruct (at_key a (h_flts h)) as [f|]; [|discriminate]. cbn. intros E. apply some_inj in E. exists f. auto. Qed.
Lemma inv_rdr h F R m b q v : inv h F R m -> R b = Some (q, v) -> exists r, at_key b (h_rdrs h) = Some r /\ r_id r = q /\ r_dels r = v.
Proof. intros I. rewrite (i_R _ _ _ _ I). destruct (at_key b (h_rdrs h)) as [r|]; [|discriminate]. cbn. intros E. apply some_inj in E. exists r. split; auto. split; congruence. Qed.
Lemma step_ok h s o x s' : agrees h s -> does bits s o = Some (x, s') -> exists h', step bits h o = Some (x, h') /\ agrees h' s'.
Proof.
  intros (I & N1 & N2) D. destruct o; cbn [does] in D; cbn [step].
  - destruct (k_flts s a) eqn:E; [discriminate|]. apply some_inj in D. inversion D. subst x s'. eexists. split; [reflexivity|]. split; [|cbn; auto]. rewrite <- N1. apply new_filter_ok; auto.
  - destruct (k_rdrs s b) eqn:E; [discriminate|]. apply some_inj in D. inversion D. subst x s'. eexists. split; [reflexivity|]. split; [|cbn; auto]. rewrite <- N2. apply new_reader_ok; auto.
  - destruct (k_rdrs s b) as [[q v]|] eqn:E; [|discriminate]. apply some_inj in D. inversion D. subst x s'. destruct (inv_rdr _ _ _ _ _ _ _ I E) as (r & Er & <- & <-). unfold change. rewrite Er. cbn [obind]. eexists. split; [reflexivity|]. split; [|cbn; auto]. apply change_ok; auto.
  - destruct (k_flts s a) as [g|] eqn:E; [|discriminate]. destruct (k_rdrs s b) as [[q v]|] eqn:E'; [|discriminate]. destruct (inv_flt _ _ _ _ _ _ I E) as (f & Ef & <-). destruct (inv_rdr _ _ _ _ _ _ _ I E') as (r & Er & <- & <-).
    destruct (bits_ok h _ _ _ a b f r I Ef Er) as (h' & M1 & M2 & B). destruct (k_found s (f_id f) (r_id r)) as [y|]; destruct B as (B1 & B2); rewrite B1; cbn [obind fst snd]; apply some_inj in D; inversion D; subst x s'; exists h'; split; auto; split; auto; cbn; split; congruence.
  - destruct (k_flts s a) as [g|] eqn:E; [|discriminate]. apply some_inj in D. inversion D. subst x s'. destruct (inv_flt _ _ _ _ _ _ I E) as (f & Ef & <-). destruct (drop_ok h _ _ _ a f I Ef) as (h' & E1 & I' & M1 & M2). rewrite E1. cbn [obind]. exists h'. split; auto. split; auto. cbn. split; congruence.
  - destruct (k_rdrs s b) as [[q v]|] eqn:E; [|discriminate]. apply some_inj in D. inversion D. subst x s'. destruct (inv_rdr _ _ _ _ _ _ _ I E) as (r & Er & <- & <-). destruct (close_ok h _ _ _ b r I Er) as (h' & E1 & I' & M1 & M2). rewrite E1. cbn [obind]. exists h'. split; auto. split; auto. cbn. split; congruence.
Qed.
Lemma run_ok os : forall h s xs s', agrees h s -> does_all bits s os = Some (xs, s') -> exists h', run bits h os = Some (xs, h') /\ agrees h' s'.
Proof.
  induction os as [|o os IH]; intros h s xs s' A D; cbn [does_all] in D; cbn [run].
  - apply some_inj in D. inversion D. subst. exists h. auto.
  - destruct (does bits s o) as [[x s1]|] eqn:E; [|discriminate]. cbn [snd fst] in D. destruct (does_all bits s1 os) as [[ys s2]|] eqn:E2; [|discriminate]. cbn [fst snd] in D. apply some_inj in D. inversion D. subst. destruct (step_ok h s o x s1 A E) as (h1 & S1 & A1). rewrite S1. cbn [obind snd fst]. destruct (IH h1 s1 ys s' A1 E2) as (h2 & S2 & A2). rewrite S2. cbn [obind fst snd]. exists h2. auto.
Qed.
Lemma new_agrees : agrees new_heap nothing.
Proof.
  assert (C : forall A t (x : A), cell [] t = Some x -> False) by (intros A [|t] x; discriminate).
  split; [|cbn; auto]. split; cbn; try discriminate; auto; intros; exfalso; eauto.
Qed.
Lemma bits_run os xs s' : does_all bits nothing os = Some (xs, s') -> exists h', run bits new_heap os = Some (xs, h').
Proof. intros D. destruct (run_ok os _ _ _ _ new_agrees D) as (h' & E & _). exists h'. auto. Qed.

(* what is found are the bits of the filter for the reader, now or earlier *)
Definition sound (s : known) : Prop :=
  (forall f r x, k_found s f r = Some x -> r < k_nr s /\ exists w, x = bits f r w /\ forall b v, k_rdrs s b = Some (r, v) -> w <= v) /\
  (forall b r v, k_rdrs s b = Some (r, v) -> r < k_nr s) /\ (forall b b' r v v', k_rdrs s b = Some (r, v) -> k_rdrs s b' = Some (r, v') -> b = b').
Lemma sound_step s o x s' : sound s -> does bits s o = Some (x, s') -> sound s'.
Proof.
  intros (A & B & C) D. destruct o; cbn [does] in D.
  - destruct (k_flts s a); [discriminate|]. apply some_inj in D. inversion D. subst. split; auto.
  - destruct (k_rdrs s b) eqn:E; [discriminate|]. apply some_inj in D. inversion D. subst. unfold sound, upd. cbn [k_flts k_rdrs k_found k_nf k_nr]. split; [|split].
    + intros f r y Hy. destruct (A f r y Hy) as (L & w & Ew & K). split; [lia|]. exists w. split; auto. intros b' v. destruct (Nat.eq_dec b' b); [intros H; apply some_inj in H; inversion H; lia|apply K].
    + intros b' r v. destruct (Nat.eq_dec b' b); [intros H; apply some_inj in H; inversion H; lia|]. intros H. apply B in H. lia.
    + intros b1 b2 r v v'. destruct (Nat.eq_dec b1 b), (Nat.eq_dec b2 b); subst; auto; intros H H'.
      * apply some_inj in H. inversion H. subst. apply B in H'. lia.
      * apply some_inj in H'. inversion H'. subst. apply B in H. lia.
      * eapply C; eauto.
  - destruct (k_rdrs s b) as [[q w0]|] eqn:E; [|discriminate]. apply some_inj in D. inversion D. subst. unfold sound, upd. cbn [k_flts k_rdrs k_found k_nf k_nr]. split; [|split].
    + intros f r y Hy. destruct (A f r y Hy) as (L & w & Ew & K). split; auto. exists w. split; auto. intros b' v. destruct (Nat.eq_dec b' b) as [->|]; [|apply K]. intros H. apply some_inj in H. inversion H. subst. apply K in E. lia.
    + intros b' r v. destruct (Nat.eq_dec b' b); [|apply B]. intros H. apply some_inj in H. inversion H. subst. eapply B; eauto.
    + intros b1 b2 r v v'. destruct (Nat.eq_dec b1 b), (Nat.eq_dec b2 b); subst; auto; intros H H'.
      * apply some_inj in H. inversion H. subst. eapply C; eauto.
      * apply some_inj in H'. inversion H'. subst. eapply C; eauto.
      * eapply C; eauto.
  - destruct (k_flts s a) as [g|]; [|discriminate]. destruct (k_rdrs s b) as [[q w0]|] eqn:E; [|discriminate]. destruct (k_found s g q) as [y|] eqn:Ey; apply some_inj in D; inversion D; subst; [split; auto|]. unfold sound, learn. cbn [k_flts k_rdrs k_found k_nf k_nr]. split; auto.
    intros f r y. destruct (Nat.eq_dec f g) as [->|]; [|apply A]. destruct (Nat.eq_dec r q) as [->|]; [|apply A]. intros H. apply some_inj in H. subst y. split; [eauto|]. exists w0. split; auto. intros b' v H. assert (b' = b) by (eapply C; eauto). subst b'. rewrite E in H. apply some_inj in H. inversion H. lia.
  - destruct (k_flts s a); [|discriminate]. apply some_inj in D. inversion D. subst. split; auto.
  - destruct (k_rdrs s b) as [[q w0]|] eqn:E; [|discriminate]. apply some_inj in D. inversion D. subst. unfold sound, upd. cbn [k_flts k_rdrs k_found k_nf k_nr]. split; [|split].
    + intros f r y Hy. destruct (A f r y Hy) as (L & w & Ew & K). split; auto. exists w. split; auto. intros b' v. destruct (Nat.eq_dec b' b); [discriminate|apply K].
    + intros b' r v. destruct (Nat.eq_dec b' b); [discriminate|apply B].
    + intros b1 b2 r v v'. destruct (Nat.eq_dec b1 b); [discriminate|]. destruct (Nat.eq_dec b2 b); [discriminate|]. apply C.
Qed.
Lemma sound_run os : forall s xs s', sound s -> does_all bits s os = Some (xs, s') -> sound s'.
Proof.
  induction os as [|o os IH]; intros s xs s' A D; cbn [does_all] in D; [apply some_inj in D; inversion D; subst; auto|].
  destruct (does bits s o) as [[x s1]|] eqn:E; [|discriminate]. cbn [snd fst] in D. destruct (does_all bits s1 os) as [[ys s2]|] eqn:E2; [|discriminate]. cbn [fst snd] in D. apply some_inj in D. inversion D. subst. eapply IH; [|eauto]. eapply sound_step; eauto.
Qed.
Lemma bits_own os xs s a b f r v : does_all bits nothing os = Some (xs, s) -> k_flts s a = Some f -> k_rdrs s b = Some (r, v) ->
  exists h h' w, run bits new_heap os = Some (xs, h) /\ filt_get_bv bits h a b = Some (bits f r w, h') /\ w <= v /\ (k_found s f r = None -> w = v).
Proof.
  intros D Ef Er. destruct (run_ok os _ _ _ _ new_agrees D) as (h & E & I & _). assert (S : sound s). { eapply sound_run; [|eauto]. split; [discriminate|]. split; discriminate. }
  destruct (inv_flt _ _ _ _ _ _ I Ef) as (g & Eg & Ig). destruct (inv_rdr _ _ _ _ _ _ _ I Er) as (q & Eq & Iq & Dq). destruct (bits_ok h _ _ _ a b g q I Eg Eq) as (h' & _ & _ & B). rewrite Ig, Iq, Dq in B.
  destruct (k_found s f r) as [y|] eqn:Ey; destruct B as (B & _).
  - destruct S as (S & _). destruct (S f r y Ey) as (_ & w & -> & K). exists h, h', w. split; auto. split; auto. split; [eauto|discriminate].
  - exists h, h', v. auto.
Qed.
Lemma cos_live os xs s : does_all bits nothing os = Some (xs, s) -> exists h, run bits new_heap os = Some (xs, h) /\
  (forall c o, cell (h_cos h) c = Some o -> exists f r v, k_flts s (c_ref1 o) = Some f /\ k_rdrs s (c_ref2 o) = Some (r, v) /\ k_found s f r = Some (c_obj o)) /\
  (forall c c' o o', cell (h_cos h) c = Some o -> cell (h_cos h) c' = Some o' -> c_ref1 o = c_ref1 o' -> c_ref2 o = c_ref2 o' -> c = c') /\
  (forall t T, cell (h_tabs h) t = Some T -> (exists a f, at_key a (h_flts h) = Some f /\ f_tab f = t /\ k_flts s a = Some (f_id f)) \/ (exists b r, at_key b (h_rdrs h) = Some r /\ r_cache r = Some t /\ k_rdrs s b = Some (r_id r, r_dels r))).
Proof.
  intros D. destruct (run_ok os _ _ _ _ new_agrees D) as (h & E & I & _). exists h. split; auto. split; [|split].
  - intros c o Eo. destruct (i_L3 _ _ _ _ I c o Eo) as (f & T & X1 & X2 & X3). destruct (i_L1 _ _ _ _ I _ _ _ _ _ X1 X2 X3) as (r & t2 & T2 & x & Y1 & Y2 & Y3 & Y4 & Y5 & Y6). exists (f_id f), (r_id r), (r_dels r). rewrite (i_F _ _ _ _ I), X1, (i_R _ _ _ _ I), Y1. cbn. split; auto. split; auto. rewrite Y6. rewrite Eo in Y5. apply some_inj in Y5. rewrite Y5. auto.
  - intros c c' o o' Eo Eo' R1 R2. destruct (i_L3 _ _ _ _ I c o Eo) as (f & T & X1 & X2 & X3). destruct (i_L3 _ _ _ _ I c' o' Eo') as (f' & T' & Y1 & Y2 & Y3). congruence.
  - intros t T ET. destruct (i_U _ _ _ _ I t T ET) as [(a & f & X1 & X2)|(b & r & X1 & X2)]; [left; exists a, f|right; exists b, r]; split; auto; split; auto; [rewrite (i_F _ _ _ _ I), X1|rewrite (i_R _ _ _ _ I), X1]; auto.
Qed.
Lemma no_leak os xs s : does_all bits nothing os = Some (xs, s) -> (forall a, k_flts s a = None) -> (forall b, k_rdrs s b = None) ->
  exists h, run bits new_heap os = Some (xs, h) /\ (forall t, cell (h_tabs h) t = None) /\ forall c, cell (h_cos h) c = None.
Proof.
  intros D NF NR. destruct (cos_live os xs s D) as (h & E & A & _ & B). exists h. split; auto. split.
  - intros t. destruct (cell (h_tabs h) t) as [T|] eqn:ET; auto. destruct (B t T ET) as [(a & f & _ & _ & X)|(b & r & _ & _ & X)]; [rewrite NF in X|rewrite NR in X]; discriminate.
  - intros c. destruct (cell (h_cos h) c) as [o|] eqn:Eo; auto. destruct (A c o Eo) as (f & r & v & X & _). rewrite NF in X. discriminate.
Qed.
Lemma upd_same {A} (m : nat -> option A) k x : upd m k x k = x.
Proof. unfold upd. destruct (Nat.eq_dec k k); congruence. Qed.
Lemma fresh_filter os xs s a b r v : does_all bits nothing os = Some (xs, s) -> k_flts s a = None -> k_rdrs s b = Some (r, v) -> exists h h', run bits new_heap os = Some (xs, h) /\ filt_get_bv bits (new_filter h a) a b = Some (bits (k_nf s) r v, h').
Proof.
  intros D Ef Er. destruct (run_ok os _ _ _ _ new_agrees D) as (h & E & I & N1 & N2). pose proof (new_filter_ok h _ _ _ a I Ef) as I'. destruct (inv_flt _ _ _ _ a (h_nf h) I') as (g & Eg & Ig); [apply upd_same|]. destruct (inv_rdr _ _ _ _ _ _ _ I' Er) as (q & Eq & Iq & Dq).
  destruct (bits_ok _ _ _ _ a b g q I' Eg Eq) as (h' & _ & _ & B). rewrite Ig, Iq, Dq, N1 in B. destruct (k_found s (k_nf s) r) as [y|] eqn:Ey; [apply (i_N3 _ _ _ _ I) in Ey; lia|]. exists h, h'. split; auto. apply B.
Qed.
Lemma fresh_reader os xs s a b f : does_all bits nothing os = Some (xs, s) -> k_rdrs s b = None -> k_flts s a = Some f -> exists h h', run bits new_heap os = Some (xs, h) /\ filt_get_bv bits (new_reader h b) a b = Some (bits f (k_nr s) 0, h').
Proof.
  intros D Er Ef. destruct (run_ok os _ _ _ _ new_agrees D) as (h & E & I & N1 & N2). pose proof (new_reader_ok h _ _ _ b I Er) as I'. destruct (inv_rdr _ _ _ _ b (h_nr h) 0 I') as (q & Eq & Iq & Dq); [apply upd_same|]. destruct (inv_flt _ _ _ _ _ _ I' Ef) as (g & Eg & Ig).
  destruct (bits_ok _ _ _ _ a b g q I' Eg Eq) as (h' & _ & _ & B). rewrite Ig, Iq, Dq, N2 in B. destruct (k_found s f (k_nr s)) as [y|] eqn:Ey; [apply (i_N3 _ _ _ _ I) in Ey; lia|]. exists h, h'. split; auto. apply B.
Qed.
End OPS.
